(** Binary64: longitude differences, and what the cylindrical maps compute exactly. *)
From Coq Require Import ZArith Reals QArith Qreals Lra Lia Bool Psatz Ranalysis5 String.
From Coquelicot Require Import Coquelicot.
From Flocq Require Import Core IEEE754.BinarySingleNaN.
From Verif.Num Require Import FOps RFun XR XRLemmas F64 F64Lemmas PIBounds Near.
From Verif.Model Require Import Fp Quantities Cs Ellipsoid Projections.
From Verif.Spec Require Import Angles Axes Shape Maps Accurate Binary64 Maps64.
From Verif.Proofs Require Import AnglesX AnglesF EllX ProjX MercX MercInv NearX NearL LlhF LlhInvG TransB CtorF NearT.
Local Open Scope R_scope.

(** ** Exact *)
Definition xell (a b : R) : Ellipsoid XR := mkEllipsoid EmptyString (Fin a) (Fin b) (if Rlt_dec b a then Fin (a / (a - b)) else PInf).
Lemma xell_shape a b : 0 < b <= a -> shape (xell a b) a b.
Proof. intros H. split; [exact H|]. split; [reflexivity|]. split; [reflexivity|]. unfold xell. cbn. destruct (Rlt_dec b a); split; intros; try lra; reflexivity. Qed.

Lemma merc_north a b fn c : 0 < b <= a -> conformal_north a b fn c (fun p => fn + c * isom_e (the_e a b) p).
Proof.
  intros H. pose proof (xell_shape a b H) as S. set (k0 := c / a).
  destruct (merc_conformal (xell a b) a b S 0 0 k0 0 fn) as (x & z & north & M & N0 & V & D).
  assert (C : k0 * a = c) by (unfold k0; field; lra). rewrite C in *.
  assert (NE : forall p, nonpolar p -> north p = fn + c * isom_e (the_e a b) p).
  { intros p Hp. destruct (V 0 p 0 Hp) as (d & _ & E). rewrite (merc_proj_fin (xell a b) a b S) in E by exact Hp. rewrite C in E. unfold enh in E. injection E as _ E2. symmetry. exact E2. }
  split; [rewrite isom_e_0; ring|]. exists x, z. split; [exact M|]. intros p Hp. destruct (D p Hp) as (x' & z' & n' & X0 & D1 & D2 & D3 & Q). exists x', z', n'. split; [exact X0|]. split; [exact D1|]. split; [exact D2|]. split; [|exact Q].
  apply is_derive_Reals. apply is_derive_Reals in D3. refine (is_derive_ext_loc north _ p n' _ D3). unfold nonpolar in Hp.
  assert (P0 : 0 < Rmin (p + PI / 2) (PI / 2 - p)) by (apply Rmin_glb_lt; lra). exists (mkposreal _ P0). intros q Q0. cbn in Q0. apply NE. unfold nonpolar. unfold ball in Q0. cbn in Q0. unfold AbsRing_ball, abs, minus, plus, opp in Q0. cbn in Q0.
  apply Rabs_def2 in Q0. pose proof (Rmin_l (p + PI / 2) (PI / 2 - p)). pose proof (Rmin_r (p + PI / 2) (PI / 2 - p)). lra.
Qed.
Lemma web_north a fn : sphere_north a fn (fun p => fn + a * isom p).
Proof.
  split; [rewrite isom_0; ring|]. intros p Hp. apply is_derive_Reals. auto_derive.
  - exists (/ cos p). apply is_derive_Reals. now apply isom_deriv.
  - rewrite (is_derive_unique (fun x : R => isom x) _ (/ cos p)) by (apply is_derive_Reals; now apply isom_deriv). unfold Rdiv; ring.
Qed.
(** Every northing is that of a latitude. *)
Lemma isom_e_onto e Y : 0 <= e < 1 -> e * e <= / 50 -> exists p, nonpolar p /\ isom_e e p = Y.
Proof.
  intros He E2.
  assert (AT : forall p, nonpolar p -> Rabs (e * Ratanh (e * sin p)) < 1).
  { intros p Hp. pose proof (esin_bound e p He) as B. assert (e <= / 7). { destruct (Rle_or_lt e (/ 7)); [easy|exfalso]. nra. }
    assert (S : Rabs (e * sin p) <= / 7). { rewrite Rabs_mult, (Rabs_right e) by lra. assert (Rabs (sin p) <= 1) by (apply Rabs_le, SIN_bound). pose proof (Rabs_pos (sin p)). nra. }
    assert (L : Rabs (Ratanh (e * sin p)) <= 1). { set (t := e * sin p) in *. apply Rabs_le_inv in S. unfold Ratanh.
      assert (P : forall q, 0 < q <= 2 -> ln q <= 1). { intros q Q. rewrite <- (ln_exp 1). pose proof (exp_ineq1_le 1). destruct (Req_dec q (exp 1)) as [->|N]; [lra|]. left. apply ln_increasing; lra. }
      assert (Q1 : 0 < (1 + t) / (1 - t) <= 2). { split; [apply Rdiv_lt_0_compat; lra|]. apply (Rmult_le_reg_r (1 - t)); [lra|]. unfold Rdiv. rewrite Rmult_assoc, Rinv_l by lra. lra. }
      assert (Q2 : 0 < (1 - t) / (1 + t) <= 2). { split; [apply Rdiv_lt_0_compat; lra|]. apply (Rmult_le_reg_r (1 + t)); [lra|]. unfold Rdiv. rewrite Rmult_assoc, Rinv_l by lra. lra. }
      pose proof (P _ Q1). pose proof (P _ Q2) as P2. replace ((1 - t) / (1 + t)) with (/ ((1 + t) / (1 - t))) in P2 by (field; lra). rewrite ln_Rinv in P2 by lra. apply Rabs_le. lra. }
    rewrite Rabs_mult, (Rabs_right e) by lra. pose proof (Rabs_pos (Ratanh (e * sin p))). nra. }
  set (q1 := PI / 2 - 2 * atan (exp (- (Y - 1)))). set (q2 := PI / 2 - 2 * atan (exp (- (Y + 1)))).
  assert (N1 : nonpolar q1) by apply isom_lat_range. assert (N2 : nonpolar q2) by apply isom_lat_range.
  assert (I1 : isom q1 = Y - 1) by apply isom_of. assert (I2 : isom q2 = Y + 1) by apply isom_of.
  assert (L12 : q1 < q2). { unfold q1, q2. assert (exp (- (Y + 1)) < exp (- (Y - 1))) by (apply exp_increasing; lra). pose proof (atan_increasing _ _ H). lra. }
  assert (F1 : isom_e e q1 < Y). { unfold isom_e. pose proof (AT q1 N1) as A. apply Rabs_def2 in A. lra. }
  assert (F2 : Y < isom_e e q2). { unfold isom_e. pose proof (AT q2 N2) as A. apply Rabs_def2 in A. lra. }
  unfold nonpolar in N1, N2.
  destruct (IVT_interv (fun p => isom_e e p - Y) q1 q2) as (p & P1 & P2); [|exact L12|lra|lra|].
  - intros p Hp. apply continuity_pt_filterlim. apply (ex_derive_continuous (fun p => isom_e e p - Y) p). auto_derive. eexists. apply isom_e_deriv; [exact He|unfold nonpolar; lra].
  - exists p. split; [unfold nonpolar; lra|lra].
Qed.

(** ** Binary64 *)
Section F.
Context (lm : libm) (AC : accurate lm).
Local Notation O := (F64ops lm).

Lemma near_lon_sub (l m : f64) : is_finite l = true -> is_finite m = true -> Rabs (B2R l) <= 4 -> Rabs (B2R m) <= 4 ->
  exists k : Z, near (lon_sub (ops := O) l m) (B2R l - B2R m - IZR k * (2 * PI)) (-4) 4 0 (Qmake 6 (2 ^ 50)) /\ Rabs (B2R l - B2R m - IZR k * (2 * PI)) <= PI + 2 / 10 ^ 14.
Proof.
  intros Fl Fm Hl Hm. apply Rabs_le_inv in Hl, Hm. pose proof (near_exact l (-4) 4 Fl ltac:(split; unfold Q2R; cbn; lra)) as N1. pose proof (near_exact m (-4) 4 Fm ltac:(split; unfold Q2R; cbn; lra)) as N2. nsub N1 N2 N3.
  pose proof (near_err _ _ _ _ _ _ N3) as E. destruct N3 as (F3 & _). change (lon_sub (ops := O) l m) with (normalized (ops := O) (Bminus mode_NE l m)). revert F3 E. generalize (Bminus mode_NE l m). intros s F3 E.
  assert (E' : Rabs (B2R s - (B2R l - B2R m)) <= / 2 ^ 50 * (5 / 4)). { eapply Rle_trans; [exact E|]. replace (/ 2 ^ 50 * (5 / 4)) with (Q2R (Qmake 5 (2 ^ 52))); [apply qle; vm_compute; reflexivity|]. qmk. } clear E.
  assert (AS : Rabs (B2R s) <= 81 / 10) by (apply Rabs_le_inv in E'; apply Rabs_le; lra).
  destruct (near_wrap lm s (B2R l - B2R m) _ (81 / 10) F3 E' AS ltac:(lra)) as (k & W1 & W2 & W3). pose proof PI_64_bounds as PB. destruct PI64_val as [PV PF]. unfold m_pi in PV.
  assert (QE : Q2R (Qmake 6 (2 ^ 50)) = 6 / 2 ^ 50) by qmk. assert (Q4 : Q2R 4 = 4) by (unfold Q2R; cbn; lra). assert (Q5 : Q2R (-4) = -4) by (unfold Q2R; cbn; lra).
  destruct (norm_wrap lm s F3 ltac:(lra)) as [[NE _]|[NE1 NE2]].
  - exists k. rewrite NE. apply Rabs_le_inv in W3. unfold near. rewrite q0, QE, Q4, Q5. rewrite PV in W2. split; [split; [exact W1|]; split; [lra|]; split; [lra|]; split; [lra|]; apply Rabs_le; lra|apply Rabs_le; lra].
  - exists (k - 1)%Z. rewrite NE2, minus_IZR. rewrite NE1 in W3. apply Rabs_le_inv in W3. unfold near. rewrite q0, QE, Q4, Q5. rewrite PV in *. split; [split; [exact PF|]; split; [lra|]; split; [lra|]; split; [lra|]; apply Rabs_le; lra|apply Rabs_le; lra].
Qed.
Lemma near_pi4 : near PI_4_64 (PI / 4) (Qmake 78 100) (Qmake 79 100) 0 (Qmake 1 (2 ^ 54)).
Proof.
  assert (V : B2R PI_4_64 = B2R PI64 / 4 /\ is_finite PI_4_64 = true). { split; [|reflexivity]. unfold PI_4_64, PI64. cbn. unfold F2R. cbn. lra. }
  destruct V as [V F]. destruct PI64_val as [PV PF]. unfold m_pi in PV. pose proof PI_64_bounds as PB. split; [exact F|]. rewrite V, PV, q0, !q2r_make. replace (IZR (Zpos (2 ^ 54))) with (2 ^ 54) by (cbn; lra).
  split; [lra|]. split; [lra|]. split; [lra|]. apply Rabs_le. lra.
Qed.
Lemma near_pi4' : near (angle_new (ops := O) PI_4_64 (RAD (ops := O))) (PI / 4) (Qmake 78 100) (Qmake 79 100) 0 (Qmake 1 (2 ^ 54)).
Proof.
  assert (F : is_finite (angle_new (ops := O) PI_4_64 (RAD (ops := O))) = true) by (vm_compute; reflexivity). assert (Q : Beqb (angle_new (ops := O) PI_4_64 (RAD (ops := O))) PI_4_64 = true) by (vm_compute; reflexivity).
  destruct near_pi4 as (F4 & N4). rewrite (Beqb_correct 53 1024 _ _ F F4) in Q. apply Req_bool_true_iff in Q || (destruct (Req_bool_spec (B2R (angle_new (ops := O) PI_4_64 (RAD (ops := O)))) (B2R PI_4_64)) as [Q'|Q']; [clear Q; rename Q' into Q|discriminate Q]). split; [exact F|]. rewrite Q. exact N4.
Qed.
Lemma lat_new_in (x : f64) : is_finite x = true -> Rabs (B2R x) <= 157 / 100 -> lat_new (ops := O) x = x.
Proof.
  intros F B. destruct (lat_new_f64 lm x) as (_ & _ & L); [destruct x; try discriminate; reflexivity|]. apply L; [exact F|]. rewrite (proj1 PI_2_64_val). unfold m_pi. lra.
Qed.
(** Half the latitude, plus 45 degrees. *)
Lemma near_quarter (p : f64) : is_finite p = true -> Rabs (B2R p) <= 89 * PI / 180 ->
  near (lat_add (ops := O) (lat_div (ops := O) p (f64_ofZ 2)) (angle_new (ops := O) PI_4_64 (RAD (ops := O)))) (B2R p / 2 + PI / 4) 0 (Qmake 16 10) 0 (Qmake 33 (10 ^ 17)).
Proof.
  intros F B. pose proof PI_64_bounds as PB. apply Rabs_le_inv in B. pose proof (near_exact p (Qmake (-156) 100) (Qmake 156 100) F ltac:(split; unfold Q2R; cbn; lra)) as N0. nZ 2%Z Z2. ndiv N0 Z2 N1.
  assert (NP : near (angle_new (ops := O) PI_4_64 (RAD (ops := O))) (PI / 4) (Qmake 78 100) (Qmake 79 100) 0 (Qmake 1 (2 ^ 54))) by exact near_pi4'.
  revert NP. generalize (angle_new (ops := O) PI_4_64 (RAD (ops := O))). intros A NP. nadd N1 NP N4. pose proof (near_err _ _ _ _ _ _ N1) as E1. pose proof (near_err _ _ _ _ _ _ N4) as E4.
  assert (E1' : Rabs (B2R (Bdiv mode_NE p (f64_ofZ 2)) - B2R p / 2) <= / 1000) by (eapply Rle_trans; [exact E1|]; replace (/ 1000) with (Q2R (Qmake 1 1000)) by (unfold Q2R; cbn; lra); apply qle; vm_compute; reflexivity).
  assert (E4' : forall s : f64, Rabs (B2R s - (B2R p / 2 + PI / 4)) <= Q2R (Qmake 33 (10 ^ 17)) -> Rabs (B2R s - (B2R p / 2 + PI / 4)) <= / 1000) by (intros s Q; eapply Rle_trans; [exact Q|]; replace (/ 1000) with (Q2R (Qmake 1 1000)) by (unfold Q2R; cbn; lra); apply qle; vm_compute; reflexivity).
  unfold lat_add, lat_div. cbn [fadd fdiv F64ops].
  rewrite (lat_new_in (Bdiv mode_NE p (f64_ofZ 2))); [|exact (proj1 N1)|apply Rabs_le_inv in E1'; apply Rabs_le; lra].
  assert (E5 : Rabs (B2R (Bplus mode_NE (Bdiv mode_NE p (f64_ofZ 2)) A) - (B2R p / 2 + PI / 4)) <= Q2R (Qmake 33 (10 ^ 17))) by (eapply Rle_trans; [exact E4|]; apply qle; vm_compute; reflexivity).
  pose proof (proj1 N4) as F4. pose proof (E4' _ E5) as E6. revert F4 E5 E6. generalize (Bplus mode_NE (Bdiv mode_NE p (f64_ofZ 2)) A). intros s F4 E5 E6.
  rewrite lat_new_in; [|exact F4|apply Rabs_le_inv in E6; apply Rabs_le; lra]. split; [exact F4|]. rewrite q0. replace (Q2R (Qmake 16 10)) with (16 / 10) by (unfold Q2R; cbn; lra). split; [lra|]. split; [lra|]. split; [qmk|]. lra.
Qed.
End F.
