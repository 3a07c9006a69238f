(** Binary64: transverse Mercator back, from map coordinates to the sphere. *)
From Coq Require Import ZArith Reals QArith Qreals Lra Lia Bool Psatz List.
From Flocq Require Import Core IEEE754.BinarySingleNaN.
From Verif.Num Require Import FOps RFun XR XRLemmas F64 F64Lemmas PIBounds Near.
From Verif.Model Require Import Fp Quantities Cs Ellipsoid Geodesics Projections.
From Verif.Spec Require Import Angles Axes Shape Sphere Maps Series Krueger Reach Accurate Binary64 Maps64.
From Verif.Proofs Require Import AnglesX AnglesF AxesX EllX MathX ProjX MercX MercInv TMX TMInv TMConf TMScale TMRound TMBack TMTrip TMBackE NearX NearL LlhF LlhInvG TransB CtorF NearT MapF MercF MercG NearH TMNear TMFwd TMFwdM TMLoopF.
Import ListNotations.
Local Open Scope R_scope.

(** ** Real-number bounds *)
Lemma hs1_small n : 0 <= n <= / 190 -> Rabs (fst (fst (fst (hs n)))) <= / 380 /\ Rabs (fst (fst (fst (hps n)))) <= / 380.
Proof.
  intros N. assert (N2 : 0 <= n * n <= / 190 * n) by nra. assert (N3 : 0 <= n * n * n <= / 190 * (n * n)) by nra. assert (N4 : 0 <= n * n * (n * n) <= / 190 * (n * n * n)) by nra.
  unfold hs, hps, polynomial. cbn [Rsum length nth pow fst snd]. split; apply Rabs_le; lra || nra.
Qed.
Lemma series_small h x y : small4 h -> Rabs (fst (fst (fst h))) <= / 380 -> cosh (2 * y) <= 32 / 10 -> Rabs (sin_series h x y) <= 9 / 1000 /\ Rabs (cos_series h x y) <= 9 / 1000.
Proof.
  destruct h as [[[h1 h2] h3] h4]. cbn [fst]. intros (_ & M2 & M3 & M4) M1 K. destruct (cosh_many y K) as (K4 & K6 & K8).
  assert (AC : forall t, Rabs (cos t) <= 1) by (intros t; apply Rabs_le, COS_bound). assert (AS : forall t, Rabs (sin t) <= 1) by (intros t; apply Rabs_le, SIN_bound).
  assert (AK : forall t M, cosh t <= M -> Rabs (cosh t) <= M) by (intros t M L; rewrite Rabs_right; [exact L|apply Rle_ge; left; apply cosh_pos]).
  assert (AH : forall t M, cosh t <= M -> Rabs (sinh t) <= M) by (intros t M L; pose proof (sinh_cosh t); lra).
  unfold sin_series, cos_series. rewrite <- !Rmult_assoc. split.
  - pose proof (prod_le h1 (sin (2 * x)) (cosh (2 * y)) _ _ 1 M1 (AS _) (AK _ _ K) ltac:(lra)) as P1. pose proof (prod_le h2 (sin (4 * x)) (cosh (4 * y)) _ _ 1 M2 (AS _) (AK _ _ K4) ltac:(lra)) as P2.
    pose proof (prod_le h3 (sin (6 * x)) (cosh (6 * y)) _ _ 1 M3 (AS _) (AK _ _ K6) ltac:(lra)) as P3. pose proof (prod_le h4 (sin (8 * x)) (cosh (8 * y)) _ _ 1 M4 (AS _) (AK _ _ K8) ltac:(lra)) as P4.
    apply Rabs_le_inv in P1, P2, P3, P4. apply Rabs_le. lra.
  - pose proof (prod_le h1 (cos (2 * x)) (sinh (2 * y)) _ _ 1 M1 (AC _) (AH _ _ K) ltac:(lra)) as P1. pose proof (prod_le h2 (cos (4 * x)) (sinh (4 * y)) _ _ 1 M2 (AC _) (AH _ _ K4) ltac:(lra)) as P2.
    pose proof (prod_le h3 (cos (6 * x)) (sinh (6 * y)) _ _ 1 M3 (AC _) (AH _ _ K6) ltac:(lra)) as P3. pose proof (prod_le h4 (cos (8 * x)) (sinh (8 * y)) _ _ 1 M4 (AC _) (AH _ _ K8) ltac:(lra)) as P4.
    apply Rabs_le_inv in P1, P2, P3, P4. apply Rabs_le. lra.
Qed.
Lemma cosh_low2 t : 1 + t * t / 2 <= cosh t.
Proof.
  replace t with (2 * (t / 2)) at 3 by field. rewrite cosh_2x. pose proof (cosh_sq (t / 2)) as Q. assert (S : (t / 2) * (t / 2) <= sinh (t / 2) * sinh (t / 2)); [|nra].
  destruct (Rle_dec 0 t) as [P|P]; [pose proof (sinh_ge (t / 2) ltac:(lra)); nra|]. pose proof (sinh_ge (- (t / 2)) ltac:(lra)) as G. rewrite sinh_opp in G. nra.
Qed.
Lemma cosh_3 y : cosh (2 * y) <= 3 -> Rabs y <= 9 / 10.
Proof.
  intros H. apply Rnot_lt_le. intros L. assert (A : cosh (2 * (9 / 10)) <= cosh (2 * y)) by (apply cosh_abs; rewrite !Rabs_mult, (Rabs_right 2), (Rabs_right (9 / 10)) by lra; lra).
  rewrite cosh_2x in A. replace (9 / 10) with (2 * (9 / 20)) in A by field. rewrite cosh_2x in A. pose proof (cosh_low2 (9 / 20)) as G. set (c := cosh (9 / 20)) in *. assert (1 + 9 / 20 * (9 / 20) / 2 <= c) by lra. assert (1212 / 1000 <= c * c) by nra. nra.
Qed.
Lemma cosh_bit y u : cosh (2 * y) <= 3 -> Rabs u <= / 100 -> cosh (2 * (y + u)) <= 32 / 10.
Proof.
  intros H U. pose proof (cosh_shift (2 * y) u U) as A1. pose proof (cosh_shift (2 * y + u) u U) as A2. replace (2 * y + u + u) with (2 * (y + u)) in A2 by ring. apply Rabs_le_inv in A1, A2. pose proof (cosh_pos (2 * y)). pose proof (cosh_pos (2 * y + u)). pose proof (Rabs_pos u).
  assert (B1 : cosh (2 * y + u) <= 31 / 10) by nra. nra.
Qed.
Lemma rad_val (lm : libm) (x : f64) : is_finite x = true -> is_finite (angle_new (ops := F64ops lm) x (RAD (ops := F64ops lm))) = true /\ B2R (angle_new (ops := F64ops lm) x (RAD (ops := F64ops lm))) = B2R x.
Proof.
  intros F. unfold angle_new, per_unit, RAD. cbn [fst snd fmul fdiv F64ops fofZ].
  destruct (f64_Z 1 ltac:(vm_compute; discriminate)) as [F1 V1]. assert (F2 : is_finite (Bdiv mode_NE (f64_ofZ 1) (f64_ofZ 1)) = true) by (vm_compute; reflexivity). assert (N1 : Beqb (Bdiv mode_NE (f64_ofZ 1) (f64_ofZ 1)) (f64_ofZ 1) = true) by (vm_compute; reflexivity).
  rewrite (Beqb_correct 53 1024 _ _ F2 F1), V1 in N1. revert F2 N1. generalize (Bdiv mode_NE (f64_ofZ 1) (f64_ofZ 1)). intros u F2 N1. destruct (Req_bool_spec (B2R u) 1) as [V2|]; [|discriminate N1].
  pose proof (Bmult_correct 53 1024 _ _ mode_NE x u) as Q. rewrite V2, Rmult_1_r, (round_generic _ _ _ (B2R x) (generic_format_B2R 53 1024 x)) in Q.
  rewrite Rlt_bool_true in Q by apply (abs_B2R_lt_emax 53 1024). destruct Q as (Q1 & Q2 & _). rewrite F, F2 in Q2. split; [exact Q2|exact Q1].
Qed.
Lemma rad_near (lm : libm) x X lo hi d e : near x X lo hi d e -> near (angle_new (ops := F64ops lm) x (RAD (ops := F64ops lm))) X lo hi d e.
Proof. intros (F & H). destruct (rad_val lm x F) as [F' V]. split; [exact F'|]. rewrite V. exact H. Qed.

Section F.
Context (lm : libm) (AC : accurate lm).
Local Notation O := (F64ops lm).
Ltac fin_near H := apply near_abs in H; nnorm H.
Section E.
Context (E : Ellipsoid f64) (a b : R) (HE : earth64 E a b).
Let Bf := tm_B_of (ops := O) (e_a E) (en (ops := O) E).
Let h := tm_h_of (ops := O) (en (ops := O) E).
Let hp := tm_h_p_of (ops := O) (en (ops := O) E).
Let n := tn a b.
Let Hab : 0 < b <= a. Proof. destruct (e_range E a b HE) as [AB _]. lra. Qed.
Let Hf : 99 * a <= 100 * b. Proof. destruct HE as (_ & _ & _ & _ & _ & _ & H). exact H. Qed.
Let Hn : 0 <= n <= / 190. Proof. exact (tn_small _ a b (xell_shape a b Hab) Hf). Qed.
Lemma B_range : 6200000 <= tB a b <= 6420000.
Proof. destruct (near_B lm E a b HE) as (_ & H & _). replace (Q2R 6200000) with 6200000 in H by qr. replace (Q2R 6420000) with 6420000 in H by qr. exact H. Qed.
Lemma B_b : b <= tB a b.
Proof.
  unfold tB. fold n. unfold rectify. pose proof Hn as HN. pose proof Hab as AB. unfold polynomial. cbn [Rsum length nth pow].
  assert (A : a / (1 + n) = (a + b) / 2) by (unfold n, tn; field; lra). rewrite A. assert (0 <= n * n) by nra. assert (0 <= n * n * (n * n)) by nra. nra.
Qed.
Section M.
Context (lat0 k0 fe fn x y : f64) (LON0 LAT0 K0 FE FN X Y L B t : R) (VP : val64 lat0 LAT0) (Vk : val64 k0 K0) (Ve : val64 fe FE) (Vn : val64 fn FN) (Vx : val64 x X) (Vy : val64 y Y)
  (BP : Rabs LAT0 <= 84 * PI / 180) (Bk : 9 / 10 <= K0 <= 11 / 10) (Be : Rabs FE <= 100000000) (Bn : Rabs FN <= 100000000)
  (Hd : / 2 <= cos (L - LON0) * cos (L - LON0)) (Hc : 0 < cos (L - LON0)) (Ht : 0 <= t <= 1) (Ex : Rabs (X - ceast a b LON0 K0 FE L B) <= t) (Ey : Rabs (Y - cnorth a b LON0 LAT0 K0 FN L B) <= t).
Let z := zet a b LON0 L B.
Let v := kz (kr_direct n) z.
Let wx := norm_x a b LAT0 K0 FN Y.
Let wy := norm_y a b K0 FE X.
Let T := t / (K0 * tB a b).
Lemma KB_range : 5580000 <= K0 * tB a b <= 7062000. Proof. pose proof B_range. split; nra. Qed.
Lemma T_range : 0 <= T <= / 5580000.
Proof.
  pose proof KB_range as K. unfold T. split; [apply Rmult_le_pos; [lra|left; apply Rinv_0_lt_compat; lra]|]. apply (Rmult_le_reg_r (K0 * tB a b)); [lra|]. unfold Rdiv. rewrite Rmult_assoc, Rinv_l by lra. lra.
Qed.
Lemma w_near : Rabs (wx - fst v) <= T /\ Rabs (wy - snd v) <= T.
Proof.
  destruct (norm_there _ a b (xell_shape a b Hab) LON0 LAT0 K0 FE FN ltac:(lra) L B) as [N1 N2]. fold n z v in N1, N2. rewrite <- N1, <- N2. pose proof KB_range as K. unfold wx, wy, norm_x, norm_y, T.
  assert (P : 0 < / (K0 * tB a b)) by (apply Rinv_0_lt_compat; lra). unfold Rdiv. split.
  - rewrite <- Rmult_minus_distr_r. replace (Y - FN + K0 * tm0 a b LAT0 - (cnorth a b LON0 LAT0 K0 FN L B - FN + K0 * tm0 a b LAT0)) with (Y - cnorth a b LON0 LAT0 K0 FN L B) by ring. rewrite Rabs_mult, (Rabs_right (/ (K0 * tB a b))) by lra. apply Rmult_le_compat_r; [lra|exact Ey].
  - rewrite <- Rmult_minus_distr_r. replace (X - FE - (ceast a b LON0 K0 FE L B - FE)) with (X - ceast a b LON0 K0 FE L B) by ring. rewrite Rabs_mult, (Rabs_right (/ (K0 * tB a b))) by lra. apply Rmult_le_compat_r; [lra|exact Ex].
Qed.
Lemma v_range : Rabs (fst v) <= 1580 / 1000 /\ Rabs (snd v) <= 910 / 1000 /\ cosh (2 * snd v) <= 32 / 10 /\ cosh (2 * wy) <= 32 / 10.
Proof.
  assert (Z3 : cosh (2 * snd z) <= 3). { eapply Rle_trans; [apply (zet_width a b LON0 L B (/ 2)); [lra|exact Hc|exact Hd]|]. rewrite Rinv_inv. lra. }
  pose proof (cosh_3 _ Z3) as Z9. destruct (small_h n Hn) as [S _]. destruct (hs1_small n Hn) as [S1 _]. destruct (series_small (hs n) (fst z) (snd z) S S1 ltac:(lra)) as [A1 A2].
  assert (V1 : fst v = fst z + sin_series (hs n) (fst z) (snd z) /\ snd v = snd z + cos_series (hs n) (fst z) (snd z)) by (unfold v; rewrite (surjective_pairing z), kz_krueger, kr_hs, kr_direct_hs; split; reflexivity). destruct V1 as [V1 V2].
  assert (P : Rabs (fst z) <= 1571 / 1000). { unfold z, zet. cbn [fst]. unfold tx. pose proof (atan_bound (sinh (cq a b B) / cos (L - LON0))). pose proof PI_64_bounds. apply Rabs_le. lra. }
  destruct w_near as [_ W]. pose proof T_range as TR. pose proof (cosh_bit (snd z) (snd v - snd z) Z3 ltac:(rewrite V2; replace (snd z + cos_series (hs n) (fst z) (snd z) - snd z) with (cos_series (hs n) (fst z) (snd z)) by ring; lra)) as C1. replace (snd z + (snd v - snd z)) with (snd v) in C1 by ring.
  assert (U : Rabs (wy - snd z) <= / 100) by (apply Rabs_le; apply Rabs_le_inv in W, A2; rewrite V2 in W; lra). pose proof (cosh_bit (snd z) (wy - snd z) Z3 U) as C2. replace (snd z + (wy - snd z)) with wy in C2 by ring.
  split; [rewrite V1; apply Rabs_le; apply Rabs_le_inv in P, A1; lra|]. split; [rewrite V2; apply Rabs_le; apply Rabs_le_inv in Z9, A2; lra|]. split; assumption.
Qed.
Lemma w_range : Rabs wx <= 159 / 100 /\ Rabs wy <= 92 / 100.
Proof. destruct v_range as (A & B' & _). destruct w_near as [W1 W2]. pose proof T_range as TR. apply Rabs_le_inv in A, B', W1, W2. split; apply Rabs_le; lra. Qed.
Lemma XY_range : Rabs (X - FE) <= 6500000 /\ Rabs (Y - FN) <= 24000000.
Proof.
  destruct w_range as [W1 W2]. pose proof KB_range as K. pose proof B_range as BR. destruct (near_M0 lm AC E a b HE lat0 (proj1 VP) ltac:(rewrite (proj2 VP); exact BP)) as (_ & M & _). rewrite (proj2 VP) in M. replace (Q2R (-11000000)) with (-11000000) in M by qr. replace (Q2R 11000000) with 11000000 in M by qr.
  assert (X1 : X - FE = wy * (K0 * tB a b)) by (unfold wy, norm_y; field; lra). assert (Y1 : Y - FN = wx * (K0 * tB a b) - K0 * tm0 a b LAT0) by (unfold wx, norm_x; field; lra).
  assert (Rabs (wy * (K0 * tB a b)) <= 92 / 100 * 7062000) by (rewrite Rabs_mult, (Rabs_right (K0 * tB a b)) by lra; apply Rmult_le_compat; [apply Rabs_pos|lra|exact W2|lra]). assert (A2 : Rabs (wx * (K0 * tB a b)) <= 159 / 100 * 7062000) by (rewrite Rabs_mult, (Rabs_right (K0 * tB a b)) by lra; apply Rmult_le_compat; [apply Rabs_pos|lra|exact W1|lra]).
  assert (A3 : Rabs (K0 * tm0 a b LAT0) <= 11 / 10 * 11000000) by (rewrite Rabs_mult, (Rabs_right K0) by lra; apply Rmult_le_compat; [lra|apply Rabs_pos|lra|apply Rabs_le; lra]).
  split; [rewrite X1; lra|]. rewrite Y1. apply Rabs_le_inv in A2, A3. apply Rabs_le. lra.
Qed.
Let etaf := Bdiv mode_NE (Bminus mode_NE x fe) (Bmult mode_NE k0 Bf).
Let xif := Bdiv mode_NE (Bplus mode_NE (Bminus mode_NE y fn) (Bmult mode_NE k0 (tm_M0_of (ops := O) lat0 Bf (ecc (ops := O) E) h))) (Bmult mode_NE k0 Bf).
Lemma near_w : near etaf wy (Qmake (-92) 100) (Qmake 92 100) 0 (Qmake 1 (10 ^ 14)) /\ near xif wx (Qmake (-16) 10) (Qmake 16 10) 0 (Qmake 3 (10 ^ 14)).
Proof.
  destruct XY_range as [RX RY]. destruct w_range as [W1 W2]. destruct VP as [FP WP]. pose proof (near_M0 lm AC E a b HE lat0 FP ltac:(rewrite WP; exact BP)) as NM. rewrite WP in NM. fold Bf h in NM. pose proof (near_B lm E a b HE) as NB. fold Bf in NB. clear Ex Ey.
  unfold wx, wy, norm_x, norm_y in *. destruct Vk as [Fk Wk]. destruct Ve as [Fe We]. destruct Vn as [Fn Wn]. destruct Vx as [Fx Wx]. destruct Vy as [Fy Wy]. rewrite <- Wk, <- We, <- Wn, <- Wx, <- Wy in *. clear Wk We Wn Wx Wy.
  apply Rabs_le_inv in Be, Bn, RX, RY, W1, W2.
  pose proof (near_exact k0 (Qmake 9 10) (Qmake 11 10) Fk ltac:(split; qr)) as NK. pose proof (near_exact fe (-100000000) 100000000 Fe ltac:(split; qr)) as NE. pose proof (near_exact fn (-100000000) 100000000 Fn ltac:(split; qr)) as NF. pose proof (near_exact x (-107000000) 107000000 Fx ltac:(split; qr)) as NX. pose proof (near_exact y (-124000000) 124000000 Fy ltac:(split; qr)) as NY.
  nmul NK NB KB. nsub NX NE X1. apply (near_range _ _ _ _ _ _ (-6500000) 6500000) in X1; [|split; qr]. ndiv X1 KB X2. nsub NY NF Y1. apply (near_range _ _ _ _ _ _ (-24000000) 24000000) in Y1; [|split; qr]. nmul NK NM MM. nadd Y1 MM Y2. ndiv Y2 KB Y3. unfold etaf, xif. split.
  - apply (near_range _ _ _ _ _ _ (Qmake (-92) 100) (Qmake 92 100)) in X2; [|split; qr]. fin_near X2. refine (near_weak _ _ _ _ _ _ _ _ _ _ X2 (proj1 (proj2 X2)) _ _); vm_compute; reflexivity.
  - apply (near_range _ _ _ _ _ _ (Qmake (-16) 10) (Qmake 16 10)) in Y3; [|split; qr]. fin_near Y3. refine (near_weak _ _ _ _ _ _ _ _ _ _ Y3 (proj1 (proj2 Y3)) _ _); vm_compute; reflexivity.
Qed.
Let xi0 := Bminus mode_NE xif (tm_xi_sum (ops := O) hp xif etaf).
Let eta0 := Bminus mode_NE etaf (tm_eta_sum (ops := O) hp xif etaf).
Lemma near_z : near eta0 (wy - cos_series (hps n) wx wy) (Qmake (-94) 100) (Qmake 94 100) 0 (Qmake 4 (10 ^ 14)) /\ near xi0 (wx - sin_series (hps n) wx wy) (Qmake (-17) 10) (Qmake 17 10) 0 (Qmake 4 (10 ^ 14)).
Proof.
  destruct near_w as [N1 N2]. destruct v_range as (_ & _ & _ & CW). pose proof (near_hps lm E a b HE) as NH. fold hp n in NH.
  assert (M1 : near etaf wy (-1) 1 0 (Qmake 5 (10 ^ 14))) by (refine (near_weak _ _ _ _ _ _ _ _ _ _ N1 _ _ _); [refine (near_in_q _ _ _ _ _ (proj1 (proj2 N1)) _ _)| |]; vm_compute; reflexivity).
  assert (M2 : near xif wx (Qmake (-16) 10) (Qmake 16 10) 0 (Qmake 15 (10 ^ 14))) by (refine (near_weak _ _ _ _ _ _ _ _ _ _ N2 (proj1 (proj2 N2)) _ _); vm_compute; reflexivity).
  pose proof (near_eta_sum lm AC hp _ NH xif etaf wx wy M2 M1 CW) as A1. pose proof (near_xi_sum lm AC hp _ NH xif etaf wx wy M2 M1 CW) as A2. nsub N1 A1 UA. nsub N2 A2 UB. fin_near UA. fin_near UB. unfold eta0, xi0. split.
  - refine (near_weak _ _ _ _ _ _ _ _ _ _ UA _ _ _); [refine (near_in_q _ _ _ _ _ (proj1 (proj2 UA)) _ _)| |]; vm_compute; reflexivity.
  - refine (near_weak _ _ _ _ _ _ _ _ _ _ UB _ _ _); [refine (near_in_q _ _ _ _ _ (proj1 (proj2 UB)) _ _)| |]; vm_compute; reflexivity.
Qed.
End M.
End E.
End F.
