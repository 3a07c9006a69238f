(** Binary64: rounding errors through exponentials, logarithms, powers and tangents. *)
From Coq Require Import ZArith Reals QArith Qreals Lra Lia Bool Psatz.
From Flocq Require Import Core IEEE754.BinarySingleNaN.
From Verif.Num Require Import FOps RFun XRLemmas F64 F64Lemmas PIBounds Near.
From Verif.Spec Require Import Accurate.
From Verif.Proofs Require Import NearX NearL LlhF.
Local Open Scope R_scope.
(** [Q2R (Qmake k (10 ^ n))] as a fraction *)
Ltac qmk := rewrite q2r_make; repeat match goal with |- context [IZR (Zpos ?p)] => let v := eval vm_compute in p in progress change p with v end; lra.

(** ** A value computed from an argument that is itself off *)
Lemma near_four_rel (v : f64) G' G (r glo ghi : Q) : four_ulp v G' -> Rabs (G' - G) <= Q2R r * Rabs G -> 0 <= Q2R r -> Q2R glo <= G <= Q2R ghi ->
  near v G glo ghi (rup (ulp4 + (1 + ulp4) * r)) tiny.
Proof.
  intros [F1 F2] H R0 B. pose proof (rup_ge (ulp4 + (1 + ulp4) * r)) as R. rewrite Q2R_plus, Q2R_mult, Q2R_plus, q1, ulp4_val in R. pose proof tiny_1000 as T. pose proof (bpow_gt_0 radix2 (-1000)) as T0.
  assert (U : 0 < / 2 ^ 50) by (apply Rinv_0_lt_compat, pow_lt; lra). set (u := / 2 ^ 50) in *. pose proof (Rabs_pos G) as PG. set (q := Q2R r) in *.
  split; [exact F1|]. split; [exact B|]. assert (0 <= u * q) by (apply Rmult_le_pos; lra). split; [lra|]. split; [lra|].
  assert (GA : Rabs G' <= Rabs G + q * Rabs G) by (replace G' with (G + (G' - G)) by ring; eapply Rle_trans; [apply Rabs_triang|lra]).
  assert (UG : u * Rabs G' <= u * (Rabs G + q * Rabs G)) by (apply Rmult_le_compat_l; lra).
  assert (RG : (u + (1 + u) * q) * Rabs G <= Q2R (rup (ulp4 + (1 + ulp4) * r)) * Rabs G) by (apply Rmult_le_compat_r; lra).
  replace (B2R v - G) with (B2R v - G' + (G' - G)) by ring. eapply Rle_trans; [apply Rabs_triang|]. nra.
Qed.
Lemma near_four_abs (v : f64) G' G (s glo ghi : Q) : four_ulp v G' -> Rabs (G' - G) <= Q2R s -> Q2R glo <= G <= Q2R ghi ->
  near v G glo ghi ulp4 (rup ((1 + ulp4) * s + tiny)).
Proof.
  intros [F1 F2] H B. pose proof (rup_ge ((1 + ulp4) * s + tiny)) as R. rewrite Q2R_plus, Q2R_mult, Q2R_plus, q1, ulp4_val in R. pose proof tiny_1000 as T. pose proof (bpow_gt_0 radix2 (-1000)) as T0.
  assert (U : 0 < / 2 ^ 50) by (apply Rinv_0_lt_compat, pow_lt; lra). pose proof (Rabs_pos (G' - G)) as P0. rewrite <- ulp4_val in *. set (u := Q2R ulp4) in *. set (q := Q2R s) in *.
  split; [exact F1|]. split; [exact B|]. fold u. assert (0 <= u * q) by (apply Rmult_le_pos; lra). split; [lra|]. split; [lra|].
  assert (GA : Rabs G' <= Rabs G + q) by (replace G' with (G + (G' - G)) by ring; eapply Rle_trans; [apply Rabs_triang|lra]).
  assert (UG : u * Rabs G' <= u * (Rabs G + q)) by (apply Rmult_le_compat_l; lra).
  replace (B2R v - G) with (B2R v - G' + (G' - G)) by ring. eapply Rle_trans; [apply Rabs_triang|]. lra.
Qed.
(** Fused multiply and add. *)
Lemma f64_fma (x y z : f64) : is_finite x = true -> is_finite y = true -> is_finite z = true -> Rabs (B2R x * B2R y + B2R z) <= bpow radix2 1023 ->
  B2R (Bfma mode_NE x y z) = rnd (B2R x * B2R y + B2R z) /\ is_finite (Bfma mode_NE x y z) = true.
Proof.
  intros Hx Hy Hz H. pose proof (Bfma_correct 53 1024 _ _ mode_NE x y z Hx Hy Hz) as E. cbv zeta in E.
  change (round radix2 (SpecFloat.fexp 53 1024) (round_mode mode_NE)) with rnd in E.
  rewrite rnd_no_overflow in E by easy. destruct E as (E1 & E2 & _). now split.
Qed.
Definition ab (lo hi d e : Q) : Q := e + d * mag lo hi.
Definition fma_e (l1 h1 a1 l2 h2 a2 a3 : Q) : Q := a1 * (mag l2 h2 + a2) + a2 * mag l1 h1 + a3.
Lemma near_fma x y z X Y Z l1 h1 d1 e1 l2 h2 d2 e2 l3 h3 d3 e3 : near x X l1 h1 d1 e1 -> near y Y l2 h2 d2 e2 -> near z Z l3 h3 d3 e3 ->
  fits (mlo l1 h1 l2 h2 + l3) (mhi l1 h1 l2 h2 + h3) 0 (fma_e l1 h1 (ab l1 h1 d1 e1) l2 h2 (ab l2 h2 d2 e2) (ab l3 h3 d3 e3)) = true ->
  near (Bfma mode_NE x y z) (X * Y + Z) (rdn (mlo l1 h1 l2 h2 + l3)) (rup (mhi l1 h1 l2 h2 + h3)) (rd 0) (re (fma_e l1 h1 (ab l1 h1 d1 e1) l2 h2 (ab l2 h2 d2 e2) (ab l3 h3 d3 e3))).
Proof.
  intros H1 H2 H3 F. pose proof (near_err _ _ _ _ _ _ H1) as E1. pose proof (near_err _ _ _ _ _ _ H2) as E2. pose proof (near_err _ _ _ _ _ _ H3) as E3. fold (ab l1 h1 d1 e1) in E1. fold (ab l2 h2 d2 e2) in E2. fold (ab l3 h3 d3 e3) in E3.
  destruct H1 as (A1 & B1 & _). destruct H2 as (A2 & B2 & _). destruct H3 as (A3 & B3 & _). pose proof (mul_range _ _ _ _ _ _ B1 B2) as MR. pose proof (mag_ge _ _ _ B1) as M1. pose proof (mag_ge _ _ _ B2) as M2. pose proof (Rabs_pos X) as PX. pose proof (Rabs_pos Y) as PY.
  assert (V : Q2R (fma_e l1 h1 (ab l1 h1 d1 e1) l2 h2 (ab l2 h2 d2 e2) (ab l3 h3 d3 e3)) = Q2R (ab l1 h1 d1 e1) * (Q2R (mag l2 h2) + Q2R (ab l2 h2 d2 e2)) + Q2R (ab l2 h2 d2 e2) * Q2R (mag l1 h1) + Q2R (ab l3 h3 d3 e3)) by (unfold fma_e; rewrite !Q2R_plus, !Q2R_mult, !Q2R_plus; ring).
  set (a1 := Q2R (ab l1 h1 d1 e1)) in *. set (a2 := Q2R (ab l2 h2 d2 e2)) in *. set (a3 := Q2R (ab l3 h3 d3 e3)) in *.
  pose proof (Rabs_pos (B2R x - X)) as P1. pose proof (Rabs_pos (B2R y - Y)) as P2. pose proof (Rabs_pos (B2R z - Z)) as P3.
  assert (W : Rabs (B2R x * B2R y + B2R z - (X * Y + Z)) <= Q2R 0 * Rabs (X * Y + Z) + Q2R (fma_e l1 h1 (ab l1 h1 d1 e1) l2 h2 (ab l2 h2 d2 e2) (ab l3 h3 d3 e3))).
  { rewrite V, q0. replace (B2R x * B2R y + B2R z - (X * Y + Z)) with ((B2R x - X) * (Y + (B2R y - Y)) + X * (B2R y - Y) + (B2R z - Z)) by ring. eapply Rle_trans; [apply Rabs_triang|]. eapply Rle_trans; [apply Rplus_le_compat_r, Rabs_triang|]. rewrite !Rabs_mult.
    assert (K0 : Rabs (Y + (B2R y - Y)) <= Q2R (mag l2 h2) + a2) by (eapply Rle_trans; [apply Rabs_triang|lra]).
    assert (K1 : Rabs (B2R x - X) * Rabs (Y + (B2R y - Y)) <= a1 * (Q2R (mag l2 h2) + a2)) by (apply Rmult_le_compat; try lra; apply Rabs_pos).
    assert (K2 : Rabs X * Rabs (B2R y - Y) <= Q2R (mag l1 h1) * a2) by (apply Rmult_le_compat; lra). lra. }
  assert (R0 : Q2R (mlo l1 h1 l2 h2 + l3) <= X * Y + Z <= Q2R (mhi l1 h1 l2 h2 + h3)) by (rewrite !Q2R_plus; lra).
  assert (D0 : 0 <= Q2R 0) by (rewrite q0; lra). destruct (f64_fma x y z A1 A2 A3 (fits_ok _ _ _ _ _ _ F W D0 R0)) as [Q1 Q2]. apply (near_rnd _ (B2R x * B2R y + B2R z)); auto. rewrite V.
  assert (0 <= a1 * (Q2R (mag l2 h2) + a2)) by (apply Rmult_le_pos; lra). assert (0 <= a2 * Q2R (mag l1 h1)) by (apply Rmult_le_pos; lra). lra.
Qed.
(** A positive quantity to a relative error. *)
Lemma near_ratio x X lo hi d e (r : Q) : near x X lo hi d e -> Qle_bool tiny lo && Qle_bool (d + e / lo) r && Qle_bool r (Qmake 1 100) = true -> 0 < X /\ 0 <= Q2R r <= / 100 /\ exists t, Rabs t <= Q2R r /\ B2R x = X * (1 + t).
Proof.
  intros H C. apply andb_prop in C. destruct C as [C C3]. apply andb_prop in C. destruct C as [C1 C2]. apply qle in C2, C3. replace (Q2R (Qmake 1 100)) with (/ 100) in C3 by (unfold Q2R; cbn; lra).
  apply qle in C1. pose proof tiny_pos as T. assert (L : 0 < Q2R lo) by lra. rewrite Q2R_plus, Q2R_div in C2 by (now apply qpos_ne). destruct H as (_ & B & D & E & K). assert (X0 : 0 < X) by lra. split; [exact X0|].
  assert (E0 : 0 <= Q2R e / Q2R lo) by (apply Rmult_le_pos; [lra|left; now apply Rinv_0_lt_compat]). split; [lra|]. exists ((B2R x - X) / X). split; [|field; lra].
  unfold Rdiv. rewrite Rabs_mult, (Rabs_right (/ X)) by (apply Rle_ge; left; now apply Rinv_0_lt_compat). rewrite (Rabs_right X) in K by lra. apply (Rmult_le_reg_r X); [lra|]. rewrite Rmult_assoc, Rinv_l, Rmult_1_r by lra. eapply Rle_trans; [exact K|].
  assert (K1 : Q2R e <= Q2R e / Q2R lo * X). { unfold Rdiv. rewrite Rmult_assoc. rewrite <- (Rmult_1_r (Q2R e)) at 1. apply Rmult_le_compat_l; [lra|]. apply (Rmult_le_reg_l (Q2R lo)); [lra|]. rewrite <- Rmult_assoc, Rinv_r by lra. lra. }
  assert ((Q2R d + Q2R e / Q2R lo) * X <= Q2R r * X) by (apply Rmult_le_compat_r; lra). lra.
Qed.

Ltac nfma H1 H2 H3 H := pose proof (near_fma _ _ _ _ _ _ _ _ _ _ _ _ _ _ _ _ _ _ H1 H2 H3 ltac:(vm_compute; reflexivity)) as H; nnorm H.

(** ** Real-number bounds *)
Lemma ln_1p t : Rabs t <= / 100 -> Rabs (ln (1 + t)) <= 102 / 100 * Rabs t.
Proof.
  intros H. apply Rabs_le_inv in H. assert (P : forall t, -1 < t -> ln (1 + t) <= t). { intros s S. pose proof (exp_ineq1_le (ln (1 + s))) as E. rewrite exp_ln in E by lra. lra. }
  pose proof (P t ltac:(lra)) as U. assert (I : ln (1 + t) = - ln (1 + (- t / (1 + t)))). { replace (1 + - t / (1 + t)) with (/ (1 + t)) by (field; lra). rewrite ln_Rinv by lra. ring. }
  assert (V : t / (1 + t) <= ln (1 + t)). { rewrite I. assert (-1 < - t / (1 + t)). { apply (Rmult_lt_reg_r (1 + t)); [lra|]. replace (- t / (1 + t) * (1 + t)) with (- t) by (field; lra). lra. } pose proof (P _ H0). replace (- t / (1 + t)) with (- (t / (1 + t))) in * by (field; lra). lra. }
  destruct (Rle_or_lt 0 t) as [T|T].
  - rewrite (Rabs_right t) by lra. assert (0 <= t / (1 + t)) by (apply Rmult_le_pos; [lra|left; apply Rinv_0_lt_compat; lra]). apply Rabs_le. lra.
  - rewrite (Rabs_left t) by lra. assert (102 / 100 * t <= t / (1 + t)). { apply (Rmult_le_reg_r (1 + t)); [lra|]. replace (t / (1 + t) * (1 + t)) with t by (field; lra). nra. } apply Rabs_le. lra.
Qed.
Lemma exp_1m t : Rabs t <= / 100 -> Rabs (exp t - 1) <= 102 / 100 * Rabs t.
Proof.
  intros H. apply Rabs_le_inv in H. pose proof (exp_ineq1_le t) as U. pose proof (exp_ineq1_le (- t)) as V. rewrite exp_Ropp in V. pose proof (exp_pos t) as P.
  assert (W : exp t * (1 - t) <= 1). { apply (Rmult_le_compat_l (exp t)) in V; [|lra]. rewrite Rinv_r in V by lra. lra. }
  assert (Z : exp t - 1 <= t / (1 - t)). { apply (Rmult_le_reg_r (1 - t)); [lra|]. unfold Rdiv. rewrite Rmult_assoc, Rinv_l by lra. lra. }
  destruct (Rle_or_lt 0 t) as [T|T].
  - rewrite (Rabs_right t) by lra. assert (t / (1 - t) <= 102 / 100 * t). { apply (Rmult_le_reg_r (1 - t)); [lra|]. replace (t / (1 - t) * (1 - t)) with t by (field; lra). nra. } apply Rabs_le. lra.
  - rewrite (Rabs_left t) by lra. assert (t / (1 - t) <= 0). { replace (t / (1 - t)) with (- (- t / (1 - t))) by (field; lra). assert (0 <= - t / (1 - t)) by (apply Rmult_le_pos; [lra|left; apply Rinv_0_lt_compat; lra]). lra. } apply Rabs_le. lra.
Qed.
Lemma atan_scaled X t : 0 < X -> Rabs t <= / 100 -> Rabs (atan (X * (1 + t)) - atan X) <= 51 / 100 * Rabs t.
Proof.
  intros HX HT. assert (HT' := HT). apply Rabs_le_inv in HT'. set (f := fun s => atan (X * (1 + s))). set (f' := fun s => X / (1 + (X * (1 + s)) * (X * (1 + s)))).
  assert (D : forall s, derivable_pt_lim f s (f' s)).
  { intros s. unfold f, f'. replace (X / (1 + X * (1 + s) * (X * (1 + s)))) with (/ (1 + (X * (1 + s)) ^ 2) * X) by (unfold Rdiv; rewrite Rmult_comm; do 3 f_equal; ring).
    apply (derivable_pt_lim_comp (fun s => X * (1 + s)) atan); [|apply derivable_pt_lim_atan]. 
    pose proof (derivable_pt_lim_mult (fun _ => X) (fun s => 1 + s) s 0 (0 + 1) (derivable_pt_lim_const X s) (derivable_pt_lim_plus (fun _ => 1) (fun s => s) s 0 1 (derivable_pt_lim_const 1 s) (derivable_pt_lim_id s))) as K. cbv beta in K. replace (0 * (1 + s) + X * (0 + 1)) with X in K by ring. exact K. }
  assert (B : forall s, - / 100 <= s <= / 100 -> 0 <= f' s <= 51 / 100).
  { intros s S. unfold f'. assert (Y : 0 < X * (1 + s)) by (apply Rmult_lt_0_compat; lra). set (w := X * (1 + s)) in *. assert (W : 0 < 1 + w * w) by nra. split; [left; apply Rdiv_lt_0_compat; lra|].
    apply (Rmult_le_reg_r (1 + w * w)); [exact W|]. replace (X / (1 + w * w) * (1 + w * w)) with X by (field; lra). assert (X * (99 / 100) <= w) by (unfold w; apply Rmult_le_compat_l; lra). assert (2 * w <= 1 + w * w) by (pose proof (Rle_0_sqr (w - 1)) as SQ; unfold Rsqr in SQ; lra). lra. }
  replace (atan X) with (f 0) by (unfold f; f_equal; ring). change (atan (X * (1 + t))) with (f t). destruct (Rtotal_order t 0) as [L|[->|L]].
  - destruct (MVT_cor2 f f' t 0 L ltac:(intros; apply D)) as (c & E & C). assert (E' : f t - f 0 = f' c * t) by lra. rewrite E', Rabs_mult. apply Rmult_le_compat_r; [apply Rabs_pos|]. pose proof (B c ltac:(lra)). rewrite Rabs_right by lra. lra.
  - rewrite Rminus_diag_eq, Rabs_R0 by reflexivity. lra.
  - destruct (MVT_cor2 f f' 0 t L ltac:(intros; apply D)) as (c & E & C). rewrite E, Rabs_mult. rewrite (Rminus_0_r t). apply Rmult_le_compat_r; [apply Rabs_pos|]. pose proof (B c ltac:(lra)). rewrite Rabs_right by lra. lra.
Qed.
(** The tangent, away from 0 and from pi/2 by half a degree. *)
Lemma deg_bounds : 174532 / 10000000 < PI / 180 < 174533 / 10000000. Proof. pose proof PI_64_bounds. lra. Qed.
Lemma sin_low x : 0 < x <= / 50 -> x * (999 / 1000) <= sin x.
Proof.
  intros H. pose proof PI_64_bounds as P. destruct (SIN x) as [L _]; [lra|lra|]. unfold sin_lb, sin_approx, sin_term in L. cbn in L. assert (x * x <= / 2500) by nra.
  refine (Rle_trans _ _ _ _ L). assert (K : x * (x * x) <= x * / 2500) by (apply Rmult_le_compat_l; lra). assert (K5 : 0 <= x * x * x * x * x * (1 - x * x / 42)). { apply Rmult_le_pos; [repeat apply Rmult_le_pos; lra|lra]. } lra.
Qed.
Lemma tan_scaled x X : PI / 360 <= X <= PI / 2 - PI / 360 -> Rabs (x - X) <= / 10 ^ 6 -> Rabs (tan x - tan X) <= 116 * Rabs (x - X) * Rabs (tan X) /\ / 115 <= tan X <= 115.
Proof.
  intros H D. assert (D' := D). apply Rabs_le_inv in D'. pose proof deg_bounds as DB. pose proof PI_64_bounds as P. assert (X0 : 0 < sin X) by (apply sin_gt_0; lra). assert (C0 : 0 < cos X) by (apply cos_gt_0; lra). assert (c0 : 0 < cos x) by (apply cos_gt_0; lra).
  assert (SL : forall t, PI / 360 <= t <= PI / 2 -> 871 / 100000 <= sin t). { intros t T. apply Rle_trans with (sin (PI / 360)); [pose proof (sin_low (PI / 360) ltac:(lra)); lra|]. destruct (Req_dec t (PI / 360)) as [->|N]; [lra|]. left. apply sin_increasing_1; lra. }
  assert (S2 : forall t, PI / 180 - / 10 ^ 6 <= t <= PI - PI / 180 + / 10 ^ 6 -> 1743 / 100000 <= sin t). { intros t T. assert (K : forall s, PI / 180 - / 10 ^ 6 <= s <= PI / 2 -> 1743 / 100000 <= sin s). { intros s S. apply Rle_trans with (sin (PI / 180 - / 10 ^ 6)); [pose proof (sin_low (PI / 180 - / 10 ^ 6) ltac:(lra)); lra|]. destruct (Req_dec s (PI / 180 - / 10 ^ 6)) as [->|N]; [lra|]. left. apply sin_increasing_1; lra. }
    destruct (Rle_or_lt t (PI / 2)); [apply K; lra|]. rewrite <- sin_PI_x. apply K. lra. }
  split.
  - assert (E : tan x - tan X = sin (x - X) / (cos x * sin X) * tan X). { unfold tan. rewrite sin_minus. field. lra. } rewrite E, Rabs_mult. apply Rmult_le_compat_r; [apply Rabs_pos|]. unfold Rdiv. rewrite Rabs_mult.
    assert (PR : 867 / 100000 <= cos x * sin X). { assert (sin (X + x) + sin (X - x) = 2 * (cos x * sin X)) by (rewrite sin_plus, sin_minus; ring). pose proof (S2 (X + x) ltac:(lra)). assert (Rabs (sin (X - x)) <= / 10 ^ 6). { pose proof (sin_lip (X - x) 0) as SB. rewrite sin_0, !Rminus_0_r in SB. rewrite (Rabs_minus_sym X x) in SB. lra. } apply Rabs_le_inv in H2. lra. }
    rewrite (Rabs_right (/ (cos x * sin X))) by (apply Rle_ge; left; apply Rinv_0_lt_compat; lra). pose proof (sin_lip (x - X) 0) as SB. rewrite sin_0, !Rminus_0_r in SB.
    assert (IV : / (cos x * sin X) <= 116). { apply Rle_trans with (/ (867 / 100000)); [apply Rinv_le_contravar; lra|lra]. } rewrite Rmult_comm. apply Rmult_le_compat; [left; apply Rinv_0_lt_compat; lra|apply Rabs_pos|exact IV|exact SB].
  - pose proof (SL X ltac:(lra)) as S1. pose proof (SL (PI / 2 - X) ltac:(lra)) as S3. rewrite sin_shift in S3. pose proof (SIN_bound X). pose proof (COS_bound X). unfold tan. split.
    + apply (Rmult_le_reg_r (cos X)); [lra|]. unfold Rdiv. rewrite Rmult_assoc, Rinv_l by lra. lra.
    + apply (Rmult_le_reg_r (cos X)); [lra|]. unfold Rdiv. rewrite Rmult_assoc, Rinv_l by lra. lra.
Qed.

(** ** The functions *)
Section Funs.
Context (lm : libm) (AC : accurate lm).

Lemma near_tan_q x X lo hi d e : near x X lo hi d e -> PI / 360 <= X <= PI / 2 - PI / 360 -> Qle_bool (e + d * mag lo hi) (Qmake 1 (10 ^ 6)) = true ->
  near (lm_tan lm x) (tan X) (Qmake 1 115) 115 (rup (ulp4 + (1 + ulp4) * (116 * (e + d * mag lo hi)))) tiny.
Proof.
  intros H HX C. pose proof (near_err _ _ _ _ _ _ H) as E. apply qle in C. replace (Q2R (Qmake 1 (10 ^ 6))) with (/ 10 ^ 6) in C by (rewrite q2r_make; cbn; lra). destruct (tan_scaled (B2R x) X HX ltac:(lra)) as [T1 T2]. pose proof (Rabs_pos (B2R x - X)) as P0.
  apply (near_four_rel _ (tan (B2R x))).
  - apply (ac_tan lm AC); [apply H|]. rewrite (proj1 PI_2_64_val). pose proof PI_64_bounds as PB. unfold m_pi. pose proof deg_bounds. assert (E' : Rabs (B2R x - X) <= / 10 ^ 6) by lra. apply Rabs_le_inv in E'. apply Rabs_le. lra.
  - eapply Rle_trans; [exact T1|]. apply Rmult_le_compat_r; [apply Rabs_pos|]. rewrite Q2R_mult. replace (Q2R 116) with 116 by (unfold Q2R; cbn; lra). apply Rmult_le_compat_l; lra.
  - rewrite Q2R_mult. replace (Q2R 116) with 116 by (unfold Q2R; cbn; lra). lra.
  - replace (Q2R (Qmake 1 115)) with (/ 115) by (unfold Q2R; cbn; lra). replace (Q2R 115) with 115 by (unfold Q2R; cbn; lra). exact T2.
Qed.
Lemma near_ln x X lo hi d e (r glo ghi : Q) : near x X lo hi d e -> Qle_bool tiny lo && Qle_bool (d + e / lo) r && Qle_bool r (Qmake 1 100) = true -> Q2R glo <= ln X <= Q2R ghi ->
  near (lm_ln lm x) (ln X) glo ghi ulp4 (rup ((1 + ulp4) * (Qmake 102 100 * r) + tiny)).
Proof.
  intros H C G. destruct (near_ratio _ _ _ _ _ _ _ H C) as (X0 & R0 & t & T & V). assert (T' := T). apply Rabs_le_inv in T'.
  assert (LO : Q2R tiny <= X). { apply andb_prop in C. destruct C as [C _]. apply andb_prop in C. destruct C as [C _]. apply qle in C. destruct H as (_ & B & _). lra. }
  apply (near_four_abs _ (ln (B2R x))); [|rewrite V|exact G].
  - apply (ac_ln lm AC); [apply H|]. pose proof tiny_1000. pose proof (bpow_gt_0 radix2 (-1000)). rewrite V. nra.
  - rewrite ln_mult by lra. replace (ln X + ln (1 + t) - ln X) with (ln (1 + t)) by ring. eapply Rle_trans; [apply ln_1p; lra|]. rewrite Q2R_mult. replace (Q2R (Qmake 102 100)) with (102 / 100) by (unfold Q2R; cbn; lra). apply Rmult_le_compat_l; lra.
Qed.
Lemma near_exp x X lo hi d e (r glo ghi : Q) : near x X lo hi d e -> Qle_bool (e + d * mag lo hi) r && Qle_bool r (Qmake 1 100) && Qle_bool (mag lo hi) 299 = true -> Q2R glo <= exp X <= Q2R ghi ->
  near (lm_exp lm x) (exp X) glo ghi (rup (ulp4 + (1 + ulp4) * (Qmake 102 100 * r))) tiny.
Proof.
  intros H C G. apply andb_prop in C. destruct C as [C C3]. apply andb_prop in C. destruct C as [C1 C2]. apply qle in C1, C2, C3. replace (Q2R (Qmake 1 100)) with (/ 100) in C2 by (unfold Q2R; cbn; lra). replace (Q2R 299) with 299 in C3 by (unfold Q2R; cbn; lra).
  pose proof (near_err _ _ _ _ _ _ H) as E. destruct H as (F & B & _). pose proof (mag_ge _ _ _ B) as M. assert (E' : Rabs (B2R x - X) <= / 100) by lra. pose proof (Rabs_pos (B2R x - X)) as P0.
  apply (near_four_rel _ (exp (B2R x))); [| | |exact G].
  - apply (ac_exp lm AC); [exact F|]. apply Rabs_le_inv in E', M. assert (M' : - 299 <= X <= 299) by lra. apply Rabs_le. lra.
  - replace (B2R x) with (X + (B2R x - X)) at 1 by ring. rewrite exp_plus. replace (exp X * exp (B2R x - X) - exp X) with ((exp (B2R x - X) - 1) * exp X) by ring. rewrite Rabs_mult. apply Rmult_le_compat_r; [apply Rabs_pos|]. eapply Rle_trans; [apply exp_1m, E'|]. rewrite Q2R_mult. replace (Q2R (Qmake 102 100)) with (102 / 100) by (unfold Q2R; cbn; lra). apply Rmult_le_compat_l; lra.
  - rewrite Q2R_mult. replace (Q2R (Qmake 102 100)) with (102 / 100) by (unfold Q2R; cbn; lra). lra.
Qed.
Lemma near_atan_r x X lo hi d e (r : Q) : near x X lo hi d e -> Qle_bool tiny lo && Qle_bool (d + e / lo) r && Qle_bool r (Qmake 1 100) = true ->
  near (lm_atan lm x) (atan X) 0 (Qmake 158 100) ulp4 (rup ((1 + ulp4) * (Qmake 51 100 * r) + tiny)).
Proof.
  intros H C. destruct (near_ratio _ _ _ _ _ _ _ H C) as (X0 & R0 & t & T & V). apply (near_four_abs _ (atan (B2R x))); [apply (ac_atan lm AC); [apply H|exact I]|rewrite V|].
  - eapply Rle_trans; [apply atan_scaled; [exact X0|lra]|]. rewrite Q2R_mult. replace (Q2R (Qmake 51 100)) with (51 / 100) by (unfold Q2R; cbn; lra). apply Rmult_le_compat_l; lra.
  - pose proof (atan_bound X) as B. pose proof PI_64_bounds. pose proof (atan_increasing 0 X X0) as I0. rewrite atan_0 in I0. rewrite q0. replace (Q2R (Qmake 158 100)) with (158 / 100) by (unfold Q2R; cbn; lra). lra.
Qed.
(** Powers with a base between 1/2 and 2 and a small exponent. *)
Lemma ln_half X : / 2 <= X <= 2 -> Rabs (ln X) <= 3 / 4.
Proof.
  assert (K : forall Y, 0 < Y <= 2 -> ln Y <= 3 / 4).
  { intros Y YB. rewrite <- (ln_exp (3 / 4)). assert (2 < exp (3 / 4)); [|left; apply ln_increasing; lra]. pose proof (exp_ineq1_le (3 / 64)) as U. set (v := exp (3 / 64)) in *.
    assert (E1 : 1095 / 1000 <= exp (3 / 32)) by (replace (3 / 32) with (3 / 64 + 3 / 64) by lra; rewrite exp_plus; fold v; assert (67 / 64 * (67 / 64) <= v * v) by (apply Rmult_le_compat; lra); lra).
    assert (E2 : 1199 / 1000 <= exp (3 / 16)) by (replace (3 / 16) with (3 / 32 + 3 / 32) by lra; rewrite exp_plus; set (w := exp (3 / 32)) in *; assert (1095 / 1000 * (1095 / 1000) <= w * w) by (apply Rmult_le_compat; lra); lra).
    assert (E3 : 1437 / 1000 <= exp (3 / 8)) by (replace (3 / 8) with (3 / 16 + 3 / 16) by lra; rewrite exp_plus; set (w := exp (3 / 16)) in *; assert (1199 / 1000 * (1199 / 1000) <= w * w) by (apply Rmult_le_compat; lra); lra).
    replace (3 / 4) with (3 / 8 + 3 / 8) by lra; rewrite exp_plus; set (w := exp (3 / 8)) in *; assert (1437 / 1000 * (1437 / 1000) <= w * w) by (apply Rmult_le_compat; lra). lra. }
  intros H. apply Rabs_le. split; [|apply K; lra]. assert (/ X <= 2) by (apply Rle_trans with (/ / 2); [apply Rinv_le_contravar; lra|lra]). pose proof (K (/ X) ltac:(split; [apply Rinv_0_lt_compat; lra|lra])) as L. rewrite ln_Rinv in L by lra. lra.
Qed.
Lemma near_powf x X lo hi d e y Y l2 h2 d2 e2 (r glo ghi : Q) : near x X lo hi d e -> near y Y l2 h2 d2 e2 -> Qle_bool (Qmake 1 2) lo && Qle_bool hi 2 = true -> Qle_bool tiny lo && Qle_bool (d + e / lo) r && Qle_bool r (Qmake 1 100) = true ->
  Qle_bool (mag l2 h2) (Qmake 1 10) && Qle_bool (e2 + d2 * mag l2 h2) (Qmake 1 1000) = true -> Q2R glo <= Rpower X Y <= Q2R ghi ->
  near (lm_powf lm x y) (Rpower X Y) glo ghi (rup (ulp4 + (1 + ulp4) * (Qmake 102 100 * (Qmake 8 10 * (e2 + d2 * mag l2 h2) + Qmake 102 1000 * r)))) tiny.
Proof.
  intros H1 H2 C0 C1 C2 G. destruct (near_ratio _ _ _ _ _ _ _ H1 C1) as (X0 & R0 & t & T & V). assert (T' := T). apply Rabs_le_inv in T'. apply andb_prop in C0, C2. destruct C0 as [C0 C0'], C2 as [C2 C2']. apply qle in C0, C0', C2, C2'.
  replace (Q2R (Qmake 1 2)) with (/ 2) in C0 by (unfold Q2R; cbn; lra). replace (Q2R 2) with 2 in C0' by (unfold Q2R; cbn; lra). replace (Q2R (Qmake 1 10)) with (/ 10) in C2 by (unfold Q2R; cbn; lra). replace (Q2R (Qmake 1 1000)) with (/ 1000) in C2' by (unfold Q2R; cbn; lra).
  pose proof (near_err _ _ _ _ _ _ H2) as E2. set (w := Q2R (e2 + d2 * mag l2 h2)) in *. assert (XB : / 2 <= X <= 2) by (destruct H1 as (_ & B & _); lra). assert (YB : Rabs Y <= / 10) by (destruct H2 as (_ & B & _); pose proof (mag_ge _ _ _ B); lra).
  pose proof (ln_half X XB) as LX. pose proof (ln_1p t ltac:(lra)) as LT. set (lam := ln (1 + t)) in *. assert (LE : ln (B2R x) = ln X + lam) by (rewrite V; apply ln_mult; lra).
  pose proof (Rabs_pos t) as P1. pose proof (Rabs_pos (B2R y - Y)) as P2. pose proof (Rabs_pos lam) as P3. pose proof (Rabs_pos Y) as P4. pose proof (Rabs_pos (ln X)) as P5.
  assert (LB : Rabs (ln (B2R x)) <= 8 / 10) by (rewrite LE; eapply Rle_trans; [apply Rabs_triang|]; lra).
  assert (DE : Rabs (B2R y * ln (B2R x) - Y * ln X) <= 8 / 10 * w + 102 / 1000 * Q2R r).
  { replace (B2R y * ln (B2R x) - Y * ln X) with ((B2R y - Y) * ln (B2R x) + Y * lam) by (rewrite LE; ring). eapply Rle_trans; [apply Rabs_triang|]. rewrite !Rabs_mult.
    assert (Rabs (B2R y - Y) * Rabs (ln (B2R x)) <= w * (8 / 10)) by (apply Rmult_le_compat; try lra; apply Rabs_pos). assert (Rabs Y * Rabs lam <= / 10 * (102 / 100 * Q2R r)) by (apply Rmult_le_compat; lra). lra. }
  assert (W0 : 0 <= w) by lra.
  assert (QE : Q2R (Qmake 102 100 * (Qmake 8 10 * (e2 + d2 * mag l2 h2) + Qmake 102 1000 * r)) = 102 / 100 * (8 / 10 * w + 102 / 1000 * Q2R r)).
  { rewrite Q2R_mult, (Q2R_plus (Qmake 8 10 * (e2 + d2 * mag l2 h2))), (Q2R_mult (Qmake 8 10)), (Q2R_mult (Qmake 102 1000)). fold w. replace (Q2R (Qmake 102 100)) with (102 / 100) by (unfold Q2R; cbn; lra). replace (Q2R (Qmake 8 10)) with (8 / 10) by (unfold Q2R; cbn; lra). replace (Q2R (Qmake 102 1000)) with (102 / 1000) by (unfold Q2R; cbn; lra). reflexivity. }
  apply (near_four_rel _ (Rpower (B2R x) (B2R y))); [| | |exact G].
  - apply (ac_powf lm AC); [apply H1|apply H2|]. split; [rewrite V; apply Rmult_lt_0_compat; lra|]. rewrite Rabs_mult. assert (Rabs (B2R y) <= 1) by (replace (B2R y) with (Y + (B2R y - Y)) by ring; eapply Rle_trans; [apply Rabs_triang|]; lra). assert (Rabs (B2R y) * Rabs (ln (B2R x)) <= 1 * 1) by (apply Rmult_le_compat; try lra; apply Rabs_pos). lra.
  - unfold Rpower. replace (B2R y * ln (B2R x)) with (Y * ln X + (B2R y * ln (B2R x) - Y * ln X)) at 1 by ring. rewrite exp_plus. set (z := B2R y * ln (B2R x) - Y * ln X) in *. replace (exp (Y * ln X) * exp z - exp (Y * ln X)) with ((exp z - 1) * exp (Y * ln X)) by ring. rewrite Rabs_mult. apply Rmult_le_compat_r; [apply Rabs_pos|].
    eapply Rle_trans; [apply exp_1m; lra|]. rewrite QE. apply Rmult_le_compat_l; lra.
  - rewrite QE. lra.
Qed.
End Funs.
