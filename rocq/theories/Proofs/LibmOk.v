(** A C library that rounds every result correctly meets [accurate]. *)
From Coq Require Import ZArith Reals Lra Lia Psatz.
From Flocq Require Import Core IEEE754.BinarySingleNaN.
From Verif.Num Require Import FOps RFun XRLemmas F64 F64Lemmas PIBounds.
From Verif.Spec Require Import Accurate.
From Verif.Proofs Require Import AnglesF.
Local Open Scope R_scope.

(** The binary64 number nearest to [x]. *)
Definition rnd64 (x : R) : f64 := f64_of (Ztrunc (scaled_mantissa radix2 fexp64 (rnd x))) (cexp radix2 fexp64 (rnd x)).

Lemma rnd64_val x : Rabs x <= bpow radix2 1023 -> is_finite (rnd64 x) = true /\ B2R (rnd64 x) = rnd x.
Proof.
  intros H. unfold rnd64, f64_of. set (m := Ztrunc _). set (e := cexp _ _ _).
  assert (G : generic_format radix2 fexp64 (rnd x)) by (apply generic_format_round; typeclasses eauto).
  assert (FE : F2R (Float radix2 m e) = rnd x) by (symmetry; exact G).
  pose proof (binary_normalize_correct 53 1024 (eq_refl _) (eq_refl _) mode_NE m e false) as C. cbv zeta in C. rewrite FE in C. change (SpecFloat.fexp 53 1024) with fexp64 in C. change (round_mode mode_NE) with ZnearestE in C. change (round radix2 fexp64 ZnearestE (rnd x)) with (rnd (rnd x)) in C. rewrite (rnd_id _ G) in C.
  rewrite Rlt_bool_true in C. { destruct C as (C1 & C2 & _). split; [exact C2|exact C1]. }
  apply Rle_lt_trans with (bpow radix2 1023); [apply rnd_abs_le_bpow; [lia|exact H]|apply bpow_lt; lia].
Qed.
Lemma rnd64_ok x : Rabs x <= bpow radix2 1023 -> four_ulp (rnd64 x) x.
Proof.
  intros H. destruct (rnd64_val x H) as [F V]. split; [exact F|]. rewrite V. eapply Rle_trans; [apply rnd_error|]. apply Rplus_le_compat.
  - apply Rmult_le_compat_r; [apply Rabs_pos|]. rewrite <- (Rinv_involutive (bpow radix2 (-53))) by (apply Rgt_not_eq, bpow_gt_0). rewrite <- bpow_opp. apply Rinv_le_contravar; [apply pow_lt; lra|]. change (- -53)%Z with 53%Z. replace (2 ^ 50) with (IZR (2 ^ 50)) by (rewrite pow_IZR; reflexivity). cbn. lra.
  - apply bpow_le. lia.
Qed.

Definition libm_ex : libm := {|
  lm_sin x := rnd64 (sin (B2R x)); lm_cos x := rnd64 (cos (B2R x)); lm_tan x := rnd64 (tan (B2R x));
  lm_asin x := rnd64 (asin (B2R x)); lm_atan x := rnd64 (atan (B2R x)); lm_atan2 y x := rnd64 (Ratan2 (B2R y) (B2R x));
  lm_hypot x y := rnd64 (Rhypot (B2R x) (B2R y)); lm_cbrt x := rnd64 (Rcbrt (B2R x)); lm_powf x y := rnd64 (Rpower (B2R x) (B2R y));
  lm_exp x := rnd64 (exp (B2R x)); lm_ln x := rnd64 (ln (B2R x));
  lm_sinh x := rnd64 (sinh (B2R x)); lm_cosh x := rnd64 (cosh (B2R x)); lm_tanh x := rnd64 (tanh (B2R x));
  lm_asinh x := rnd64 (arcsinh (B2R x)); lm_atanh x := rnd64 (Ratanh (B2R x)) |}.

(** What is at most 2^900 does not overflow. *)
Lemma big_ok x : Rabs x <= bpow radix2 900 -> four_ulp (rnd64 x) x.
Proof. intros H. apply rnd64_ok. eapply Rle_trans; [exact H|]. apply bpow_le. lia. Qed.
Lemma big_10 x : Rabs x <= 10 -> Rabs x <= bpow radix2 900.
Proof. intros H. eapply Rle_trans; [exact H|]. apply Rle_trans with (bpow radix2 4); [cbn; lra|apply bpow_le; lia]. Qed.
Lemma exp_bpow n : exp (INR n) <= bpow radix2 (2 * Z.of_nat n).
Proof.
  induction n as [|n IH]; [cbn; rewrite exp_0; lra|]. rewrite S_INR, exp_plus. replace (2 * Z.of_nat (S n))%Z with (2 * Z.of_nat n + 2)%Z by lia. rewrite bpow_plus. apply Rmult_le_compat; [left; apply exp_pos|left; apply exp_pos|exact IH|]. pose proof exp_le_3. cbn. lra.
Qed.
Lemma exp_big x : x <= 300 -> exp x <= bpow radix2 600.
Proof.
  intros H. apply Rle_trans with (exp (INR 300)).
  - assert (H' : x <= INR 300) by (rewrite INR_IZR_INZ; exact H). destruct (Rle_lt_or_eq_dec _ _ H') as [L| ->]; [left; now apply exp_increasing|lra].
  - exact (exp_bpow 300).
Qed.
Lemma exp_bound x : Rabs x <= 300 -> 0 < exp x <= bpow radix2 600 /\ 0 < exp (- x) <= bpow radix2 600.
Proof. intros H. apply Rabs_le_inv in H. split; (split; [apply exp_pos|apply exp_big; lra]). Qed.
Lemma pow_900 k : (k <= 900)%Z -> bpow radix2 k <= bpow radix2 900. Proof. apply bpow_le. Qed.
Lemma sin_half t : 0 < t <= 1 -> t / 2 <= sin t.
Proof.
  intros H. destruct (MVT_cor2 sin cos 0 t ltac:(lra) ltac:(intros; apply derivable_pt_lim_sin)) as (c & E & B). rewrite sin_0 in E. rewrite Rminus_0_r, Rminus_0_r in E. rewrite E.
  assert (/ 2 <= cos c). { replace (/ 2) with (1 / 2) by lra. rewrite <- cos_PI3. pose proof PI_64_bounds. apply Rlt_le. apply cos_decreasing_1; lra. }
  rewrite Rmult_comm. unfold Rdiv. apply Rmult_le_compat_l; lra.
Qed.
Lemma tan_bound x : Rabs x <= B2R PI_2_64 -> Rabs (tan x) <= 10 ^ 20.
Proof.
  intros H. rewrite (proj1 PI_2_64_val) in H. pose proof PI_64_bounds as B. unfold m_pi in H.
  assert (C : / 10 ^ 20 <= cos (Rabs x)).
  { rewrite <- sin_shift. pose proof (Rabs_pos x) as P. set (d := / 10 ^ 17).
    assert (D : 2 / 10 ^ 20 <= d <= 1) by (unfold d; lra). apply Rle_trans with (sin d); [pose proof (sin_half d ltac:(lra)); lra|]. apply sin_incr_1; unfold d in *; lra. }
  assert (C' : cos (Rabs x) = cos x) by (unfold Rabs; destruct (Rcase_abs x); [apply cos_neg|reflexivity]). rewrite C' in C.
  unfold tan, Rdiv. rewrite Rabs_mult. assert (S : Rabs (sin x) <= 1) by (apply Rabs_le; apply SIN_bound). assert (I : Rabs (/ cos x) <= 10 ^ 20). { rewrite Rabs_right by (apply Rle_ge; left; apply Rinv_0_lt_compat; lra). replace (10 ^ 20) with (/ / 10 ^ 20) by (field; lra). apply Rinv_le_contravar; lra. }
  pose proof (Rabs_pos (sin x)). pose proof (Rabs_pos (/ cos x)). apply Rle_trans with (1 * 10 ^ 20); [apply Rmult_le_compat; lra|lra].
Qed.
Lemma big_20 : 10 ^ 20 <= bpow radix2 900.
Proof. apply Rle_trans with (bpow radix2 70); [simpl bpow; lra|apply bpow_le; lia]. Qed.
Lemma cbrt_bound x : Rabs x <= bpow radix2 1024 -> Rabs (Rcbrt x) <= bpow radix2 900.
Proof.
  intros H. pose proof (Rcbrt_cube x) as C. set (c := Rcbrt x) in *. destruct (Rle_or_lt (Rabs c) (bpow radix2 900)) as [L|L]; [exact L|exfalso].
  assert (E : Rabs x = Rabs c * Rabs c * Rabs c) by (rewrite <- C, !Rabs_mult; reflexivity). pose proof (bpow_gt_0 radix2 900) as P.
  assert (bpow radix2 900 * bpow radix2 900 <= Rabs c * Rabs c) by (apply Rmult_le_compat; lra).
  assert (bpow radix2 900 * bpow radix2 900 * bpow radix2 900 <= Rabs c * Rabs c * Rabs c) by (apply Rmult_le_compat; try lra; apply Rmult_le_pos; lra).
  rewrite <- !bpow_plus in *. assert (bpow radix2 1024 < bpow radix2 (900 + 900 + 900)) by (apply bpow_lt; lia). lra.
Qed.
Lemma b2r_big (x : f64) : Rabs (B2R x) <= bpow radix2 1024. Proof. left. apply abs_B2R_lt_emax. Qed.
Lemma ln_bound x : bpow radix2 (-1000) <= x -> x <= bpow radix2 1024 -> Rabs (ln x) <= bpow radix2 900.
Proof.
  intros L U. pose proof (bpow_gt_0 radix2 (-1000)) as P. assert (K : forall y, 0 < y <= bpow radix2 1024 -> ln y <= 2000).
  { intros y [Y0 Y1]. rewrite bpow_exp in Y1. assert (L2 : ln (IZR radix2) <= 1). { rewrite <- (ln_exp 1). left. apply ln_increasing; [cbn; lra|]. pose proof (exp_ineq1 1 ltac:(lra)). cbn. lra. }
    apply Rle_trans with (1024 * ln (IZR radix2)); [|lra]. rewrite <- (ln_exp (1024 * _)). destruct (Rle_lt_or_eq_dec _ _ Y1) as [G|G]; [left; apply ln_increasing; lra|rewrite <- G; lra]. }
  apply Rle_trans with 2000; [|apply Rle_trans with (bpow radix2 20); [cbn; lra|apply bpow_le; lia]]. apply Rabs_le. split; [|apply K; lra].
  pose proof (K (/ x)) as J. rewrite ln_Rinv in J by lra. enough (- ln x <= 2000) by lra. apply J. split; [apply Rinv_0_lt_compat; lra|]. apply Rle_trans with (/ bpow radix2 (-1000)); [apply Rinv_le_contravar; lra|]. rewrite <- bpow_opp. apply bpow_le. lia.
Qed.
Lemma pi_4 : PI <= 4. Proof. exact PI_4. Qed.

Lemma arcsinh_abs x : Rabs (arcsinh x) <= Rabs x.
Proof.
  assert (P : forall y, 0 <= y -> y <= sinh y). { intros y Y. destruct (Rle_lt_or_eq_dec _ _ Y) as [L|L]; [|rewrite <- L, sinh_0; lra].
    destruct (MVT_cor2 sinh cosh 0 y L ltac:(intros; apply derivable_pt_lim_sinh)) as (c & E & B). rewrite sinh_0, Rminus_0_r, Rminus_0_r in E. rewrite E. assert (1 <= cosh c) by (unfold cosh; pose proof (exp_ineq1_le c); pose proof (exp_ineq1_le (- c)); lra). nra. }
  set (y := arcsinh x). assert (E : x = sinh y) by (symmetry; apply sinh_arcsinh). rewrite E. clearbody y. destruct (Rle_or_lt 0 y) as [Y|Y].
  - pose proof (P y Y). rewrite !Rabs_right by lra. exact H.
  - pose proof (P (- y) ltac:(lra)) as K. assert (N : sinh (- y) = - sinh y) by (unfold sinh; rewrite Ropp_involutive; lra). rewrite N in K. rewrite !Rabs_left by lra. exact K.
Qed.
Lemma atanh_bound x : Rabs x <= 1 - / 2 ^ 53 -> Rabs (Ratanh x) <= 10 ^ 20.
Proof.
  intros H. apply Rabs_le_inv in H. assert (U : 0 < / 2 ^ 53 <= 1) by lra. unfold Ratanh.
  assert (K : forall t, - (1 - / 2 ^ 53) <= t <= 1 - / 2 ^ 53 -> ln ((1 + t) / (1 - t)) <= 10 ^ 20).
  { intros t T. assert (Q : 0 < (1 + t) / (1 - t)) by (apply Rdiv_lt_0_compat; lra). eapply Rle_trans with ((1 + t) / (1 - t)).
    - pose proof (exp_ineq1_le (ln ((1 + t) / (1 - t)))) as E. rewrite exp_ln in E by exact Q. lra.
    - apply (Rmult_le_reg_r (1 - t)); [lra|]. unfold Rdiv. rewrite Rmult_assoc, Rinv_l by lra. apply Rle_trans with (10 ^ 20 * / 2 ^ 53); [lra|]. apply Rmult_le_compat_l; lra. }
  pose proof (K x H) as K1. pose proof (K (- x) ltac:(lra)) as K2. assert (E : ln ((1 + - x) / (1 - - x)) = - ln ((1 + x) / (1 - x))).
  { rewrite <- ln_Rinv by (apply Rdiv_lt_0_compat; lra). f_equal. field. lra. }
  rewrite E in K2. apply Rabs_le. lra.
Qed.

Lemma hypot_bound x y : Rabs x <= bpow radix2 500 -> Rabs y <= bpow radix2 500 -> Rabs (Rhypot x y) <= bpow radix2 900.
Proof.
  intros D1 D2. unfold Rhypot. rewrite Rabs_right by (apply Rle_ge, sqrt_pos). apply Rle_trans with (sqrt (bpow radix2 501 * bpow radix2 501)).
  - apply sqrt_le_1_alt. pose proof (bpow_gt_0 radix2 500) as P. replace (bpow radix2 501) with (bpow radix2 500 * 2) by (change 501%Z with (500 + 1)%Z; rewrite bpow_plus; cbn; ring). set (u := bpow radix2 500) in *. apply Rabs_le_inv in D1, D2. assert (forall v, - u <= v <= u -> v * v <= u * u) by (intros v V; nra). pose proof (H _ D1). pose proof (H _ D2). nra.
  - rewrite sqrt_square by (left; apply bpow_gt_0). apply bpow_le. lia.
Qed.

Lemma libm_ex_ok : accurate libm_ex.
Proof.
  pose proof pi_4 as P4. pose proof PI_RGT_0 as P0.
  constructor; cbn [lm_sin lm_cos lm_tan lm_asin lm_atan lm_atan2 lm_hypot lm_cbrt lm_powf lm_exp lm_ln lm_sinh lm_cosh lm_tanh lm_asinh lm_atanh libm_ex].
  1: intros x Fx D; apply big_ok, big_10, Rabs_le; pose proof (SIN_bound (B2R x)); lra.
  1: intros x Fx D; apply big_ok, big_10, Rabs_le; pose proof (COS_bound (B2R x)); lra.
  1: intros x Fx D; apply big_ok; pose proof (tan_bound _ D); pose proof big_20; lra.
  1: intros x Fx D; apply big_ok, big_10, Rabs_le; pose proof (asin_bound (B2R x)); lra.
  1: intros x Fx D; apply big_ok, big_10, Rabs_le; pose proof (atan_bound (B2R x)); lra.
  1: intros y x Fy Fx D; apply big_ok, big_10, Rabs_le; pose proof (Ratan2_bound (B2R y) (B2R x)); lra.
  1: intros x y Fx Fy [D1 D2]; apply big_ok; now apply hypot_bound.
  1: { intros x y Fx Fy D1 D2. destruct (rnd64_val (Rhypot (B2R x) (B2R y))) as [_ V]; [eapply Rle_trans; [now apply hypot_bound|apply bpow_le; lia]|]. rewrite V. apply round_ge_generic; [typeclasses eauto|typeclasses eauto|apply generic_format_0|apply sqrt_pos]. }
  1: intros x Fx D; apply big_ok, cbrt_bound, b2r_big.
  1: { intros x Fx D. apply big_ok. destruct (exp_bound _ D) as [[A B] _]. rewrite Rabs_right by lra. eapply Rle_trans; [exact B|apply bpow_le; lia]. }
  1: { intros x Fx D. apply big_ok. pose proof (b2r_big x) as B. apply Rabs_le_inv in B. apply ln_bound; lra. }
  1: { intros x Fx D. apply big_ok. destruct (exp_bound _ D) as [[A B] [A' B']]. apply Rle_trans with (bpow radix2 600); [unfold sinh; apply Rabs_le; lra|apply bpow_le; lia]. }
  1: { intros x Fx D. apply big_ok. destruct (exp_bound _ D) as [[A B] [A' B']]. apply Rle_trans with (bpow radix2 600); [unfold cosh; apply Rabs_le; lra|apply bpow_le; lia]. }
  1: { intros x Fx D. apply big_ok, big_10. unfold tanh, sinh, cosh. pose proof (exp_pos (B2R x)). pose proof (exp_pos (- B2R x)). set (u := exp (B2R x)) in *. set (v := exp (- B2R x)) in *. apply Rle_trans with 1; [|lra]. replace ((u - v) / 2 / ((u + v) / 2)) with ((u - v) / (u + v)) by (field; lra). apply Rabs_le. split; apply (Rmult_le_reg_r (u + v)); try lra; unfold Rdiv; rewrite ?Rmult_assoc, Rinv_l by lra; lra. }
  1: { intros x Fx D. apply big_ok. apply Rle_trans with (bpow radix2 500); [|apply bpow_le; lia]. eapply Rle_trans; [apply arcsinh_abs|exact D]. }
  1: { intros x Fx D. apply big_ok. eapply Rle_trans; [exact (atanh_bound _ D)|exact big_20]. }
  1: { intros x y Fx Fy [D0 D]. apply big_ok. unfold Rpower. destruct (exp_bound _ D) as [[A B] _]. rewrite Rabs_right by lra. eapply Rle_trans; [exact B|apply bpow_le; lia]. }
Qed.
