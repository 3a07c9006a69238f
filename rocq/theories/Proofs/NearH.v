(** The rounding calculus for hyperbolic functions, their inverses and the arc sine. *)
From Coq Require Import ZArith Reals QArith Qreals Lra Lia Bool Psatz List.
From Coquelicot Require Coquelicot.
From Flocq Require Import Core IEEE754.BinarySingleNaN.
From Verif.Num Require Import FOps RFun F64 F64Lemmas PIBounds Near.
From Verif.Spec Require Import Accurate Maps.
From Verif.Proofs Require Import AnglesF VincInv ProjX MercX TMX TMInv NearX NearL LlhF NearT.
Local Open Scope R_scope.
Ltac qr := unfold Q2R; cbn; lra.

(** Relative error and absolute error apart. *)
Lemma split_err x X u w : 0 <= u -> 0 <= w -> Rabs (x - X) <= u * Rabs X + w -> exists t, Rabs t <= u /\ Rabs (x - X * (1 + t)) <= w.
Proof.
  intros U W H. destruct (Req_dec X 0) as [->|N].
  - exists 0. rewrite Rabs_R0 in *. split; [exact U|]. rewrite Rmult_0_l. rewrite Rmult_0_r, Rplus_0_l in H. exact H.
  - assert (P : 0 < Rabs X) by now apply Rabs_pos_lt. destruct (Rle_or_lt (Rabs (x - X)) (u * Rabs X)) as [L|L].
    + exists ((x - X) / X). split.
      * unfold Rdiv. rewrite Rabs_mult, Rabs_inv. apply (Rmult_le_reg_r (Rabs X)); [exact P|]. rewrite Rmult_assoc, Rinv_l by lra. lra.
      * replace (x - X * (1 + (x - X) / X)) with 0 by (field; exact N). now rewrite Rabs_R0.
    + set (s := if Rlt_dec ((x - X) * X) 0 then -1 else 1). exists (s * u). assert (S1 : Rabs s = 1) by (unfold s; destruct Rlt_dec; [rewrite Rabs_left by lra|rewrite Rabs_right by lra]; lra). split.
      * rewrite Rabs_mult, S1, (Rabs_right u) by lra. lra.
      * assert (U2 : 0 <= u * Rabs X) by (apply Rmult_le_pos; lra). assert (E : Rabs (x - X * (1 + s * u)) = Rabs (x - X) - u * Rabs X); [|lra]. unfold s. replace (x - X * (1 + (if Rlt_dec ((x - X) * X) 0 then -1 else 1) * u)) with (x - X - (if Rlt_dec ((x - X) * X) 0 then -1 else 1) * (u * X)) by ring.
        destruct (Rlt_dec ((x - X) * X) 0) as [T|T].
        -- destruct (Rle_or_lt 0 X) as [XP|XP]; [rewrite (Rabs_right X) in * by lra; assert (x - X < 0) by (destruct (Rlt_or_le (x - X) 0); [assumption|pose proof (Rmult_le_pos (x - X) X); lra]); rewrite (Rabs_left (x - X)) in * by lra; rewrite Rabs_left by lra; lra|].
           rewrite (Rabs_left X) in * by lra. assert (0 < x - X) by (destruct (Rlt_or_le 0 (x - X)); [assumption|pose proof (Rmult_le_pos (- (x - X)) (- X)); lra]). rewrite (Rabs_right (x - X)) in * by lra. rewrite Rabs_right by lra. lra.
        -- destruct (Rle_or_lt 0 X) as [XP|XP]; [rewrite (Rabs_right X) in * by lra; assert (0 <= x - X) by (destruct (Rle_or_lt 0 (x - X)); [assumption|pose proof (Rmult_lt_0_compat (- (x - X)) X); lra]); rewrite (Rabs_right (x - X)) in * by lra; rewrite Rabs_right by lra; lra|].
           rewrite (Rabs_left X) in * by lra. assert (x - X <= 0) by (destruct (Rle_or_lt (x - X) 0); [assumption|pose proof (Rmult_lt_0_compat (x - X) (- X)); lra]). rewrite (Rabs_left1 (x - X)) in * by lra. rewrite Rabs_left1 by lra. lra.
Qed.
Lemma near_split x X lo hi d e : near x X lo hi d e -> exists t, Rabs t <= Q2R d /\ Rabs (B2R x - X * (1 + t)) <= Q2R e.
Proof. intros (_ & _ & D & E & H). apply split_err; [exact D|exact E|exact H]. Qed.

(** ** Real-number bounds *)
Lemma lip_gen (f f' : R -> R) K x y : (forall t, Rmin x y <= t <= Rmax x y -> derivable_pt_lim f t (f' t)) -> (forall t, Rmin x y <= t <= Rmax x y -> Rabs (f' t) <= K) -> Rabs (f y - f x) <= K * Rabs (y - x).
Proof.
  intros D B. destruct (Derive.MVT_gen f x y f') as (c & C & E).
  - intros t T. apply Derive.is_derive_Reals, D. lra.
  - intros t T. apply derivable_continuous_pt. exists (f' t). now apply D.
  - rewrite E, Rabs_mult. apply Rmult_le_compat_r; [apply Rabs_pos|]. now apply B.
Qed.
Lemma arcsinh_lip x y : Rabs (arcsinh y - arcsinh x) <= Rabs (y - x).
Proof.
  rewrite <- (Rmult_1_l (Rabs (y - x))). apply (lip_gen arcsinh (fun t => / sqrt (t ^ 2 + 1))); [intros; apply derivable_pt_lim_arcsinh|]. intros t _.
  assert (S1 : 1 <= sqrt (t ^ 2 + 1)). { apply Rle_trans with (sqrt 1); [rewrite sqrt_1; lra|]. apply sqrt_le_1_alt. pose proof (Rle_0_sqr t) as Q. unfold Rsqr in Q. lra. }
  rewrite Rabs_right by (apply Rle_ge; left; apply Rinv_0_lt_compat; lra). apply Rle_trans with (/ 1); [apply Rinv_le_contravar; lra|lra].
Qed.
Lemma arcsinh_scaled X t : Rabs t <= / 100 -> Rabs (arcsinh (X * (1 + t)) - arcsinh X) <= 102 / 100 * Rabs t.
Proof.
  intros H. assert (H' := H). apply Rabs_le_inv in H'. set (f := fun s => arcsinh (X * (1 + s))). set (f' := fun s => / sqrt ((X * (1 + s)) ^ 2 + 1) * X).
  replace (arcsinh X) with (f 0) by (unfold f; f_equal; ring). change (arcsinh (X * (1 + t))) with (f t). rewrite <- (Rminus_0_r t) at 2. apply (lip_gen f f').
  - intros s _. unfold f, f'. apply (derivable_pt_lim_comp (fun s => X * (1 + s)) arcsinh); [|apply derivable_pt_lim_arcsinh].
    pose proof (derivable_pt_lim_mult (fun _ => X) (fun s => 1 + s) s 0 (0 + 1) (derivable_pt_lim_const X s) (derivable_pt_lim_plus (fun _ => 1) (fun s => s) s 0 1 (derivable_pt_lim_const 1 s) (derivable_pt_lim_id s))) as K. cbv beta in K. replace (0 * (1 + s) + X * (0 + 1)) with X in K by ring. exact K.
  - intros s S. assert (SB : - / 100 <= s <= / 100) by (unfold Rmin, Rmax in S; destruct (Rle_dec 0 t); lra). unfold f'. set (w := X * (1 + s)).
    assert (W1 : Rabs w <= sqrt (w ^ 2 + 1)). { rewrite <- sqrt_Rsqr_abs. apply sqrt_le_1_alt. unfold Rsqr. replace (w ^ 2) with (w * w) by ring. lra. } assert (W2 : 0 < sqrt (w ^ 2 + 1)) by (apply sqrt_lt_R0; pose proof (Rle_0_sqr w) as Q; unfold Rsqr in Q; replace (w ^ 2) with (w * w) by ring; lra).
    assert (W3 : 99 / 100 * Rabs X <= Rabs w). { unfold w. rewrite Rabs_mult, (Rabs_right (1 + s)) by lra. rewrite Rmult_comm. apply Rmult_le_compat_l; [apply Rabs_pos|lra]. }
    rewrite Rabs_mult, Rabs_inv, (Rabs_right (sqrt _)) by lra. apply (Rmult_le_reg_l (sqrt (w ^ 2 + 1))); [exact W2|]. rewrite <- Rmult_assoc, Rinv_r, Rmult_1_l by lra. lra.
Qed.
Lemma atan_rel X t : Rabs t <= / 100 -> Rabs (atan (X * (1 + t)) - atan X) <= 51 / 100 * Rabs t.
Proof.
  intros H. destruct (Rtotal_order X 0) as [L|[->|L]].
  - replace (X * (1 + t)) with (- (- X * (1 + t))) by ring. rewrite atan_opp. replace (atan X) with (- atan (- X)) by (rewrite atan_opp; ring). rewrite <- Rabs_Ropp. replace (- (- atan (- X * (1 + t)) - - atan (- X))) with (atan (- X * (1 + t)) - atan (- X)) by ring. apply atan_scaled; [lra|exact H].
  - rewrite Rmult_0_l, Rminus_diag_eq, Rabs_R0 by reflexivity. pose proof (Rabs_pos t). lra.
  - now apply atan_scaled.
Qed.
Lemma sinh_add x y : sinh (x + y) = sinh x * cosh y + cosh x * sinh y.
Proof. unfold sinh, cosh. rewrite Ropp_plus_distr, !exp_plus. field. Qed.
Lemma cosh_add x y : cosh (x + y) = cosh x * cosh y + sinh x * sinh y.
Proof. unfold sinh, cosh. rewrite Ropp_plus_distr, !exp_plus. field. Qed.
Lemma sinh_le_cosh x : Rabs (sinh x) <= cosh x.
Proof. unfold sinh, cosh. pose proof (exp_pos x). pose proof (exp_pos (- x)). apply Rabs_le. lra. Qed.
Lemma exp_step t : Rabs t <= / 100 -> Rabs (cosh t - 1) + Rabs (sinh t) <= 102 / 100 * Rabs t.
Proof.
  assert (K : forall t, 0 <= t <= / 100 -> Rabs (cosh t - 1) + Rabs (sinh t) <= 102 / 100 * t).
  { intros s S. pose proof (cosh_ge_1 s). pose proof (exp_1m s ltac:(rewrite Rabs_right; lra)) as E1. rewrite (Rabs_right s) in E1 by lra. assert (0 <= sinh s). { unfold sinh. assert (exp (- s) <= exp s); [|lra]. destruct S as [[S|S] _]; [left; apply exp_increasing; lra|rewrite <- S, Ropp_0; lra]. }
    rewrite (Rabs_right (cosh s - 1)), (Rabs_right (sinh s)) by lra. apply Rabs_le_inv in E1. unfold cosh, sinh in *. lra. }
  intros H. destruct (Rle_or_lt 0 t) as [T|T].
  - rewrite (Rabs_right t) in * by lra. apply K. lra.
  - rewrite (Rabs_left t) in * by lra. pose proof (K (- t) ltac:(lra)) as L. assert (E1 : cosh (- t) = cosh t) by (unfold cosh; rewrite Ropp_involutive; field). assert (E2 : sinh (- t) = - sinh t) by (unfold sinh; rewrite Ropp_involutive; field). rewrite E1, E2, Rabs_Ropp in L. exact L.
Qed.
Lemma cosh_shift x t : Rabs t <= / 100 -> Rabs (cosh (x + t) - cosh x) <= 102 / 100 * Rabs t * cosh x.
Proof.
  intros H. pose proof (exp_step t H) as E. rewrite cosh_add. replace (cosh x * cosh t + sinh x * sinh t - cosh x) with (cosh x * (cosh t - 1) + sinh x * sinh t) by ring. eapply Rle_trans; [apply Rabs_triang|]. rewrite !Rabs_mult. pose proof (sinh_le_cosh x). pose proof (cosh_ge_1 x). rewrite (Rabs_right (cosh x)) by lra.
  assert (Rabs (sinh x) * Rabs (sinh t) <= cosh x * Rabs (sinh t)) by (apply Rmult_le_compat_r; [apply Rabs_pos|assumption]). assert (cosh x * (Rabs (cosh t - 1) + Rabs (sinh t)) <= cosh x * (102 / 100 * Rabs t)) by (apply Rmult_le_compat_l; lra). lra.
Qed.
Lemma sinh_shift x t : Rabs t <= / 100 -> Rabs (sinh (x + t) - sinh x) <= 102 / 100 * Rabs t * cosh x.
Proof.
  intros H. pose proof (exp_step t H) as E. rewrite sinh_add. replace (sinh x * cosh t + cosh x * sinh t - sinh x) with (sinh x * (cosh t - 1) + cosh x * sinh t) by ring. eapply Rle_trans; [apply Rabs_triang|]. rewrite !Rabs_mult. pose proof (sinh_le_cosh x). pose proof (cosh_ge_1 x). rewrite (Rabs_right (cosh x)) by lra.
  assert (Rabs (sinh x) * Rabs (cosh t - 1) <= cosh x * Rabs (cosh t - 1)) by (apply Rmult_le_compat_r; [apply Rabs_pos|assumption]). assert (cosh x * (Rabs (cosh t - 1) + Rabs (sinh t)) <= cosh x * (102 / 100 * Rabs t)) by (apply Rmult_le_compat_l; lra). lra.
Qed.
Lemma Ratanh_lip x y m : 0 < m < 1 -> Rabs x <= m -> Rabs y <= m -> Rabs (Ratanh y - Ratanh x) <= / (1 - m * m) * Rabs (y - x).
Proof.
  intros M X Y. apply Rabs_le_inv in X, Y. assert (B : forall t, Rmin x y <= t <= Rmax x y -> - m <= t <= m) by (intros t T; unfold Rmin, Rmax in T; destruct (Rle_dec x y); lra).
  apply (lip_gen Ratanh (fun t => / (1 - t * t))); intros t T; specialize (B t T).
  - apply Derive.is_derive_Reals, Ratanh_deriv. lra.
  - assert (t * t <= m * m) by nra. assert (m * m < 1) by nra. rewrite Rabs_right by (apply Rle_ge; left; apply Rinv_0_lt_compat; lra). apply Rinv_le_contravar; lra.
Qed.
Lemma asin_lip x y m K : 0 < m < 1 -> 0 < K -> 1 <= K * K * (1 - m * m) -> Rabs x <= m -> Rabs y <= m -> Rabs (asin y - asin x) <= K * Rabs (y - x).
Proof.
  intros M K0 HK X Y. apply Rabs_le_inv in X, Y. assert (B : forall t, Rmin x y <= t <= Rmax x y -> - m <= t <= m) by (intros t T; unfold Rmin, Rmax in T; destruct (Rle_dec x y); lra).
  apply (lip_gen asin (fun t => 1 / sqrt (1 - t * t))); intros t T; specialize (B t T).
  - assert (T1 : -1 < t < 1) by lra. pose proof (derive_pt_asin t T1) as D. unfold Rsqr in D. apply (derive_pt_eq_1 _ _ _ (derivable_pt_asin t T1)). exact D.
  - assert (t * t <= m * m) by nra. assert (M2 : m * m < 1) by nra. assert (S0 : 0 < sqrt (1 - t * t)) by (apply sqrt_lt_R0; lra). rewrite Rabs_right by (apply Rle_ge; left; apply Rdiv_lt_0_compat; lra).
    assert (S1 : / K <= sqrt (1 - t * t)). { assert (IK : 0 < / K) by (now apply Rinv_0_lt_compat). rewrite <- (sqrt_square (/ K)) by lra. apply sqrt_le_1_alt. apply Rle_trans with (1 - m * m); [|lra]. rewrite <- Rinv_mult. apply (Rmult_le_reg_l (K * K)); [nra|]. rewrite Rinv_r by nra. exact HK. }
    unfold Rdiv. rewrite Rmult_1_l. rewrite <- (Rinv_inv K). apply Rinv_le_contravar; [now apply Rinv_0_lt_compat|exact S1].
Qed.

Lemma asin_local w w' c : 0 < c -> w * w + c * c = 1 -> Rabs (w' - w) <= c * c / 1000 -> Rabs (asin w' - asin w) <= 1002 / 1000 / c * Rabs (w' - w).
Proof.
  intros C0 C1 D. set (m := Rabs w + c * c / 1000). pose proof (Rabs_pos w) as W0. assert (WW : Rabs w * Rabs w = w * w) by (rewrite <- Rabs_mult; apply Rabs_right; nra). assert (C2 : 0 < c * c <= 1) by nra. assert (W1 : Rabs w <= 1) by nra.
  assert (MM : m * m <= w * w + 2001 / 1000000 * (c * c)). { unfold m. assert (Rabs w * (c * c) <= c * c) by nra. assert (c * c * (c * c) <= c * c) by nra. nra. } assert (M0 : 0 < m) by (unfold m; nra). assert (M1 : m < 1) by nra.
  apply (asin_lip w w' m); [lra|apply Rdiv_lt_0_compat; lra| |unfold m; lra|]. 2: { unfold m. replace w' with (w + (w' - w)) by ring. eapply Rle_trans; [apply Rabs_triang|]. lra. }
  replace (1002 / 1000 / c * (1002 / 1000 / c) * (1 - m * m)) with (1004004 / 1000000 * ((1 - m * m) / (c * c))) by (field; lra). assert (997999 / 1000000 <= (1 - m * m) / (c * c)) by (apply (Rmult_le_reg_r (c * c)); [lra|]; unfold Rdiv at 2; rewrite Rmult_assoc, Rinv_l by lra; lra). lra.
Qed.

Lemma sin_step x t : Rabs (sin (x + t) - sin x) <= Rabs (cos x) * Rabs t + t * t / 2.
Proof.
  rewrite sin_plus. replace (sin x * cos t + cos x * sin t - sin x) with (cos x * sin t + sin x * (cos t - 1)) by ring. eapply Rle_trans; [apply Rabs_triang|]. rewrite !Rabs_mult.
  assert (L : forall z, Rabs (sin z) <= Rabs z) by (intros z; pose proof (VincInv.sin_lip z 0) as Q; rewrite sin_0, !Rminus_0_r in Q; exact Q). pose proof (L t) as L1. pose proof (L (t / 2)) as L2. assert (C : Rabs (cos t - 1) <= t * t / 2). { replace t with (2 * (t / 2)) at 1 by field. rewrite cos_2a_sin. replace (1 - 2 * sin (t / 2) * sin (t / 2) - 1) with (- (2 * (sin (t / 2) * sin (t / 2)))) by ring. rewrite Rabs_Ropp, Rabs_mult, (Rabs_right 2), Rabs_mult by lra. assert (Rabs (sin (t / 2)) * Rabs (sin (t / 2)) <= Rabs (t / 2) * Rabs (t / 2)) by (apply Rmult_le_compat; try apply Rabs_pos; exact L2). rewrite <- (Rabs_mult (t / 2)) in H. rewrite (Rabs_right (t / 2 * (t / 2))) in H by nra. lra. }
  assert (Rabs (sin x) <= 1) by (apply Rabs_le, SIN_bound). pose proof (Rabs_pos (cos x)). pose proof (Rabs_pos (cos t - 1)). assert (Rabs (cos x) * Rabs (sin t) <= Rabs (cos x) * Rabs t) by (apply Rmult_le_compat_l; assumption). nra.
Qed.
Lemma cosh_step x t : Rabs t <= / 100 -> Rabs (cosh (x + t) - cosh x) <= 102 / 100 * Rabs t * Rabs (sinh x) + cosh x * (t * t).
Proof.
  intros H. rewrite cosh_add. replace (cosh x * cosh t + sinh x * sinh t - cosh x) with (sinh x * sinh t + cosh x * (cosh t - 1)) by ring. eapply Rle_trans; [apply Rabs_triang|]. rewrite !Rabs_mult. pose proof (cosh_ge_1 x). rewrite (Rabs_right (cosh x)) by lra.
  pose proof (exp_step t H) as E1. assert (H2 : Rabs (t / 2) <= / 100) by (unfold Rdiv; rewrite Rabs_mult, (Rabs_right (/ 2)) by lra; pose proof (Rabs_pos t); lra). pose proof (exp_step (t / 2) H2) as E2. pose proof (Rabs_pos (cosh t - 1)). pose proof (Rabs_pos (cosh (t / 2) - 1)). pose proof (Rabs_pos (sinh (t / 2))).
  assert (C : Rabs (cosh t - 1) <= t * t). { replace (cosh t - 1) with (2 * (sinh (t / 2) * sinh (t / 2))). 2: { pose proof (cosh_sq (t / 2)). replace t with (t / 2 + t / 2) at 3 by field. rewrite cosh_add. lra. } rewrite Rabs_mult, (Rabs_right 2), Rabs_mult by lra. assert (HS : Rabs (sinh (t / 2)) * Rabs (sinh (t / 2)) <= (102 / 100 * Rabs (t / 2)) * (102 / 100 * Rabs (t / 2))) by (apply Rmult_le_compat; lra). replace (102 / 100 * Rabs (t / 2) * (102 / 100 * Rabs (t / 2))) with (10404 / 10000 * (Rabs (t / 2) * Rabs (t / 2))) in HS by field. rewrite <- (Rabs_mult (t / 2)) in HS. rewrite (Rabs_right (t / 2 * (t / 2))) in HS by nra. nra. }
  pose proof (Rabs_pos (sinh x)). assert (Rabs (sinh x) * Rabs (sinh t) <= Rabs (sinh x) * (102 / 100 * Rabs t)) by (apply Rmult_le_compat_l; lra). assert (cosh x * Rabs (cosh t - 1) <= cosh x * (t * t)) by (apply Rmult_le_compat_l; lra). lra.
Qed.

(** ** The functions *)
Section Funs.
Context (lm : libm) (AC : accurate lm).
Lemma near_asinh x X lo hi d e (glo ghi : Q) : near x X lo hi d e -> Qle_bool d (Qmake 1 100) && Qle_bool (e + d * mag lo hi + mag lo hi) 1000 = true -> Q2R glo <= arcsinh X <= Q2R ghi ->
  near (lm_asinh lm x) (arcsinh X) glo ghi ulp4 (rup ((1 + ulp4) * (Qmake 102 100 * d + e) + tiny)).
Proof.
  intros H C G. apply andb_prop in C. destruct C as [C1 C2]. apply qle in C1, C2. rewrite Q2R_plus in C2. replace (Q2R 1000) with 1000 in C2 by qr. replace (Q2R (Qmake 1 100)) with (/ 100) in C1 by qr. pose proof (near_err _ _ _ _ _ _ H) as E. destruct (near_split _ _ _ _ _ _ H) as (t & T1 & T2).
  assert (M : Rabs (B2R x) <= 1000). { destruct H as (_ & B & _). pose proof (mag_ge _ _ _ B) as M. replace (B2R x) with (X + (B2R x - X)) by ring. eapply Rle_trans; [apply Rabs_triang|]. lra. }
  apply (near_four_abs _ (arcsinh (B2R x))); [apply (ac_asinh lm AC); [apply H|]| |exact G].
  - apply Rle_trans with 1000; [exact M|]. apply Rle_trans with (bpow radix2 10); [cbn; lra|apply bpow_le; lia].
  - replace (arcsinh (B2R x) - arcsinh X) with ((arcsinh (B2R x) - arcsinh (X * (1 + t))) + (arcsinh (X * (1 + t)) - arcsinh X)) by ring. eapply Rle_trans; [apply Rabs_triang|]. pose proof (arcsinh_lip (X * (1 + t)) (B2R x)). pose proof (arcsinh_scaled X t ltac:(lra)). rewrite Q2R_plus, Q2R_mult. replace (Q2R (Qmake 102 100)) with (102 / 100) by qr. lra.
Qed.
(** The Gudermannian, [atan (sinh q)]. *)
Lemma near_gd x X lo hi d e : near x X lo hi d e -> Qle_bool (e + d * mag lo hi + mag lo hi) 300 = true ->
  near (lm_atan lm (lm_sinh lm x)) (gd X) (Qmake (-158) 100) (Qmake 158 100) ulp4 (rup ((1 + ulp4) * (Qmake 51 100 * ulp4 + tiny + (e + d * mag lo hi)) + tiny)).
Proof.
  intros H C. apply qle in C. rewrite Q2R_plus in C. replace (Q2R 300) with 300 in C by qr. pose proof (near_err _ _ _ _ _ _ H) as E.
  assert (M : Rabs (B2R x) <= 300). { destruct H as (_ & B & _). pose proof (mag_ge _ _ _ B) as M. replace (B2R x) with (X + (B2R x - X)) by ring. eapply Rle_trans; [apply Rabs_triang|]. lra. }
  destruct (ac_sinh lm AC x (proj1 H) M) as [F1 F2]. assert (U : 0 <= / 2 ^ 50 <= / 100) by lra. pose proof (bpow_gt_0 radix2 (-1000)) as T0. pose proof tiny_1000 as T. destruct (split_err _ _ _ _ (proj1 U) (Rlt_le _ _ T0) F2) as (t & T1 & T2).
  apply (near_four_abs _ (atan (B2R (lm_sinh lm x)))); [apply (ac_atan lm AC); [exact F1|exact I]| |].
  - replace (atan (B2R (lm_sinh lm x)) - gd X) with ((atan (B2R (lm_sinh lm x)) - atan (sinh (B2R x) * (1 + t))) + (atan (sinh (B2R x) * (1 + t)) - atan (sinh (B2R x))) + (gd (B2R x) - gd X)) by (unfold gd; ring).
    eapply Rle_trans; [apply Rabs_triang|]. eapply Rle_trans; [apply Rplus_le_compat_r, Rabs_triang|]. pose proof (atan_rel (sinh (B2R x)) t ltac:(lra)) as A1. pose proof (gd_lipschitz (B2R x) X) as A2.
    assert (A3 : Rabs (atan (B2R (lm_sinh lm x)) - atan (sinh (B2R x) * (1 + t))) <= bpow radix2 (-1000)) by (eapply Rle_trans; [apply atan_lip|exact T2]).
    rewrite Q2R_plus, (Q2R_plus (Qmake 51 100 * ulp4)), Q2R_mult, ulp4_val. replace (Q2R (Qmake 51 100)) with (51 / 100) by qr. lra.
  - pose proof (atan_bound (sinh X)) as B. pose proof PI_64_bounds. replace (Q2R (Qmake (-158) 100)) with (- (158 / 100)) by qr. replace (Q2R (Qmake 158 100)) with (158 / 100) by qr. unfold gd. lra.
Qed.
Lemma near_cosh x X lo hi d e (ghi : Q) : near x X lo hi d e -> Qle_bool (e + d * mag lo hi) (Qmake 1 100) && Qle_bool (mag lo hi) 299 = true -> cosh X <= Q2R ghi ->
  near (lm_cosh lm x) (cosh X) 1 ghi (rup (ulp4 + (1 + ulp4) * (Qmake 102 100 * (e + d * mag lo hi)))) tiny.
Proof.
  intros H C G. apply andb_prop in C. destruct C as [C1 C2]. apply qle in C1, C2. replace (Q2R (Qmake 1 100)) with (/ 100) in C1 by qr. replace (Q2R 299) with 299 in C2 by qr. pose proof (near_err _ _ _ _ _ _ H) as E. pose proof (cosh_ge_1 X) as C0.
  assert (M : Rabs (B2R x) <= 300). { destruct H as (_ & B & _). pose proof (mag_ge _ _ _ B) as M. replace (B2R x) with (X + (B2R x - X)) by ring. eapply Rle_trans; [apply Rabs_triang|]. lra. } pose proof (Rabs_pos (B2R x - X)) as P0.
  apply (near_four_rel _ (cosh (B2R x))); [apply (ac_cosh lm AC); [apply H|exact M]| | |rewrite q1; lra].
  - replace (cosh (B2R x)) with (cosh (X + (B2R x - X))) by (f_equal; ring). rewrite (Rabs_right (cosh X)) by lra. eapply Rle_trans; [apply cosh_shift; lra|]. apply Rmult_le_compat_r; [lra|]. rewrite Q2R_mult. replace (Q2R (Qmake 102 100)) with (102 / 100) by qr. lra.
  - rewrite Q2R_mult. replace (Q2R (Qmake 102 100)) with (102 / 100) by qr. lra.
Qed.
Lemma near_sinh x X lo hi d e (K : Q) : near x X lo hi d e -> Qle_bool (e + d * mag lo hi) (Qmake 1 100) && Qle_bool (mag lo hi) 299 = true -> cosh X <= Q2R K ->
  near (lm_sinh lm x) (sinh X) (- K) K ulp4 (rup ((1 + ulp4) * (Qmake 102 100 * (e + d * mag lo hi) * K) + tiny)).
Proof.
  intros H C G. apply andb_prop in C. destruct C as [C1 C2]. apply qle in C1, C2. replace (Q2R (Qmake 1 100)) with (/ 100) in C1 by qr. replace (Q2R 299) with 299 in C2 by qr. pose proof (near_err _ _ _ _ _ _ H) as E. pose proof (cosh_ge_1 X) as C0.
  assert (M : Rabs (B2R x) <= 300). { destruct H as (_ & B & _). pose proof (mag_ge _ _ _ B) as M. replace (B2R x) with (X + (B2R x - X)) by ring. eapply Rle_trans; [apply Rabs_triang|]. lra. } pose proof (Rabs_pos (B2R x - X)) as P0.
  apply (near_four_abs _ (sinh (B2R x))); [apply (ac_sinh lm AC); [apply H|exact M]| |].
  - replace (sinh (B2R x)) with (sinh (X + (B2R x - X))) by (f_equal; ring). eapply Rle_trans; [apply sinh_shift; lra|]. rewrite !Q2R_mult. replace (Q2R (Qmake 102 100)) with (102 / 100) by qr. apply Rmult_le_compat; [|lra| |exact G]; lra.
  - pose proof (sinh_le_cosh X) as S1. apply Rabs_le_inv in S1. rewrite Q2R_opp. lra.
Qed.
Lemma near_atanh x X lo hi d e (m L glo ghi : Q) : near x X lo hi d e -> Qle_bool (mag lo hi + (e + d * mag lo hi)) m && Qle_bool m (Qmake 9 10) && Qle_bool (Qmake 1 100) m && Qle_bool 1 (L * (1 - m * m)) = true -> Q2R glo <= Ratanh X <= Q2R ghi ->
  near (lm_atanh lm x) (Ratanh X) glo ghi ulp4 (fun_e L lo hi d e).
Proof.
  intros H C G. apply andb_prop in C. destruct C as [C C4]. apply andb_prop in C. destruct C as [C C3]. apply andb_prop in C. destruct C as [C1 C2]. apply qle in C1, C2, C3, C4. rewrite Q2R_plus in C1. replace (Q2R (Qmake 9 10)) with (9 / 10) in C2 by qr. replace (Q2R (Qmake 1 100)) with (/ 100) in C3 by qr. rewrite q1, Q2R_mult, Q2R_minus, Q2R_mult, q1 in C4.
  pose proof (near_err _ _ _ _ _ _ H) as E. pose proof H as (F & B & _). pose proof (mag_ge _ _ _ B) as M. pose proof (Rabs_pos (B2R x - X)) as P0. set (m' := Q2R m) in *. assert (M2 : 0 < 1 - m' * m') by nra.
  assert (Mx : Rabs (B2R x) <= m'). { replace (B2R x) with (X + (B2R x - X)) by ring. eapply Rle_trans; [apply Rabs_triang|]. lra. }
  assert (L1 : / (1 - m' * m') <= Q2R L). { apply (Rmult_le_reg_r (1 - m' * m')); [exact M2|]. rewrite Rinv_l by lra. exact C4. } assert (I0 : 0 < / (1 - m' * m')) by now apply Rinv_0_lt_compat.
  apply (near_fun _ Ratanh _ L _ _ _ _ _ _ _ _ (ac_atanh lm AC) H); [lra| |lra|exact G].
  eapply Rle_trans; [apply (Ratanh_lip X (B2R x) m'); lra|]. apply Rmult_le_compat_r; [apply Rabs_pos|exact L1].
Qed.
Lemma near_asin x X lo hi d e (m L glo ghi : Q) : near x X lo hi d e -> Qle_bool (mag lo hi + (e + d * mag lo hi)) m && Qle_bool m (Qmake 9999 10000) && Qle_bool (Qmake 1 100) m && Qle_bool 1 L && Qle_bool 1 (L * L * (1 - m * m)) = true -> Q2R glo <= asin X <= Q2R ghi ->
  near (lm_asin lm x) (asin X) glo ghi ulp4 (fun_e L lo hi d e).
Proof.
  intros H C G. apply andb_prop in C. destruct C as [C C5]. apply andb_prop in C. destruct C as [C C4]. apply andb_prop in C. destruct C as [C C3]. apply andb_prop in C. destruct C as [C1 C2]. apply qle in C1, C2, C3, C4, C5. rewrite Q2R_plus in C1. replace (Q2R (Qmake 9999 10000)) with (9999 / 10000) in C2 by qr. replace (Q2R (Qmake 1 100)) with (/ 100) in C3 by qr. rewrite q1 in C4. rewrite q1, !Q2R_mult, Q2R_minus, Q2R_mult, q1 in C5.
  pose proof (near_err _ _ _ _ _ _ H) as E. pose proof H as (F & B & _). pose proof (mag_ge _ _ _ B) as M. pose proof (Rabs_pos (B2R x - X)) as P0. set (m' := Q2R m) in *.
  assert (Mx : Rabs (B2R x) <= m'). { replace (B2R x) with (X + (B2R x - X)) by ring. eapply Rle_trans; [apply Rabs_triang|]. lra. }
  apply (near_fun _ asin _ L _ _ _ _ _ _ _ _ (ac_asin lm AC) H); [lra| |lra|exact G]. apply (asin_lip X (B2R x) m'); lra.
Qed.
End Funs.
