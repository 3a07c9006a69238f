(** Restatements for Props/Angles.v, refutation witnesses and examples. *)
From Coq Require Import Reals Lra Lia ZArith Bool List Psatz.
From Flocq Require Import Core IEEE754.BinarySingleNaN.
From Verif.Num Require Import FOps RFun XR XRLemmas F64 F64Lemmas PIBounds.
From Verif.Model Require Import Fp Quantities Cs.
From Verif.Spec Require Import Angles Runs.
From Verif.Proofs Require Import AnglesX AnglesX2 AnglesF.
Import ListNotations.
Local Open Scope R_scope.

Lemma wrapped_range_and_class (a : R) :
  exists w, wrapped (Fin a) = Fin w /\ - PI <= w <= PI /\ same_angle w a /\ wrapped (Fin w) = Fin w.
Proof.
  exists (Rwrap a). destruct (Rwrap_spec a) as (H1 & H2 & _).
  split; [apply wrapped_fin|]. split; [easy|]. split; [easy|].
  rewrite wrapped_fin. f_equal. now apply (Rwrap_spec (Rwrap a)).
Qed.
Lemma wrapped_identity (a : R) : - PI <= a <= PI -> wrapped (Fin a) = Fin a.
Proof. intros H. rewrite wrapped_fin. f_equal. now apply Rwrap_spec. Qed.
Lemma normalized_range_and_class (a : R) :
  exists w, normalized (Fin a) = Fin w /\ - PI < w <= PI /\ same_angle w a.
Proof. exists (Rnorm a). split; [apply normalized_fin|apply Rnorm_spec]. Qed.
Lemma normalized_canonical (a b : R) : normalized (Fin a) = normalized (Fin b) <-> same_angle a b.
Proof.
  rewrite !normalized_fin, <- Rnorm_eq_iff. split; [apply Fin_inj|now intros ->].
Qed.
Lemma lon_sub_spec l r : exists d,
  lon_sub (Fin l) (Fin r) = Fin d /\ - PI < d <= PI /\ same_angle (r + d) l.
Proof.
  destruct (diff_to_spec r l) as (d & H1 & H2 & H3 & _). exists d. now repeat split.
Qed.
Lemma azimuth_range a t :
  (exists z, azimuth_new (Fin a) = Fin z /\ - PI < z <= PI /\ same_angle z a) /\
  (exists z, azimuth_add (Fin a) (Fin t) = Fin z /\ - PI < z <= PI /\ same_angle z (a + t)).
Proof.
  split.
  - exists (Rnorm a). split; [apply azimuth_new_fin|apply Rnorm_spec].
  - exists (Rnorm (a + t)). split; [apply azimuth_add_fin|apply Rnorm_spec].
Qed.
Lemma azimuth_difference a b :
  (exists d, azimuth_sub (Fin b) (Fin a) = Fin d /\ - PI < d <= PI /\ same_angle (a + d) b) /\
  (- PI < b <= PI -> azimuth_add (Fin a) (azimuth_sub (Fin b) (Fin a)) = Fin b).
Proof.
  split; [|apply azimuth_add_sub].
  exists (Rnorm (b - a)). split; [apply azimuth_sub_fin|].
  destruct (Rnorm_spec (b - a)) as [H1 [k Hk]]. split; [easy|]. exists k. lra.
Qed.

(** ** Binary64 witnesses *)
Lemma wrapped_f64_above_pi : exists a : f64, is_finite a = true /\
  forall lm : libm, Bltb PI64 (wrapped (ops := F64ops lm) a) = true.
Proof.
  exists (f64_of 8179587400782884 (-46)). split; [vm_compute; reflexivity|].
  intros lm. vm_compute. reflexivity.
Qed.
Lemma B2SF_eq (x y : f64) : B2SF x = B2SF y -> x = y.
Proof. apply B2SF_inj. Qed.
Lemma wrapped_f64_huge lm : wrapped (ops := F64ops lm) (f64_ofZ (10 ^ 18)) = f64_ofZ 128.
Proof. apply B2SF_eq. vm_compute. reflexivity. Qed.
Lemma wrapped_f64_inf lm s : wrapped (ops := F64ops lm) (B754_infinity s) = B754_nan.
Proof. apply B2SF_eq. destruct s; vm_compute; reflexivity. Qed.

Lemma pi_2_64_below : B2R PI_2_64 < PI / 2.
Proof. rewrite (proj1 PI_2_64_val). pose proof PI_64_bounds. unfold m_pi. lra. Qed.
Lemma lat_new_identity lm (a : f64) : is_finite a = true -> Rabs (B2R a) <= B2R PI_2_64 ->
  lat_new (ops := F64ops lm) a = a.
Proof. intros H1 H2. now apply (lat_new_f64 lm a (finite_not_nan a H1)). Qed.
Lemma lat_new_nan lm : lat_new (ops := F64ops lm) B754_nan = B754_nan.
Proof. apply B2SF_eq. vm_compute. reflexivity. Qed.

Lemma angle_dms_f64_60 : exists a : f64, is_finite a = true /\
  forall lm : libm, let '(d, m, s) := angle_dms (ops := F64ops lm) a in
    m = f64_ofZ 60 /\ lon_dms (ops := F64ops lm) true d m s = Panic.
Proof.
  exists (f64_of 5030569068104082 (-58)). split; [vm_compute; reflexivity|].
  intros lm.
  destruct (angle_dms (ops := F64ops lm) (f64_of 5030569068104082 (-58))) as [[d m] s] eqn:E.
  assert (H : B2SF m = B2SF (f64_ofZ 60) /\ B2SF d = B2SF (f64_ofZ 0) /\ B2SF s = B2SF (f64_ofZ 0)).
  { replace m with (snd (fst (angle_dms (ops := F64ops lm) (f64_of 5030569068104082 (-58)))))
      by now rewrite E.
    replace d with (fst (fst (angle_dms (ops := F64ops lm) (f64_of 5030569068104082 (-58)))))
      by now rewrite E.
    replace s with (snd (angle_dms (ops := F64ops lm) (f64_of 5030569068104082 (-58))))
      by now rewrite E.
    vm_compute. auto. }
  destruct H as (H1 & H2 & H3). apply B2SF_eq in H1, H2, H3. subst.
  split; [easy|]. vm_compute. reflexivity.
Qed.

Lemma interval_same_point_refuted :
  interval_is_empty (interval_new (Fin (- PI)) (Fin (- PI))) = true /\
  forall lm : libm,
    interval_is_empty (ops := F64ops lm) (interval_new (ops := F64ops lm) (Bopp PI64) (Bopp PI64)) = true.
Proof. split; [apply interval_new_mpi|]. intros lm. vm_compute. reflexivity. Qed.

(** ** Examples *)
Lemma ex_remainder : remainder (Fin 17) (Fin 5) = Fin 2.
Proof.
  rewrite remainder_fin by lra. f_equal. unfold Rrem.
  replace (ZnearestE (17 / 5)) with 3%Z; [lra|].
  symmetry. apply Znearest_imp. apply Rabs_def1; simpl; lra.
Qed.
Lemma ex_three : is_finite (f64_ofZ 3) = true /\ Rabs (B2R (f64_ofZ 3)) <= B2R PI64.
Proof.
  destruct (B2R_const (f64_ofZ 3) false 6755399441055744 (-51) ltac:(vm_compute; reflexivity)) as [E F].
  split; [easy|]. rewrite E, (proj1 PI64_val). unfold F2R, m_pi; simpl.
  rewrite Rabs_pos_eq; lra.
Qed.
Lemma ex_thousand : is_finite (f64_ofZ 1000) = true /\ Rabs (B2R (f64_ofZ 1000)) <= 2 ^ 50.
Proof.
  destruct (B2R_const (f64_ofZ 1000) false 8796093022208000 (-43) ltac:(vm_compute; reflexivity)) as [E F].
  split; [easy|]. rewrite E. unfold F2R; simpl. rewrite Rabs_pos_eq; lra.
Qed.
Lemma Rwrap_eq a w : - PI < w < PI -> same_angle w a -> Rwrap a = w.
Proof.
  intros Hw Hs. pose proof PI_pos.
  assert (E : Rwrap w = w) by (apply Rwrap_spec; lra).
  rewrite <- E. apply Rwrap_compat_strict; [easy|lra].
Qed.
Lemma Rnorm_eq a w : - PI < w <= PI -> same_angle w a -> Rnorm a = w.
Proof. intros Hw Hs. rewrite <- (Rnorm_id w Hw). symmetry. now apply Rnorm_compat. Qed.
Lemma ex_wrapped : wrapped (Fin (5 * PI / 2)) = Fin (PI / 2) /\ wrapped (Fin (- PI)) = Fin (- PI).
Proof.
  pose proof PI_pos. split.
  - rewrite wrapped_fin. f_equal. apply Rwrap_eq; [lra|]. exists (-1)%Z. lra.
  - apply wrapped_identity. lra.
Qed.
Lemma ex_normalized : normalized (Fin (- PI)) = Fin PI /\ normalized (Fin (7 * PI)) = Fin PI.
Proof.
  pose proof PI_pos. split; rewrite normalized_fin; f_equal; apply Rnorm_eq; try lra.
  - exists 1%Z. lra.
  - exists (-3)%Z. lra.
Qed.
Lemma ex_diff_to : diff_to (Fin (PI / 18)) (Fin (35 * PI / 18)) = Fin (- (PI / 9)).
Proof.
  pose proof PI_pos. rewrite diff_to_fin. f_equal. apply Rnorm_eq; [lra|]. exists (-1)%Z. lra.
Qed.
Lemma ex_lat_run lm :
  Forall op_sane [OpAdd (B754_infinity false); OpSub (f64_ofZ 1); OpNeg; OpMul (f64_ofZ 7); OpDiv (f64_ofZ (-3))] /\
  lat_run (ops := F64ops lm) (f64_ofZ 1) [OpAdd (B754_infinity false); OpSub (f64_ofZ 1); OpNeg; OpMul (f64_ofZ 7)]
    = Bopp PI_2_64.
Proof.
  split.
  - repeat constructor.
  - apply B2SF_eq. vm_compute. reflexivity.
Qed.
Lemma ex_lon_run :
  lon_run (Fin PI) (map turn_op [TAdd (PI / 2); TNeg; TSub PI]) = Fin (- (PI / 2)) /\
  Forall op_real [OpMul (Fin 5); OpDiv (Fin (-2))].
Proof.
  pose proof PI_pos. split.
  - unfold lon_run. cbn [map turn_op fold_left lon_step].
    rewrite lon_new_fin. replace (Rwrap PI) with PI by (symmetry; apply Rwrap_spec; lra).
    rewrite lon_add_fin.
    replace (Rwrap (PI + PI / 2)) with (- (PI / 2)).
    2:{ symmetry. apply Rwrap_eq; [lra|]. exists (-1)%Z. lra. }
    unfold lon_neg. xr. rewrite lon_sub_angle_fin. f_equal.
    apply Rwrap_eq; [lra|]. exists 0%Z. lra.
  - repeat constructor; eexists; try split; try reflexivity. lra.
Qed.
Lemma ex_azimuth : azimuth_sub (AZ_WEST : XR) AZ_SOUTH = Fin (PI / 2) /\
  azimuth_add (AZ_SOUTH : XR) AZ_EAST = AZ_WEST.
Proof.
  pose proof PI_pos. unfold AZ_WEST, AZ_SOUTH, AZ_EAST. xr. split.
  - rewrite azimuth_sub_fin. f_equal. apply Rnorm_eq; [lra|]. exists 1%Z. lra.
  - rewrite azimuth_add_fin. f_equal. apply Rnorm_eq; [lra|]. exists (-1)%Z. lra.
Qed.
Lemma ex_dms : angle_dms (Fin (- (PI / 8))) = (Fin (-22), Fin 30, Fin 0).
Proof.
  pose proof PI_pos. unfold angle_dms, fto_degrees, ffract. xr.
  rewrite (Rabs_left (- (PI / 8))) by lra.
  replace (- - (PI / 8) * (180 / PI)) with (45 / 2) by (field; lra).
  rewrite (trunc_floor (45 / 2)) by lra.
  rewrite (Zfloor_imp 22 (45 / 2)) by (simpl; lra).
  replace (60 * (45 / 2 - 22)) with 30 by lra.
  replace (ZnearestA 30) with 30%Z.
  2:{ symmetry. apply Znearest_imp. rewrite Rminus_diag_eq by reflexivity. rewrite Rabs_R0. lra. }
  rewrite (Rlt_bool_t (- (PI / 8)) 0) by lra.
  rewrite Rlt_bool_t.
  2:{ rewrite Rminus_diag_eq by reflexivity. rewrite Rabs_R0. unfold Rlit. simpl. lra. }
  f_equal. f_equal. f_equal. ring.
Qed.
Lemma ex_interval :
  interval_new (Fin (3 * PI / 4)) (Fin (- (3 * PI / 4))) = mkI (Fin (3 * PI / 4)) (Fin (- (3 * PI / 4))) /\
  interval_length true (mkI (Fin (3 * PI / 4)) (Fin (- (3 * PI / 4)))) = Ret (Fin (PI / 2)).
Proof.
  pose proof PI_pos. split.
  - rewrite interval_new_fin.
    replace (Rwrap (3 * PI / 4)) with (3 * PI / 4) by (symmetry; apply Rwrap_spec; lra).
    replace (Rwrap (- (3 * PI / 4))) with (- (3 * PI / 4)) by (symmetry; apply Rwrap_spec; lra).
    unfold ilo. rewrite (Req_bool_f (3 * PI / 4) (- PI)) by lra. reflexivity.
  - unfold interval_length, rassert. cbn [lo hi]. xr.
    rewrite Rlt_bool_t by lra. xr. rewrite Rle_bool_t by lra. cbn [negb orb]. f_equal. f_equal. lra.
Qed.
