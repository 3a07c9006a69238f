(** Exact arithmetic: constructors of angles from degrees, minutes and seconds; comparison of azimuths and longitudes up to whole turns. *)
From Coq Require Import Reals Lra Lia ZArith Bool List String.
From Flocq Require Import Core.
From Verif.Num Require Import FOps RFun XR XRLemmas.
From Verif.Model Require Import Fp Quantities Cs Ellipsoid.
From Verif.Spec Require Import Angles Shape Sexagesimal.
From Verif.Proofs Require Import AnglesX AnglesX2 EllX.
Import ListNotations.
Local Open Scope R_scope.

Lemma dms_rad_fin d m s : angle_new (dms_degrees (Fin d) (Fin m) (Fin s)) DEG = Fin (dms_rad d m s).
Proof.
  rewrite dms_degrees_fin, angle_new_deg. f_equal. unfold dms_rad. destruct (Rlt_dec d 0) as [H|H].
  - rewrite Rlt_bool_true by lra. rewrite Rabs_left by lra. field.
  - rewrite Rlt_bool_false by lra. rewrite Rabs_right by lra. field.
Qed.
Lemma nearest_lat_fin a : lat_new (Fin a) = Fin (nearest_lat a).
Proof.
  rewrite lat_new_fin. f_equal. pose proof PI_pos. unfold Rclamp, nearest_lat. destruct (Rlt_bool_spec a (- (PI / 2))).
  - rewrite Rmin_right, Rmax_left by lra. reflexivity.
  - destruct (Rlt_bool_spec (PI / 2) a); [rewrite Rmin_left by lra; rewrite Rmax_right by lra; reflexivity|]. rewrite Rmin_right by lra. rewrite Rmax_right by lra. reflexivity.
Qed.
(** The three debug assertions. *)
Lemma asserts {A} (dbg : bool) (b1 b2 b3 : bool) (P : Prop) (v : A) : (b1 && b2 && b3 = true <-> P) ->
  let r := rassert (negb dbg || b1) (rassert (negb dbg || b2) (rassert (negb dbg || b3) (Ret v))) in
  ((dbg = true -> P) -> r = Ret v) /\ (dbg = true -> ~ P -> r = Panic).
Proof.
  intros H. destruct dbg, b1, b2, b3; cbn in *; split; intros; try reflexivity; try discriminate; exfalso; intuition congruence.
Qed.
Lemma in_lon d m s : ((Fin d >? - #180) && (Fin m <=? #180) && ((Fin m >=? #0) && (Fin m <=? #59)) && ((Fin s >=? #0) && (Fin s <? #60)))%F%bool = true <-> (-180 < d /\ 0 <= m <= 59 /\ 0 <= s < 60).
Proof.
  xr. rewrite !andb_true_iff. destruct (Rlt_bool_spec (- (180)) d), (Rle_bool_spec m 180), (Rle_bool_spec 0 m), (Rle_bool_spec m 59), (Rle_bool_spec 0 s), (Rlt_bool_spec s 60); split; intros; repeat split; try lra; try discriminate; intuition congruence.
Qed.
Lemma in_lat d m s : ((Fin d >=? - #90) && (Fin m <=? #90) && ((Fin m >=? #0) && (Fin m <=? #59)) && ((Fin s >=? #0) && (Fin s <? #60)))%F%bool = true <-> (-90 <= d /\ 0 <= m <= 59 /\ 0 <= s < 60).
Proof.
  xr. rewrite !andb_true_iff. destruct (Rle_bool_spec (- (90)) d), (Rle_bool_spec m 90), (Rle_bool_spec 0 m), (Rle_bool_spec m 59), (Rle_bool_spec 0 s), (Rlt_bool_spec s 60); split; intros; repeat split; try lra; try discriminate; intuition congruence.
Qed.
Lemma lon_dms_spec dbg d m s : (dbg = true -> -180 < d /\ 0 <= m <= 59 /\ 0 <= s < 60) ->
  exists l, lon_dms dbg (Fin d) (Fin m) (Fin s) = Ret (Fin l) /\ - PI <= l <= PI /\ same_angle l (dms_rad d m s).
Proof.
  intros H. pose proof (proj1 (asserts dbg _ _ _ _ (lon_new (angle_new (dms_degrees (Fin d) (Fin m) (Fin s)) DEG)) (in_lon d m s)) H) as E. cbv zeta in E. unfold lon_dms. rewrite E, dms_rad_fin, lon_new_fin.
  pose proof (Rwrap_spec (dms_rad d m s)). eexists. split; [reflexivity|]. tauto.
Qed.
Lemma lat_dms_spec dbg d m s : (dbg = true -> -90 <= d /\ 0 <= m <= 59 /\ 0 <= s < 60) -> lat_dms dbg (Fin d) (Fin m) (Fin s) = Ret (Fin (nearest_lat (dms_rad d m s))).
Proof.
  intros H. pose proof (proj1 (asserts dbg _ _ _ _ (lat_new (angle_new (dms_degrees (Fin d) (Fin m) (Fin s)) DEG)) (in_lat d m s)) H) as E. cbv zeta in E. unfold lat_dms. rewrite E, dms_rad_fin, nearest_lat_fin. reflexivity.
Qed.
Lemma azimuth_dms_spec dbg d m s : (dbg = true -> -180 < d /\ 0 <= m <= 59 /\ 0 <= s < 60) ->
  exists l, azimuth_dms dbg (Fin d) (Fin m) (Fin s) = Ret (Fin l) /\ - PI < l <= PI /\ same_angle l (dms_rad d m s).
Proof.
  intros H. pose proof (proj1 (asserts dbg _ _ _ _ (azimuth_new (angle_new (dms_degrees (Fin d) (Fin m) (Fin s)) DEG)) (in_lon d m s)) H) as E. cbv zeta in E. unfold azimuth_dms. rewrite E, dms_rad_fin, azimuth_new_fin.
  pose proof (Rnorm_spec (dms_rad d m s)). eexists. split; [reflexivity|]. tauto.
Qed.
Lemma dms_panics d m s :
  (~ (-180 < d /\ 0 <= m <= 59 /\ 0 <= s < 60) -> lon_dms true (Fin d) (Fin m) (Fin s) = Panic /\ azimuth_dms true (Fin d) (Fin m) (Fin s) = Panic) /\
  (~ (-90 <= d /\ 0 <= m <= 59 /\ 0 <= s < 60) -> lat_dms true (Fin d) (Fin m) (Fin s) = Panic).
Proof.
  split; [split|]; [apply (proj2 (asserts true _ _ _ _ _ (in_lon d m s)) eq_refl H)|apply (proj2 (asserts true _ _ _ _ _ (in_lon d m s)) eq_refl H)|intros H; apply (proj2 (asserts true _ _ _ _ _ (in_lat d m s)) eq_refl H)].
Qed.
Lemma dms_degrees_unchecked : (exists l, lon_dms true (Fin 200) (Fin 0) (Fin 0) = Ret (Fin l)) /\ (exists z, azimuth_dms true (Fin 200) (Fin 0) (Fin 0) = Ret (Fin z)) /\ lat_dms true (Fin 91) (Fin 0) (Fin 0) = Ret (Fin (PI / 2)).
Proof.
  pose proof PI_pos. split; [|split].
  - destruct (lon_dms_spec true 200 0 0) as (l & E & _); [lra|]. now exists l.
  - destruct (azimuth_dms_spec true 200 0 0) as (l & E & _); [lra|]. now exists l.
  - rewrite lat_dms_spec by lra. do 2 f_equal. unfold nearest_lat, dms_rad. destruct (Rlt_dec 91 0); [lra|]. rewrite Rmin_left by lra. apply Rmax_right. lra.
Qed.
Lemma degrees_spec x : (exists l, lon_deg (Fin x) = Fin l /\ - PI <= l <= PI /\ same_angle l (x * (PI / 180))) /\ lat_deg (Fin x) = Fin (nearest_lat (x * (PI / 180))) /\
  (exists z, azimuth_deg (Fin x) = Fin z /\ - PI < z <= PI /\ same_angle z (x * (PI / 180))) /\
  (exists l, lon_rad (Fin x) = Fin l /\ - PI <= l <= PI /\ same_angle l x) /\ (exists z, azimuth_rad (Fin x) = Fin z /\ - PI < z <= PI /\ same_angle z x).
Proof.
  unfold lon_deg, lat_deg, azimuth_deg, lon_rad, azimuth_rad. rewrite !angle_new_deg, !angle_new_RAD, !lon_new_fin, !azimuth_new_fin, nearest_lat_fin.
  pose proof (Rwrap_spec (x * (PI / 180))). pose proof (Rwrap_spec x). pose proof (Rnorm_spec (x * (PI / 180))). pose proof (Rnorm_spec x).
  split; [eexists; split; [reflexivity|tauto]|]. split; [reflexivity|]. split; [eexists; split; [reflexivity|tauto]|]. split; eexists; (split; [reflexivity|tauto]).
Qed.
Lemma cardinal : azimuth_deg (Fin 0) = AZ_NORTH /\ azimuth_deg (Fin 90) = AZ_EAST /\ azimuth_deg (Fin 180) = AZ_SOUTH /\ azimuth_deg (Fin (-180)) = AZ_SOUTH /\ azimuth_deg (Fin (-90)) = AZ_WEST.
Proof.
  pose proof PI_pos. unfold azimuth_deg. rewrite !angle_new_deg, !azimuth_new_fin. unfold AZ_NORTH, AZ_EAST, AZ_SOUTH, AZ_WEST. xr.
  rewrite (Rnorm_id (0 * _)), (Rnorm_id (90 * _)), (Rnorm_id (180 * _)), (Rnorm_id (-90 * _)) by lra. rewrite (Rnorm_compat (-180 * (PI / 180)) PI) by (exists (-1)%Z; lra). rewrite (Rnorm_id PI) by lra.
  repeat split; f_equal; lra.
Qed.
(** ** Equality up to whole turns *)
Lemma Rnorm_min t k : Rabs (Rnorm t) <= Rabs (t - IZR k * (2 * PI)).
Proof.
  pose proof PI_pos. destruct (Rnorm_spec t) as [[A B] [j J]]. replace (t - IZR k * (2 * PI)) with (Rnorm t - IZR (j + k) * (2 * PI)) by (rewrite plus_IZR; lra). set (n := (j + k)%Z).
  destruct (Z.eq_dec n 0) as [->|N]; [right; f_equal; ring|]. apply Rle_trans with PI; [apply Rabs_le; lra|].
  destruct (Z_lt_le_dec n 0) as [L|L].
  - assert (N1 : IZR n <= -1) by (apply IZR_le; lia). assert (IZR n * (2 * PI) <= -1 * (2 * PI)) by (apply Rmult_le_compat_r; lra). rewrite Rabs_right; lra.
  - assert (N1 : 1 <= IZR n) by (apply IZR_le; lia). assert (1 * (2 * PI) <= IZR n * (2 * PI)) by (apply Rmult_le_compat_r; lra). rewrite Rabs_left1; lra.
Qed.
Lemma turns_iff t eps : Rle_bool (Rabs (Rnorm t)) eps = true <-> exists k, Rabs (t - IZR k * (2 * PI)) <= eps.
Proof.
  split.
  - intros H. destruct (Rle_bool_spec (Rabs (Rnorm t)) eps) as [H'|]; [|discriminate]. clear H. rename H' into H. destruct (Rnorm_spec t) as [_ [j J]]. exists (- j)%Z. rewrite opp_IZR. replace (t - - IZR j * (2 * PI)) with (Rnorm t) by lra. exact H.
  - intros [k H]. apply Rle_bool_true. pose proof (Rnorm_min t k). lra.
Qed.
Lemma abs_diff_eq_turns a b eps : (azimuth_abs_diff_eq (Fin a) (Fin b) (Fin eps) = true <-> exists k, Rabs (a - b - IZR k * (2 * PI)) <= eps) /\
  (lon_abs_diff_eq (Fin a) (Fin b) (Fin eps) = true <-> exists k, Rabs (a - b - IZR k * (2 * PI)) <= eps).
Proof.
  unfold azimuth_abs_diff_eq, lon_abs_diff_eq, azimuth_sub. rewrite diff_to_fin, normalized_fin, lon_sub_fin. rewrite (Rnorm_id (Rnorm _)) by apply Rnorm_spec. xr. split; apply turns_iff.
Qed.
