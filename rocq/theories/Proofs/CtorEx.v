(** Examples for the constructors of angles. *)
From Coq Require Import ZArith Reals Lra Lia Bool.
From Flocq Require Import Core IEEE754.BinarySingleNaN.
From Verif.Num Require Import FOps RFun XR XRLemmas F64 F64Lemmas PIBounds.
From Verif.Model Require Import Fp Quantities Cs.
From Verif.Spec Require Import Angles Sexagesimal.
From Verif.Proofs Require Import AnglesX AnglesX2 LibmOk Ctor CtorF.
Local Open Scope R_scope.

Lemma dms_f64 lm dbg (d m s : f64) : is_finite d = true -> is_finite m = true -> is_finite s = true ->
  Rabs (B2R d) <= 360 -> 0 <= B2R m <= 59 -> 0 <= B2R s < 60 ->
  let t := (if Bsign d then -1 else 1) * (Rabs (B2R d) + B2R m / 60 + B2R s / 3600) * (PI / 180) in
  ((dbg = true -> -180 < B2R d) ->
   (exists l k, lon_dms (ops := F64ops lm) dbg d m s = Ret l /\ is_finite l = true /\ - B2R PI64 <= B2R l <= B2R PI64 + / 2 ^ 47 /\ Rabs (B2R l - t - IZR k * (2 * PI)) <= 2 / 10 ^ 14) /\
   (exists z k, azimuth_dms (ops := F64ops lm) dbg d m s = Ret z /\ is_finite z = true /\ - B2R PI64 < B2R z <= B2R PI64 + / 2 ^ 47 /\ Rabs (B2R z - t - IZR k * (2 * PI)) <= 2 / 10 ^ 14)) /\
  ((dbg = true -> -90 <= B2R d) -> Rabs t <= PI / 2 ->
   exists l, lat_dms (ops := F64ops lm) dbg d m s = Ret l /\ is_finite l = true /\ Rabs (B2R l) <= B2R PI_2_64 /\ Rabs (B2R l - t) <= 2 / 10 ^ 14).
Proof.
  intros FD FM FS BD BM BS t. split; [intros H; split|intros H T].
  - destruct (lon_f64 lm d m s FD FM FS BD BM BS dbg H) as (l & k & A & B & C & D). exists l, k. repeat (split; [assumption|]). eapply Rle_trans; [exact D|lra].
  - exact (azimuth_f64 lm d m s FD FM FS BD BM BS dbg H).
  - exact (lat_f64 lm d m s FD FM FS BD BM BS dbg H T).
Qed.
Lemma dms_ex : dms_rad (-12) 45 0 = - (1275 / 100) * (PI / 180) /\ nearest_lat (dms_rad (-12) 45 0) = dms_rad (-12) 45 0.
Proof.
  pose proof PI_RGT_0. assert (E : dms_rad (-12) 45 0 = - (1275 / 100) * (PI / 180)) by (unfold dms_rad; destruct (Rlt_dec (-12) 0); [field|lra]). split; [exact E|]. rewrite E. unfold nearest_lat. rewrite Rmin_right by lra. apply Rmax_right. lra.
Qed.
Lemma dms_f64_ex : exists l, lon_dms (ops := F64ops libm_ex) true (B754_zero true) (f64_ofZ 30) (f64_ofZ 0) = Ret l /\ -88 / 10000 < B2R l < -87 / 10000.
Proof.
  pose proof PI_64_bounds as PB. destruct (f64_Z 30 ltac:(vm_compute; discriminate)) as [F1 V1]. destruct (f64_Z 0 ltac:(vm_compute; discriminate)) as [F2 V2].
  destruct (dms_f64 libm_ex true (B754_zero true) (f64_ofZ 30) (f64_ofZ 0)) as [H _]; try assumption; try reflexivity; try (rewrite V1; lra); try (rewrite V2; lra); [cbn; rewrite Rabs_R0; lra|].
  destruct (H ltac:(intros _; cbn; lra)) as [(l & k & A & B & C & D) _]. exists l. split; [exact A|]. rewrite V1, V2 in D. cbn [Bsign B2R] in D. rewrite Rabs_R0 in D. rewrite (proj1 PI64_val) in C. unfold m_pi in C.
  set (x := B2R l) in *. clearbody x. clear A B H F1 F2 V1 V2. apply Rabs_le_inv in D. pose proof PI_RGT_0.
  assert (K : k = 0%Z). { destruct (Z_lt_le_dec k 0) as [L|L]; [assert (IZR k <= -1) by (apply IZR_le; lia); assert (IZR k * (2 * PI) <= -1 * (2 * PI)) by (apply Rmult_le_compat_r; lra); lra|]. destruct (Z_lt_le_dec 0 k) as [L2|L2]; [|lia]. assert (1 <= IZR k) by (apply IZR_le; lia). assert (1 * (2 * PI) <= IZR k * (2 * PI)) by (apply Rmult_le_compat_r; lra). lra. }
  subst k. lra.
Qed.
Lemma Rwrap_id a : - PI < a < PI -> Rwrap a = a.
Proof. intros H. apply (Rwrap_spec a). lra. Qed.
Lemma equal_ex : lon_abs_diff_eq (lon_deg (Fin (17975 / 100))) (lon_deg (Fin (-17975 / 100))) (Fin (9 / 1000)) = true /\
  lon_abs_diff_eq (lon_deg (Fin (17975 / 100))) (lon_deg (Fin (-17975 / 100))) (Fin (8 / 1000)) = false.
Proof.
  pose proof PI_RGT_0. pose proof PI_64_bounds as PB. unfold lon_deg. rewrite !angle_new_deg, !lon_new_fin. rewrite (Rwrap_id (17975 / 100 * _)), (Rwrap_id (-17975 / 100 * _)) by lra.
  unfold lon_abs_diff_eq. rewrite lon_sub_fin. xr.
  rewrite (Rnorm_compat _ (- (5 / 10) * (PI / 180))) by (exists 1%Z; lra). rewrite Rnorm_id by lra. rewrite Rabs_left by lra. split; [apply Rle_bool_true; lra|apply Rle_bool_false; lra].
Qed.
