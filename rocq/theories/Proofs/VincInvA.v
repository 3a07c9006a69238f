(** Vincenty's inverse solution returns the azimuths and the length of a geodesic. *)
From Coq Require Import Reals Lra Psatz Lia Bool.
From Flocq Require Import Core.Raux.
From Coquelicot Require Import Coquelicot.
From Verif.Num Require Import FOps RFun XR XRLemmas.
From Verif.Model Require Import Fp Quantities Complex Cs Ellipsoid Geodesics.
From Verif.Spec Require Import Angles Axes Shape Frames Sphere Geodesic Maps.
From Verif.Proofs Require Import AnglesX EllX SphereG SphereN GeoG GeoV GeoVD GeoI GeoIS GeoEM Bessel BesselP GeoAcc VincAcc VincDir VincInv.
Local Open Scope R_scope.

(** the reduced latitude is near the latitude *)
Lemma vbe_near a b p : 0 < b <= a -> - (PI / 2) < p < PI / 2 -> 99 * a <= 100 * b ->
  (cos (vbe a b p) - cos p) * (cos (vbe a b p) - cos p) + (sin (vbe a b p) - sin p) * (sin (vbe a b p) - sin p) <= 2 / 10000.
Proof.
  intros Hab Hp Hf. pose proof (cos_vbe_pos a b p) as CB. pose proof (cos_nz p Hp) as CP. set (q := vbe a b p) in *.
  assert (T : sin q = b / a * (sin p / cos p) * cos q) by (unfold q; rewrite sin_vbe, cos_vbe; unfold tan; reflexivity).
  pose proof (sc p) as S1. pose proof (sc q) as S2.
  assert (C : 0 <= cos (p - q)).
  { rewrite cos_minus, T. replace (_ + _) with (cos q * (cos p + b / a * (sin p * sin p / cos p))) by (field; lra). apply Rmult_le_pos; [lra|]. apply Rplus_le_le_0_compat; [lra|]. apply Rmult_le_pos; [apply Rdiv_le_0_compat; lra|]. apply Rdiv_le_0_compat; [apply Rle_0_sqr|lra]. }
  assert (D : Rabs (sin (p - q)) <= / 100).
  { rewrite sin_minus, T. replace (_ - _) with ((a - b) / a * (sin p * cos q)) by (field; lra). rewrite Rabs_mult. pose proof (f_bound a b Hab Hf) as F. rewrite (Rabs_right ((a - b) / a)) by lra.
    assert (Rabs (sin p * cos q) <= 1) by (apply Rabs_le; pose proof (SIN_bound p); pose proof (COS_bound q); nra). pose proof (Rabs_pos (sin p * cos q)). nra. }
  apply Rabs_le_inv in D. pose proof (sc (p - q)) as S3. pose proof (cos_minus p q) as CM. pose proof (COS_bound (p - q)).
  assert (sin (p - q) * sin (p - q) <= / 10000) by nra. assert (1 - cos (p - q) <= sin (p - q) * sin (p - q)) by nra.
  apply (Rle_trans _ (2 - 2 * cos (p - q))); [rewrite CM|]; lra.
Qed.
Lemma cs2 x y u v k : 0 <= k -> x * x + y * y <= k * k -> u * u + v * v <= 1 -> Rabs (x * u + y * v) <= k.
Proof.
  intros K H1 H2. rewrite <- (Rabs_right k) by lra. apply Rsqr_le_abs_0. unfold Rsqr.
  assert (0 <= (x * v - y * u) * (x * v - y * u)) by apply Rle_0_sqr. assert ((x * x + y * y) * (u * u + v * v) <= k * k * 1) by (apply Rmult_le_compat; nra). nra.
Qed.
Lemma ics_near b1 b2 p1 p2 L : (cos b1 - cos p1) * (cos b1 - cos p1) + (sin b1 - sin p1) * (sin b1 - sin p1) <= 2 / 10000 ->
  (cos b2 - cos p2) * (cos b2 - cos p2) + (sin b2 - sin p2) * (sin b2 - sin p2) <= 2 / 10000 -> Rabs (ics b1 b2 L - ics p1 p2 L) <= 3 / 100.
Proof.
  intros H1 H2. assert (K : 2 / 10000 <= 15 / 1000 * (15 / 1000)) by lra. pose proof (sc b2). pose proof (sc p1). pose proof (sc L) as SL.
  assert (A : Rabs ((cos b1 - cos p1) * (cos b2 * cos L) + (sin b1 - sin p1) * sin b2) <= 15 / 1000) by (apply cs2; [lra|lra|]; assert (cos L * cos L <= 1) by nra; assert (cos b2 * cos b2 * (cos L * cos L) <= cos b2 * cos b2 * 1) by (apply Rmult_le_compat_l; [apply Rle_0_sqr|assumption]); nra).
  assert (B : Rabs ((cos b2 - cos p2) * (cos p1 * cos L) + (sin b2 - sin p2) * sin p1) <= 15 / 1000) by (apply cs2; [lra|lra|]; assert (cos L * cos L <= 1) by nra; assert (cos p1 * cos p1 * (cos L * cos L) <= cos p1 * cos p1 * 1) by (apply Rmult_le_compat_l; [apply Rle_0_sqr|assumption]); nra).
  replace (ics b1 b2 L - ics p1 p2 L) with ((cos b1 - cos p1) * (cos b2 * cos L) + (sin b1 - sin p1) * sin b2 + ((cos b2 - cos p2) * (cos p1 * cos L) + (sin b2 - sin p2) * sin p1)) by (unfold ics; ring).
  eapply Rle_trans; [apply Rabs_triang|]. lra.
Qed.
Lemma vlat_end a b b1 p al sg : 0 < b <= a -> - (PI / 2) < p < PI / 2 -> qz b1 al sg = sin (vbe a b p) -> end_cos b1 al sg = cos (vbe a b p) -> vlat a b b1 al sg = p.
Proof.
  intros Hab Hp Z C. pose proof (cos_vbe_pos a b p) as CB. transitivity (vlat a b (vbe a b p) al 0); [|apply vlat_start_ab; assumption]. unfold vlat. rewrite Z, C, end_cos_0 by exact CB. unfold qz. rewrite sin_0, cos_0. f_equal. ring.
Qed.
Section G.
Context (b1 b2 y : R) (N : iss b1 b2 y <> 0).
Notation al := (iaz1 b1 b2 y).
Lemma lam_dlon f L : Rlam f b1 b2 L y = L + Rdlon f (1 - sa b1 al * sa b1 al) (sa b1 al) (isg b1 b2 y) (arc1 b1 al).
Proof.
  unfold Rlam, Rdlon. rewrite <- g_iq, g_sa by exact N. destruct (isg_spec b1 b2 y) as [-> ->]. destruct (Req_bool_spec (iq b1 b2 y) 0) as [Z|Z].
  - rewrite Z. unfold RC. field.
  - rewrite <- g_icm by assumption. ring.
Qed.
Lemma dist_len b ep : Rdist b ep (iq b1 b2 y) (isg b1 b2 y) (icm b1 b2 y) =
  b * (RA ((1 - sa b1 al * sa b1 al) * ep) * (isg b1 b2 y - Rdelta (RB ((1 - sa b1 al * sa b1 al) * ep)) (sin (isg b1 b2 y)) (cos (isg b1 b2 y)) (cos (2 * arc1 b1 al + isg b1 b2 y)))).
Proof.
  unfold Rdist. rewrite <- g_iq by exact N. destruct (Req_bool_spec (iq b1 b2 y) 0) as [Z|Z].
  - rewrite Z, Rmult_0_l. unfold Rdelta. replace (RB 0) with 0 by (unfold RB; field). replace (RA 0) with 1 by (unfold RA; field). field.
  - rewrite <- g_icm by assumption. ring.
Qed.
End G.
Lemma Rdist_scale b ep q sg c : Rdist b ep q sg c = b * Rdist 1 ep q sg c.
Proof. unfold Rdist. destruct (Req_bool _ _); ring. Qed.
Lemma vinv_accuracy E a b l1 p1 l2 p2 : shape E a b -> 99 * a <= 100 * b -> - (PI / 2) < p1 < PI / 2 -> - (PI / 2) < p2 < PI / 2 ->
  position l1 p1 <> position l2 p2 -> - (17 / 20) <= pdot (position l1 p1) (position l2 p2) -> exists al1 al2 s,
  vincenty_inverse E (Fin l1, Fin p1) (Fin l2, Fin p2) = Ok (mkGeodesic (Fin l1, Fin p1) (Fin al1) (Fin l2, Fin p2) (Fin al2) (Fin s)) /\
  0 < s /\ - PI < al1 <= PI /\ - PI < al2 <= PI /\ geodesic_within a b l1 p1 al1 s l2 p2 al2 (vincenty_error a b s).
Proof.
  intros HE Hf H1 H2 HN HP. assert (Hab : 0 < b <= a) by apply HE. pose proof (f_bound a b Hab Hf) as Bf. pose proof (ep2_bound a b Hab Hf) as Be. rewrite (vinv_fin E a b HE) by assumption.
  set (L := Rnorm (l2 - l1)). set (b1 := vbe a b p1). set (b2 := vbe a b p2). set (f := (a - b) / a) in *. set (ep := (a * a - b * b) / (b * b)) in *.
  destruct (Rnorm_spec (l2 - l1)) as [NR NS]. fold L in NR, NS.
  assert (R1 : - (PI / 2) < b1 < PI / 2) by (unfold b1, vbe; apply atan_bound'). assert (R2 : - (PI / 2) < b2 < PI / 2) by (unfold b2, vbe; apply atan_bound').
  assert (HB : b1 = b2 -> L <> 0).
  { intros EB Z. apply HN. assert (EP : p1 = p2).
    { destruct (Rtotal_order p1 p2) as [T|[T|T]]; [|exact T|]; [pose proof (vbe_lt E a b HE p1 p2 H1 H2 T)|pose proof (vbe_lt E a b HE p2 p1 H2 H1 T)]; unfold b1, b2 in EB; lra. }
    rewrite EP. apply position_same. replace l1 with (0 + l1) by ring. replace l2 with ((l2 - l1) + l1) by ring. apply same_angle_add; [|apply same_angle_refl]. rewrite <- Z. exact NS. }
  assert (HI : - (886 / 1000) <= ics b1 b2 L).
  { pose proof (ics_near b1 b2 p1 p2 L (vbe_near a b p1 Hab H1 Hf) (vbe_near a b p2 Hab H2 Hf)) as D. apply Rabs_le_inv in D. unfold L in D at 2 4. rewrite ics_dot in D. lra. }
  destruct (loop_settles_all b1 b2 L f ep 0 R1 R2 ltac:(lra) HB HI Bf Be) as (x & y & c & -> & NY & EY & DL & DD & DP).
  set (s := Rdist b ep (iq b1 b2 x) (isg b1 b2 x) c). exists (Rnorm (iaz1 b1 b2 y)), (Rnorm (iaz2 b1 b2 y)), s. split; [reflexivity|].
  split; [unfold s; rewrite Rdist_scale; apply Rmult_lt_0_compat; lra|]. split; [apply Rnorm_spec|]. split; [apply Rnorm_spec|].
  set (al := iaz1 b1 b2 y). set (sg := isg b1 b2 y). pose proof (cos_vbe_pos a b p2) as CB2. fold b2 in CB2.
  assert (HD : heading l1 p1 (Rnorm al) = heading l1 p1 al) by (apply heading_same; [apply same_angle_refl|apply Rnorm_spec]).
  unfold geodesic_within, leaves. rewrite HD. fold (leaves a b l1 p1 al). fold (geodesic_within a b l1 p1 al s l2 p2 (Rnorm (iaz2 b1 b2 y)) (vincenty_error a b s)).
  assert (P13 : 0 < / 10 ^ 13) by (apply Rinv_0_lt_compat, pow_lt; lra).
  assert (LEN : Rabs (blen a b (ca0 b1 al) (arc1 b1 al) sg - s) <= b * (((1 - sa b1 al * sa b1 al) * ep) ^ 4 / 5000 + ((1 - sa b1 al * sa b1 al) * ep) ^ 5 / 20 * Rabs sg + 14 * / 10 ^ 13)).
  { pose proof (vlen a b b1 al Hab Hf sg) as K. fold ep in K. pose proof (dist_len b1 b2 y NY b ep) as Q. fold al sg in Q. rewrite <- Q in K.
    replace (_ - s) with (blen a b (ca0 b1 al) (arc1 b1 al) sg - Rdist b ep (iq b1 b2 y) sg (icm b1 b2 y) + b * (Rdist 1 ep (iq b1 b2 y) sg (icm b1 b2 y) - Rdist 1 ep (iq b1 b2 x) (isg b1 b2 x) c)) by (unfold s; rewrite (Rdist_scale b ep (iq b1 b2 y)), (Rdist_scale b ep (iq b1 b2 x)); ring).
    eapply Rle_trans; [apply Rabs_triang|]. rewrite (Rmult_plus_distr_l b (_ + _)). apply Rplus_le_compat; [exact K|]. rewrite Rabs_mult, (Rabs_right b) by lra. apply Rmult_le_compat_l; [lra|exact DD]. }
  assert (LON : Rabs (y - L - bth a b (sa b1 al) (ca0 b1 al) (arc1 b1 al) sg) <= f ^ 4 * (Rabs sg / 20 + / 16) + 52 / 10 * f ^ 5 * Rabs sg + 3 * / 10 ^ 13).
  { pose proof (vlon a b b1 al Hab Hf sg) as K. fold f in K. pose proof (lam_dlon b1 b2 y NY f L) as Q. fold al sg in Q.
    replace (y - L - _) with (Rdlon f (1 - sa b1 al * sa b1 al) (sa b1 al) sg (arc1 b1 al) - bth a b (sa b1 al) (ca0 b1 al) (arc1 b1 al) sg + (Rlam f b1 b2 L x - Rlam f b1 b2 L y)) by (rewrite Q, <- EY; ring).
    eapply Rle_trans; [apply Rabs_triang|]. apply Rplus_le_compat; [exact K|]. rewrite Rabs_minus_sym. exact DL. }
  assert (VL : vlat a b b1 al sg = p2) by (apply vlat_end; [exact Hab|exact H2|apply g_qz|apply g_end_cos; fold b2; lra]).
  rewrite <- VL. eapply within_weaken; [exact Hab| |apply (within a b p1 al l1 sg s (y - L) _ _ l2 _ Hab H1 LEN LON)].
  - apply (vinc_total a b b1 al sg s (14 * / 10 ^ 13) (3 * / 10 ^ 13) Hab Hf ltac:(lra) ltac:(lra) LEN).
  - fold b1. replace l2 with (l1 + y - y + (l2 - l1)) by ring. replace (l1 + end_lon b1 al sg - (y - L)) with (l1 + end_lon b1 al sg - y + L) by ring.
    apply same_angle_add; [|apply same_angle_sym; exact NS]. unfold Rminus. apply same_angle_add; [|apply same_angle_refl]. apply same_angle_add; [apply same_angle_refl|]. apply same_angle_sym. apply g_end_lon; assumption.
  - fold b1. unfold al, sg. rewrite g_end_az by assumption. apply Rnorm_spec.
Qed.
