(** Karney's direct solution on the sphere. *)
From Coq Require Import Reals Lra Psatz ZArith List Bool Lia.
From Flocq Require Import Core.Raux.
From Verif.Num Require Import FOps RFun XR XRLemmas.
From Verif.Model Require Import Fp Quantities Complex Cs Ellipsoid Geodesics.
From Verif.Spec Require Import Angles Axes Shape Frames Sphere Series.
From Verif.Proofs Require Import AnglesX EllX MathX SphereG SphereN GeoG GeoV GeoVD GeoK.
Import ListNotations.
Local Open Scope R_scope.

Lemma keps0 : keps 0 = 0.
Proof. unfold keps. rewrite Rplus_0_r, sqrt_1. field. Qed.
Ltac psum := cbn [evals map polynomial sine_series Rsum length nth pow C1R CP1R C3R A3R PA1R Rterms].
Lemma kA10 : kA1 0 = 1.
Proof. unfold kA1, polynomial, PA1R. cbn [Rsum length nth pow]. field. Qed.
Lemma kI10 s : kI1 0 s = s.
Proof. unfold kI1, sine_series, evals, C1R, polynomial. cbn [map Rsum length nth pow]. ring. Qed.
Lemma kS0 t : kS 0 t = t.
Proof. unfold kS, evals, CP1R, polynomial. cbn [map Rsum length nth pow Rterms]. ring. Qed.

Lemma klat_fin a b p al t : 0 < b <= a -> 0 < end_cos (vbe a b p) al t ->
  klat a b p al (arc1 (vbe a b p) al + t) = Fin (vlat a b (vbe a b p) al t).
Proof.
  intros H C. unfold klat. cbv zeta. destruct (from_e_end (vbe a b p) al t) as (_ & -> & ->). set (be := vbe a b p) in *.
  destruct (lat_of_point (qz be al t) (end_cos be al t)) as [S K]; [lra|rewrite end_cos_z; ring|]. set (b2 := Ratan2 _ _) in *. xr.
  rewrite xtan_fin by lra. assert (0 < b / a) by (apply Rdiv_lt_0_compat; lra). rewrite xdiv_fin by lra. cbn [xatan xlift].
  unfold vlat. rewrite (Ratan2_pos (qz be al t)) by (apply Rmult_lt_0_compat; lra). rewrite lat_new_id by (pose proof (atan_bound' (tan b2 / (b / a))); lra).
  do 2 f_equal. unfold tan. rewrite S, K. field. lra.
Qed.

Section Sphere.
Context (E : Ellipsoid XR) (a : R) (HE : shape E a a).
Lemma kdir_sphere l p al s : - (PI / 2) < p < PI / 2 -> -1 < zcoord (travel (position l p) (heading l p al) (s / a)) < 1 ->
  exists l2 p2 al2, karney_direct E (Fin l, Fin p) (Fin al) (Fin s) = mkGeodesic (Fin l, Fin p) (Fin al) (Fin l2, Fin p2) (Fin al2) (Fin s) /\
    - PI <= l2 <= PI /\ - (PI / 2) <= p2 <= PI / 2 /\ - PI < al2 <= PI /\
    position l2 p2 = travel (position l p) (heading l p al) (s / a) /\ heading l2 p2 al2 = course (position l p) (heading l p al) (s / a).
Proof.
  intros Hp Q. rewrite travel_eq in Q. cbn [zcoord] in Q. pose proof (proj1 HE) as Ha. pose proof (cos_nz p Hp) as CP.
  assert (U : vu a a p al = 0) by (unfold vu; replace (a * a - a * a) with 0 by ring; unfold Rdiv; ring).
  assert (B : vbe a a p = p) by (unfold vbe; replace (a / a) with 1 by (field; lra); rewrite Rmult_1_l; apply atan_tan; lra).
  pose proof (kdir_fin E a a HE l p al s Hp) as D. rewrite U, keps0, kA10 in D. rewrite (D ltac:(lra)). clear D. unfold ktau. rewrite kI10, kS0, kA10, Rmult_1_l, B.
  set (t := s / a) in *. pose proof (end_cos_nz p al t Q) as P. unfold kout. cbv zeta. pose proof (klat_fin a a p al t Ha) as K. rewrite B in K |- *. rewrite (K P).
  replace ((a - a) / a) with 0 by (field; lra). rewrite !Rmult_0_l, !Rminus_0_r. destruct (from_e_end p al t) as (-> & _ & _).
  do 3 eexists. split; [reflexivity|]. destruct (Rwrap_spec (l + (node_lon p al (arc1 p al + t) - node_lon p al (arc1 p al)))) as (W1 & W2 & _).
  destruct (vlat_sphere a p al t) as [S C]; [lra|].
  assert (W3 : same_angle (Rwrap (l + (node_lon p al (arc1 p al + t) - node_lon p al (arc1 p al)))) (l + end_lon p al t)).
  { eapply same_angle_trans; [exact W2|]. apply same_angle_add; [apply same_angle_refl|]. now apply node_lon_diff. }
  split; [lra|]. split; [apply Ratan2_range_pos; replace (a / a) with 1 by (field; lra); lra|]. split; [apply Ratan2_bound|]. split.
  - rewrite (position_same _ _ _ W3). now apply arrival.
  - rewrite (heading_same _ _ _ _ _ W3 (same_angle_refl _)). now apply arrival_heading.
Qed.
End Sphere.
