(** Rapp's inverse solution on the ellipsoid: property C65. *)
From Coq Require Import String Reals Lra Psatz.
From Verif.Num Require Import FOps RFun XR XRLemmas.
From Verif.Model Require Import Fp Quantities Complex Cs Ellipsoid Geodesics.
From Verif.Spec Require Import Angles Axes Shape Frames Sphere Maps Geodesic Rapp.
From Verif.Proofs Require Import EllX AnglesX SphereG SphereN VincDir Wgs84 AccP RappP RappInvA.
Local Open Scope R_scope.

Lemma c65_rapp_inverse : forall E a b l1 p1 l2 p2, shape E a b -> 99 * a <= 100 * b -> nonpolar p1 -> nonpolar p2 ->
  position l1 p1 <> position l2 p2 -> - (17 / 20) <= pdot (position l1 p1) (position l2 p2) -> ~ same_angle (l2 - l1) PI ->
  exists al1 al2 s, solve_inverse Rapp E (Fin l1, Fin p1) (Fin l2, Fin p2)
  = Ret (Ok (mkGeodesic (Fin l1, Fin p1) (Fin al1) (Fin l2, Fin p2) (Fin al2) (Fin s))) /\
  0 < s /\ - PI < al1 <= PI /\ - PI < al2 <= PI /\
  ends_within a b l1 p1 al1 s l2 p2 (rapp_inverse_error a b s) /\
  (10000 <= s -> geodesic_within a b l1 p1 al1 s l2 p2 al2 (rapp_inverse_error a b s)).
Proof.
  intros E a b l1 p1 l2 p2 HE Hf H1 H2 N D O. destruct (rinv_accuracy E a b l1 p1 l2 p2 HE Hf H1 H2 N D O) as (x & y & s & R & K). exists x, y, s. split; [cbn [solve_inverse]; now rewrite R|exact K].
Qed.
Lemma wgs84_ierror a b s : shape WGS84 a b -> 0 <= s <= 20000000 -> rapp_inverse_error a b s <= 25 / 10 ^ 6.
Proof.
  intros S Hs. destruct (wgs84_shape a b S) as [-> ->]. unfold rapp_inverse_error. replace ((6378137 - _) / 6378137) with (/ (298257223563 / 1000000000)) by field. set (f := / _).
  assert (F0 : 0 < f <= / 298) by (unfold f; split; [apply Rinv_0_lt_compat; lra|apply Rinv_le_contravar; lra]).
  assert (F4 : 0 <= f ^ 4 <= / 298 ^ 4) by (split; [apply pow_le; lra|rewrite <- pow_inv; apply pow_incr; lra]). assert (F5 : 0 <= f ^ 5 <= / 298 ^ 5) by (split; [apply pow_le; lra|rewrite <- pow_inv; apply pow_incr; lra]).
  assert (K : s * (11 / 5 * f ^ 5) <= 20000000 * (11 / 5 * / 298 ^ 5)) by (apply Rmult_le_compat; lra). clearbody f. set (g4 := f ^ 4) in *. set (g5 := f ^ 5) in *. clearbody g4 g5. lra.
Qed.
Lemma c65_rapp_inverse_wgs84 : forall l1 p1 l2 p2, nonpolar p1 -> nonpolar p2 ->
  position l1 p1 <> position l2 p2 -> - (17 / 20) <= pdot (position l1 p1) (position l2 p2) -> ~ same_angle (l2 - l1) PI ->
  exists a b al1 al2 s, shape WGS84 a b /\ solve_inverse Rapp WGS84 (Fin l1, Fin p1) (Fin l2, Fin p2)
  = Ret (Ok (mkGeodesic (Fin l1, Fin p1) (Fin al1) (Fin l2, Fin p2) (Fin al2) (Fin s))) /\ 0 < s /\
  (s <= 20000000 -> ends_within a b l1 p1 al1 s l2 p2 (25 / 10 ^ 6)) /\
  (10000 <= s <= 20000000 -> geodesic_within a b l1 p1 al1 s l2 p2 al2 (25 / 10 ^ 6)).
Proof.
  intros l1 p1 l2 p2 H1 H2 N D O. destruct wgs84_has as (a & b & S & F). destruct (c65_rapp_inverse WGS84 a b l1 p1 l2 p2 S F H1 H2 N D O) as (x & y & s & R & S0 & _ & _ & K1 & K2).
  exists a, b, x, y, s. split; [exact S|]. split; [exact R|]. split; [exact S0|]. split; intros Hs; (assert (W : rapp_inverse_error a b s <= 25 / 10 ^ 6) by (apply wgs84_ierror; [exact S|lra])).
  - eapply ends_weaken; [exact W|exact K1].
  - eapply within_weaken; [apply S|exact W|apply K2; lra].
Qed.
Lemma c65_ex : nonpolar 0 /\ nonpolar (PI / 4) /\ position 0 0 <> position (PI / 2) (PI / 4) /\
  - (17 / 20) <= pdot (position 0 0) (position (PI / 2) (PI / 4)) /\ ~ same_angle (PI / 2 - 0) PI.
Proof.
  pose proof PI_RGT_0. split; [unfold nonpolar; lra|]. split; [unfold nonpolar; lra|]. split; [|split].
  - unfold position. rewrite cos_PI2, sin_PI2, cos_0, sin_0. intros E. injection E; intros; lra.
  - unfold position, pdot. rewrite cos_PI2, sin_PI2, cos_0, sin_0. lra.
  - intros K. apply same_angle_cos in K. rewrite Rminus_0_r, cos_PI2, cos_PI in K. lra.
Qed.
