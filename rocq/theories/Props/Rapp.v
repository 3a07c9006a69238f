(** Properties C64 and C65: Rapp's direct and inverse solutions on the ellipsoid, in exact arithmetic.

    [ends_within], [ends_off_axis], [rapp_error] and [rapp_inverse_error] are in Spec/Rapp.v; [leaves], [geodesic] and
    [geodesic_within] in
    Spec/Geodesic.v; [shape] in Spec/Shape.v, [nonpolar] in Spec/Maps.v. *)
From Coq Require Import String Reals Lra Psatz.
From Verif.Num Require Import FOps RFun XR XRLemmas.
From Verif.Model Require Import Fp Quantities Complex Cs Ellipsoid Geodesics.
From Verif.Spec Require Import Angles Axes Shape Frames Sphere Maps Geodesic Rapp.
From Verif.Proofs Require Import RappP RappIP.
Local Open Scope R_scope.

(** ** C64 Rapp's direct solution ends where the geodesic of the ellipsoid ends *)

(** Any distance, negative ones included; the flattening at most 1/100, the start not a pole, the end of the
    geodesic further from the polar axis than the error. *)
Theorem C64_rapp_direct : forall E a b l p al s, shape E a b -> 99 * a <= 100 * b -> nonpolar p ->
  ends_off_axis a b l p al s (rapp_error a b p s) -> exists l2 p2 al2,
  solve_direct Rapp E (Fin l, Fin p) (Fin al) (Fin s)
  = Ret (Ok (mkGeodesic (Fin l, Fin p) (Fin al) (Fin l2, Fin p2) (Fin al2) (Fin s))) /\
  - PI <= l2 <= PI /\ - (PI / 2) < p2 < PI / 2 /\ - PI < al2 <= PI /\
  ends_within a b l p al s l2 p2 (rapp_error a b p s).
Proof. exact c64_rapp_direct. Qed.
Print Assumptions C64_rapp_direct.

(** A start that does not head for a pole is enough, however long the way. *)
Theorem C64_rapp_direct_oblique : forall E a b l p al s, shape E a b -> 99 * a <= 100 * b -> nonpolar p ->
  rapp_error a b p s < a * cos p * Rabs (sin al) -> exists l2 p2 al2,
  solve_direct Rapp E (Fin l, Fin p) (Fin al) (Fin s)
  = Ret (Ok (mkGeodesic (Fin l, Fin p) (Fin al) (Fin l2, Fin p2) (Fin al2) (Fin s))) /\
  - PI <= l2 <= PI /\ - (PI / 2) < p2 < PI / 2 /\ - PI < al2 <= PI /\
  ends_within a b l p al s l2 p2 (rapp_error a b p s).
Proof. exact c64_rapp_direct_oblique. Qed.
Print Assumptions C64_rapp_direct_oblique.

(** On WGS84, up to half the circumference, from latitudes up to 80 degrees: 25 micrometres. *)
Theorem C64_rapp_direct_wgs84 : forall l p al s, nonpolar p -> / 6 <= cos p -> / 10 ^ 9 <= Rabs (sin al) -> Rabs s <= 20000000 ->
  exists a b l2 p2 al2, shape WGS84 a b /\ solve_direct Rapp WGS84 (Fin l, Fin p) (Fin al) (Fin s)
  = Ret (Ok (mkGeodesic (Fin l, Fin p) (Fin al) (Fin l2, Fin p2) (Fin al2) (Fin s))) /\
  ends_within a b l p al s l2 p2 (25 / 10 ^ 6).
Proof. exact c64_rapp_direct_wgs84. Qed.
Print Assumptions C64_rapp_direct_wgs84.

(** The hypotheses hold for WGS84 and a start at 45 degrees north with azimuth 60 degrees. *)
Example C64_ex : (exists a b, shape WGS84 a b /\ 99 * a <= 100 * b /\ b < a) /\ nonpolar (PI / 4) /\ / 6 <= cos (PI / 4) /\ / 10 ^ 9 <= Rabs (sin (PI / 3)).
Proof. exact c64_ex. Qed.

(** ** C65 Rapp's inverse solution ends, and gives the geodesic of the ellipsoid *)

(** Any two different points, unless one is near the antipode of the other (the cosine of the angle between them at least -17/20)
    or they are on opposite meridians, where C38 shows wrong azimuths. The geodesic of the length and the first azimuth
    returned ends at the second point; from 10 km on it arrives with the second azimuth returned. *)
Theorem C65_rapp_inverse : forall E a b l1 p1 l2 p2, shape E a b -> 99 * a <= 100 * b -> nonpolar p1 -> nonpolar p2 ->
  position l1 p1 <> position l2 p2 -> - (17 / 20) <= pdot (position l1 p1) (position l2 p2) -> ~ same_angle (l2 - l1) PI ->
  exists al1 al2 s, solve_inverse Rapp E (Fin l1, Fin p1) (Fin l2, Fin p2)
  = Ret (Ok (mkGeodesic (Fin l1, Fin p1) (Fin al1) (Fin l2, Fin p2) (Fin al2) (Fin s))) /\
  0 < s /\ - PI < al1 <= PI /\ - PI < al2 <= PI /\
  ends_within a b l1 p1 al1 s l2 p2 (rapp_inverse_error a b s) /\
  (10000 <= s -> geodesic_within a b l1 p1 al1 s l2 p2 al2 (rapp_inverse_error a b s)).
Proof. exact c65_rapp_inverse. Qed.
Print Assumptions C65_rapp_inverse.

(** On WGS84, for points no more than 20000 km apart along the geodesic found: 25 micrometres. *)
Theorem C65_rapp_inverse_wgs84 : forall l1 p1 l2 p2, nonpolar p1 -> nonpolar p2 ->
  position l1 p1 <> position l2 p2 -> - (17 / 20) <= pdot (position l1 p1) (position l2 p2) -> ~ same_angle (l2 - l1) PI ->
  exists a b al1 al2 s, shape WGS84 a b /\ solve_inverse Rapp WGS84 (Fin l1, Fin p1) (Fin l2, Fin p2)
  = Ret (Ok (mkGeodesic (Fin l1, Fin p1) (Fin al1) (Fin l2, Fin p2) (Fin al2) (Fin s))) /\ 0 < s /\
  (s <= 20000000 -> ends_within a b l1 p1 al1 s l2 p2 (25 / 10 ^ 6)) /\
  (10000 <= s <= 20000000 -> geodesic_within a b l1 p1 al1 s l2 p2 al2 (25 / 10 ^ 6)).
Proof. exact c65_rapp_inverse_wgs84. Qed.
Print Assumptions C65_rapp_inverse_wgs84.

(** From the equator to 45 degrees north, 90 degrees further east. *)
Example C65_ex : nonpolar 0 /\ nonpolar (PI / 4) /\ position 0 0 <> position (PI / 2) (PI / 4) /\
  - (17 / 20) <= pdot (position 0 0) (position (PI / 2) (PI / 4)) /\ ~ same_angle (PI / 2 - 0) PI.
Proof. exact c65_ex. Qed.
