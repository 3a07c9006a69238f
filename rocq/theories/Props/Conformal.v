(** Property C55: the transverse Mercator projection of an ellipsoid as a map, in exact arithmetic.

    [conformal_at] and [meridian_arc] are in Spec/Conformal.v; [meridian] and [nonpolar] in Spec/Maps.v,
    [third_flattening] in Spec/Krueger.v, [shape] in Spec/Shape.v. *)
From Coq Require Import String Reals Lra Psatz ZArith List Bool.
From Verif.Num Require Import FOps RFun XR XRLemmas.
From Verif.Model Require Import Fp Quantities Complex Cs Ellipsoid Geodesics Projections Crs Geometry.
From Verif.Spec Require Import Angles Axes Shape Frames Sphere Maps Krueger Conformal.
From Verif.Proofs Require Import ConfP.
Import ListNotations.
Local Open Scope R_scope.

(** ** C55 Transverse Mercator is conformal, with scale k0 on the central meridian *)

(** Less than 90 degrees from the central meridian, the poles excepted.  Flattening at most 1/100. *)
Theorem C55_conformal : forall E a b lon0 lat0 k0 fe fn, shape E a b -> 99 * a <= 100 * b -> latitude lat0 -> 0 < k0 ->
  let P := applied_to (STransverseMercator (Fin lon0) (Fin lat0) (Fin k0) (Fin fe) (Fin fn)) E in
  exists x z east north, meridian a b x z /\ forall l p, nonpolar p -> 0 < cos (l - lon0) ->
  (forall h, proj P (llh3 l p h) = Ok (enh (east l p, north l p, h))) /\
  exists s g, 0 <= s /\ - PI < g <= PI /\ conformal_at x z east north l p s g /\
  (/ 2 <= cos (l - lon0) * cos (l - lon0) -> 0 < s) /\
  (same_angle l lon0 -> g = 0 /\ Rabs (s - k0) <= 25 * third_flattening a b ^ 5 * k0).
Proof. exact c55_conformal. Qed.
Print Assumptions C55_conformal.

(** Northings on the central meridian are the lengths of the meridian, times k0. *)
Theorem C55_meridian_distance : forall E a b lon0 lat0 k0 fe fn x z D, shape E a b -> 99 * a <= 100 * b -> latitude lat0 -> 0 < k0 ->
  meridian a b x z -> meridian_arc x z D ->
  let P := applied_to (STransverseMercator (Fin lon0) (Fin lat0) (Fin k0) (Fin fe) (Fin fn)) E in
  exists north, (forall l p h, nonpolar p -> same_angle l lon0 -> proj P (llh3 l p h) = Ok (enh (fe, north p, h))) /\
  forall p q, nonpolar p -> nonpolar q ->
  Rabs (north q - north p - k0 * (D q - D p)) <= 25 * third_flattening a b ^ 5 * k0 * Rabs (D q - D p).
Proof. exact c55_meridian_distance. Qed.
Print Assumptions C55_meridian_distance.

(** On WGS84 that is less than four parts in 10^13: four micrometres from the equator to the pole. *)
Theorem C55_wgs84 : forall a b, shape WGS84 a b -> 99 * a <= 100 * b /\ 25 * third_flattening a b ^ 5 <= 4 / 10 ^ 13.
Proof. exact c55_wgs84. Qed.
Print Assumptions C55_wgs84.

(** WGS84, central meridian 9 degrees east, scale 0.9996, at 48 degrees north and 12 degrees east; the meridian has an arc length. *)
Example C55_ex : (exists a b, shape WGS84 a b /\ 99 * a <= 100 * b /\ b < a) /\ latitude 0 /\ 0 < 0.9996 /\ nonpolar (48 * (PI / 180)) /\
  0 < cos (12 * (PI / 180) - 9 * (PI / 180)) /\ / 2 <= cos (12 * (PI / 180) - 9 * (PI / 180)) * cos (12 * (PI / 180) - 9 * (PI / 180)) /\
  (exists a b x z D, shape WGS84 a b /\ meridian a b x z /\ meridian_arc x z D).
Proof. exact c55_ex. Qed.
