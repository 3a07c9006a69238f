(** Property C56: transverse Mercator there and back again on an ellipsoid, in exact arithmetic.

    [reach] is in Spec/Reach.v, [position] in Spec/Sphere.v, [edist] in Spec/Frames.v, [nonpolar] in Spec/Maps.v;
    [kr_radius], [third_flattening] and [eccentricity_squared] in Spec/Krueger.v, [shape] in Spec/Shape.v. *)
From Coq Require Import String Reals Lra Psatz ZArith List Bool.
From Verif.Num Require Import FOps RFun XR XRLemmas.
From Verif.Model Require Import Fp Quantities Complex Cs Ellipsoid Geodesics Projections Crs Geometry.
From Verif.Spec Require Import Angles Axes Shape Frames Sphere Maps Krueger Reach.
From Verif.Proofs Require Import TripP.
Import ListNotations.
Local Open Scope R_scope.

(** ** C56 Transverse Mercator and its inverse undo each other on an ellipsoid *)

(** From the ellipsoid to the map and back.  [position] is the direction of the vertical; the height comes back unchanged. *)
Theorem C56_position : forall E a b lon0 lat0 k0 fe fn c w k, shape E a b -> 99 * a <= 100 * b -> latitude lat0 -> 0 < k0 -> reach c w k ->
  let P := applied_to (STransverseMercator (Fin lon0) (Fin lat0) (Fin k0) (Fin fe) (Fin fn)) E in
  let e2 := eccentricity_squared a b in
  forall l p h, nonpolar p -> 0 < cos (l - lon0) -> c <= cos (l - lon0) * cos (l - lon0) ->
  exists x y N l' p', proj P (llh3 l p h) = Ok (enh (x, y, h)) /\ - PI <= l' <= PI /\ nonpolar p' /\
  (forall fuel, (N <= fuel)%nat -> unproj fuel P (enh (x, y, h)) = Ret (Ok (llh3 l' p' h))) /\
  edist (position l p) (position l' p') <= k * third_flattening a b ^ 5 + e2 / (1 - e2) * / 10 ^ 12.
Proof. exact c56_position. Qed.
Print Assumptions C56_position.

(** From the map to the ellipsoid and back, for northings strictly between those of the two poles. *)
Theorem C56_map : forall E a b lon0 lat0 k0 fe fn c w k, shape E a b -> 99 * a <= 100 * b -> latitude lat0 -> 0 < k0 -> reach c w k ->
  let P := applied_to (STransverseMercator (Fin lon0) (Fin lat0) (Fin k0) (Fin fe) (Fin fn)) E in
  let e2 := eccentricity_squared a b in
  let r := k0 * kr_radius a (third_flattening a b) in
  forall south north x y h, proj P (llh3 lon0 (- (PI / 2)) 0) = Ok (enh (fe, south, 0)) -> proj P (llh3 lon0 (PI / 2) 0) = Ok (enh (fe, north, 0)) ->
  south < y < north -> Rabs (x - fe) <= w * r ->
  exists N l p x' y', - PI <= l <= PI /\ nonpolar p /\
  (forall fuel, (N <= fuel)%nat -> unproj fuel P (enh (x, y, h)) = Ret (Ok (llh3 l p h))) /\
  proj P (llh3 l p h) = Ok (enh (x', y', h)) /\
  edist (x, y, h) (x', y', h) <= (k * third_flattening a b ^ 5 + 3 * (e2 / (1 - e2) * / 10 ^ 12)) * r.
Proof. exact c56_map. Qed.
Print Assumptions C56_map.

(** On WGS84 the relative error is below 3.4e-11 (0.22 mm) within 45 degrees, 2.5e-12 (16 micrometres) within 30 degrees, 4e-13 (2.6 micrometres) within 5 degrees. *)
Theorem C56_wgs84 : forall a b, shape WGS84 a b -> let n := third_flattening a b in let e2 := eccentricity_squared a b in 99 * a <= 100 * b /\
  2500 * n ^ 5 + 3 * (e2 / (1 - e2) * / 10 ^ 12) <= 34 / 10 ^ 12 /\
  180 * n ^ 5 + 3 * (e2 / (1 - e2) * / 10 ^ 12) <= 25 / 10 ^ 13 /\
  27 * n ^ 5 + 3 * (e2 / (1 - e2) * / 10 ^ 12) <= 4 / 10 ^ 13.
Proof. exact c56_wgs84. Qed.
Print Assumptions C56_wgs84.

(** WGS84, central meridian 9 degrees east, scale 0.9996, false easting 500 km: 48 degrees north and 12 degrees east; easting 720 km, northing 5300 km. *)
Example C56_ex : let P := applied_to (STransverseMercator (Fin (9 * (PI / 180))) (Fin 0) (Fin 0.9996) (Fin 500000) (Fin 0)) WGS84 in
  (exists a b, shape WGS84 a b /\ 99 * a <= 100 * b /\ b < a /\ Rabs (720000 - 500000) <= / 11 * (0.9996 * kr_radius a (third_flattening a b))) /\
  nonpolar (48 * (PI / 180)) /\ 0 < cos (12 * (PI / 180) - 9 * (PI / 180)) /\ 100 / 101 <= cos (12 * (PI / 180) - 9 * (PI / 180)) * cos (12 * (PI / 180) - 9 * (PI / 180)) /\
  exists south north, proj P (llh3 (9 * (PI / 180)) (- (PI / 2)) 0) = Ok (enh (500000, south, 0)) /\ proj P (llh3 (9 * (PI / 180)) (PI / 2) 0) = Ok (enh (500000, north, 0)) /\ south < 5300000 < north.
Proof. exact c56_ex. Qed.
