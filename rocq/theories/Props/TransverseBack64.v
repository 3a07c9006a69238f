(** Property C63: transverse Mercator and UTM, back from the map, in binary64.

    [transverse_map], [transverse64_back] and [transverse64_trip] are in Spec/Transverse64.v, [reach] in
    Spec/Reach.v, [earth64] and [val64] in Spec/Binary64.v, [accurate] in Spec/Accurate.v. *)
From Coq Require Import ZArith Reals.
From Flocq Require Import Core IEEE754.BinarySingleNaN.
From Verif.Num Require Import FOps F64.
From Verif.Model Require Import Fp Quantities Cs Ellipsoid Projections.
From Verif.Spec Require Import Shape Maps Reach Accurate Binary64 Transverse64.
From Verif.Proofs Require Import LibmOk TMBackP.
Local Open Scope R_scope.

(** ** C63 Transverse Mercator coordinates lead back to where they came from in binary64 *)
Theorem C63_transverse_mercator : forall lm, accurate lm -> forall (E : Ellipsoid f64) a b, earth64 E a b ->
  forall (lon0 lat0 k0 fe fn : f64) m p k e n, val64 lon0 m -> val64 lat0 p -> val64 k0 k -> val64 fe e -> val64 fn n ->
  Rabs m <= 4 -> Rabs p <= 84 * PI / 180 -> 9 / 10 <= k <= 11 / 10 -> Rabs e <= 100000000 -> Rabs n <= 100000000 ->
  let P := applied_to (ops := F64ops lm) (STransverseMercator lon0 lat0 k0 fe fn) E in
  (exists east north, transverse_map a b m p k e n east north /\ transverse64_back lm P a b m k east north) /\
  transverse64_trip lm P a b m.
Proof. exact c63_tm. Qed.
Print Assumptions C63_transverse_mercator.

(** The meridian of zone z is 6 z - 180 degrees (not the standard one: see C36). *)
Theorem C63_utm : forall lm, accurate lm -> forall (E : Ellipsoid f64) a b, earth64 E a b -> forall z, (1 <= z <= 60)%Z ->
  exists lon0 k0, (exists k : Z, Rabs (lon0 - ((6 * IZR z - 180) * (PI / 180) + IZR k * (2 * PI))) <= / 10 ^ 14) /\
  Rabs (k0 - 0.9996) <= / 10 ^ 15 /\
  (let P := applied_to (ops := F64ops lm) (SUTMNorth z) E in
    (exists east north, transverse_map a b lon0 0 k0 500000 0 east north /\ transverse64_back lm P a b lon0 k0 east north) /\
    transverse64_trip lm P a b lon0) /\
  (let P := applied_to (ops := F64ops lm) (SUTMSouth z) E in
    (exists east north, transverse_map a b lon0 0 k0 500000 10000000 east north /\ transverse64_back lm P a b lon0 k0 east north) /\
    transverse64_trip lm P a b lon0).
Proof. exact c63_utm. Qed.
Print Assumptions C63_utm.

(** WGS 84, central meridian Greenwich, origin on the equator, scale 1, false easting 500 km; longitude 0.5, latitude 1 radian, within 30 degrees.  Zone 33. *)
Example C63_ex : accurate libm_ex /\ (exists a b, earth64 (d_ellipsoid (DATUM_WGS84 (ops := F64ops libm_ex))) a b) /\
  val64 (f64_ofZ 0) 0 /\ val64 (f64_ofZ 1) 1 /\ val64 (f64_ofZ 500000) 500000 /\ val64 (f64_of 1 (-1)) 0.5 /\
  Rabs 0.5 <= 4 /\ Rabs 1 <= 84 * PI / 180 /\ 9 / 10 <= 1 <= 11 / 10 /\ Rabs 500000 <= 100000000 /\ (1 <= 33 <= 60)%Z /\
  reach (3 / 4) (/ 2) 180 /\ 0 < cos (0.5 - 0) /\ 3 / 4 <= cos (0.5 - 0) * cos (0.5 - 0) /\ (7 <= 7)%nat.
Proof. exact c63_ex. Qed.
