(** Property C62: transverse Mercator and UTM in binary64.

    [transverse_map] and [transverse64] are in Spec/Transverse64.v, [conformal_at] in Spec/Conformal.v,
    [earth64] and [val64] in Spec/Binary64.v, [accurate] in Spec/Accurate.v. *)
From Coq Require Import ZArith Reals.
From Flocq Require Import Core IEEE754.BinarySingleNaN.
From Verif.Num Require Import FOps F64.
From Verif.Model Require Import Fp Quantities Cs Ellipsoid Projections.
From Verif.Spec Require Import Shape Maps Accurate Binary64 Transverse64.
From Verif.Proofs Require Import LibmOk TMFwdP.
Local Open Scope R_scope.

(** ** C62 Transverse Mercator coordinates in binary64 are right to a micrometre *)
Theorem C62_transverse_mercator : forall lm, accurate lm -> forall (E : Ellipsoid f64) a b, earth64 E a b ->
  forall (lon0 lat0 k0 fe fn : f64) m p k e n, val64 lon0 m -> val64 lat0 p -> val64 k0 k -> val64 fe e -> val64 fn n ->
  Rabs m <= 4 -> Rabs p <= 84 * PI / 180 -> 9 / 10 <= k <= 11 / 10 -> Rabs e <= 100000000 -> Rabs n <= 100000000 ->
  exists east north, transverse_map a b m p k e n east north /\
    transverse64 lm (applied_to (ops := F64ops lm) (STransverseMercator lon0 lat0 k0 fe fn) E) m east north.
Proof. exact c62_tm. Qed.
Print Assumptions C62_transverse_mercator.

(** The meridian of zone z is 6 z - 180 degrees (not the standard one: see C36). *)
Theorem C62_utm : forall lm, accurate lm -> forall (E : Ellipsoid f64) a b, earth64 E a b -> forall z, (1 <= z <= 60)%Z ->
  exists lon0 k0, (exists k : Z, Rabs (lon0 - ((6 * IZR z - 180) * (PI / 180) + IZR k * (2 * PI))) <= / 10 ^ 14) /\
  Rabs (k0 - 0.9996) <= / 10 ^ 15 /\
  (exists east north, transverse_map a b lon0 0 k0 500000 0 east north /\
    transverse64 lm (applied_to (ops := F64ops lm) (SUTMNorth z) E) lon0 east north) /\
  (exists east north, transverse_map a b lon0 0 k0 500000 10000000 east north /\
    transverse64 lm (applied_to (ops := F64ops lm) (SUTMSouth z) E) lon0 east north).
Proof. exact c62_utm. Qed.
Print Assumptions C62_utm.

(** WGS 84, central meridian Greenwich, origin on the equator, scale 1, false easting 500 km; longitude 0.5, latitude 1 radian.  Zone 33. *)
Example C62_ex : accurate libm_ex /\ (exists a b, earth64 (d_ellipsoid (DATUM_WGS84 (ops := F64ops libm_ex))) a b) /\
  val64 (f64_ofZ 0) 0 /\ val64 (f64_ofZ 1) 1 /\ val64 (f64_ofZ 500000) 500000 /\ val64 (f64_of 1 (-1)) 0.5 /\
  Rabs 0.5 <= 4 /\ Rabs 1 <= 84 * PI / 180 /\ 9 / 10 <= 1 <= 11 / 10 /\ Rabs 500000 <= 100000000 /\ cos (PI / 4) <= cos (0.5 - 0) /\ (1 <= 33 <= 60)%Z.
Proof. exact c62_ex. Qed.
