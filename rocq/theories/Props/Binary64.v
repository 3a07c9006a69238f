(** Properties C57 and C58: accuracy in binary64.

    [accurate] (a C library right to 2^-50) is in Spec/Accurate.v, [earth64] and [within64] in Spec/Binary64.v,
    [geodetic_point] in Spec/Shape.v. *)
From Coq Require Import Reals Lra List.
From Flocq Require Import Core IEEE754.BinarySingleNaN.
From Verif.Num Require Import FOps RFun F64 F64Lemmas.
From Verif.Model Require Import Fp Quantities Cs Ellipsoid.
From Verif.Spec Require Import Axes Shape Accurate Binary64.
From Verif.Proofs Require Import LlhF LibmOk Bin64P.
Local Open Scope R_scope.

(** ** C57 Binary64 geocentric coordinates are right to 80 nanometres *)
Theorem C57_llh_to_xyz : forall lm, accurate lm -> forall (d : GeodeticDatum f64) a b, earth64 (d_ellipsoid d) a b ->
  forall m l p h (L P H : f64), val64 (pm_lon (d_pm d)) m -> val64 L l -> val64 P p -> val64 H h ->
  Rabs m <= 4 -> Rabs l <= 4 -> Rabs p <= 2 -> Rabs h <= 210000 ->
  exists Q, geodetic_point a b p (l + m) h Q /\ within64 (llh_to_xyz (ops := F64ops lm) d (mkLLH L P H)) (8 / 10 ^ 8) Q.
Proof. exact c57_llh_to_xyz. Qed.
Print Assumptions C57_llh_to_xyz.

(** Every predefined ellipsoid qualifies, SPHERE (with a radius one metre shorter at the poles) included. *)
Theorem C57_predefined : forall lm E, In E (ellipsoid_consts (ops := F64ops lm)) -> exists a b, earth64 E a b.
Proof. exact consts_earth64. Qed.
Print Assumptions C57_predefined.

(** A library that rounds correctly is accurate; Everest's summit on WGS84. *)
Example C57_ex : accurate libm_ex /\ (exists a b, earth64 (d_ellipsoid (DATUM_WGS84 (ops := F64ops libm_ex))) a b) /\
  val64 (pm_lon (d_pm (DATUM_WGS84 (ops := F64ops libm_ex)))) 0 /\
  val64 (f64_of 3 (-1)) 1.5 /\ val64 (f64_of 1 (-1)) 0.5 /\ val64 (f64_ofZ 8848) 8848 /\ Rabs 1.5 <= 4 /\ Rabs 0.5 <= 2 /\ Rabs 8848 <= 210000.
Proof. exact c57_ex. Qed.

(** ** C58 Binary64 geodetic coordinates denote a point 0.2 micrometres away at most *)
Theorem C58_xyz_to_llh : forall lm, accurate lm -> forall (d : GeodeticDatum f64) a b, earth64 (d_ellipsoid d) a b ->
  forall m X Y Z (x y z : f64), val64 (pm_lon (d_pm d)) m -> val64 x X -> val64 y Y -> val64 z Z ->
  Rabs m <= 4 -> 6200000 <= edist (X, Y, Z) (0, 0, 0) <= 6500000 ->
  let G := xyz_to_llh (ops := F64ops lm) d (mkXYZ x y z) in
  exists l p h Q, val64 (lon G) l /\ val64 (lat G) p /\ val64 (height G) h /\
  - PI <= l <= PI + / 2 ^ 47 /\ Rabs p <= PI / 2 /\ Rabs h <= 210000 /\
  geodetic_point a b p (l + m) h Q /\ edist (X, Y, Z) Q <= 2 / 10 ^ 7.
Proof. exact c58_xyz_to_llh. Qed.
Print Assumptions C58_xyz_to_llh.

(** There and back. *)
Theorem C58_xyz_to_llh_to_xyz : forall lm, accurate lm -> forall (d : GeodeticDatum f64) a b, earth64 (d_ellipsoid d) a b ->
  forall m X Y Z (x y z : f64), val64 (pm_lon (d_pm d)) m -> val64 x X -> val64 y Y -> val64 z Z ->
  Rabs m <= 4 -> 6200000 <= edist (X, Y, Z) (0, 0, 0) <= 6500000 ->
  within64 (llh_to_xyz (ops := F64ops lm) d (xyz_to_llh (ops := F64ops lm) d (mkXYZ x y z))) (28 / 10 ^ 8) (X, Y, Z).
Proof. exact c58_round_trip. Qed.
Print Assumptions C58_xyz_to_llh_to_xyz.

Theorem C58_llh_to_xyz_to_llh : forall lm, accurate lm -> forall (d : GeodeticDatum f64) a b, earth64 (d_ellipsoid d) a b ->
  forall m l p h (L P H : f64), val64 (pm_lon (d_pm d)) m -> val64 L l -> val64 P p -> val64 H h ->
  Rabs m <= 4 -> Rabs l <= 4 -> Rabs p <= 2 -> Rabs h <= 99999 ->
  let G := xyz_to_llh (ops := F64ops lm) d (llh_to_xyz (ops := F64ops lm) d (mkLLH L P H)) in
  exists l' p' h' Q Q', val64 (lon G) l' /\ val64 (lat G) p' /\ val64 (height G) h' /\
  geodetic_point a b p (l + m) h Q /\ geodetic_point a b p' (l' + m) h' Q' /\ edist Q Q' <= 28 / 10 ^ 8.
Proof. exact c58_back. Qed.
Print Assumptions C58_llh_to_xyz_to_llh.

(** A point 6403 km from the centre, and WGS84. *)
Example C58_ex : accurate libm_ex /\ (exists a b, earth64 (d_ellipsoid (DATUM_WGS84 (ops := F64ops libm_ex))) a b) /\
  val64 (pm_lon (d_pm (DATUM_WGS84 (ops := F64ops libm_ex)))) 0 /\
  val64 (f64_ofZ 4000000) 4000000 /\ val64 (f64_ofZ (-3000000)) (-3000000) /\ val64 (f64_ofZ 4000000) 4000000 /\
  6200000 <= edist (4000000, -3000000, 4000000) (0, 0, 0) <= 6500000.
Proof. exact c58_ex. Qed.
