(** Property C61: Web Mercator and Mercator in binary64.

    [projects64], [unprojects64], [round_trips64], [conformal_north] and [sphere_north] are in
    Spec/Maps64.v, [scale_at] in Spec/Maps.v, [earth64] in Spec/Binary64.v, [accurate] in Spec/Accurate.v. *)
From Coq Require Import Reals.
From Flocq Require Import Core IEEE754.BinarySingleNaN.
From Verif.Num Require Import FOps F64.
From Verif.Model Require Import Fp Quantities Cs Ellipsoid Projections.
From Verif.Spec Require Import Shape Maps Accurate Binary64 Maps64.
From Verif.Proofs Require Import LibmOk MercP.
Local Open Scope R_scope.

(** ** C61 Mercator maps in binary64 are right to a micrometre *)
Theorem C61_web_mercator : forall lm, accurate lm -> forall (E : Ellipsoid f64) a b, earth64 E a b ->
  forall (lon0 fe fn : f64) m e n, val64 lon0 m -> val64 fe e -> val64 fn n -> Rabs m <= 4 -> Rabs e <= 100000000 -> Rabs n <= 100000000 ->
  forall lat0, let P := applied_to (ops := F64ops lm) (SWebMercator lon0 lat0 fe fn) E in
  exists north, sphere_north a n north /\ projects64 lm P m e a north /\
    unprojects64 lm P m e n a north (3 / 10 ^ 14) /\ round_trips64 lm P (5 / 10 ^ 13).
Proof. exact c61_web. Qed.
Print Assumptions C61_web_mercator.

Theorem C61_mercator_1sp : forall lm, accurate lm -> forall (E : Ellipsoid f64) a b, earth64 E a b ->
  forall (lon0 fe fn : f64) m e n, val64 lon0 m -> val64 fe e -> val64 fn n -> Rabs m <= 4 -> Rabs e <= 100000000 -> Rabs n <= 100000000 ->
  forall (k0 : f64) k, val64 k0 k -> / 2 <= k <= 2 ->
  let P := applied_to (ops := F64ops lm) (SMercator1SP lon0 k0 fe fn) E in let e2 := (a - b) * (a + b) / (a * a) in
  exists c north, scale_at a b c 0 k /\ conformal_north a b n c north /\ projects64 lm P m e c north /\
    unprojects64 lm P m e n c north (3 / 10 ^ 14 + e2 ^ 5) /\ round_trips64 lm P (5 / 10 ^ 13 + e2 ^ 5).
Proof. exact c61_1sp. Qed.
Print Assumptions C61_mercator_1sp.

Theorem C61_mercator_2sp : forall lm, accurate lm -> forall (E : Ellipsoid f64) a b, earth64 E a b ->
  forall (lon0 fe fn : f64) m e n, val64 lon0 m -> val64 fe e -> val64 fn n -> Rabs m <= 4 -> Rabs e <= 100000000 -> Rabs n <= 100000000 ->
  forall (lat0 : f64) p, val64 lat0 p -> Rabs p <= PI / 3 ->
  let P := applied_to (ops := F64ops lm) (SMercator2SP lon0 lat0 fe fn) E in let e2 := (a - b) * (a + b) / (a * a) in
  exists c north, scale_at a b c p 1 /\ conformal_north a b n c north /\ projects64 lm P m e c north /\
    unprojects64 lm P m e n c north (3 / 10 ^ 14 + e2 ^ 5) /\ round_trips64 lm P (5 / 10 ^ 13 + e2 ^ 5).
Proof. exact c61_2sp. Qed.
Print Assumptions C61_mercator_2sp.

(** WGS 84, origin 2 radians east, false easting and northing 500 km, scale 1 or true at 0.5 radians; latitude 1 radian. *)
Example C61_ex : accurate libm_ex /\ (exists a b, earth64 (d_ellipsoid (DATUM_WGS84 (ops := F64ops libm_ex))) a b) /\
  val64 (f64_ofZ 2) 2 /\ Rabs 2 <= 4 /\ val64 (f64_ofZ 500000) 500000 /\ Rabs 500000 <= 100000000 /\
  val64 (f64_ofZ 1) 1 /\ / 2 <= 1 <= 2 /\ val64 (f64_of 1 (-1)) 0.5 /\ Rabs 0.5 <= PI / 3 /\ Rabs 1 <= 89 * PI / 180.
Proof. exact c61_ex. Qed.
