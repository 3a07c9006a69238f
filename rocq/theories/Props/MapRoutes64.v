(** Property C66: routes to, from and between transverse Mercator and UTM reference systems in binary64.

    [tm_routes64], [tm_between64] and what they are made of are in Spec/MapRoutes64.v, [source64], [target64]
    and [moves64] in Spec/Routes64.v, [transverse_map] in Spec/Transverse64.v, [reach] in Spec/Reach.v,
    [earth64] and [val64] in Spec/Binary64.v, [accurate] in Spec/Accurate.v. *)
From Coq Require Import ZArith Reals List String.
From Flocq Require Import Core IEEE754.BinarySingleNaN.
From Verif.Num Require Import FOps F64.
From Verif.Model Require Import Fp Quantities Cs Ellipsoid Projections Crs.
From Verif.Spec Require Import Shape Maps Reach Accurate Binary64 Routes64 Transverse64 MapRoutes64.
From Verif.Proofs Require Import LibmOk MapRouteB.
Import ListNotations.
Local Open Scope string_scope.
Local Open Scope R_scope.

(** ** C66 Coordinates transformed to and from a transverse Mercator map name the same place in binary64 *)
Theorem C66_transverse_mercator : forall lm, accurate lm ->
  forall (d : GeodeticDatum f64) a b m, earth64 (d_ellipsoid d) a b ->
  forall (lon0 lat0 k0 fe fn : f64) l p k e n, val64 lon0 l -> val64 lat0 p -> val64 k0 k -> val64 fe e -> val64 fn n ->
  Rabs l <= 4 -> Rabs p <= 84 * PI / 180 -> 9 / 10 <= k <= 11 / 10 -> Rabs e <= 100000000 -> Rabs n <= 100000000 ->
  tm_routes64 lm d (STransverseMercator lon0 lat0 k0 fe fn) a b m l p k e n.
Proof. exact c66_tm. Qed.
Print Assumptions C66_transverse_mercator.

(** The meridian of zone z is 6 z - 180 degrees (not the standard one: see C36). *)
Theorem C66_utm : forall lm, accurate lm -> forall z, (1 <= z <= 60)%Z ->
  exists lon0 k0, (exists k : Z, Rabs (lon0 - ((6 * IZR z - 180) * (PI / 180) + IZR k * (2 * PI))) <= / 10 ^ 14) /\
  Rabs (k0 - 0.9996) <= / 10 ^ 15 /\
  forall (d : GeodeticDatum f64) a b m south, earth64 (d_ellipsoid d) a b ->
  tm_routes64 lm d (utm64 south z) a b m lon0 0 k0 500000 (utm_northing south).
Proof. exact c66_utm. Qed.
Print Assumptions C66_utm.

Theorem C66_between_transverse_mercator : forall lm, accurate lm ->
  forall (d d' : GeodeticDatum f64) a b a' b' m m', earth64 (d_ellipsoid d) a b -> earth64 (d_ellipsoid d') a' b' ->
  forall (lon0 lat0 k0 fe fn : f64) l p k e n, val64 lon0 l -> val64 lat0 p -> val64 k0 k -> val64 fe e -> val64 fn n ->
  Rabs l <= 4 -> Rabs p <= 84 * PI / 180 -> 9 / 10 <= k <= 11 / 10 -> Rabs e <= 100000000 -> Rabs n <= 100000000 ->
  forall (lon0' lat0' k0' fe' fn' : f64) l' p' k' e' n', val64 lon0' l' -> val64 lat0' p' -> val64 k0' k' -> val64 fe' e' -> val64 fn' n' ->
  Rabs l' <= 4 -> Rabs p' <= 84 * PI / 180 -> 9 / 10 <= k' <= 11 / 10 -> Rabs e' <= 100000000 -> Rabs n' <= 100000000 ->
  tm_between64 lm d (STransverseMercator lon0 lat0 k0 fe fn) a b m l p k e n
    d' (STransverseMercator lon0' lat0' k0' fe' fn') a' b' m' l' p' k' e' n'.
Proof. exact c66_between_tm. Qed.
Print Assumptions C66_between_transverse_mercator.

(** From one UTM zone to another. *)
Theorem C66_between_utm : forall lm, accurate lm -> forall z z', (1 <= z <= 60)%Z -> (1 <= z' <= 60)%Z ->
  exists lon1 lon2 k0, (exists k : Z, Rabs (lon1 - ((6 * IZR z - 180) * (PI / 180) + IZR k * (2 * PI))) <= / 10 ^ 14) /\
  (exists k : Z, Rabs (lon2 - ((6 * IZR z' - 180) * (PI / 180) + IZR k * (2 * PI))) <= / 10 ^ 14) /\
  Rabs (k0 - 0.9996) <= / 10 ^ 15 /\
  forall (d d' : GeodeticDatum f64) a b a' b' m m' south south', earth64 (d_ellipsoid d) a b -> earth64 (d_ellipsoid d') a' b' ->
  tm_between64 lm d (utm64 south z) a b m lon1 0 k0 500000 (utm_northing south)
    d' (utm64 south' z') a' b' m' lon2 0 k0 500000 (utm_northing south').
Proof. exact c66_between_utm. Qed.
Print Assumptions C66_between_utm.

(** WGS 84, central meridian Greenwich, scale 1, false easting 500 km.  To the map from 10 E 45 N at 100 m;
    from the map from the origin of the projection. *)
Example C66_ex : let O := F64ops libm_ex in let d := DATUM_WGS84 (ops := O) in
  let geo := GeographicCrs "WGS 84" d (GEastNorthUp (DEG (ops := O)) (M (ops := O))) in
  accurate libm_ex /\ (1 <= 33 <= 60)%Z /\ exists a b, earth64 (d_ellipsoid d) a b /\
  val64 (f64_ofZ 0) 0 /\ val64 (f64_ofZ 1) 1 /\ val64 (f64_ofZ 500000) 500000 /\
  Rabs 0 <= 84 * PI / 180 /\ 9 / 10 <= 1 <= 11 / 10 /\ Rabs 500000 <= 100000000 /\
  moves64 libm_ex XYZIdentity (fun P => P) (fun P => P) /\ reach (100 / 101) (/ 11) 27 /\ (7 <= 7)%nat /\
  (exists P, source64 libm_ex geo [f64_ofZ 10; f64_ofZ 45; f64_ofZ 100] P /\
    ends64 libm_ex d a b 0 (tm_draws 0) (PEastNorthUp (M (ops := O)) (FT (ops := O))) P) /\
  forall east north, transverse_map a b 0 0 1 500000 0 east north ->
  exists P, starts64 libm_ex d a b 0 (shown_by east north) (tm_reads 0 (100 / 101)) (/ 2) (PEastNorth (M (ops := O)))
      [f64_ofZ 500000; f64_ofZ 0] P /\ target64 libm_ex geo P /\
    ends64 libm_ex d a b 0 (tm_draws 0) (PEastNorth (US_FT (ops := O))) P.
Proof. exact c66_ex. Qed.
