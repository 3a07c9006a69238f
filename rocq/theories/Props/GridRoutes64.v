(** Property C67: routes to, from and between reference systems in any of the projections, in binary64.

    [maps64] and [in_range64] are in Spec/GridRoutes64.v, [to_map64], [from_map64] and [map_to_map64] in
    Spec/MapRoutes64.v, [source64], [target64] and [moves64] in Spec/Routes64.v, [conformal_north] and
    [sphere_north] in Spec/Maps64.v, [transverse_map] in Spec/Transverse64.v, [reach] in Spec/Reach.v,
    [earth64] and [val64] in Spec/Binary64.v, [accurate] in Spec/Accurate.v. *)
From Coq Require Import ZArith Reals List String.
From Flocq Require Import Core IEEE754.BinarySingleNaN.
From Verif.Num Require Import FOps F64.
From Verif.Model Require Import Fp Quantities Cs Ellipsoid Projections Crs.
From Verif.Spec Require Import Shape Maps Reach Accurate Binary64 Routes64 Maps64 Transverse64 MapRoutes64 GridRoutes64.
From Verif.Proofs Require Import LibmOk MapRouteD.
Import ListNotations.
Local Open Scope string_scope.
Local Open Scope R_scope.

(** ** C67 Coordinates transformed to, from and between maps of any kind name the same place in binary64 *)
Theorem C67_routes : forall lm, accurate lm ->
  forall (d : GeodeticDatum f64) a b m spec c w k, earth64 (d_ellipsoid d) a b -> in_range64 spec -> reach c w k ->
  exists ch reads draws tol, maps64 a b c k spec ch reads draws tol /\
    to_map64 lm d spec a b m ch draws /\ from_map64 lm d spec a b m ch reads tol.
Proof. exact c67_routes. Qed.
Print Assumptions C67_routes.

Theorem C67_between : forall lm, accurate lm ->
  forall (d d' : GeodeticDatum f64) a b m a' b' m' spec spec' c w k, earth64 (d_ellipsoid d) a b -> earth64 (d_ellipsoid d') a' b' ->
  in_range64 spec -> in_range64 spec' -> reach c w k ->
  exists ch reads draws tol ch' reads' draws' tol', maps64 a b c k spec ch reads draws tol /\ maps64 a' b' c k spec' ch' reads' draws' tol' /\
    map_to_map64 lm d spec a b m ch reads tol d' spec' a' b' m' ch' draws'.
Proof. exact c67_between. Qed.
Print Assumptions C67_between.

(** WGS 84.  To a map from 10 E 45 N at 100 m; from Web Mercator from 500 km east of its origin, to geographic
    coordinates or to a transverse Mercator map in US survey feet. *)
Example C67_ex : let O := F64ops libm_ex in let d := DATUM_WGS84 (ops := O) in
  let geo := GeographicCrs "WGS 84" d (GEastNorthUp (DEG (ops := O)) (M (ops := O))) in
  let web := SWebMercator (f64_ofZ 0) (f64_ofZ 0) (f64_ofZ 0) (f64_ofZ 0) in
  accurate libm_ex /\ in_range64 web /\ in_range64 (utm64 false 30) /\
  in_range64 (SMercator1SP (f64_ofZ 2) (f64_ofZ 1) (f64_ofZ 500000) (f64_ofZ 0)) /\
  in_range64 (SMercator2SP (f64_ofZ 2) (f64_of 1 (-1)) (f64_ofZ 500000) (f64_ofZ 0)) /\
  reach (100 / 101) (/ 11) 27 /\ (7 <= 7)%nat /\ moves64 libm_ex XYZIdentity (fun P => P) (fun P => P) /\
  exists a b, earth64 (d_ellipsoid d) a b /\
  (exists P, source64 libm_ex geo [f64_ofZ 10; f64_ofZ 45; f64_ofZ 100] P /\
    ends64 libm_ex d a b 0 grid_draws (PEastNorthUp (M (ops := O)) (FT (ops := O))) P) /\
  forall north, sphere_north a 0 north ->
  exists P, starts64 libm_ex d a b 0 (grid_chart 0 0 a north) grid_reads (/ 2) (PEastNorth (M (ops := O)))
      [f64_ofZ 500000; f64_ofZ 0] P /\ target64 libm_ex geo P /\
    ends64 libm_ex d a b 0 (tm_draws 0) (PEastNorth (US_FT (ops := O))) P.
Proof. exact c67_ex. Qed.
