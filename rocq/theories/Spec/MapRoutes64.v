(** Coordinates of projected reference systems in binary64, and routes to, from and between them. *)
From Coq Require Import ZArith Reals List String.
From Flocq Require Import IEEE754.BinarySingleNaN.
From Verif.Num Require Import FOps F64.
From Verif.Model Require Import Fp Quantities Cs Ellipsoid Projections Crs.
From Verif.Spec Require Import Axes Shape Maps Krueger Reach Binary64 Routes64 Transverse64.
Import ListNotations.
Local Open Scope R_scope.

(** [ch l p x y]: the map shows longitude [l], latitude [p] at easting [x], northing [y]. *)
Definition chart : Type := R -> R -> R -> R -> Prop.
Definition shown_by (east north : R -> R -> R) : chart := fun l p x y => x = east l p /\ y = north l p.

Section Lm.
Context (lm : libm).
Notation O := (F64ops lm).

(** [buf] holds the easting [x], the northing [y] and, in three dimensions, the height. *)
Inductive map_axes64 : ProjectedAxes f64 -> list f64 -> R -> R -> option R -> Prop :=
| map_enu u v ku kv e n up E N H : length_unit64 lm u ku -> length_unit64 lm v kv -> val64 e E -> val64 n N -> val64 up H ->
    map_axes64 (PEastNorthUp u v) [e; n; up] (E * ku) (N * ku) (Some (H * kv))
| map_en u ku e n E N : length_unit64 lm u ku -> val64 e E -> val64 n N ->
    map_axes64 (PEastNorth u) [e; n] (E * ku) (N * ku) None.
Inductive map_units64 : ProjectedAxes f64 -> Prop :=
| units_enu u v ku kv : length_unit64 lm u ku -> length_unit64 lm v kv -> map_units64 (PEastNorthUp u v)
| units_en u ku : length_unit64 lm u ku -> map_units64 (PEastNorth u).

(** [buf] denotes the point [P] above (or below) the ellipsoid (a, b) with prime meridian [m]: on the
    map, [P] is within [t] metres of the easting and northing in [buf], and its height is the one
    in [buf] if there is one. *)
Definition charted64 (a b m : R) (ch : chart) (t : R) (ax : ProjectedAxes f64) (buf : list f64) (P : R3) : Prop :=
  exists x y o l p h x' y', map_axes64 ax buf x y o /\ ch l p x' y' /\ Rabs (x - x') <= t /\ Rabs (y - y') <= t /\
  (o = Some h \/ o = None) /\ geodetic_point a b p (l + m) h P.

(** The transformation from [c1] to [c2] and, the other way round, that from [c2] to [c1] both write [out]. *)
Definition runs64 (fuel : nat) (c1 : Crs f64) (T1 T2 : XYZTransformation f64) (c2 : Crs f64) (src dst out : list f64) : Prop :=
  tr_fwd (ops := O) fuel (mkTransfo c1 T1 T2 c2) src dst = Ret (Ok out) /\
  tr_bwd (ops := O) fuel (mkTransfo c2 T2 T1 c1) src dst = Ret (Ok out).

(** Places from which [tol] bounds, in radians, the error of reading the map [t] metres off; a map
    in two dimensions shows points of height zero. *)
Definition starts64 (d : GeodeticDatum f64) (a b m : R) (ch : chart) (dom : R -> R -> Prop) (t : R) (ax : ProjectedAxes f64) (buf : list f64) (P : R3) : Prop :=
  earth64 (d_ellipsoid d) a b /\ val64 (pm_lon (d_pm d)) m /\ Rabs m <= 4 /\ 0 <= t <= / 2 /\
  exists x y o l p h x' y', map_axes64 ax buf x y o /\ ch l p x' y' /\ dom l p /\ Rabs (x - x') <= t /\ Rabs (y - y') <= t /\
  h = match o with Some h => h | None => 0 end /\ Rabs h <= 99999 /\ geodetic_point a b p (l + m) h P.
(** Places that can be reached. *)
Definition ends64 (d : GeodeticDatum f64) (a b m : R) (dom : R -> R -> Prop) (ax : ProjectedAxes f64) (P : R3) : Prop :=
  earth64 (d_ellipsoid d) a b /\ val64 (pm_lon (d_pm d)) m /\ Rabs m <= 4 /\ map_units64 ax /\
  exists l p h, geodetic_point a b p (l + m) h P /\ dom l p /\ Rabs h <= 99000.

(** To the map: the coordinates written are, to 1.1 micrometres, those of a point at most half a
    micrometre from the image of the point at the start. *)
Definition to_map64 (d : GeodeticDatum f64) (spec : ProjectionSpec f64) (a b m : R) (ch : chart) (dom : R -> R -> Prop) : Prop :=
  forall fuel c1 T1 f1 g1 T2 f2 g2 id ax src rest dst P, moves64 lm T1 f1 g1 -> moves64 lm T2 f2 g2 ->
  source64 lm c1 src P -> ends64 d a b m dom ax (g2 (f1 P)) -> (paxes_dim ax <= List.length dst)%nat ->
  exists out Q, runs64 fuel c1 T1 T2 (ProjectedCrs id d ax spec) (src ++ rest) dst (out ++ skipn (paxes_dim ax) dst) /\
  charted64 a b m ch (11 / 10 ^ 7) ax out Q /\ edist Q (g2 (f1 P)) <= 5 / 10 ^ 7.

(** From the map. *)
Definition from_map64 (d : GeodeticDatum f64) (spec : ProjectionSpec f64) (a b m : R) (ch : chart) (dom : R -> R -> Prop) (tol : R -> R) : Prop :=
  forall fuel T1 f1 g1 T2 f2 g2 id ax c2 src rest dst P t, (7 <= fuel)%nat -> moves64 lm T1 f1 g1 -> moves64 lm T2 f2 g2 ->
  starts64 d a b m ch dom t ax src P -> target64 lm c2 (g2 (f1 P)) -> (3 <= List.length dst)%nat ->
  exists out Q, runs64 fuel (ProjectedCrs id d ax spec) T1 T2 c2 (src ++ rest) dst (out ++ skipn 3 dst) /\
  locates64 lm c2 out Q /\ edist Q (g2 (f1 P)) <= 7000000 * tol t + 5 / 10 ^ 7.

(** From one map to another. *)
Definition map_to_map64 (d1 : GeodeticDatum f64) (spec1 : ProjectionSpec f64) (a1 b1 m1 : R) (ch1 : chart) (dom1 : R -> R -> Prop) (tol : R -> R)
    (d2 : GeodeticDatum f64) (spec2 : ProjectionSpec f64) (a2 b2 m2 : R) (ch2 : chart) (dom2 : R -> R -> Prop) : Prop :=
  forall fuel T1 f1 g1 T2 f2 g2 id1 ax1 id2 ax2 src rest dst P t, (7 <= fuel)%nat -> moves64 lm T1 f1 g1 -> moves64 lm T2 f2 g2 ->
  starts64 d1 a1 b1 m1 ch1 dom1 t ax1 src P -> ends64 d2 a2 b2 m2 dom2 ax2 (g2 (f1 P)) -> (paxes_dim ax2 <= List.length dst)%nat ->
  exists out Q, runs64 fuel (ProjectedCrs id1 d1 ax1 spec1) T1 T2 (ProjectedCrs id2 d2 ax2 spec2) (src ++ rest) dst (out ++ skipn (paxes_dim ax2) dst) /\
  charted64 a2 b2 m2 ch2 (11 / 10 ^ 7) ax2 out Q /\ edist Q (g2 (f1 P)) <= 7000000 * tol t + 5 / 10 ^ 7.
End Lm.

(** Transverse Mercator.  Reading: up to 84 degrees of latitude and where Spec/Reach.v has the
    constant [k].  Drawing: up to 83 degrees of latitude and 43.9 degrees from the central meridian. *)
Definition tm_reads (lon0 c l p : R) : Prop := Rabs p <= 84 * PI / 180 /\ 0 < cos (l - lon0) /\ c <= cos (l - lon0) * cos (l - lon0).
Definition tm_draws (lon0 l p : R) : Prop := Rabs p <= 83 * PI / 180 /\ 18 / 25 <= cos (l - lon0).
(** The error of reading the map: of the truncated series, of [t] metres on the map, of the
    iteration, of rounding. *)
Definition tm_error (a b k0 k t : R) : R :=
  k * third_flattening a b ^ 5 + 2 * t / (k0 * b) + eccentricity_squared a b / (1 - eccentricity_squared a b) * / 10 ^ 12 + 3 * / 10 ^ 13.

(** A reference system in that projection can be reached and left. *)
Definition tm_routes64 (lm : libm) (d : GeodeticDatum f64) (spec : ProjectionSpec f64) (a b m lon0 lat0 k0 fe fn : R) : Prop :=
  exists east north, transverse_map a b lon0 lat0 k0 fe fn east north /\
  to_map64 lm d spec a b m (shown_by east north) (tm_draws lon0) /\
  forall c w k, reach c w k -> from_map64 lm d spec a b m (shown_by east north) (tm_reads lon0 c) (tm_error a b k0 k).
Definition tm_between64 (lm : libm) (d1 : GeodeticDatum f64) (spec1 : ProjectionSpec f64) (a1 b1 m1 lon1 lat1 k1 fe1 fn1 : R)
    (d2 : GeodeticDatum f64) (spec2 : ProjectionSpec f64) (a2 b2 m2 lon2 lat2 k2 fe2 fn2 : R) : Prop :=
  exists east1 north1 east2 north2, transverse_map a1 b1 lon1 lat1 k1 fe1 fn1 east1 north1 /\ transverse_map a2 b2 lon2 lat2 k2 fe2 fn2 east2 north2 /\
  forall c w k, reach c w k ->
  map_to_map64 lm d1 spec1 a1 b1 m1 (shown_by east1 north1) (tm_reads lon1 c) (tm_error a1 b1 k1 k) d2 spec2 a2 b2 m2 (shown_by east2 north2) (tm_draws lon2).

(** UTM, north or south. *)
Definition utm64 (south : bool) (z : Z) : ProjectionSpec f64 := if south then SUTMSouth z else SUTMNorth z.
Definition utm_northing (south : bool) : R := if south then 10000000 else 0.
