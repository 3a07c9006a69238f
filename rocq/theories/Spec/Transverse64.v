(** The transverse Mercator map computed in binary64. *)
From Coq Require Import Reals.
From Flocq Require Import Core IEEE754.BinarySingleNaN.
From Verif.Num Require Import FOps F64.
From Verif.Model Require Import Fp Cs Projections.
From Verif.Spec Require Import Angles Axes Shape Frames Sphere Maps Krueger Conformal Reach Binary64.
Local Open Scope R_scope.

(** [east] and [north] map the half of the ellipsoid (a, b) facing the meridian [lon0]: angles are
    kept, that meridian is a straight line pointing north at easting [fe], its lengths are
    multiplied by [k0] up to a relative error of 25 times the fifth power of the third flattening
    (4e-13 on WGS84), and latitude [lat0] of it has northing [fn]. *)
Definition transverse_map (a b lon0 lat0 k0 fe fn : R) (east north : R -> R -> R) : Prop :=
  (forall p, nonpolar p -> east lon0 p = fe) /\ north lon0 lat0 = fn /\
  exists x z, meridian a b x z /\ forall l p, nonpolar p -> 0 < cos (l - lon0) ->
  exists s g, 0 <= s /\ - PI < g <= PI /\ conformal_at x z east north l p s g /\
  (/ 2 <= cos (l - lon0) * cos (l - lon0) -> 0 < s) /\
  (same_angle l lon0 -> g = 0 /\ Rabs (s - k0) <= 25 * third_flattening a b ^ 5 * k0).

(** The projection computes [east] and [north] to within a micrometre, up to latitude 84 degrees
    and up to 45 degrees from the meridian [lon0]. *)
Definition transverse64 (lm : libm) (P : projection f64) (lon0 : R) (east north : R -> R -> R) : Prop :=
  forall l p h L B, val64 l L -> val64 p B -> Rabs L <= 4 -> Rabs B <= 84 * PI / 180 ->
  cos (PI / 4) <= cos (L - lon0) ->
  exists x y, proj (ops := F64ops lm) P (mkLLH l p h) = Ok (mkENH x y h) /\
    is_finite x = true /\ is_finite y = true /\
    Rabs (B2R x - east L B) <= / 10 ^ 6 /\ Rabs (B2R y - north L B) <= / 10 ^ 6.

(** Up to latitude 84 degrees, map coordinates [t] metres (at most one) off those of a position give
    back that position, as a point of the unit sphere, up to what [t] metres amount to, the bound
    [k n^5] of the truncated series in the zone [c] (Spec/Reach.v), that of stopping the iteration at
    a step below 1e-12, and 2e-13 of rounding.  The iteration takes at most seven turns. *)
Definition transverse64_back (lm : libm) (P : projection f64) (a b lon0 k0 : R) (east north : R -> R -> R) : Prop :=
  forall c w k, reach c w k -> forall x y h X Y t L B, val64 x X -> val64 y Y -> Rabs B <= 84 * PI / 180 ->
  0 < cos (L - lon0) -> c <= cos (L - lon0) * cos (L - lon0) -> 0 <= t <= 1 ->
  Rabs (X - east L B) <= t -> Rabs (Y - north L B) <= t -> forall fuel, (7 <= fuel)%nat ->
  exists l p, unproj (ops := F64ops lm) fuel P (mkENH x y h) = Ret (Ok (mkLLH l p h)) /\
    is_finite l = true /\ is_finite p = true /\ Rabs (B2R p) <= PI / 2 /\
    edist (position L B) (position (B2R l) (B2R p)) <=
      k * third_flattening a b ^ 5 + 2 * t / (k0 * b)
      + eccentricity_squared a b / (1 - eccentricity_squared a b) * / 10 ^ 12 + 2 * / 10 ^ 13.
(** To the map and back. *)
Definition transverse64_trip (lm : libm) (P : projection f64) (a b lon0 : R) : Prop :=
  forall c w k, reach c w k -> forall l p h L B, val64 l L -> val64 p B -> Rabs L <= 4 ->
  Rabs B <= 84 * PI / 180 -> 0 < cos (L - lon0) -> c <= cos (L - lon0) * cos (L - lon0) ->
  exists x y, proj (ops := F64ops lm) P (mkLLH l p h) = Ok (mkENH x y h) /\ forall fuel, (7 <= fuel)%nat ->
  exists l' p', unproj (ops := F64ops lm) fuel P (mkENH x y h) = Ret (Ok (mkLLH l' p' h)) /\
    is_finite l' = true /\ is_finite p' = true /\ Rabs (B2R p') <= PI / 2 /\
    edist (position L B) (position (B2R l') (B2R p')) <=
      k * third_flattening a b ^ 5
      + eccentricity_squared a b / (1 - eccentricity_squared a b) * / 10 ^ 12 + 6 * / 10 ^ 13.
