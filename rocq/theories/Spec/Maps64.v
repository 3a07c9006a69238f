(** Maps computed in binary64. *)
From Coq Require Import Reals.
From Flocq Require Import Core IEEE754.BinarySingleNaN.
From Verif.Num Require Import FOps F64.
From Verif.Model Require Import Fp Cs Projections.
From Verif.Spec Require Import Angles Axes Shape Maps Binary64.
Local Open Scope R_scope.

(** [north] is the northing of a conformal map of the ellipsoid (a, b) on a grid of meridians and
    parallels, [c] metres to the radian of longitude; see [conformal_cylindrical]. *)
Definition conformal_north (a b fn c : R) (north : R -> R) : Prop :=
  north 0 = fn /\ exists x z, meridian a b x z /\
  forall p, nonpolar p -> exists x' z' n', 0 < x p /\
    derivable_pt_lim x p x' /\ derivable_pt_lim z p z' /\ derivable_pt_lim north p n' /\
    n' / sqrt (x' * x' + z' * z') = c / x p.

(** The same for a sphere of radius [a]: a step in latitude is stretched by 1 / cos p. *)
Definition sphere_north (a fn : R) (north : R -> R) : Prop :=
  north 0 = fn /\ forall p, nonpolar p -> derivable_pt_lim north p (a / cos p).

(** Up to latitude 89 degrees the projection computes easting [fe + c * d], for [d] the longitude
    counted from [lon0], and northing [north], both to within a micrometre. *)
Definition projects64 (lm : libm) (P : projection f64) (lon0 fe c : R) (north : R -> R) : Prop :=
  forall l p h L B, val64 l L -> val64 p B -> Rabs L <= 4 -> Rabs B <= 89 * PI / 180 ->
  exists x y d, proj (ops := F64ops lm) P (mkLLH l p h) = Ok (mkENH x y h) /\
    is_finite x = true /\ is_finite y = true /\
    same_angle (lon0 + d) L /\ Rabs d <= PI + 2 / 10 ^ 14 /\
    Rabs (B2R x - (fe + c * d)) <= / 10 ^ 6 /\ Rabs (B2R y - north B) <= / 10 ^ 6.

(** The inverse finds the longitude to within 3e-14 radians (a fifth of a micrometre) and the
    latitude to within [tol]. *)
Definition unprojects64 (lm : libm) (P : projection f64) (lon0 fe fn c : R) (north : R -> R) (tol : R) : Prop :=
  forall fuel x y h X Y, val64 x X -> val64 y Y -> Rabs (X - fe) <= 39 / 10 * c -> Rabs (Y - fn) <= 5 * c ->
  exists l p m B, unproj (ops := F64ops lm) fuel P (mkENH x y h) = Ret (Ok (mkLLH l p h)) /\
    is_finite l = true /\ is_finite p = true /\
    same_angle m (lon0 + (X - fe) / c) /\ Rabs (B2R l - m) <= 3 / 10 ^ 14 /\
    nonpolar B /\ north B = Y /\ Rabs (B2R p - B) <= tol.

(** There and back, up to latitude 89 degrees: the height is kept, the longitude comes back to
    within 4e-13 radians (up to a full turn) and the latitude to within [tol]. *)
Definition round_trips64 (lm : libm) (P : projection f64) (tol : R) : Prop :=
  forall fuel l p h L B, val64 l L -> val64 p B -> Rabs L <= 4 -> Rabs B <= 89 * PI / 180 ->
  exists c l' p' m, proj (ops := F64ops lm) P (mkLLH l p h) = Ok c /\
    unproj (ops := F64ops lm) fuel P c = Ret (Ok (mkLLH l' p' h)) /\
    is_finite l' = true /\ is_finite p' = true /\
    same_angle m L /\ Rabs (B2R l' - m) <= 4 / 10 ^ 13 /\ Rabs (B2R p' - B) <= tol.
