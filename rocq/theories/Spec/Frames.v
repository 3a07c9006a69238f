(** Vectors, and what it means for coordinates of a CRS to name a geocentric point. *)
From Coq Require Import Reals List.
From Verif.Num Require Import FOps XR.
From Verif.Model Require Import Fp Quantities Cs Ellipsoid Geodesics Projections Crs.
From Verif.Spec Require Import Axes Shape.
Import ListNotations.
Local Open Scope R_scope.

Definition vadd (p q : R3) : R3 :=
  let '(x, y, z) := p in let '(x', y', z') := q in (x + x', y + y', z + z').
Definition vscale (k : R) (p : R3) : R3 := let '(x, y, z) := p in (k * x, k * y, k * z).
Definition cross (p q : R3) : R3 :=
  let '(x, y, z) := p in let '(x', y', z') := q in
  (y * z' - z * y', z * x' - x * z', x * y' - y * x').
Definition vnorm (p : R3) : R := edist p (0, 0, 0).

(** EPSG methods 1033 and 1032: a positive angle turns the position vector, or the frame. *)
Definition turn (c : RotationConvention) : R :=
  match c with PositionVector => 1 | CoordinateFrame => -1 end.

(** A datum transformation whose [from_ref] and [to_ref] undo each other. *)
Definition exact_inverse (T : XYZTransformation XR) : Prop :=
  (forall P, exists Q, to_ref T (xyz P) = xyz Q /\ from_ref T (xyz Q) = xyz P) /\
  (forall Q, exists P, from_ref T (xyz Q) = xyz P /\ to_ref T (xyz P) = xyz Q).

(** Three-dimensional coordinates [buf] of the CRS [c] name the geocentric point [P]. *)
Inductive locates : Crs XR -> list R -> R3 -> Prop :=
| locates_xyz id d x y z : locates (GeocentricCrs id d) [x; y; z] (x, y, z)
| locates_geo id d ax buf l p h a b m P :
    shape (d_ellipsoid d) a b -> pm_lon (d_pm d) = Fin m ->
    geo_reads ax buf l p (Some h) -> - PI <= l <= PI -> - (PI / 2) <= p <= PI / 2 ->
    geodetic_point a b p (l + m) h P -> locates (GeographicCrs id d ax) buf P.

(** The CRS has three dimensions, proper units and a flattened ellipsoid, and [P] is not in the
    core of the ellipsoid. *)
Inductive covers : Crs XR -> R3 -> Prop :=
| covers_xyz id d P : covers (GeocentricCrs id d) P
| covers_geo id d ax a b m P :
    shape (d_ellipsoid d) a b -> b < a -> pm_lon (d_pm d) = Fin m ->
    units_ok (geo_units ax) -> gaxes_dim ax = 3%nat ->
    outside_core a b P -> covers (GeographicCrs id d ax) P.

(** Coordinates that are the only ones for their point: neither on a pole nor on the antimeridian
    and less deep than (1 - 2 e^2) N below the surface. *)
Inductive proper : Crs XR -> list R -> Prop :=
| proper_xyz id d x y z : proper (GeocentricCrs id d) [x; y; z]
| proper_geo id d ax buf l p h a b m :
    shape (d_ellipsoid d) a b -> b < a -> pm_lon (d_pm d) = Fin m ->
    geo_reads ax buf l p (Some h) -> - PI < l < PI -> - (PI / 2) < p < PI / 2 ->
    (a * a - 2 * (b * b)) / (a * a) *
      (a * a / sqrt (a * a * (cos p * cos p) + b * b * (sin p * sin p))) < h ->
    proper (GeographicCrs id d ax) buf.
