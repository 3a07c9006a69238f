(** The point in space that coordinates stand for, and the length of a way from point to point. *)
From Coq Require Import Reals List.
From Verif.Num Require Import FOps F64.
From Verif.Model Require Import Quantities Cs Ellipsoid Projections Crs.
From Verif.Spec Require Import Axes Binary64 Routes64 MapRoutes64.
Import ListNotations.
Local Open Scope R_scope.

Section Lm.
Context (lm : libm).

(** A point in metres: geocentric coordinates for geocentric and geographic systems, easting,
    northing and height (0 if there is none) for maps up to 200000 km wide. *)
Inductive stands64 : Crs f64 -> list f64 -> R3 -> Prop :=
| st_earth c buf P : source64 lm c buf P -> stands64 c buf P
| st_plane id d ax spec buf x y o : map_axes64 lm ax buf x y o -> Rabs x <= 200000000 -> Rabs y <= 200000000 ->
    Rabs (match o with Some h => h | None => 0 end) <= 99999 ->
    stands64 (ProjectedCrs id d ax spec) buf (x, y, match o with Some h => h | None => 0 end).
End Lm.

(** The length of the way through the points. *)
Fixpoint way (pts : list R3) : R :=
  match pts with
  | p :: (q :: _) as pts' => edist p q + way pts'
  | _ => 0
  end.
