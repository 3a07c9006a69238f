(** How well the transverse Mercator projection and its inverse undo each other. *)
From Coq Require Import Reals.
Local Open Scope R_scope.

(** [reach c w k]: where the square of the cosine of the longitude from the central meridian is at
    least [c], or where the easting from the false easting is at most [w] times the radius of the
    map, there and back again is off by at most [k] times the fifth power of the third flattening. *)
Inductive reach : R -> R -> R -> Prop :=
| within_45_degrees : reach (/ 2) (17 / 20) 2500
| within_30_degrees : reach (3 / 4) (/ 2) 180
| within_5_degrees : reach (100 / 101) (/ 11) 27.
