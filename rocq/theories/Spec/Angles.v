(** Specification vocabulary for angles. *)
From Coq Require Import Reals ZArith.
Local Open Scope R_scope.

(** Two angles are the same direction: they differ by a whole number of turns. *)
Definition same_angle (a b : R) : Prop := exists k : Z, a - b = IZR k * (2 * PI).

(** [r] is the remainder of [v] by [m] in the sense of a nearest integer quotient. *)
Definition nearest_remainder (v m r : R) : Prop :=
  (exists k : Z, v - r = IZR k * m) /\ Rabs r <= Rabs m / 2.
