(** Directions up to whole turns, and turning in binary64. *)
From Coq Require Import Reals ZArith.
From Flocq Require Import IEEE754.BinarySingleNaN.
From Verif.Num Require Import FOps F64.
From Verif.Spec Require Import Runs.
Local Open Scope R_scope.

(** [x] is the direction [y] up to an error of [e] and whole turns. *)
Definition near_angle (x y e : R) : Prop := exists k : Z, Rabs (x - (y + IZR k * (2 * PI))) <= e.

(** A call that adds or subtracts a finite angle of at most [t], or changes the sign ... *)
Definition turns_by (t : R) (o : angle_op f64) : Prop :=
  match o with
  | OpAdd a | OpSub a => is_finite a = true /\ Rabs (B2R a) <= t
  | OpNeg => True
  | _ => False
  end.
(** ... and what it means for the angle. *)
Definition turn_of (o : angle_op f64) : turn :=
  match o with
  | OpAdd a => TAdd (B2R a)
  | OpSub a => TSub (B2R a)
  | _ => TNeg
  end.
