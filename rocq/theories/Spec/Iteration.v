(** The iterates of u -> u + deltas(u). *)
From Coq Require Import List.
From Verif.Num Require Import FOps.

Section Iteration.
Context {F : Type} {ops : FOps F}.

Definition vplus (u v : list F) : list F := map (fun p => fadd (fst p) (snd p)) (combine u v).

(** The n-th iterate. *)
Fixpoint iterate (deltas : list F -> list F) (init : list F) (n : nat) : list F :=
  match n with O => init | S m => let u := iterate deltas init m in vplus u (deltas u) end.

(** Every component of the step at [u] is below its tolerance. *)
Definition step_small (deltas : list F -> list F) (eps : list F) (u : list F) : Prop :=
  Forall2 (fun d e => flt (fabs d) e = true) (deltas u) eps.
End Iteration.
