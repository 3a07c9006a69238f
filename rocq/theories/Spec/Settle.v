(** Iterating until two successive values are close. *)
From Coq Require Import PeanoNat.

Fixpoint iter (n : nat) {A} (f : A -> A) (x : A) : A :=
  match n with O => x | S n' => iter n' f (f x) end.

(** [r] is the first of the first [n] iterates of [step] from [x] that is close to its predecessor. *)
Definition settles {A} (close : A -> A -> bool) (step : A -> A) (n : nat) (x r : A) : Prop :=
  exists k, k < n /\ r = iter (S k) step x /\ close r (iter k step x) = true /\
    forall j, j < k -> close (iter (S j) step x) (iter j step x) = false.

(** None of them is. *)
Definition never_settles {A} (close : A -> A -> bool) (step : A -> A) (n : nat) (x : A) : Prop :=
  forall k, k < n -> close (iter (S k) step x) (iter k step x) = false.
