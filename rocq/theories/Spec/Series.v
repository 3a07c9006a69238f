(** Finite sums, polynomials, sine series, and complex numbers as pairs of reals. *)
From Coq Require Import Reals List.
From Verif.Num Require Import XR.
From Verif.Model Require Import Complex.
Local Open Scope R_scope.

(** f 0 + f 1 + ... + f (n-1) *)
Fixpoint Rsum (n : nat) (f : nat -> R) : R :=
  match n with O => 0 | S m => Rsum m f + f m end.

(** sum of c_i x^i *)
Definition polynomial (c : list R) (x : R) : R := Rsum (length c) (fun i => nth i c 0 * x ^ i).

(** sum of c_k sin(k x), from k = 0 *)
Definition sine_series (c : list R) (x : R) : R :=
  Rsum (length c) (fun k => nth k c 0 * sin (INR k * x)).

(** Complex numbers *)
Definition C2 : Type := (R * R)%type.
Definition c2mul (z w : C2) : C2 :=
  (fst z * fst w - snd z * snd w, fst z * snd w + snd z * fst w).
Fixpoint c2pow (z : C2) (n : nat) : C2 := match n with O => (1, 0) | S m => c2mul z (c2pow z m) end.
Definition complex_polynomial (c : list R) (z : C2) : C2 :=
  (Rsum (length c) (fun i => nth i c 0 * fst (c2pow z i)),
   Rsum (length c) (fun i => nth i c 0 * snd (c2pow z i))).

(** A pair of reals as a value of the modelled type. *)
Definition cx (z : C2) : complex XR := mkC (Fin (fst z)) (Fin (snd z)).
