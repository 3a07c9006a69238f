(** Complex numbers with binary64 parts. *)
From Coq Require Import Reals.
From Flocq Require Import IEEE754.BinarySingleNaN.
From Verif.Num Require Import FOps F64.
From Verif.Model Require Import Complex.
From Verif.Spec Require Import Series.
Local Open Scope R_scope.

(** The complex number they stand for, if both parts are finite. *)
Definition cval (z : complex f64) : C2 := (B2R (re z), B2R (im z)).
Definition cfinite (z : complex f64) : Prop := is_finite (re z) = true /\ is_finite (im z) = true.

Definition modulus (z : C2) : R := sqrt (fst z * fst z + snd z * snd z).
Definition c2add (z w : C2) : C2 := (fst z + fst w, snd z + snd w).
Definition c2sub (z w : C2) : C2 := (fst z - fst w, snd z - snd w).

(** The result [r] is finite and at most [e] from [z]. *)
Definition near_c2 (r : complex f64) (z : C2) (e : R) : Prop := cfinite r /\ modulus (c2sub (cval r) z) <= e.
