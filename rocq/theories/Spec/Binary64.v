(** Binary64 records and the exact quantities they stand for. *)
From Coq Require Import Reals ZArith.
From Flocq Require Import Core IEEE754.BinarySingleNaN.
From Verif.Num Require Import FOps F64.
From Verif.Model Require Import Fp Quantities Cs Ellipsoid.
From Verif.Spec Require Import Axes.
Local Open Scope R_scope.

(** [x] is finite and has the value [X]. *)
Definition val64 (x : f64) (X : R) : Prop := is_finite x = true /\ B2R x = X.

(** The record [E] has the semi-axes [a] and [b] of an ellipsoid as large as the Earth, with a flattening of at most 1/100. *)
Definition earth64 (E : Ellipsoid f64) (a b : R) : Prop :=
  val64 (e_a E) a /\ val64 (e_b E) b /\ is_finite (e_invf E) = true /\
  6300000 <= b /\ b < a /\ a <= 6400000 /\ 99 * a <= 100 * b.

(** [P] is finite and at most [e] away from [Q]. *)
Definition within64 (P : XYZ f64) (e : R) (Q : R3) : Prop :=
  is_finite (x_ P) = true /\ is_finite (y_ P) = true /\ is_finite (z_ P) = true /\
  edist (B2R (x_ P), B2R (y_ P), B2R (z_ P)) Q <= e.
