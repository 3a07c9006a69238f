(** Values of binary64 records without NaN. *)
From Flocq Require Import Core IEEE754.BinarySingleNaN.
From Verif.Num Require Import FOps F64.
From Verif.Model Require Import Cs Ellipsoid.

Definition no_nan_ellipsoid (E : Ellipsoid f64) : Prop :=
  is_nan (e_a E) = false /\ is_nan (e_b E) = false /\ is_nan (e_invf E) = false.
