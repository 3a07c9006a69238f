(** What the C library's functions do on exceptional arguments (C17, annex F). *)
From Coq Require Import List ZArith.
From Flocq Require Import IEEE754.BinarySingleNaN.
From Verif.Num Require Import FOps F64.
Import ListNotations.

(** NaN gives NaN. *)
Definition nan_through (lm : libm) : Prop :=
  Forall (fun f => f B754_nan = B754_nan)
    [lm_sin lm; lm_cos lm; lm_tan lm; lm_asin lm; lm_atan lm; lm_exp lm; lm_ln lm;
     lm_sinh lm; lm_cosh lm; lm_tanh lm; lm_asinh lm; lm_atanh lm].

(** sin of an infinity is NaN. *)
Definition sin_of_inf (lm : libm) : Prop := forall s, lm_sin lm (B754_infinity s) = B754_nan.

(** cosh overflows above 710.48. *)
Definition cosh_overflows (lm : libm) : Prop :=
  forall x, Bleb (f64_ofZ 711) x = true -> lm_cosh lm x = B754_infinity false.

(** sin 0 = 0, cos 0 = 1, and atan2 (0, x) = 0 unless x is negative or NaN. *)
Definition zero_values (lm : libm) : Prop :=
  lm_sin lm (B754_zero false) = B754_zero false /\ lm_cos lm (B754_zero false) = f64_ofZ 1 /\
  (forall x, is_nan x = false -> Bsign x = false -> lm_atan2 lm (B754_zero false) x = B754_zero false) /\
  (forall x, lm_atan2 lm x B754_nan = B754_nan) /\ (forall x, lm_atan2 lm B754_nan x = B754_nan).
