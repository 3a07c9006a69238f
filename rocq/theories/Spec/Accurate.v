(** How well the C library computes: every function is right to four units in the last place, and
    [hypot] is never negative.

    The argument ranges leave out what the C standard treats specially (infinities, NaN, results
    that overflow, and the sign of zero for [atan2]). *)
From Coq Require Import Reals.
From Flocq Require Import Core IEEE754.BinarySingleNaN.
From Verif.Num Require Import FOps F64 RFun.
Local Open Scope R_scope.

(** [y] approximates [Y] with a relative error of 2^-50; 2^-1000 is for results that underflow. *)
Definition four_ulp (y : f64) (Y : R) : Prop :=
  is_finite y = true /\ Rabs (B2R y - Y) <= / 2 ^ 50 * Rabs Y + bpow radix2 (-1000).

Definition computes (f : f64 -> f64) (g : R -> R) (D : R -> Prop) : Prop :=
  forall x, is_finite x = true -> D (B2R x) -> four_ulp (f x) (g (B2R x)).
Definition computes2 (f : f64 -> f64 -> f64) (g : R -> R -> R) (D : R -> R -> Prop) : Prop :=
  forall x y, is_finite x = true -> is_finite y = true -> D (B2R x) (B2R y) -> four_ulp (f x y) (g (B2R x) (B2R y)).

Record accurate (lm : libm) : Prop := {
  ac_sin : computes (lm_sin lm) sin (fun x => Rabs x <= 1000);
  ac_cos : computes (lm_cos lm) cos (fun x => Rabs x <= 1000);
  ac_tan : computes (lm_tan lm) tan (fun x => Rabs x <= B2R PI_2_64);
  ac_asin : computes (lm_asin lm) asin (fun x => Rabs x <= 1);
  ac_atan : computes (lm_atan lm) atan (fun _ => True);
  ac_atan2 : computes2 (lm_atan2 lm) Ratan2 (fun y x => 0 < x \/ y <> 0);
  ac_hypot : computes2 (lm_hypot lm) Rhypot (fun x y => Rabs x <= bpow radix2 500 /\ Rabs y <= bpow radix2 500);
  ac_hypot_pos : forall x y, is_finite x = true -> is_finite y = true -> Rabs (B2R x) <= bpow radix2 500 -> Rabs (B2R y) <= bpow radix2 500 -> 0 <= B2R (lm_hypot lm x y);
  ac_cbrt : computes (lm_cbrt lm) Rcbrt (fun _ => True);
  ac_exp : computes (lm_exp lm) exp (fun x => Rabs x <= 300);
  ac_ln : computes (lm_ln lm) ln (fun x => bpow radix2 (-1000) <= x);
  ac_sinh : computes (lm_sinh lm) sinh (fun x => Rabs x <= 300);
  ac_cosh : computes (lm_cosh lm) cosh (fun x => Rabs x <= 300);
  ac_tanh : computes (lm_tanh lm) tanh (fun _ => True);
  ac_asinh : computes (lm_asinh lm) arcsinh (fun x => Rabs x <= bpow radix2 500);
  ac_atanh : computes (lm_atanh lm) Ratanh (fun x => Rabs x <= 1 - / 2 ^ 53);
  ac_powf : computes2 (lm_powf lm) Rpower (fun x y => 0 < x /\ Rabs (y * ln x) <= 300)
}.
