(** Property C70: the rounding errors of polynomial evaluation and Clenshaw summation.

    Spec/Series.v defines [polynomial] and [sine_series], Spec/Sums64.v [abspoly], [powers] and
    [abssum], Spec/Lines64.v [vals], Spec/Accurate.v [accurate]. *)
From Coq Require Import Reals List.
From Flocq Require Import Core IEEE754.BinarySingleNaN.
From Verif.Num Require Import FOps F64.
From Verif.Model Require Import Fp.
From Verif.Spec Require Import Accurate Series Lines64 Sums64.
From Verif.Proofs Require Import LinesX Lines64D Poly64 Clen64 Sums64Ex.
Import ListNotations.
Local Open Scope R_scope.

(** [eval_at] rounds twice per coefficient, [fast_eval_at] once. *)
Theorem C70_polynomials : forall (lm : libm) (x : f64), is_finite x = true ->
  forall c, Forall (fun a : f64 => is_finite a = true) c ->
  let w := (1 + / 2 ^ 53) ^ (2 * List.length c) in let m := Rmax 1 (Rabs (B2R x)) in
  (abspoly (vals c) m + powers (vals c) m) * w <= bpow radix2 1000 ->
  let slow := poly_eval (ops := F64ops lm) c x in
  let fast := fast_eval_at (ops := F64ops lm) c x in
  let w' := (1 + / 2 ^ 53) ^ List.length c in
  (is_finite slow = true /\
   Rabs (B2R slow - polynomial (vals c) (B2R x)) <=
     (w - 1) * abspoly (vals c) (B2R x) + bpow radix2 (-1075) * w * powers (vals c) (B2R x)) /\
  (is_finite fast = true /\
   Rabs (B2R fast - polynomial (vals c) (B2R x)) <=
     (w' - 1) * abspoly (vals c) (B2R x) + bpow radix2 (-1075) * w' * powers (vals c) (B2R x)).
Proof. exact poly64. Qed.
Print Assumptions C70_polynomials.

(** The error of [clenshaw_sin_sum] grows with the square of the number of terms. *)
Theorem C70_clenshaw : forall lm : libm, accurate lm ->
  forall x : f64, is_finite x = true -> Rabs (B2R x) <= 1000 ->
  forall c, Forall (fun a : f64 => is_finite a = true) c -> INR (List.length c) <= 2 ^ 23 ->
  abssum (vals c) <= bpow radix2 800 ->
  let r := clenshaw_sin_sum (ops := F64ops lm) c x in
  is_finite r = true /\
  Rabs (B2R r - sine_series (vals c) (B2R x)) <=
    INR (List.length c) ^ 2 * / 2 ^ 46 * (abssum (vals c) + bpow radix2 (-1000)).
Proof. exact clenshaw64. Qed.
Print Assumptions C70_clenshaw.

Example C70_ex : let c := [f_1; f_2; f_3] in
  Forall (fun a : f64 => is_finite a = true) c /\
  (abspoly (vals c) (Rmax 1 (Rabs (B2R f_2))) + powers (vals c) (Rmax 1 (Rabs (B2R f_2)))) *
    (1 + / 2 ^ 53) ^ (2 * List.length c) <= bpow radix2 1000 /\
  polynomial (vals c) (B2R f_2) = 17 /\ INR (List.length c) <= 2 ^ 23 /\
  abssum (vals c) <= bpow radix2 800 /\ Rabs (B2R f_2) <= 1000.
Proof. exact sums_ex. Qed.
