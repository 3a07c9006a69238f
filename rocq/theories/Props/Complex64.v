(** Property C72: the rounding errors of complex arithmetic.

    Spec/Complex64.v defines [cval], [cfinite], [modulus], [c2add], [c2sub] and [near_c2],
    Spec/Series.v [c2mul] and [complex_polynomial], Spec/Sums64.v [abspoly] and [powers],
    Spec/Lines64.v [vals], Spec/Accurate.v [accurate]. *)
From Coq Require Import Reals List.
From Flocq Require Import Core IEEE754.BinarySingleNaN.
From Verif.Num Require Import FOps F64.
From Verif.Model Require Import Fp Complex.
From Verif.Spec Require Import Accurate Series Lines64 Sums64 Complex64.
From Verif.Proofs Require Import LinesX Lines64D Complex64P Complex64Q Complex64Ex.
Import ListNotations.
Local Open Scope R_scope.

Theorem C72_sums : forall (lm : libm) z w, cfinite z -> cfinite w ->
  modulus (cval z) <= bpow radix2 1000 -> modulus (cval w) <= bpow radix2 1000 ->
  near_c2 (cadd (ops := F64ops lm) z w) (c2add (cval z) (cval w))
    (/ 2 ^ 53 * modulus (c2add (cval z) (cval w))) /\
  near_c2 (csub (ops := F64ops lm) z w) (c2sub (cval z) (cval w))
    (/ 2 ^ 53 * modulus (c2sub (cval z) (cval w))).
Proof. exact sum64c. Qed.
Print Assumptions C72_sums.

(** With a real number on the right. *)
Theorem C72_real_operand : forall (lm : libm) z (x : f64), cfinite z -> is_finite x = true ->
  modulus (cval z) <= bpow radix2 500 -> Rabs (B2R x) <= bpow radix2 500 ->
  near_c2 (cadd_f (ops := F64ops lm) z x) (c2add (cval z) (B2R x, 0))
    (/ 2 ^ 53 * modulus (c2add (cval z) (B2R x, 0))) /\
  near_c2 (csub_f (ops := F64ops lm) z x) (c2sub (cval z) (B2R x, 0))
    (/ 2 ^ 53 * modulus (c2sub (cval z) (B2R x, 0))) /\
  near_c2 (cmul_f (ops := F64ops lm) z x) (c2mul (cval z) (B2R x, 0))
    (/ 2 ^ 53 * (modulus (cval z) * Rabs (B2R x)) + bpow radix2 (-1074)).
Proof. exact real64c. Qed.
Print Assumptions C72_real_operand.

Theorem C72_products : forall (lm : libm) z w, cfinite z -> cfinite w ->
  modulus (cval z) * modulus (cval w) <= bpow radix2 1000 ->
  near_c2 (cmul (ops := F64ops lm) z w) (c2mul (cval z) (cval w))
    (4 * / 2 ^ 53 * (modulus (cval z) * modulus (cval w)) + bpow radix2 (-1072)).
Proof. exact mul64c. Qed.
Print Assumptions C72_products.

Theorem C72_modulus : forall lm : libm, accurate lm ->
  forall z, cfinite z -> modulus (cval z) <= bpow radix2 500 ->
  is_finite (cabs (ops := F64ops lm) z) = true /\ 0 <= B2R (cabs (ops := F64ops lm) z) /\
  Rabs (B2R (cabs (ops := F64ops lm) z) - modulus (cval z)) <=
    / 2 ^ 50 * modulus (cval z) + bpow radix2 (-1000).
Proof. exact abs64c. Qed.
Print Assumptions C72_modulus.

(** The inverse [i] of [z] is judged by the product [z * i]. *)
Theorem C72_inverses : forall (lm : libm) z, cfinite z ->
  bpow radix2 (-400) <= modulus (cval z) <= bpow radix2 400 ->
  exists i, cinv (ops := F64ops lm) z = Ok i /\ cfinite i /\
    modulus (cval i) * modulus (cval z) <= 1 + 4 * / 2 ^ 53 /\
    modulus (c2sub (c2mul (cval z) (cval i)) (1, 0)) <= 4 * / 2 ^ 53.
Proof. exact inv64c. Qed.
Print Assumptions C72_inverses.

(** The quotient [q] of [z] by [w] is judged by the product [q * w]. *)
Theorem C72_quotients : forall (lm : libm) z w, cfinite z -> cfinite w ->
  modulus (cval z) <= bpow radix2 400 ->
  bpow radix2 (-400) <= modulus (cval w) <= bpow radix2 400 ->
  exists q, cdiv (ops := F64ops lm) z w = Ok q /\ cfinite q /\
    modulus (c2sub (c2mul (cval q) (cval w)) (cval z)) <=
      9 * / 2 ^ 53 * modulus (cval z) + bpow radix2 (-1072) * modulus (cval w).
Proof. exact div64c. Qed.
Print Assumptions C72_quotients.

(** A polynomial with real coefficients, at a complex number. *)
Theorem C72_polynomials : forall (lm : libm) z c, cfinite z ->
  Forall (fun a : f64 => is_finite a = true) c ->
  let w := (1 + / 2 ^ 51) ^ (2 * List.length c) in let m := Rmax 1 (modulus (cval z)) in
  (abspoly (vals c) m + powers (vals c) m) * w <= bpow radix2 1000 ->
  near_c2 (poly_eval_c (ops := F64ops lm) c z) (complex_polynomial (vals c) (cval z))
    ((w - 1) * abspoly (vals c) (modulus (cval z)) +
     bpow radix2 (-1072) * w * powers (vals c) (modulus (cval z))).
Proof. exact poly64c. Qed.
Print Assumptions C72_polynomials.

(** 1 + 2i meets the hypotheses; at it 1 + 2 x + 3 x^2 is -6 + 16i. *)
Example C72_ex : let z := mkC f_1 f_2 in let c := [f_1; f_2; f_3] in
  cfinite z /\ cval z = (1, 2) /\ bpow radix2 (-400) <= modulus (cval z) <= bpow radix2 400 /\
  modulus (cval z) * modulus (cval z) <= bpow radix2 1000 /\
  Forall (fun a : f64 => is_finite a = true) c /\
  (abspoly (vals c) (Rmax 1 (modulus (cval z))) + powers (vals c) (Rmax 1 (modulus (cval z)))) *
    (1 + / 2 ^ 51) ^ (2 * List.length c) <= bpow radix2 1000 /\
  complex_polynomial (vals c) (cval z) = (-6, 16).
Proof. exact complex_ex. Qed.
