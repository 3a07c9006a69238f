(** Properties C01-C03, C05-C07: polynomials, Clenshaw summation, error-free addition, complex
    numbers, fixed-point iteration, unit conversions.

    [Fin r] is the real number [r] in exact arithmetic, [cx (a, b)] the complex number a + bi;
    [B2R x] is the real value of the binary64 number [x]; [lm] stands for any C library. *)
From Coq Require Import Reals Lra ZArith List.
From Flocq Require Import Core IEEE754.BinarySingleNaN.
From Verif.Num Require Import FOps XR XRLemmas F64 F64Lemmas.
From Verif.Model Require Import Fp Quantities Complex.
From Verif.Spec Require Import Series Iteration.
From Verif.Proofs Require Import MathX MathF MathEx.
Import ListNotations.
Local Open Scope R_scope.

(** ** C01 polynomials *)

Theorem C01_eval_at_is_polynomial : forall (c : list R) (x : R),
  poly_eval (map Fin c) (Fin x) = Fin (polynomial c x).
Proof. exact poly_eval_fin. Qed.
Print Assumptions C01_eval_at_is_polynomial.

Theorem C01_fast_eval_at_is_polynomial : forall (c : list R) (x : R),
  fast_eval_at (map Fin c) (Fin x) = Fin (polynomial c x).
Proof. exact fast_eval_fin. Qed.
Print Assumptions C01_fast_eval_at_is_polynomial.

Theorem C01_complex_eval_at_is_polynomial : forall (c : list R) (z : C2),
  poly_eval_c (map Fin c) (cx z) = cx (complex_polynomial c z).
Proof. exact poly_eval_c_fin. Qed.
Print Assumptions C01_complex_eval_at_is_polynomial.

Example C01_ex : poly_eval (map Fin [1; 2; 3]) (Fin 2) = Fin 17 /\
  poly_eval_c (map Fin [1; 2; 3]) (cx (0, 1)) = cx (-2, 2).
Proof. exact ex_poly. Qed.

(** ** C02 Clenshaw summation *)

Theorem C02_clenshaw_is_sine_series : forall (c : list R) (x : R),
  clenshaw_sin_sum (map Fin c) (Fin x) = Fin (sine_series c x).
Proof. exact clenshaw_fin. Qed.
Print Assumptions C02_clenshaw_is_sine_series.

Example C02_ex : clenshaw_sin_sum (map Fin [5; 2; 3]) (Fin (PI / 2)) = Fin 2 /\
  clenshaw_sin_sum (map Fin []) (Fin (PI / 2)) = Fin 0.
Proof. exact ex_clenshaw. Qed.

(** ** C03 error-free addition *)

Theorem C03_sum_is_error_free : forall (lm : libm) (a b : f64),
  is_finite a = true -> is_finite b = true ->
  Rabs (B2R a) <= bpow radix2 1021 -> Rabs (B2R b) <= bpow radix2 1021 ->
  let '(x, y) := two_sum (ops := F64ops lm) a b in
  is_finite x = true /\ is_finite y = true /\
  B2R x = round radix2 (FLT_exp (-1074) 53) ZnearestE (B2R a + B2R b) /\
  B2R x + B2R y = B2R a + B2R b.
Proof. exact two_sum_correct. Qed.
Print Assumptions C03_sum_is_error_free.

(** 1 + 2^-60 is not representable; the sum is 1 and the error 2^-60. *)
Example C03_sum_ex : forall lm : libm,
  two_sum (ops := F64ops lm) (f64_ofZ 1) (f64_of 1 (-60)) = (f64_ofZ 1, f64_of 1 (-60)).
Proof. exact ex_two_sum. Qed.

(** It is not enough that the sum itself is finite. *)
Theorem C03_sum_finite_is_not_enough_refuted : exists a b : f64,
  is_finite a = true /\ is_finite b = true /\
  forall lm : libm, let '(x, y) := two_sum (ops := F64ops lm) a b in
  is_finite x = true /\ is_nan y = true.
Proof. exact two_sum_overflow. Qed.
Print Assumptions C03_sum_finite_is_not_enough_refuted.

(** ** C05 complex numbers *)

Theorem C05_ring_laws : forall z w u : C2,
  cadd (cx z) (cx w) = cadd (cx w) (cx z) /\
  cadd (cx z) (cadd (cx w) (cx u)) = cadd (cadd (cx z) (cx w)) (cx u) /\
  cadd (cx z) czero = cx z /\
  csub (cx z) (cx z) = czero /\
  cadd (csub (cx z) (cx w)) (cx w) = cx z /\
  cmul (cx z) (cx w) = cmul (cx w) (cx z) /\
  cmul (cx z) (cmul (cx w) (cx u)) = cmul (cmul (cx z) (cx w)) (cx u) /\
  cmul (cx z) (cx (1, 0)) = cx z /\
  cmul (cx z) (cadd (cx w) (cx u)) = cadd (cmul (cx z) (cx w)) (cmul (cx z) (cx u)) /\
  cmul (cx (0, 1)) (cx (0, 1)) = cx (-1, 0).
Proof. exact C_ring. Qed.
Print Assumptions C05_ring_laws.

(** The operations are those of the complex numbers, not merely of some ring. *)
Theorem C05_sum_and_product : forall z w : C2,
  cadd (cx z) (cx w) = cx (fst z + fst w, snd z + snd w) /\
  cmul (cx z) (cx w) = cx (c2mul z w).
Proof. exact C_ops. Qed.
Print Assumptions C05_sum_and_product.

Theorem C05_conjugate : forall z w : C2,
  conj (conj (cx z)) = cx z /\
  conj (cmul (cx z) (cx w)) = cmul (conj (cx z)) (conj (cx w)) /\
  conj (cadd (cx z) (cx w)) = cadd (conj (cx z)) (conj (cx w)) /\
  cmul (cx z) (conj (cx z)) = mkC (abs_sq (cx z)) (Fin 0).
Proof. exact C_conj. Qed.
Print Assumptions C05_conjugate.

Theorem C05_real_operands : forall (z : C2) (x : R),
  cadd_f (cx z) (Fin x) = cadd (cx z) (cx (x, 0)) /\
  csub_f (cx z) (Fin x) = csub (cx z) (cx (x, 0)) /\
  cmul_f (cx z) (Fin x) = cmul (cx z) (cx (x, 0)) /\
  (x <> 0 -> cmul_f (cdiv_f (cx z) (Fin x)) (Fin x) = cx z).
Proof. exact C_scalar. Qed.
Print Assumptions C05_real_operands.

Theorem C05_inverse : forall z : C2,
  (z = (0, 0) -> cinv (cx z) = Err tt) /\
  (z <> (0, 0) -> exists w, cinv (cx z) = Ok (cx w) /\ cmul (cx z) (cx w) = cx (1, 0)).
Proof. exact C_inverse. Qed.
Print Assumptions C05_inverse.

Theorem C05_division : forall z w : C2,
  (w = (0, 0) -> cdiv (cx z) (cx w) = Err tt) /\
  (w <> (0, 0) -> exists q, cdiv (cx z) (cx w) = Ok (cx q) /\ cmul (cx q) (cx w) = cx z).
Proof. exact C_division. Qed.
Print Assumptions C05_division.

Theorem C05_modulus : forall z w : C2, exists r s,
  cabs (cx z) = Fin r /\ cabs (cx w) = Fin s /\ 0 <= r /\ (r = 0 <-> z = (0, 0)) /\
  cabs (cmul (cx z) (cx w)) = Fin (r * s) /\ abs_sq (cx z) = Fin (r * r).
Proof. exact C_modulus. Qed.
Print Assumptions C05_modulus.

Theorem C05_polar_form : forall z : C2, exists r t,
  cabs (cx z) = Fin r /\ carg (cx z) = Fin t /\ - PI < t <= PI /\ z = (r * cos t, r * sin t).
Proof. exact C_polar. Qed.
Print Assumptions C05_polar_form.

Example C05_ex : cinv (cx (3, 4)) = Ok (cx (3 / 25, - 4 / 25)) /\
  cdiv (cx (1, 0)) (cx (0, 1)) = Ok (cx (0, -1)).
Proof. exact ex_complex. Qed.

(** In binary64 the squared modulus can underflow: a nonzero number gets a NaN "inverse". *)
Theorem C05_inverse_f64_refuted : exists z : complex f64,
  is_finite (re z) = true /\ is_finite (im z) = true /\
  forall lm : libm, is_zero (ops := F64ops lm) z = false /\
    exists w, cinv (ops := F64ops lm) z = Ok w /\
    is_finite (re w) = false /\ is_nan (im w) = true.
Proof. exact complex_inverse_underflow. Qed.
Print Assumptions C05_inverse_f64_refuted.

(** ** C06 iter_fn, in any arithmetic *)

Theorem C06_iter_fn_returns_first_converged : forall (F : Type) (ops : FOps F) (fuel : nat)
    (init : list F) (deltas : list F -> list F) (eps v : list F) (d : nat),
  length init = d -> length eps = d ->
  (forall u, length u = d -> length (deltas u) = d) ->
  (iter_fn fuel init deltas eps = Ret v <->
   exists n, (n < fuel)%nat /\ v = iterate deltas init (S n) /\
     step_small deltas eps (iterate deltas init n) /\
     forall m, (m < n)%nat -> ~ step_small deltas eps (iterate deltas init m)).
Proof. exact @iter_fn_correct. Qed.
Print Assumptions C06_iter_fn_returns_first_converged.

Theorem C06_iter_fn_runs_forever_iff : forall (F : Type) (ops : FOps F)
    (init : list F) (deltas : list F -> list F) (eps : list F) (d : nat),
  length init = d -> length eps = d ->
  (forall u, length u = d -> length (deltas u) = d) ->
  ((forall fuel, iter_fn fuel init deltas eps = Diverge) <->
   forall n, ~ step_small deltas eps (iterate deltas init n)).
Proof. exact @iter_fn_diverge. Qed.
Print Assumptions C06_iter_fn_runs_forever_iff.

Theorem C06_iter_fn_nan_never_returns : forall (lm : libm) (init : list f64)
    (deltas : list f64 -> list f64) (eps : list f64) (d : nat),
  length init = d -> length eps = d ->
  (forall u, length u = d -> length (deltas u) = d) ->
  (forall u, length u = d -> Exists (fun x => is_nan x = true) (deltas u)) ->
  forall fuel, iter_fn (ops := F64ops lm) fuel init deltas eps = Diverge.
Proof. exact iter_fn_nan. Qed.
Print Assumptions C06_iter_fn_nan_never_returns.

(** Halving the distance to 1 from 0 with tolerance 1/4: the steps are 1/2, 1/4, 1/8. *)
Example C06_ex : iter_fn 3 [Fin 0] (fun u => map (fun x => match x with Fin r => Fin ((1 - r) / 2) | y => y end) u)
  [Fin (1 / 4)] = Ret [Fin (7 / 8)].
Proof. exact ex_iter. Qed.

Example C06_nan_ex : (forall u : list f64, length u = 1%nat -> length [f64_nan] = 1%nat) /\
  (forall u : list f64, length u = 1%nat -> Exists (fun x => is_nan x = true) [f64_nan]).
Proof. exact ex_iter_nan. Qed.

(** ** C07 units.  A unit is a pair (p, q), worth p/q radians or metres. *)

Theorem C07_angle_roundtrip : forall x p q : R, p <> 0 -> q <> 0 ->
  angle_val (angle_new (Fin x) (Fin p, Fin q)) (Fin p, Fin q) = Fin x.
Proof. exact angle_roundtrip_exact. Qed.
Print Assumptions C07_angle_roundtrip.

Theorem C07_length_roundtrip : forall x p q : R, p <> 0 -> q <> 0 ->
  length_val (length_new (Fin x) (Fin p, Fin q)) (Fin p, Fin q) = Fin x.
Proof. exact length_roundtrip_exact. Qed.
Print Assumptions C07_length_roundtrip.

(** Reading in a unit and rebuilding gives back the value; the reading v in a second unit is
    worth the same, and relates to the reading w in the first by the ratio of the units. *)
Theorem C07_angle_conversion : forall a p q p' q' : R, p <> 0 -> q <> 0 -> p' <> 0 -> q' <> 0 ->
  angle_new (angle_val (Fin a) (Fin p, Fin q)) (Fin p, Fin q) = Fin a /\
  exists v, angle_val (Fin a) (Fin p', Fin q') = Fin v /\ v * (p' / q') = a /\
  exists w, angle_val (Fin a) (Fin p, Fin q) = Fin w /\ v = w * (p / q) / (p' / q').
Proof. exact angle_conversion_exact. Qed.
Print Assumptions C07_angle_conversion.

Theorem C07_length_conversion : forall a p q p' q' : R, p <> 0 -> q <> 0 -> p' <> 0 -> q' <> 0 ->
  length_new (length_val (Fin a) (Fin p, Fin q)) (Fin p, Fin q) = Fin a /\
  exists v, length_val (Fin a) (Fin p', Fin q') = Fin v /\ v * (p' / q') = a /\
  exists w, length_val (Fin a) (Fin p, Fin q) = Fin w /\ v = w * (p / q) / (p' / q').
Proof. exact length_conversion_exact. Qed.
Print Assumptions C07_length_conversion.

(** The predefined units have their defined sizes. *)
Theorem C07_predefined_units :
  (forall x, angle_new (Fin x) RAD = Fin x) /\
  angle_new (Fin 180) DEG = Fin PI /\ angle_new (Fin 200) GRAD = Fin PI /\
  angle_new (Fin 3600) SEC = angle_new (Fin 1) DEG /\
  (forall x, length_new (Fin x) M = Fin x) /\
  length_new (Fin 10000) FT = Fin 3048 /\ length_new (Fin 3937) US_FT = Fin 1200.
Proof. exact unit_sizes. Qed.
Print Assumptions C07_predefined_units.

(** Binary64: radians and metres are stored and read bit for bit, NaN and infinities included. *)
Theorem C07_base_units_f64_exact : forall (lm : libm) (x : f64),
  angle_new (ops := F64ops lm) x (RAD (ops := F64ops lm)) = x /\
  angle_val (ops := F64ops lm) x (RAD (ops := F64ops lm)) = x /\
  length_new (ops := F64ops lm) x (M (ops := F64ops lm)) = x /\
  length_val (ops := F64ops lm) x (M (ops := F64ops lm)) = x.
Proof. exact base_unit_exact. Qed.
Print Assumptions C07_base_units_f64_exact.

Theorem C07_angle_units_f64_error : forall (lm : libm) (x : f64) (u : unit_ f64),
  is_finite x = true /\ bpow radix2 (-900) <= Rabs (B2R x) <= bpow radix2 900 ->
  In u [RAD (ops := F64ops lm); DEG (ops := F64ops lm); GRAD (ops := F64ops lm); SEC (ops := F64ops lm)] ->
  let r := angle_val (ops := F64ops lm) (angle_new (ops := F64ops lm) x u) u in
  is_finite r = true /\ Rabs (B2R r - B2R x) <= 5 * / 2 ^ 53 * Rabs (B2R x).
Proof. exact predefined_angle_units. Qed.
Print Assumptions C07_angle_units_f64_error.

Theorem C07_length_units_f64_error : forall (lm : libm) (x : f64) (u : unit_ f64),
  is_finite x = true /\ bpow radix2 (-900) <= Rabs (B2R x) <= bpow radix2 900 ->
  In u [M (ops := F64ops lm); FT (ops := F64ops lm); US_FT (ops := F64ops lm)] ->
  let r := length_val (ops := F64ops lm) (length_new (ops := F64ops lm) x u) u in
  is_finite r = true /\ Rabs (B2R r - B2R x) <= 3 * / 2 ^ 53 * Rabs (B2R x).
Proof. exact predefined_length_units. Qed.
Print Assumptions C07_length_units_f64_error.

Example C07_f64_ex : is_finite (f64_ofZ 45) = true /\
  bpow radix2 (-900) <= Rabs (B2R (f64_ofZ 45)) <= bpow radix2 900.
Proof. exact ex_mid. Qed.
