(** Property C50: equality of ellipsoids, prime meridians and datums, in binary64.
    [no_nan_ellipsoid] (Spec/NoNan.v): none of the three numbers is NaN. *)
From Coq Require Import String.
From Flocq Require Import Core IEEE754.BinarySingleNaN.
From Verif.Num Require Import FOps F64.
From Verif.Model Require Import Fp Quantities Cs Ellipsoid.
From Verif.Spec Require Import NoNan.
From Verif.Proofs Require Import EqS2.

Theorem C50_ellipsoid_equality : forall (lm : libm) E E', ellipsoid_eq (ops := F64ops lm) E E' = true <->
  Beqb (e_a E) (e_a E') = true /\ Beqb (e_b E) (e_b E') = true /\ Beqb (e_invf E) (e_invf E') = true.
Proof. exact ellipsoid_eq_iff. Qed.
Print Assumptions C50_ellipsoid_equality.

(** Equality of floats is equality of the numbers, infinities included. *)
Theorem C50_float_equality : forall x y : f64, Beqb x y = true <->
  (is_finite x = true /\ is_finite y = true /\ B2R x = B2R y) \/
  (exists s, x = B754_infinity s /\ y = B754_infinity s).
Proof. exact Beqb_iff. Qed.
Print Assumptions C50_float_equality.

Theorem C50_ellipsoid_equivalence : forall lm : libm,
  (forall E, ellipsoid_eq (ops := F64ops lm) E E = true <-> no_nan_ellipsoid E) /\
  (forall E E', ellipsoid_eq (ops := F64ops lm) E E' = true -> ellipsoid_eq (ops := F64ops lm) E' E = true) /\
  (forall E E' E'', ellipsoid_eq (ops := F64ops lm) E E' = true ->
     ellipsoid_eq (ops := F64ops lm) E' E'' = true -> ellipsoid_eq (ops := F64ops lm) E E'' = true).
Proof. exact ellipsoid_equivalence. Qed.
Print Assumptions C50_ellipsoid_equivalence.

Theorem C50_ellipsoid_names_ignored : forall (lm : libm) n n' a b i E,
  ellipsoid_eq (ops := F64ops lm) (mkEllipsoid n a b i) E =
  ellipsoid_eq (ops := F64ops lm) (mkEllipsoid n' a b i) E /\
  ellipsoid_eq (ops := F64ops lm) E (mkEllipsoid n a b i) =
  ellipsoid_eq (ops := F64ops lm) E (mkEllipsoid n' a b i).
Proof. exact ellipsoid_names. Qed.
Print Assumptions C50_ellipsoid_names_ignored.

Theorem C50_meridian_equivalence : forall lm : libm,
  (forall P Q, pm_eq (ops := F64ops lm) P Q = true <-> Beqb (pm_lon P) (pm_lon Q) = true) /\
  (forall P, pm_eq (ops := F64ops lm) P P = true <-> is_nan (pm_lon P) = false) /\
  (forall P Q, pm_eq (ops := F64ops lm) P Q = true -> pm_eq (ops := F64ops lm) Q P = true) /\
  (forall P Q R, pm_eq (ops := F64ops lm) P Q = true -> pm_eq (ops := F64ops lm) Q R = true ->
     pm_eq (ops := F64ops lm) P R = true).
Proof. exact meridian_equivalence. Qed.
Print Assumptions C50_meridian_equivalence.

Theorem C50_datum_equivalence : forall lm : libm,
  (forall d d', datum_eq (ops := F64ops lm) d d' = true <->
     d_id d = d_id d' /\ ellipsoid_eq (ops := F64ops lm) (d_ellipsoid d) (d_ellipsoid d') = true /\
     pm_eq (ops := F64ops lm) (d_pm d) (d_pm d') = true) /\
  (forall d, datum_eq (ops := F64ops lm) d d = true <->
     no_nan_ellipsoid (d_ellipsoid d) /\ is_nan (pm_lon (d_pm d)) = false) /\
  (forall d d', datum_eq (ops := F64ops lm) d d' = true -> datum_eq (ops := F64ops lm) d' d = true) /\
  (forall d d' d'', datum_eq (ops := F64ops lm) d d' = true -> datum_eq (ops := F64ops lm) d' d'' = true ->
     datum_eq (ops := F64ops lm) d d'' = true).
Proof. exact datum_equivalence. Qed.
Print Assumptions C50_datum_equivalence.

Example C50_example : forall lm : libm,
  pm_eq (ops := F64ops lm) (mkPM "A" (B754_zero false)) (mkPM "B" (B754_zero true)) = true /\
  datum_eq (ops := F64ops lm) (mkDatum "A" (WGS84 (ops := F64ops lm)) (GREENWICH (ops := F64ops lm)))
                              (mkDatum "B" (WGS84 (ops := F64ops lm)) (GREENWICH (ops := F64ops lm))) = false.
Proof. exact equality_example. Qed.
