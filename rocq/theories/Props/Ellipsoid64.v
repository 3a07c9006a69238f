(** Property C73: what an ellipsoid reports of itself, in binary64.

    Spec/Ellipsoid64.v defines [flat64], [off64], [vertical_radius] and [meridional_radius],
    Spec/Binary64.v [earth64], Spec/Accurate.v [accurate]. *)
From Coq Require Import Reals List String.
From Flocq Require Import Core IEEE754.BinarySingleNaN.
From Verif.Num Require Import FOps F64.
From Verif.Model Require Import Fp Ellipsoid.
From Verif.Spec Require Import Accurate Binary64 Ellipsoid64.
From Verif.Proofs Require Import Ell64 Ell64B Ell64Ex.
Local Open Scope R_scope.

(** From two semi-axes: they are kept, and the inverse flattening agrees with them. *)
Theorem C73_from_ab : forall (lm : libm) (name : string) (x y : f64),
  is_finite x = true -> is_finite y = true -> 6300000 <= B2R y < B2R x -> B2R x <= 6400000 ->
  99 * B2R x <= 100 * B2R y ->
  exists E, from_ab (ops := F64ops lm) name x y = Ret E /\ e_name E = name /\
    earth64 E (B2R x) (B2R y) /\ flat64 E (B2R x) (B2R y).
Proof. exact from_ab64. Qed.
Print Assumptions C73_from_ab.

(** From the major semi-axis and the inverse flattening: the minor semi-axis is right to 3 nm. *)
Theorem C73_from_ainvf : forall (lm : libm) (name : string) (x i : f64),
  is_finite x = true -> is_finite i = true -> 6370000 <= B2R x <= 6400000 ->
  101 <= B2R i <= 6400000 ->
  exists E, from_ainvf (ops := F64ops lm) name x i = Ret E /\ e_name E = name /\ e_invf E = i /\
    off64 (e_b E) (B2R x * (1 - / B2R i)) (3 / 10 ^ 9) /\
    earth64 E (B2R x) (B2R (e_b E)) /\ flat64 E (B2R x) (B2R (e_b E)).
Proof. exact from_ainvf64. Qed.
Print Assumptions C73_from_ainvf.

Theorem C73_predefined : forall (lm : libm) E, List.In E (ellipsoid_consts (ops := F64ops lm)) ->
  earth64 E (B2R (e_a E)) (B2R (e_b E)) /\ flat64 E (B2R (e_a E)) (B2R (e_b E)).
Proof. exact consts_earth_flat. Qed.
Print Assumptions C73_predefined.

(** The flattenings and eccentricities; the second eccentricity is judged by its square. *)
Theorem C73_parameters : forall (lm : libm) E a b, earth64 E a b -> flat64 E a b ->
  off64 (ef (ops := F64ops lm) E) ((a - b) / a) (5 * / 2 ^ 53) /\
  off64 (en (ops := F64ops lm) E) ((a - b) / (a + b)) (/ 2 ^ 53) /\
  off64 (e_sq (ops := F64ops lm) E) ((a * a - b * b) / (a * a)) (/ 2 ^ 53) /\
  off64 (ecc (ops := F64ops lm) E) (sqrt ((a * a - b * b) / (a * a))) (/ 2 ^ 53) /\
  off64 (e_prime_sq (ops := F64ops lm) E) ((a * a - b * b) / (b * b)) (3 * / 2 ^ 53) /\
  is_finite (e_prime (ops := F64ops lm) E) = true /\ 0 <= B2R (e_prime (ops := F64ops lm) E) /\
  Rabs (B2R (e_prime (ops := F64ops lm) E) * B2R (e_prime (ops := F64ops lm) E) -
        (a * a - b * b) / (b * b)) <= 4 * / 2 ^ 53.
Proof. exact params64. Qed.
Print Assumptions C73_parameters.

(** The radii of curvature, across and along the meridian, and of the conformal sphere. *)
Theorem C73_radii : forall (lm : libm), accurate lm -> forall E a b, earth64 E a b ->
  forall p : f64, is_finite p = true -> Rabs (B2R p) <= 2 ->
  off64 (prime_vertical_radius (ops := F64ops lm) E p) (vertical_radius a b (B2R p)) (3 / 10 ^ 9) /\
  off64 (prime_meridional_radius (ops := F64ops lm) E p) (meridional_radius a b (B2R p))
    (17 / 10 ^ 9) /\
  off64 (conformal_sphere_radius (ops := F64ops lm) E p)
    (sqrt (meridional_radius a b (B2R p) * vertical_radius a b (B2R p))) (11 / 10 ^ 9).
Proof. exact radii64. Qed.
Print Assumptions C73_radii.

Theorem C73_latitudes : forall (lm : libm), accurate lm -> forall E a b p,
  earth64 E a b -> flat64 E a b -> is_finite p = true -> Rabs (B2R p) <= B2R PI_2_64 ->
  off64 (reduced_latitude (ops := F64ops lm) E p) (atan (b / a * tan (B2R p))) (/ 2 ^ 48) /\
  off64 (geocentric_latitude (ops := F64ops lm) E p) (atan (b * b / (a * a) * tan (B2R p)))
    (/ 2 ^ 48).
Proof. exact latitudes64. Qed.
Print Assumptions C73_latitudes.

(** WGS84 and a latitude of one radian meet the hypotheses. *)
Example C73_ex : exists lm, accurate lm /\
  let E := WGS84 (ops := F64ops lm) in let p := f64_ofZ 1 in
  earth64 E (B2R (e_a E)) (B2R (e_b E)) /\ flat64 E (B2R (e_a E)) (B2R (e_b E)) /\
  is_finite p = true /\ B2R p = 1 /\ Rabs (B2R p) <= B2R PI_2_64.
Proof. exact ell64_ex. Qed.
