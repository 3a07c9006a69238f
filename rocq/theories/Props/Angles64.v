(** Property C74: directions and turns in binary64.

    Spec/Angles64.v defines [near_angle] (equal up to an error and whole turns of the exact 2 pi),
    [turns_by] and [turn_of]; Spec/Runs.v [lon_run] and [turn_sum]. *)
From Coq Require Import Reals List.
From Flocq Require Import Core IEEE754.BinarySingleNaN.
From Verif.Num Require Import FOps F64.
From Verif.Model Require Import Fp Quantities Cs.
From Verif.Spec Require Import Runs Angles64.
From Verif.Proofs Require Import Lines64D Angles64P Angles64Ex.
Import ListNotations.
Local Open Scope R_scope.

Theorem C74_normalized : forall (lm : libm) (a : f64),
  is_finite a = true -> Rabs (B2R a) <= 2 ^ 50 ->
  let w := normalized (ops := F64ops lm) a in let e := / 2 ^ 52 * (Rabs (B2R a) + 8) in
  is_finite w = true /\ - B2R PI64 < B2R w <= B2R PI64 + e /\ near_angle (B2R w) (B2R a) e.
Proof. exact normalized_error. Qed.
Print Assumptions C74_normalized.

(** Within a half turn nothing is changed, but -PI becomes PI. *)
Theorem C74_normalized_identity : forall (lm : libm) (a : f64),
  is_finite a = true -> Rabs (B2R a) <= B2R PI64 ->
  let w := normalized (ops := F64ops lm) a in
  (B2R a <> - B2R PI64 -> is_finite w = true /\ B2R w = B2R a) /\
  (B2R a = - B2R PI64 -> w = PI64).
Proof. exact normalized_exact. Qed.
Print Assumptions C74_normalized_identity.

(** Turning from [a] by [diff_to a b] leads to [b]. *)
Theorem C74_diff_to : forall (lm : libm) (a b : f64),
  is_finite a = true -> is_finite b = true -> Rabs (B2R a) + Rabs (B2R b) <= 2 ^ 49 ->
  let e := / 2 ^ 51 * (Rabs (B2R a) + Rabs (B2R b) + 8) in
  let d := diff_to (ops := F64ops lm) a b in
  is_finite d = true /\ - B2R PI64 < B2R d <= B2R PI64 + e /\
  near_angle (B2R a + B2R d) (B2R b) e.
Proof. exact diff_to64. Qed.
Print Assumptions C74_diff_to.

Theorem C74_longitude_difference : forall (lm : libm) (l r : f64),
  is_finite l = true -> is_finite r = true -> Rabs (B2R l) + Rabs (B2R r) <= 2 ^ 49 ->
  let e := / 2 ^ 51 * (Rabs (B2R l) + Rabs (B2R r) + 8) in
  let d := lon_sub (ops := F64ops lm) l r in
  is_finite d = true /\ - B2R PI64 < B2R d <= B2R PI64 + e /\
  near_angle (B2R r + B2R d) (B2R l) e.
Proof. exact lon_sub64. Qed.
Print Assumptions C74_longitude_difference.

Theorem C74_longitude_sums : forall (lm : libm) (l a : f64),
  is_finite l = true -> is_finite a = true -> Rabs (B2R l) + Rabs (B2R a) <= 2 ^ 49 ->
  let e := / 2 ^ 51 * (Rabs (B2R l) + Rabs (B2R a) + 8) in
  (let x := lon_add (ops := F64ops lm) l a in
   is_finite x = true /\ - B2R PI64 <= B2R x <= B2R PI64 + e /\
   near_angle (B2R x) (B2R l + B2R a) e) /\
  (let x := lon_sub_angle (ops := F64ops lm) l a in
   is_finite x = true /\ - B2R PI64 <= B2R x <= B2R PI64 + e /\
   near_angle (B2R x) (B2R l - B2R a) e).
Proof. exact lon_add64. Qed.
Print Assumptions C74_longitude_sums.

Theorem C74_azimuth_sum : forall (lm : libm) (z a : f64),
  is_finite z = true -> is_finite a = true -> Rabs (B2R z) + Rabs (B2R a) <= 2 ^ 49 ->
  let e := / 2 ^ 51 * (Rabs (B2R z) + Rabs (B2R a) + 8) in
  let x := azimuth_add (ops := F64ops lm) z a in
  is_finite x = true /\ - B2R PI64 < B2R x <= B2R PI64 + e /\
  near_angle (B2R x) (B2R z + B2R a) e.
Proof. exact azimuth_add64. Qed.
Print Assumptions C74_azimuth_sum.

Theorem C74_azimuth_difference : forall (lm : libm) (z r : f64),
  is_finite z = true -> is_finite r = true -> Rabs (B2R z) + Rabs (B2R r) <= 2 ^ 49 ->
  let e := / 2 ^ 51 * (Rabs (B2R z) + Rabs (B2R r) + 16) in
  let d := azimuth_sub (ops := F64ops lm) z r in
  is_finite d = true /\ - B2R PI64 < B2R d <= B2R PI64 + / 2 ^ 48 /\
  near_angle (B2R r + B2R d) (B2R z) e.
Proof. exact azimuth_sub64. Qed.
Print Assumptions C74_azimuth_difference.

Theorem C74_azimuth_there : forall (lm : libm) (z r : f64),
  is_finite z = true -> is_finite r = true -> Rabs (B2R z) <= 4 -> Rabs (B2R r) <= 4 ->
  let x := azimuth_add (ops := F64ops lm) r (azimuth_sub (ops := F64ops lm) z r) in
  is_finite x = true /\ near_angle (B2R x) (B2R z) (/ 2 ^ 45).
Proof. exact turn_back64. Qed.
Print Assumptions C74_azimuth_there.

(** Any number of turns: the error grows no faster than their number. *)
Theorem C74_runs : forall (lm : libm) (t : R) (a : f64) calls,
  is_finite a = true -> Rabs (B2R a) <= t -> t <= 2 ^ 40 -> Forall (turns_by t) calls ->
  let x := lon_run (ops := F64ops lm) a calls in
  is_finite x = true /\ Rabs (B2R x) <= B2R PI64 + / 2 ^ 51 * (t + 16) /\
  near_angle (B2R x) (turn_sum (B2R a) (map turn_of calls))
    (INR (S (length calls)) * (/ 2 ^ 51 * (t + 16))).
Proof. exact runs64. Qed.
Print Assumptions C74_runs.

(** Three radians, and then three calls, meet the hypotheses. *)
Example C74_ex : let calls := [OpAdd f_3; OpNeg; OpSub f_2] in
  is_finite f_3 = true /\ is_finite f_2 = true /\ B2R f_3 = 3 /\ B2R f_2 = 2 /\
  Rabs (B2R f_3) + Rabs (B2R f_2) <= 2 ^ 49 /\ Rabs (B2R f_3) <= 4 /\ 4 <= 2 ^ 40 /\
  Forall (turns_by 4) calls /\ turn_sum (B2R f_3) (map turn_of calls) = - 8.
Proof. exact angles64_ex. Qed.
