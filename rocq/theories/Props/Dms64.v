(** Property C75: degrees, minutes and seconds in binary64.

    Spec/Angles64.v defines [near_angle], equality of directions up to an error and whole turns. *)
From Coq Require Import Reals ZArith.
From Flocq Require Import Core IEEE754.BinarySingleNaN.
From Verif.Num Require Import FOps F64.
From Verif.Model Require Import Fp Quantities Cs.
From Verif.Spec Require Import Angles64.
From Verif.Proofs Require Import Dms64.
Local Open Scope R_scope.

(** The parts are whole degrees with the sign of the angle, whole minutes and seconds below 60, and
    together they are the angle. Sixty minutes can occur (C14), but only with zero seconds. *)
Theorem C75_dms_splits : forall (lm : libm) (a : f64),
  is_finite a = true -> Rabs (B2R a) <= 8 ->
  let '(d, m, s) := angle_dms (ops := F64ops lm) a in
  is_finite d = true /\ is_finite m = true /\ is_finite s = true /\
  (exists n : Z, (0 <= n)%Z /\ B2R d = (if Bsign a then -1 else 1) * IZR n) /\
  (exists k : Z, (0 <= k <= 60)%Z /\ B2R m = IZR k /\ (k = 60%Z -> B2R s = 0)) /\
  0 <= B2R s < 60 /\
  Rabs (Rabs (B2R d) + B2R m / 60 + B2R s / 3600 - Rabs (B2R a) * (180 / PI)) <= 2 / 10 ^ 10 /\
  (B2R s <> 0 ->
   Rabs (Rabs (B2R d) + B2R m / 60 + B2R s / 3600 - Rabs (B2R a) * (180 / PI)) <= / 10 ^ 13).
Proof. exact dms_split64. Qed.
Print Assumptions C75_dms_splits.

(** The constructors give the angle back from its parts. *)
Theorem C75_dms_there_and_back : forall (lm : libm) (a : f64) (dbg : bool),
  is_finite a = true -> Rabs (B2R a) <= 62 / 10 ->
  let '(d, m, s) := angle_dms (ops := F64ops lm) a in
  B2R m <= 59 ->
  ((dbg = true -> -180 < B2R d) ->
   (exists l, lon_dms (ops := F64ops lm) dbg d m s = Ret l /\ is_finite l = true /\
      near_angle (B2R l) (B2R a) (4 / 10 ^ 12)) /\
   (exists z, azimuth_dms (ops := F64ops lm) dbg d m s = Ret z /\ is_finite z = true /\
      near_angle (B2R z) (B2R a) (4 / 10 ^ 12))) /\
  (Rabs (B2R a) <= 157 / 100 ->
   exists l, lat_dms (ops := F64ops lm) dbg d m s = Ret l /\ is_finite l = true /\
     Rabs (B2R l - B2R a) <= 4 / 10 ^ 12).
Proof. exact dms_there64. Qed.
Print Assumptions C75_dms_there_and_back.

(** The hypotheses are met: -3 rad is 171 degrees 53 minutes 14.4 seconds west. *)
Example C75_ex : forall lm : libm,
  is_finite (f64_ofZ (-3)) = true /\ B2R (f64_ofZ (-3)) = -3 /\
  let '(d, m, s) := angle_dms (ops := F64ops lm) (f64_ofZ (-3)) in
  B2R d = -171 /\ B2R m = 53 /\ 143 / 10 < B2R s < 145 / 10.
Proof. exact dms64_ex2. Qed.
