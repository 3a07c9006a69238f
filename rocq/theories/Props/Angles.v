(** Properties C04, C08-C15: remainders, angles, latitudes, longitudes, azimuths, intervals.

    [Fin r] is the real number [r] in exact arithmetic; [B2R x] is the real value of the binary64
    number [x]; [lm] stands for any C library. *)
From Coq Require Import Reals Lra ZArith List.
From Flocq Require Import Core IEEE754.BinarySingleNaN.
From Verif.Num Require Import FOps XR XRLemmas F64 F64Lemmas.
From Verif.Model Require Import Fp Quantities Cs.
From Verif.Spec Require Import Angles Runs.
From Verif.Proofs Require Import AnglesX AnglesX2 AnglesF AnglesEx PubX.
Import ListNotations.
Local Open Scope R_scope.

(** ** C04 remainder *)

Theorem C04_remainder_exact : forall v r : R, r <> 0 ->
  exists w, remainder (Fin v) (Fin r) = Fin w /\ nearest_remainder v r w.
Proof. exact remainder_spec. Qed.
Print Assumptions C04_remainder_exact.

Example C04_remainder_exact_ex : remainder (Fin 17) (Fin 5) = Fin 2.
Proof. exact ex_remainder. Qed.

(** In binary64, reducing modulo TAU leaves numbers of the half period untouched ... *)
Theorem C04_remainder_f64_identity : forall (lm : libm) (a : f64),
  is_finite a = true -> Rabs (B2R a) <= B2R PI64 ->
  is_finite (remainder (ops := F64ops lm) a TAU64) = true /\
  B2R (remainder (ops := F64ops lm) a TAU64) = B2R a.
Proof. exact remainder_exact. Qed.
Print Assumptions C04_remainder_f64_identity.

Example C04_remainder_f64_identity_ex : is_finite (f64_ofZ 3) = true /\ Rabs (B2R (f64_ofZ 3)) <= B2R PI64.
Proof. exact ex_three. Qed.

(** ... and otherwise deviates from the reduction modulo TAU by at most 2^-53 (|a| + 7). *)
Theorem C04_remainder_f64_error : forall (lm : libm) (a : f64),
  is_finite a = true -> Rabs (B2R a) <= 2 ^ 50 ->
  let r := remainder (ops := F64ops lm) a TAU64 in
  is_finite r = true /\
  Rabs (B2R r) <= B2R TAU64 / 2 + / 2 ^ 52 * (Rabs (B2R a) + 8) /\
  exists k : Z, Rabs (B2R r - (B2R a - IZR k * B2R TAU64)) <= / 2 ^ 53 * (Rabs (B2R a) + 7).
Proof. exact remainder_error. Qed.
Print Assumptions C04_remainder_f64_error.

Example C04_remainder_f64_error_ex : is_finite (f64_ofZ 1000) = true /\ Rabs (B2R (f64_ofZ 1000)) <= 2 ^ 50.
Proof. exact ex_thousand. Qed.

(** ** C08 Angle::wrapped *)

Theorem C08_wrapped_range_and_class : forall a : R,
  exists w, wrapped (Fin a) = Fin w /\ - PI <= w <= PI /\ same_angle w a /\
            wrapped (Fin w) = Fin w.
Proof. exact wrapped_range_and_class. Qed.
Print Assumptions C08_wrapped_range_and_class.

Theorem C08_wrapped_identity_in_range : forall a : R, - PI <= a <= PI -> wrapped (Fin a) = Fin a.
Proof. exact wrapped_identity. Qed.
Print Assumptions C08_wrapped_identity_in_range.

Example C08_wrapped_ex : wrapped (Fin (5 * PI / 2)) = Fin (PI / 2) /\ wrapped (Fin (- PI)) = Fin (- PI).
Proof. exact ex_wrapped. Qed.

(** Binary64: exact on [-PI, PI]. *)
Theorem C08_wrapped_f64_identity : forall (lm : libm) (a : f64),
  is_finite a = true -> Rabs (B2R a) <= B2R PI64 ->
  is_finite (wrapped (ops := F64ops lm) a) = true /\
  B2R (wrapped (ops := F64ops lm) a) = B2R a.
Proof. exact wrapped_exact. Qed.
Print Assumptions C08_wrapped_f64_identity.

(** Binary64: never below -PI, above PI by at most 2^-52 (|a| + 8), and that close to the true
    angle modulo 2 pi. *)
Theorem C08_wrapped_f64_error : forall (lm : libm) (a : f64),
  is_finite a = true -> Rabs (B2R a) <= 2 ^ 50 ->
  let w := wrapped (ops := F64ops lm) a in
  is_finite w = true /\
  - B2R PI64 <= B2R w <= B2R PI64 + / 2 ^ 52 * (Rabs (B2R a) + 8) /\
  exists k : Z, Rabs (B2R w - (B2R a - IZR k * (2 * PI))) <= / 2 ^ 52 * (Rabs (B2R a) + 8).
Proof. exact wrapped_error. Qed.
Print Assumptions C08_wrapped_f64_error.

(** The range claim is false in binary64: 116.23892818282235 wraps to a number above PI ... *)
Theorem C08_wrapped_f64_range_refuted : exists a : f64, is_finite a = true /\
  forall lm : libm, Bltb PI64 (wrapped (ops := F64ops lm) a) = true.
Proof. exact wrapped_f64_above_pi. Qed.
Print Assumptions C08_wrapped_f64_range_refuted.

(** ... 10^18 wraps to 128 radians ... *)
Theorem C08_wrapped_f64_huge_refuted : forall lm : libm,
  wrapped (ops := F64ops lm) (f64_ofZ (10 ^ 18)) = f64_ofZ 128.
Proof. exact wrapped_f64_huge. Qed.
Print Assumptions C08_wrapped_f64_huge_refuted.

(** ... and infinities become NaN. *)
Theorem C08_wrapped_f64_infinity : forall (lm : libm) (s : bool),
  wrapped (ops := F64ops lm) (B754_infinity s) = B754_nan.
Proof. exact wrapped_f64_inf. Qed.
Print Assumptions C08_wrapped_f64_infinity.

(** ** C09 Angle::normalized *)

Theorem C09_normalized_range_and_class : forall a : R,
  exists w, normalized (Fin a) = Fin w /\ - PI < w <= PI /\ same_angle w a.
Proof. exact normalized_range_and_class. Qed.
Print Assumptions C09_normalized_range_and_class.

Theorem C09_normalized_canonical : forall a b : R,
  normalized (Fin a) = normalized (Fin b) <-> same_angle a b.
Proof. exact normalized_canonical. Qed.
Print Assumptions C09_normalized_canonical.

Example C09_normalized_ex : normalized (Fin (- PI)) = Fin PI /\ normalized (Fin (7 * PI)) = Fin PI.
Proof. exact ex_normalized. Qed.

(** ** C10 Angle::diff_to *)

Theorem C10_diff_to_shortest_rotation : forall a b : R, exists d,
  diff_to (Fin a) (Fin b) = Fin d /\
  - PI < d <= PI /\ same_angle (a + d) b /\
  (forall d', same_angle (a + d') b -> Rabs d <= Rabs d').
Proof. exact diff_to_spec. Qed.
Print Assumptions C10_diff_to_shortest_rotation.

Theorem C10_diff_to_antisymmetric : forall a b d : R, diff_to (Fin a) (Fin b) = Fin d ->
  (d <> PI -> diff_to (Fin b) (Fin a) = Fin (- d)) /\
  (d = PI -> diff_to (Fin b) (Fin a) = Fin PI).
Proof. exact diff_to_antisym. Qed.
Print Assumptions C10_diff_to_antisymmetric.

Example C10_diff_to_ex : diff_to (Fin (PI / 18)) (Fin (35 * PI / 18)) = Fin (- (PI / 9)).
Proof. exact ex_diff_to. Qed.

(** ** C11 latitudes *)

(** Any sequence of calls on a latitude, with operands that do not produce NaN by themselves
    (non-NaN angles, finite factors, nonzero non-NaN divisors). *)
Theorem C11_lat_closed : forall (lm : libm) (a : f64) (calls : list (angle_op f64)),
  is_nan a = false -> Forall op_sane calls ->
  let l := lat_run (ops := F64ops lm) a calls in
  is_finite l = true /\ - B2R PI_2_64 <= B2R l <= B2R PI_2_64.
Proof. exact lat_run_closed. Qed.
Print Assumptions C11_lat_closed.

(** Hence also within the true [-pi/2, pi/2]. *)
Theorem C11_lat_within_half_pi : B2R PI_2_64 < PI / 2.
Proof. exact pi_2_64_below. Qed.
Print Assumptions C11_lat_within_half_pi.

Theorem C11_lat_new_identity : forall (lm : libm) (a : f64),
  is_finite a = true -> Rabs (B2R a) <= B2R PI_2_64 -> lat_new (ops := F64ops lm) a = a.
Proof. exact lat_new_identity. Qed.
Print Assumptions C11_lat_new_identity.

(** NaN is the only way out: it passes through the clamp. *)
Theorem C11_lat_nan : forall lm : libm, lat_new (ops := F64ops lm) B754_nan = B754_nan.
Proof. exact lat_new_nan. Qed.
Print Assumptions C11_lat_nan.

Example C11_lat_closed_ex : forall lm : libm,
  Forall op_sane [OpAdd (B754_infinity false); OpSub (f64_ofZ 1); OpNeg; OpMul (f64_ofZ 7); OpDiv (f64_ofZ (-3))] /\
  lat_run (ops := F64ops lm) (f64_ofZ 1) [OpAdd (B754_infinity false); OpSub (f64_ofZ 1); OpNeg; OpMul (f64_ofZ 7)]
    = Bopp PI_2_64.
Proof. exact ex_lat_run. Qed.

(** ** C12 longitudes *)

Theorem C12_lon_run_range_and_sum : forall (a : R) (calls : list turn),
  exists x, lon_run (Fin a) (map turn_op calls) = Fin x /\
            - PI <= x <= PI /\ same_angle x (turn_sum a calls).
Proof. exact lon_run_sum. Qed.
Print Assumptions C12_lon_run_range_and_sum.

(** With multiplications and divisions as well, the range is kept. *)
Theorem C12_lon_run_range : forall (a : R) (calls : list (angle_op XR)), Forall op_real calls ->
  exists x, lon_run (Fin a) calls = Fin x /\ - PI <= x <= PI.
Proof. exact lon_run_range. Qed.
Print Assumptions C12_lon_run_range.

(** The difference of two longitudes is the oriented angle between them. *)
Theorem C12_lon_sub : forall l r : R, exists d,
  lon_sub (Fin l) (Fin r) = Fin d /\ - PI < d <= PI /\ same_angle (r + d) l.
Proof. exact lon_sub_spec. Qed.
Print Assumptions C12_lon_sub.

(** Normalized longitudes lie in (-pi, pi] and are unique for the point on the parallel. *)
Theorem C12_normalized : forall a b : R, exists x y,
  lon_normalized (lon_new (Fin a)) = Fin x /\ lon_normalized (lon_new (Fin b)) = Fin y /\
  - PI < x <= PI /\ same_angle x a /\ (x = y <-> same_angle a b).
Proof. exact lon_normalized_spec. Qed.
Print Assumptions C12_normalized.

Example C12_lon_run_ex :
  lon_run (Fin PI) (map turn_op [TAdd (PI / 2); TNeg; TSub PI]) = Fin (- (PI / 2)) /\
  Forall op_real [OpMul (Fin 5); OpDiv (Fin (-2))].
Proof. exact ex_lon_run. Qed.

(** In binary64 a longitude can leave [-PI, PI]. *)
Theorem C12_lon_f64_range_refuted : exists a : f64, is_finite a = true /\
  forall lm : libm, Bltb (LON_MAX (ops := F64ops lm)) (lon_new (ops := F64ops lm) a) = true.
Proof. exact wrapped_f64_above_pi. Qed.
Print Assumptions C12_lon_f64_range_refuted.

(** ** C13 azimuths *)

Theorem C13_azimuth_range : forall a t : R,
  (exists z, azimuth_new (Fin a) = Fin z /\ - PI < z <= PI /\ same_angle z a) /\
  (exists z, azimuth_add (Fin a) (Fin t) = Fin z /\ - PI < z <= PI /\ same_angle z (a + t)).
Proof. exact azimuth_range. Qed.
Print Assumptions C13_azimuth_range.

Theorem C13_azimuth_difference : forall a b : R,
  (exists d, azimuth_sub (Fin b) (Fin a) = Fin d /\ - PI < d <= PI /\ same_angle (a + d) b) /\
  (- PI < b <= PI -> azimuth_add (Fin a) (azimuth_sub (Fin b) (Fin a)) = Fin b).
Proof. exact azimuth_difference. Qed.
Print Assumptions C13_azimuth_difference.

Example C13_azimuth_ex : azimuth_sub (AZ_WEST : XR) AZ_SOUTH = Fin (PI / 2) /\
  azimuth_add (AZ_SOUTH : XR) AZ_EAST = AZ_WEST.
Proof. exact ex_azimuth. Qed.

(** ** C14 degrees, minutes, seconds *)

(** [deg_of a] is [a] in degrees.  The minutes may be 60: see the refutation below. *)
Theorem C14_dms_splits : forall a : R, exists d m s : R,
  angle_dms (Fin a) = (Fin d, Fin m, Fin s) /\
  Rabs (Rabs d + m / 60 + s / 3600 - Rabs (a * (180 / PI))) < 1 / 10 ^ 8 / 60 /\
  (s <> 0 -> Rabs d + m / 60 + s / 3600 = Rabs (a * (180 / PI))) /\
  0 <= s < 60 /\
  (exists n : Z, m = IZR n /\ (0 <= n <= 60)%Z) /\
  (exists n : Z, d = IZR n) /\
  (a < 0 -> d <= 0) /\ (0 <= a -> 0 <= d).
Proof. exact angle_dms_spec. Qed.
Print Assumptions C14_dms_splits.

(** Rebuilding with the formula of Lon::dms, Lat::dms and Azimuth::dms. *)
Theorem C14_dms_rebuilds : forall a d m s : R,
  angle_dms (Fin a) = (Fin d, Fin m, Fin s) -> (0 <= a \/ PI / 180 <= Rabs a) ->
  exists b, angle_new (dms_degrees (Fin d) (Fin m) (Fin s)) DEG = Fin b /\
            Rabs (b - a) < 1 / 10 ^ 8 / 60 * (PI / 180).
Proof. exact dms_rebuild. Qed.
Print Assumptions C14_dms_rebuilds.

(** In binary64 the sign bit of the degrees is that of the angle, also when the degrees are 0. *)
Theorem C14_dms_f64_sign : forall (lm : libm) (a : f64), is_nan a = false ->
  let d := fst (fst (angle_dms (ops := F64ops lm) a)) in
  is_nan d = false /\ Bsign d = Bsign a.
Proof. exact angle_dms_sign. Qed.
Print Assumptions C14_dms_f64_sign.

(** The documented range of the minutes, [0, 59], is exceeded, in exact arithmetic ... *)
Theorem C14_dms_minutes_refuted : exists a : R,
  0 < a /\ angle_dms (Fin a) = (Fin 0, Fin 60, Fin 0).
Proof. exact angle_dms_60. Qed.
Print Assumptions C14_dms_minutes_refuted.

(** ... and in binary64; the Lon::dms constructor then refuses the parts in debug builds. *)
Theorem C14_dms_f64_minutes_refuted : exists a : f64, is_finite a = true /\
  forall lm : libm, let '(d, m, s) := angle_dms (ops := F64ops lm) a in
    m = f64_ofZ 60 /\ lon_dms (ops := F64ops lm) true d m s = Panic.
Proof. exact angle_dms_f64_60. Qed.
Print Assumptions C14_dms_f64_minutes_refuted.

Example C14_dms_ex : angle_dms (Fin (- (PI / 8))) = (Fin (-22), Fin 30, Fin 0).
Proof. exact ex_dms. Qed.

(** ** C15 intervals *)

Theorem C15_interval_new : forall a b : R, exists l h : R,
  interval_new (Fin a) (Fin b) = mkI (Fin l) (Fin h) /\
  - PI <= l <= PI /\ - PI <= h <= PI /\ same_angle l a /\ same_angle h b /\
  (l = - PI -> h = PI).
Proof. exact interval_new_spec. Qed.
Print Assumptions C15_interval_new.

Theorem C15_interval_length : forall (dbg : bool) (l h : R), - PI <= l <= PI -> - PI <= h <= PI ->
  exists len, interval_length dbg (mkI (Fin l) (Fin h)) = Ret (Fin len) /\
    0 <= len <= 2 * PI /\ same_angle (l + len) h /\
    (interval_is_inverted (mkI (Fin l) (Fin h)) = false -> len = h - l).
Proof. exact interval_length_spec. Qed.
Print Assumptions C15_interval_length.

Theorem C15_interval_singleton : forall (dbg : bool) (p : R), exists q,
  interval_singleton (Fin p) = mkI (Fin q) (Fin q) /\ - PI < q <= PI /\ same_angle q p /\
  interval_is_empty (interval_singleton (Fin p)) = false /\
  interval_is_full (interval_singleton (Fin p)) = false /\
  interval_length dbg (interval_singleton (Fin p)) = Ret (Fin 0).
Proof. exact interval_singleton_spec. Qed.
Print Assumptions C15_interval_singleton.

Theorem C15_interval_empty_full :
  interval_is_empty (interval_empty : Interval XR) = true /\
  interval_is_full (interval_empty : Interval XR) = false /\
  interval_is_full (interval_full : Interval XR) = true /\
  interval_is_empty (interval_full : Interval XR) = false /\
  interval_length true (interval_empty : Interval XR) = Ret (Fin 0) /\
  interval_length true (interval_full : Interval XR) = Ret (Fin (2 * PI)).
Proof. exact interval_classes. Qed.
Print Assumptions C15_interval_empty_full.

Theorem C15_interval_disjoint : forall i : Interval XR,
  interval_is_empty i = true -> interval_is_full i = true -> False.
Proof. exact interval_not_both. Qed.
Print Assumptions C15_interval_disjoint.

Theorem C15_interval_new_same_point : forall a : R, - PI < a <= PI ->
  interval_new (Fin a) (Fin a) = interval_singleton (Fin a).
Proof. exact interval_new_same. Qed.
Print Assumptions C15_interval_new_same_point.

(** At -pi the two equal bounds give the empty interval, in exact arithmetic and in binary64. *)
Theorem C15_interval_same_point_refuted :
  interval_is_empty (interval_new (Fin (- PI)) (Fin (- PI))) = true /\
  forall lm : libm,
    interval_is_empty (ops := F64ops lm) (interval_new (ops := F64ops lm) (Bopp PI64) (Bopp PI64)) = true.
Proof. exact interval_same_point_refuted. Qed.
Print Assumptions C15_interval_same_point_refuted.

Example C15_interval_ex :
  interval_new (Fin (3 * PI / 4)) (Fin (- (3 * PI / 4))) = mkI (Fin (3 * PI / 4)) (Fin (- (3 * PI / 4))) /\
  interval_length true (mkI (Fin (3 * PI / 4)) (Fin (- (3 * PI / 4)))) = Ret (Fin (PI / 2)).
Proof. exact ex_interval. Qed.
