(** Property C60: constructors in degrees and in degrees, minutes and seconds; equality up to whole turns.

    [dms_rad] and [nearest_lat] are in Spec/Sexagesimal.v, [same_angle] in Spec/Angles.v. *)
From Coq Require Import Reals Lra ZArith.
From Flocq Require Import Core IEEE754.BinarySingleNaN.
From Verif.Num Require Import FOps XR F64.
From Verif.Model Require Import Fp Quantities Cs.
From Verif.Spec Require Import Angles Sexagesimal.
From Verif.Proofs Require Import LibmOk Ctor CtorF CtorEx.
Local Open Scope R_scope.

(** ** C60 Degrees, minutes and seconds

    [dbg]: with debug assertions. *)
Theorem C60_lon_dms : forall dbg d m s, (dbg = true -> -180 < d /\ 0 <= m <= 59 /\ 0 <= s < 60) ->
  exists l, lon_dms dbg (Fin d) (Fin m) (Fin s) = Ret (Fin l) /\ - PI <= l <= PI /\ same_angle l (dms_rad d m s).
Proof. exact lon_dms_spec. Qed.
Print Assumptions C60_lon_dms.

Theorem C60_lat_dms : forall dbg d m s, (dbg = true -> -90 <= d /\ 0 <= m <= 59 /\ 0 <= s < 60) ->
  lat_dms dbg (Fin d) (Fin m) (Fin s) = Ret (Fin (nearest_lat (dms_rad d m s))).
Proof. exact lat_dms_spec. Qed.
Print Assumptions C60_lat_dms.

Theorem C60_azimuth_dms : forall dbg d m s, (dbg = true -> -180 < d /\ 0 <= m <= 59 /\ 0 <= s < 60) ->
  exists l, azimuth_dms dbg (Fin d) (Fin m) (Fin s) = Ret (Fin l) /\ - PI < l <= PI /\ same_angle l (dms_rad d m s).
Proof. exact azimuth_dms_spec. Qed.
Print Assumptions C60_azimuth_dms.

(** 12 degrees 45 minutes west is 12.75 degrees west. *)
Example C60_dms_ex : dms_rad (-12) 45 0 = - (1275 / 100) * (PI / 180) /\ nearest_lat (dms_rad (-12) 45 0) = dms_rad (-12) 45 0.
Proof. exact dms_ex. Qed.

(** With debug assertions everything else panics ... *)
Theorem C60_dms_panics : forall d m s,
  (~ (-180 < d /\ 0 <= m <= 59 /\ 0 <= s < 60) -> lon_dms true (Fin d) (Fin m) (Fin s) = Panic /\ azimuth_dms true (Fin d) (Fin m) (Fin s) = Panic) /\
  (~ (-90 <= d /\ 0 <= m <= 59 /\ 0 <= s < 60) -> lat_dms true (Fin d) (Fin m) (Fin s) = Panic).
Proof. exact dms_panics. Qed.
Print Assumptions C60_dms_panics.

(** ... but the messages also promise d <= 180 for longitudes and azimuths and d <= 90 for latitudes. That is not
    checked: the assertion compares the minutes with 180 and 90. *)
Theorem C60_degrees_limit_refuted :
  (exists l, lon_dms true (Fin 200) (Fin 0) (Fin 0) = Ret (Fin l)) /\ (exists z, azimuth_dms true (Fin 200) (Fin 0) (Fin 0) = Ret (Fin z)) /\
  lat_dms true (Fin 91) (Fin 0) (Fin 0) = Ret (Fin (PI / 2)).
Proof. exact dms_degrees_unchecked. Qed.
Print Assumptions C60_degrees_limit_refuted.

(** The same in binary64, up to 2e-14 rad. The sign bit of the degrees decides, so that -0 degrees 30 minutes lies west. *)
Theorem C60_dms_f64 : forall lm dbg (d m s : f64), is_finite d = true -> is_finite m = true -> is_finite s = true ->
  Rabs (B2R d) <= 360 -> 0 <= B2R m <= 59 -> 0 <= B2R s < 60 ->
  let t := (if Bsign d then -1 else 1) * (Rabs (B2R d) + B2R m / 60 + B2R s / 3600) * (PI / 180) in
  ((dbg = true -> -180 < B2R d) ->
   (exists l k, lon_dms (ops := F64ops lm) dbg d m s = Ret l /\ is_finite l = true /\ - B2R PI64 <= B2R l <= B2R PI64 + / 2 ^ 47 /\ Rabs (B2R l - t - IZR k * (2 * PI)) <= 2 / 10 ^ 14) /\
   (exists z k, azimuth_dms (ops := F64ops lm) dbg d m s = Ret z /\ is_finite z = true /\ - B2R PI64 < B2R z <= B2R PI64 + / 2 ^ 47 /\ Rabs (B2R z - t - IZR k * (2 * PI)) <= 2 / 10 ^ 14)) /\
  ((dbg = true -> -90 <= B2R d) -> Rabs t <= PI / 2 ->
   exists l, lat_dms (ops := F64ops lm) dbg d m s = Ret l /\ is_finite l = true /\ Rabs (B2R l) <= B2R PI_2_64 /\ Rabs (B2R l - t) <= 2 / 10 ^ 14).
Proof. exact dms_f64. Qed.
Print Assumptions C60_dms_f64.

(** Half a degree west. *)
Example C60_dms_f64_ex : exists l, lon_dms (ops := F64ops libm_ex) true (B754_zero true) (f64_ofZ 30) (f64_ofZ 0) = Ret l /\
  -88 / 10000 < B2R l < -87 / 10000.
Proof. exact dms_f64_ex. Qed.

(** ** C60 Degrees and radians *)
Theorem C60_degrees : forall x,
  (exists l, lon_deg (Fin x) = Fin l /\ - PI <= l <= PI /\ same_angle l (x * (PI / 180))) /\
  lat_deg (Fin x) = Fin (nearest_lat (x * (PI / 180))) /\
  (exists z, azimuth_deg (Fin x) = Fin z /\ - PI < z <= PI /\ same_angle z (x * (PI / 180))) /\
  (exists l, lon_rad (Fin x) = Fin l /\ - PI <= l <= PI /\ same_angle l x) /\
  (exists z, azimuth_rad (Fin x) = Fin z /\ - PI < z <= PI /\ same_angle z x).
Proof. exact degrees_spec. Qed.
Print Assumptions C60_degrees.

Theorem C60_cardinal : azimuth_deg (Fin 0) = AZ_NORTH /\ azimuth_deg (Fin 90) = AZ_EAST /\
  azimuth_deg (Fin 180) = AZ_SOUTH /\ azimuth_deg (Fin (-180)) = AZ_SOUTH /\ azimuth_deg (Fin (-90)) = AZ_WEST.
Proof. exact cardinal. Qed.
Print Assumptions C60_cardinal.

(** ** C60 Approximate equality of azimuths and longitudes is that of directions *)
Theorem C60_equal_up_to_turns : forall a b eps,
  (azimuth_abs_diff_eq (Fin a) (Fin b) (Fin eps) = true <-> exists k, Rabs (a - b - IZR k * (2 * PI)) <= eps) /\
  (lon_abs_diff_eq (Fin a) (Fin b) (Fin eps) = true <-> exists k, Rabs (a - b - IZR k * (2 * PI)) <= eps).
Proof. exact abs_diff_eq_turns. Qed.
Print Assumptions C60_equal_up_to_turns.

(** A quarter of a degree on either side of the antimeridian. *)
Example C60_equal_ex : lon_abs_diff_eq (lon_deg (Fin (17975 / 100))) (lon_deg (Fin (-17975 / 100))) (Fin (9 / 1000)) = true /\
  lon_abs_diff_eq (lon_deg (Fin (17975 / 100))) (lon_deg (Fin (-17975 / 100))) (Fin (8 / 1000)) = false.
Proof. exact equal_ex. Qed.
