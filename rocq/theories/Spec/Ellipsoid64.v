(** Ellipsoids in binary64: agreeing records, and the exact radii of curvature. *)
From Coq Require Import Reals.
From Flocq Require Import IEEE754.BinarySingleNaN.
From Verif.Num Require Import FOps F64.
From Verif.Model Require Import Ellipsoid.
Local Open Scope R_scope.

(** The recorded inverse flattening agrees with the semi-axes [a] and [b] up to rounding. *)
Definition flat64 (E : Ellipsoid f64) (a b : R) : Prop :=
  is_finite (e_invf E) = true /\ 1 < B2R (e_invf E) /\ Rabs (/ B2R (e_invf E) - (a - b) / a) <= / 2 ^ 51.

(** [x] is finite and at most [e] away from [X]. *)
Definition off64 (x : f64) (X e : R) : Prop := is_finite x = true /\ Rabs (B2R x - X) <= e.

(** The radii of curvature at the geodetic latitude [p]: across and along the meridian. *)
Definition vertical_radius (a b p : R) : R :=
  a * a / sqrt (a * a * (cos p * cos p) + b * b * (sin p * sin p)).
Definition meridional_radius (a b p : R) : R :=
  a * a * (b * b) / sqrt (a * a * (cos p * cos p) + b * b * (sin p * sin p)) ^ 3.
