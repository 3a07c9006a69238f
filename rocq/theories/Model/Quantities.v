(** Model of /repo/geokit/src/units/{angle,length}.rs and quantities/{angle,length,scale}.rs.

    The newtypes [Angle(Float)] (radians) and [Length(Float)] (metres) are represented by their
    content. *)
From Coq Require Import ZArith List Bool.
From Verif.Num Require Import FOps.
From Verif.Model Require Import Fp.

Section Quantities.
Context {F : Type} {ops : FOps F}.
Local Open Scope F_scope.

(** units/angle.rs:13 [AngleUnit(pub Float, pub Float)]; units/length.rs:12 [LengthUnit] *)
Definition unit_ : Type := (F * F)%type.

(** units/angle.rs:17-19 [rad_per_unit]; units/length.rs:16-18 [m_per_unit] *)
Definition per_unit (u : unit_) : F := fst u / snd u.

(** units/angle.rs:22-25 *)
Definition RAD : unit_ := (#1, #1).
Definition DEG : unit_ := (fpi, #180).
Definition GRAD : unit_ := (fpi, #200).
Definition SEC : unit_ := (fpi, #648000).

(** units/length.rs:22-31 *)
Definition M : unit_ := (#1, #1).
Definition FT : unit_ := (flit 3048 4, #1).
Definition US_FT : unit_ := (#1200, #3937).

(** quantities/angle.rs:57-59 [Angle::new]; also [Float * AngleUnit], lines 261-275 *)
Definition angle_new (qty : F) (u : unit_) : F := qty * per_unit u.

(** quantities/angle.rs:37-48 constants *)
Definition ANGLE_TINY : F := angle_new (flit 1 12) RAD.
Definition ANGLE_SMALL : F := angle_new (flit 1 9) RAD.

(** quantities/angle.rs:62-70 [Angle::clamped].  [dbg]: debug assertions enabled. *)
Definition angle_clamped_dbg (dbg : bool) (a lo hi : F) : outcome F :=
  rassert (negb dbg || (lo <? hi)) (Ret (fclamp a lo hi)).

(** The same without the debug assertion (its only uses pass the constants -PI/2 < PI/2). *)
Definition angle_clamped (a lo hi : F) : F := fclamp a lo hi.

(** quantities/angle.rs:73-79 [Angle::wrapped] *)
Definition wrapped (a : F) : F :=
  let r := remainder a ftau in
  if r <? - fpi then fpi else r.

(** quantities/angle.rs:90-96 [Angle::normalized], 99-105 [normalize] *)
Definition normalized (a : F) : F :=
  let r := remainder a ftau in
  if r <=? - fpi then fpi else r.

(** quantities/angle.rs:116-118 [Angle::val] *)
Definition angle_val (a : F) (u : unit_) : F := a * snd u / fst u.

(** quantities/angle.rs:164-166 [Angle::diff_to] *)
Definition diff_to (self other : F) : F := normalized (other - self).

(** quantities/angle.rs:190-206 [Angle::dms]; the triple is [Dms(d, m, s)] *)
Definition angle_dms (rad : F) : F * F * F :=
  let sgn := fsignum rad in
  let deg := fto_degrees (fabs rad) in
  let d := ffloor deg in
  let deg := #60 * ffract deg in
  let '(m, s) :=
    if fabs (deg - fround deg) <? flit 1 8
    then (fround deg, #0)
    else (ffloor deg, #60 * ffract deg) in
  (sgn * d, m, s).

(** quantities/angle.rs:256-258, quantities/length.rs:176-178 [abs_diff_eq] *)
Definition abs_diff_eq (a b eps : F) : bool := fabs (a - b) <=? eps.

(** quantities/length.rs:64-66 [Length::new] *)
Definition length_new (qty : F) (u : unit_) : F := qty * per_unit u.

(** quantities/length.rs:78-80 [Length::val] *)
Definition length_val (l : F) (u : unit_) : F := l / per_unit u.

(** quantities/length.rs:52-54 *)
Definition LENGTH_TINY : F := length_new (flit 1 4) M.
Definition LENGTH_SMALL : F := length_new (flit 1 3) M.

(** quantities/length.rs:119-135 [Float * Length] and [Length * Float] (both [x * l.0]) *)
Definition length_scale (x l : F) : F := x * l.

(** quantities/length.rs:195-202 [Length * Angle], then [ArcLength::length] *)
Definition arc_length (l a : F) : F := length_scale a l.

(** quantities/length.rs:212-218 [ArcLength / Length] *)
Definition arc_div (arc l : F) : F := angle_new (arc / l) RAD.

(** quantities/scale.rs:8-16 [PPM::factor], [PPM::inv_factor] *)
Definition ppm_factor (ppm : F) : F := #1 + ppm * flit 1 6.
Definition ppm_inv_factor (ppm : F) : F := #1 - ppm * flit 1 6.

End Quantities.

Arguments unit_ F : clear implicits.
