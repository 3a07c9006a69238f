(** Real functions missing from the standard library: atan2, hypot, cbrt, atanh. *)
From Coq Require Import Reals Lra ZArith Bool.
From Flocq Require Import Core.
Local Open Scope R_scope.

(** The angle of the point (x, y), in (-pi, pi]; 0 at the origin. *)
Definition Ratan2 (y x : R) : R :=
  if Rlt_bool 0 x then atan (y / x)
  else if Rlt_bool x 0 then
    (if Rle_bool 0 y then atan (y / x) + PI else atan (y / x) - PI)
  else if Rlt_bool 0 y then PI / 2
  else if Rlt_bool y 0 then - (PI / 2)
  else 0.

Definition Rhypot (x y : R) : R := sqrt (x * x + y * y).

Definition Rcbrt (x : R) : R :=
  if Rlt_bool 0 x then Rpower x (/ 3)
  else if Rlt_bool x 0 then - Rpower (- x) (/ 3)
  else 0.

Definition Ratanh (x : R) : R := / 2 * ln ((1 + x) / (1 - x)).
