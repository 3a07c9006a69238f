(** Degrees, minutes and seconds as an angle. *)
From Coq Require Import Reals.
Local Open Scope R_scope.

(** [m] minutes and [s] seconds further from 0 than [d] degrees, in radians; the sign is that of [d]. *)
Definition dms_rad (d m s : R) : R :=
  (if Rlt_dec d 0 then d - (m / 60 + s / 3600) else d + (m / 60 + s / 3600)) * (PI / 180).

(** The latitude nearest to an angle. *)
Definition nearest_lat (a : R) : R := Rmax (- (PI / 2)) (Rmin (PI / 2) a).
