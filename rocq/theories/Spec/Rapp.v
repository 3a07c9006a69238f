(** Where a geodesic ends, and the error of Rapp's direct solution. *)
From Coq Require Import Reals.
From Verif.Spec Require Import Axes Shape Frames Sphere Geodesic.
Local Open Scope R_scope.

(** There is a geodesic of length [s] that leaves longitude [l] and latitude [p] with azimuth
    [al], and every such geodesic ends within the distance [e] of longitude [l2] and latitude [p2]. *)
Definition ends_within (a b l p al s l2 p2 e : R) : Prop :=
  (exists g T len t, leaves a b l p al g T len /\ len t = s) /\
  forall g T len t, leaves a b l p al g T len -> len t = s ->
  forall Q, surface_point a b p2 l2 Q -> edist (g t) Q <= e.

(** The distance of a point from the polar axis. *)
Definition axis_dist (P : R3) : R := sqrt (xcoord P * xcoord P + ycoord P * ycoord P).

(** The geodesic of length [s] ends further than [e] from the polar axis. *)
Definition ends_off_axis (a b l p al s e : R) : Prop :=
  forall g T len t, leaves a b l p al g T len -> len t = s -> e < axis_dist (g t).

(** The error of Rapp's formulas; [f] is the flattening, [p] the latitude of the start. *)
Definition rapp_error (a b p s : R) : R :=
  let f := (a - b) / a in a * (f ^ 4 / 700 + 3 / 10 ^ 14 / cos p) + Rabs s * (11 / 5 * f ^ 5).

(** The error of Rapp's inverse solution between points that are not almost opposite. *)
Definition rapp_inverse_error (a b s : R) : R :=
  let f := (a - b) / a in a * (f ^ 4 / 140 + 3 / 10 ^ 14) + s * (11 / 5 * f ^ 5).
