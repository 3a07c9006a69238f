(** Great circles on the unit sphere. *)
From Coq Require Import Reals.
From Verif.Spec Require Import Axes Frames.
Local Open Scope R_scope.

(** The point of longitude [l] and latitude [p]. *)
Definition position (l p : R) : R3 := (cos p * cos l, cos p * sin l, sin p).
(** The unit vectors pointing north and east there. *)
Definition north_of (l p : R) : R3 := (- sin p * cos l, - sin p * sin l, cos p).
Definition east_of (l p : R) : R3 := (- sin l, cos l, 0).
(** The direction with azimuth [az], from north towards east. *)
Definition heading (l p az : R) : R3 :=
  vadd (vscale (cos az) (north_of l p)) (vscale (sin az) (east_of l p)).
(** Where one is, and the direction one goes in, after the arc [s] on the great circle that starts
    in [P] with direction [T]. *)
Definition travel (P T : R3) (s : R) : R3 := vadd (vscale (cos s) P) (vscale (sin s) T).
Definition course (P T : R3) (s : R) : R3 := vadd (vscale (- sin s) P) (vscale (cos s) T).
Definition zcoord (P : R3) : R := let '(_, _, z) := P in z.
(** The inner product; for points of the unit sphere, the cosine of the angle between them. *)
Definition pdot (P Q : R3) : R := let '(x, y, z) := P in let '(x', y', z') := Q in x * x' + y * y' + z * z'.
