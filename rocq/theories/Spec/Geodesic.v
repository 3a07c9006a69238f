(** Geodesics of an ellipsoid of revolution, by differential geometry. *)
From Coq Require Import Reals.
From Verif.Spec Require Import Axes Shape Frames Sphere.
Local Open Scope R_scope.

Definition xcoord (P : R3) : R := let '(x, _, _) := P in x.
Definition ycoord (P : R3) : R := let '(_, y, _) := P in y.

(** The derivative of the moving point [g] at time [t]. *)
Definition velocity (g : R -> R3) (t : R) (v : R3) : Prop :=
  derivable_pt_lim (fun u => xcoord (g u)) t (xcoord v) /\
  derivable_pt_lim (fun u => ycoord (g u)) t (ycoord v) /\
  derivable_pt_lim (fun u => zcoord (g u)) t (zcoord v).

(** The direction of the normal of the ellipsoid in [P]. *)
Definition gradient (a b : R) (P : R3) : R3 :=
  let '(x, y, z) := P in (x / (a * a), y / (a * a), z / (b * b)).

(** The point [g t] moves on the ellipsoid with direction [T t]; [len t2 - len t1] is the length
    of its way from [t1] to [t2]; the direction changes only along the normal of the surface,
    which makes the curve a geodesic. *)
Definition geodesic (a b : R) (g T : R -> R3) (len : R -> R) : Prop :=
  forall t, on_ellipsoid a b (g t) /\ vnorm (T t) = 1 /\
  (exists v, 0 < v /\ derivable_pt_lim len t v /\ velocity g t (vscale v (T t))) /\
  (exists k, velocity T t (vscale k (gradient a b (g t)))).

(** [g] is a geodesic that leaves longitude [l] and latitude [p] with azimuth [al]. *)
Definition leaves (a b l p al : R) (g T : R -> R3) (len : R -> R) : Prop :=
  geodesic a b g T len /\ len 0 = 0 /\ surface_point a b p l (g 0) /\ T 0 = heading l p al.

(** There is a geodesic of length [s] that leaves longitude [l] and latitude [p] with azimuth
    [al], and every such geodesic ends within the distance [e] of longitude [l2] and latitude
    [p2]; and, away from the poles, in a direction close to the azimuth [al2] there. *)
Definition geodesic_within (a b l p al s l2 p2 al2 e : R) : Prop :=
  (exists g T len t, leaves a b l p al g T len /\ len t = s) /\
  forall g T len t, leaves a b l p al g T len -> len t = s ->
  (forall Q, surface_point a b p2 l2 Q -> edist (g t) Q <= e) /\
  (cos p2 <> 0 -> edist (T t) (heading l2 p2 al2) <= a * a / (b * b * b) * e).

(** The error of Vincenty's formulas; [f] is the flattening. *)
Definition vincenty_error (a b s : R) : R :=
  let f := (a - b) / a in a * (f ^ 4 / 15 + 2 / 10 ^ 12) + Rabs s * (f ^ 4 / 19 + 8 * f ^ 5).

(** The error of Karney's series. *)
Definition karney_error (a b s : R) : R := ((a - b) / a) ^ 7 * (2 * a + Rabs s).
