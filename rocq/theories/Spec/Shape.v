(** Ellipsoids of revolution and geodetic positions, in exact arithmetic. *)
From Coq Require Import Reals.
From Verif.Num Require Import FOps XR.
From Verif.Model Require Import Cs Ellipsoid.
From Verif.Spec Require Import Axes.
Local Open Scope R_scope.

(** [shape E a b]: the record [E] describes the ellipsoid with semi-axes [a] and [b]. *)
Definition shape (E : Ellipsoid XR) (a b : R) : Prop :=
  0 < b <= a /\ e_a E = Fin a /\ e_b E = Fin b /\
  (b < a -> e_invf E = Fin (a / (a - b))) /\ (b = a -> e_invf E = PInf).

(** The equation of the ellipsoid. *)
Definition on_ellipsoid (a b : R) (S : R3) : Prop :=
  let '(x, y, z) := S in (x * x + y * y) / (a * a) + z * z / (b * b) = 1.

(** The outward unit normal where the geodetic latitude is [phi] and the longitude [lam]. *)
Definition normal (phi lam : R) : R3 := (cos phi * cos lam, cos phi * sin lam, sin phi).

(** [S] is the point of the ellipsoid where the outward normal, the direction of the gradient of
    the equation, is [normal phi lam]. *)
Definition surface_point (a b phi lam : R) (S : R3) : Prop :=
  on_ellipsoid a b S /\
  exists t, 0 < t /\
  let '(x, y, z) := S in let '(nx, ny, nz) := normal phi lam in
  x / (a * a) = t * nx /\ y / (a * a) = t * ny /\ z / (b * b) = t * nz.

(** [P] is at signed distance [h] from the ellipsoid along that normal. *)
Definition geodetic_point (a b phi lam h : R) (P : R3) : Prop :=
  exists x y z, surface_point a b phi lam (x, y, z) /\
  let '(nx, ny, nz) := normal phi lam in P = (x + h * nx, y + h * ny, z + h * nz).

(** Outside the core of the ellipsoid: p + q > e^4 in Vermeille's notation. *)
Definition outside_core (a b : R) (P : R3) : Prop :=
  let '(x, y, z) := P in
  (a * a - b * b) * (a * a - b * b) < a * a * (x * x + y * y) + b * b * (z * z).

Definition llh3 (l p h : R) : Cs.LLH XR := Cs.mkLLH (Fin l) (Fin p) (Fin h).
