(** Maps: longitude differences and the meridian of an ellipsoid. *)
From Coq Require Import Reals.
From Verif.Num Require Import FOps XR.
From Verif.Model Require Import Fp Cs Projections.
From Verif.Spec Require Import Angles Axes Shape.
Local Open Scope R_scope.

(** [d] is the longitude of [l] counted from [l0], in (-pi, pi]. *)
Definition lon_from (l0 l d : R) : Prop := - PI < d <= PI /\ same_angle (l0 + d) l.

(** [l'] is [l] as a normalized longitude: in [-pi, pi], [l] itself unless [l] is the
    antimeridian. *)
Definition same_lon (l' l : R) : Prop :=
  - PI <= l' <= PI /\ same_angle l' l /\ (- PI < l < PI -> l' = l).

Definition nonpolar (p : R) : Prop := - (PI / 2) < p < PI / 2.

(** The meridian of longitude 0: [x p] and [z p] are the distance from the axis and from the
    equatorial plane at geodetic latitude [p]. *)
Definition meridian (a b : R) (x z : R -> R) : Prop :=
  forall p, surface_point a b p 0 (x p, 0, z p).

(** [proj] maps the ellipsoid (a, b) conformally on a plane grid of meridians and parallels.
    Along the parallel of latitude [p] a step [dl] in longitude covers [x p * dl] on the ground
    and [c * dl] on the map; along the meridian a step in latitude covers the length of
    (x', z') on the ground and n' on the map.  The two scales agree. *)
Definition conformal_cylindrical (a b lon0 fe fn c : R)
    (proj : LLH XR -> result (ENH XR) ProjectionError) : Prop :=
  exists x z north : R -> R, meridian a b x z /\ north 0 = fn /\
  (forall l p h, nonpolar p -> exists d, lon_from lon0 l d /\
     proj (llh3 l p h) = Ok (enh (fe + c * d, north p, h))) /\
  (forall p, nonpolar p -> exists x' z' n', 0 < x p /\
     derivable_pt_lim x p x' /\ derivable_pt_lim z p z' /\ derivable_pt_lim north p n' /\
     n' / sqrt (x' * x' + z' * z') = c / x p).

(** The scale of such a map at latitude [p]. *)
Definition scale_at (a b c p s : R) : Prop :=
  exists x z, surface_point a b p 0 (x, 0, z) /\ 0 < x /\ s = c / x.
