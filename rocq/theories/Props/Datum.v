(** Properties C25-C26: geodetic to geocentric coordinates and back.

    [geodetic_point a b phi lam h P] (Spec/Shape.v): P is at signed distance h along the outward
    normal from the point of the ellipsoid (a, b) with geodetic latitude phi and longitude lam. *)
From Coq Require Import Reals Lra ZArith List String.
From Verif.Num Require Import FOps XR XRLemmas.
From Verif.Model Require Import Fp Quantities Cs Ellipsoid.
From Verif.Spec Require Import Angles Axes Shape.
From Verif.Proofs Require Import EllX EllF DatumX EllEx.
Local Open Scope R_scope.

(** ** C25 geodetic to geocentric *)

Theorem C25_llh_to_xyz : forall d a b m, shape (d_ellipsoid d) a b -> pm_lon (d_pm d) = Fin m ->
  forall l p h, b < a -> exists P, llh_to_xyz d (llh3 l p h) = xyz P /\
  geodetic_point a b p (l + m) h P.
Proof. exact to_xyz_geodetic. Qed.
Print Assumptions C25_llh_to_xyz.

(** The characterisation determines the point. *)
Theorem C25_geodetic_point_unique : forall a b p l h P P', 0 < b <= a ->
  geodetic_point a b p l h P -> geodetic_point a b p l h P' -> P = P'.
Proof. exact geodetic_point_unique. Qed.
Print Assumptions C25_geodetic_point_unique.

(** On a sphere the longitude is taken as is, without the prime meridian. *)
Theorem C25_llh_to_xyz_sphere : forall d a b, shape (d_ellipsoid d) a b ->
  forall l p h, b = a -> exists P, llh_to_xyz d (llh3 l p h) = xyz P /\
  geodetic_point a a p l h P.
Proof. exact to_xyz_geodetic_sphere. Qed.
Print Assumptions C25_llh_to_xyz_sphere.

Theorem C25_sphere_meridian_refuted : exists d m llh P,
  shape (d_ellipsoid d) 1 1 /\ pm_lon (d_pm d) = Fin m /\
  llh = llh3 0 0 0 /\ llh_to_xyz d llh = xyz P /\ ~ geodetic_point 1 1 0 (0 + m) 0 P.
Proof. exact sphere_meridian_ignored. Qed.
Print Assumptions C25_sphere_meridian_refuted.

Theorem C25_on_surface : forall d a b m, shape (d_ellipsoid d) a b -> pm_lon (d_pm d) = Fin m ->
  forall l p, exists P, llh_to_xyz d (llh3 l p 0) = xyz P /\ on_ellipsoid a b P.
Proof. exact to_xyz_surface. Qed.
Print Assumptions C25_on_surface.

(** ** C26 xyz_to_llh is the inverse *)

(** Outside the core (p + q > e^4 in Vermeille's notation). *)
Theorem C26_xyz_to_llh_to_xyz : forall d a b m, shape (d_ellipsoid d) a b -> pm_lon (d_pm d) = Fin m ->
  forall P, b < a -> outside_core a b P ->
  exists l p h, xyz_to_llh d (xyz P) = llh3 l p h /\ - PI <= l <= PI /\ - (PI / 2) <= p <= PI / 2 /\
  llh_to_xyz d (llh3 l p h) = xyz P.
Proof. exact to_xyz_to_llh. Qed.
Print Assumptions C26_xyz_to_llh_to_xyz.

(** For a flattening like the Earth's that covers every point on or above the ellipsoid. *)
Theorem C26_xyz_to_llh_to_xyz_above : forall d a b m x y z,
  shape (d_ellipsoid d) a b -> pm_lon (d_pm d) = Fin m -> b < a -> a * a < 2 * (b * b) ->
  1 <= (x * x + y * y) / (a * a) + z * z / (b * b) ->
  exists l p h, xyz_to_llh d (xyz (x, y, z)) = llh3 l p h /\ - PI <= l <= PI /\ - (PI / 2) <= p <= PI / 2 /\
  llh_to_xyz d (llh3 l p h) = xyz (x, y, z).
Proof. exact to_xyz_to_llh'. Qed.
Print Assumptions C26_xyz_to_llh_to_xyz_above.

(** The other way round: depths down to (1 - 2 e^2) N below the surface, poles included. *)
Theorem C26_llh_to_xyz_to_llh : forall d a b m l p h N,
  shape (d_ellipsoid d) a b -> pm_lon (d_pm d) = Fin m -> b < a -> - (PI / 2) <= p <= PI / 2 ->
  prime_vertical_radius (d_ellipsoid d) (Fin p) = Fin N -> (a * a - 2 * (b * b)) / (a * a) * N < h ->
  exists P l', llh_to_xyz d (llh3 l p h) = xyz P /\ xyz_to_llh d (xyz P) = llh3 l' p h /\
  - PI <= l' <= PI /\ (- (PI / 2) < p < PI / 2 -> same_angle l' l).
Proof. exact to_llh_to_xyz_deep. Qed.
Print Assumptions C26_llh_to_xyz_to_llh.

Theorem C26_llh_to_xyz_to_llh_above : forall d a b m l p h,
  shape (d_ellipsoid d) a b -> pm_lon (d_pm d) = Fin m -> b < a -> a * a < 2 * (b * b) ->
  - PI < l < PI -> - (PI / 2) < p < PI / 2 -> 0 <= h ->
  exists P, llh_to_xyz d (llh3 l p h) = xyz P /\ xyz_to_llh d (xyz P) = llh3 l p h.
Proof. exact to_llh_to_xyz'. Qed.
Print Assumptions C26_llh_to_xyz_to_llh_above.

Theorem C26_sphere_xyz_to_llh_to_xyz : forall d a, shape (d_ellipsoid d) a a ->
  forall P, exists l p h, xyz_to_llh d (xyz P) = llh3 l p h /\
  - PI <= l <= PI /\ - (PI / 2) <= p <= PI / 2 /\ llh_to_xyz d (llh3 l p h) = xyz P.
Proof. exact sph_to_xyz_to_llh. Qed.
Print Assumptions C26_sphere_xyz_to_llh_to_xyz.

Theorem C26_sphere_llh_to_xyz_to_llh : forall d a, shape (d_ellipsoid d) a a ->
  forall l p h, - PI < l <= PI -> - (PI / 2) <= p <= PI / 2 -> 0 < a + h ->
  exists P, llh_to_xyz d (llh3 l p h) = xyz P /\
  exists l', xyz_to_llh d (xyz P) = llh3 l' p h /\ (- (PI / 2) < p < PI / 2 -> l' = l).
Proof. exact sph_to_llh_to_xyz. Qed.
Print Assumptions C26_sphere_llh_to_xyz_to_llh.

(** WGS 84 with a prime meridian at 30 E, the point (3a, 0, 0). *)
Example C25_C26_ex : exists d a b, shape (d_ellipsoid d) a b /\ pm_lon (d_pm d) = Fin (PI / 6) /\ b < a /\
  a * a < 2 * (b * b) /\ 1 <= (3 * a * (3 * a) + 0 * 0) / (a * a) + 0 * 0 / (b * b).
Proof. exact ex_datum. Qed.

(** At the centre the height is NaN. *)
Theorem C26_centre_refuted : forall d a b, shape (d_ellipsoid d) a b -> b < a ->
  height (xyz_to_llh d (xyz (0, 0, 0))) = NaN.
Proof. exact centre_nan. Qed.
Print Assumptions C26_centre_refuted.
