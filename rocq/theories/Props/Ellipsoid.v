(** Properties C21-C24: ellipsoids.

    [shape E a b] (Spec/Shape.v): the record [E] describes the ellipsoid with semi-axes a >= b > 0;
    [surface_point a b phi lam S]: S is the point of that ellipsoid whose outward normal has
    latitude phi and longitude lam. *)
From Coq Require Import Reals Lra ZArith List String.
From Flocq Require Import Core IEEE754.BinarySingleNaN.
From Verif.Num Require Import FOps XR XRLemmas F64 F64Lemmas.
From Verif.Model Require Import Fp Quantities Cs Ellipsoid.
From Verif.Spec Require Import Angles Axes Shape Published.
From Verif.Proofs Require Import EllX EllF EllEx PubX.
Import ListNotations.
Local Open Scope R_scope.

(** ** C21 constructors *)

Theorem C21_from_ab_f64 : forall (lm : libm) nm (a b : f64), is_finite a = true -> is_finite b = true ->
  (0 < B2R b <= B2R a -> exists E, from_ab (ops := F64ops lm) nm a b = Ret E /\ e_a E = a /\ e_b E = b) /\
  (~ 0 < B2R b <= B2R a -> from_ab (ops := F64ops lm) nm a b = Panic).
Proof. exact from_ab_f64. Qed.
Print Assumptions C21_from_ab_f64.

Theorem C21_from_ainvf_f64 : forall (lm : libm) nm (a i : f64), is_finite a = true -> is_finite i = true ->
  (0 < B2R a /\ 1 < B2R i -> exists E, from_ainvf (ops := F64ops lm) nm a i = Ret E /\ e_a E = a /\ e_invf E = i) /\
  (~ (0 < B2R a /\ 1 < B2R i) -> from_ainvf (ops := F64ops lm) nm a i = Panic).
Proof. exact from_ainvf_f64. Qed.
Print Assumptions C21_from_ainvf_f64.

Theorem C21_nan_panics : forall (lm : libm) nm (x : f64),
  from_ab (ops := F64ops lm) nm B754_nan x = Panic /\ from_ab (ops := F64ops lm) nm x B754_nan = Panic /\
  from_ainvf (ops := F64ops lm) nm B754_nan x = Panic /\ from_ainvf (ops := F64ops lm) nm x B754_nan = Panic.
Proof. exact nan_panics. Qed.
Print Assumptions C21_nan_panics.

(** An infinite semi-major axis is accepted and gives the inverse flattening NaN. *)
Theorem C21_infinite_axis_refuted : forall (lm : libm) nm, exists E,
  from_ab (ops := F64ops lm) nm f64_inf (f64_ofZ 1) = Ret E /\ e_invf E = B754_nan.
Proof. exact from_ab_infinite. Qed.
Print Assumptions C21_infinite_axis_refuted.

(** In binary64 from_ainvf can return an ellipsoid with b = 0 (a = 2^-1074, 1/f = 1 + 2^-52). *)
Theorem C21_positive_minor_axis_f64_refuted : forall (lm : libm) nm, exists E,
  from_ainvf (ops := F64ops lm) nm (f64_of 1 (-1074)) (f64_of 4503599627370497 (-52)) = Ret E /\
  e_b E = B754_zero false.
Proof. exact from_ainvf_flat. Qed.
Print Assumptions C21_positive_minor_axis_f64_refuted.

Theorem C21_from_ab : forall nm a b, 0 < b <= a ->
  exists E, from_ab nm (Fin a) (Fin b) = Ret E /\ shape E a b.
Proof. exact from_ab_ok. Qed.
Print Assumptions C21_from_ab.

Theorem C21_from_ainvf : forall nm a i, 0 < a -> 1 < i ->
  exists E, from_ainvf nm (Fin a) (Fin i) = Ret E /\ shape E a (a * (1 - 1 / i)) /\ e_invf E = Fin i.
Proof. exact from_ainvf_ok. Qed.
Print Assumptions C21_from_ainvf.

Theorem C21_from_ainvf_infinite : forall nm a, 0 < a ->
  exists E, from_ainvf nm (Fin a) PInf = Ret E /\ shape E a a.
Proof. exact shape_inf_ok. Qed.
Print Assumptions C21_from_ainvf_infinite.

Theorem C21_is_spherical : forall E a b, shape E a b -> (is_spherical E = true <-> a = b).
Proof. exact spherical_iff. Qed.
Print Assumptions C21_is_spherical.

Theorem C21_same_ellipsoid_ab : forall nm nm' a b, 0 < b < a -> exists E E',
  from_ab nm (Fin a) (Fin b) = Ret E /\ from_ainvf nm' (Fin a) (Fin (a / (a - b))) = Ret E' /\
  ellipsoid_eq E E' = true.
Proof. exact same_ellipsoid. Qed.
Print Assumptions C21_same_ellipsoid_ab.

Theorem C21_same_ellipsoid_ainvf : forall nm nm' a i, 0 < a -> 1 < i -> exists E E',
  from_ainvf nm (Fin a) (Fin i) = Ret E /\ from_ab nm' (Fin a) (e_b E) = Ret E' /\
  ellipsoid_eq E E' = true.
Proof. exact same_ellipsoid'. Qed.
Print Assumptions C21_same_ellipsoid_ainvf.

Example C21_ex : exists E, from_ab "" (Fin 5) (Fin 3) = Ret E /\ shape E 5 3 /\
  e_sq E = Fin (16 / 25) /\ ef E = Fin (2 / 5).
Proof. exact ex_shape. Qed.

(** ** C22 derived parameters *)

Theorem C22_parameters : forall E a b, shape E a b -> exists f n e2 e ep2 ep,
  ef E = Fin f /\ en E = Fin n /\ e_sq E = Fin e2 /\ ecc E = Fin e /\ e_prime_sq E = Fin ep2 /\
  e_prime E = Fin ep /\ a_sq E = Fin (a * a) /\ b_sq E = Fin (b * b) /\
  b = a * (1 - f) /\ 0 <= f < 1 /\ n = (a - b) / (a + b) /\ 0 <= n < 1 /\ n = f / (2 - f) /\
  e2 = f * (2 - f) /\ e2 = 1 - (b * b) / (a * a) /\ e * e = e2 /\ 0 <= e < 1 /\
  ep2 = e2 / (1 - e2) /\ ep2 = (a * a) / (b * b) - 1 /\ ep * ep = ep2 /\ 0 <= ep.
Proof. exact params. Qed.
Print Assumptions C22_parameters.

(** ** C23 radii and auxiliary latitudes *)

Theorem C23_radii_bounds : forall E a b, shape E a b -> forall p, exists N M' C,
  prime_vertical_radius E (Fin p) = Fin N /\ prime_meridional_radius E (Fin p) = Fin M' /\
  conformal_sphere_radius E (Fin p) = Fin C /\
  a <= N <= a * a / b /\ b * b / a <= M' <= a * a / b /\ M' <= C <= N /\ C * C = M' * N.
Proof. exact radii. Qed.
Print Assumptions C23_radii_bounds.

Theorem C23_radii_even : forall E a b, shape E a b -> forall p,
  prime_vertical_radius E (Fin (- p)) = prime_vertical_radius E (Fin p) /\
  prime_meridional_radius E (Fin (- p)) = prime_meridional_radius E (Fin p) /\
  conformal_sphere_radius E (Fin (- p)) = conformal_sphere_radius E (Fin p).
Proof. exact radii_even. Qed.
Print Assumptions C23_radii_even.

(** The prime vertical radius is the distance along the normal from the surface to the axis. *)
Theorem C23_prime_vertical_radius : forall E a b, shape E a b -> forall p l x y z,
  surface_point a b p l (x, y, z) ->
  exists N, prime_vertical_radius E (Fin p) = Fin N /\
  let '(nx, ny, nz) := normal p l in x - N * nx = 0 /\ y - N * ny = 0.
Proof. exact pvr_geometry. Qed.
Print Assumptions C23_prime_vertical_radius.

(** The meridional radius is the rate at which the surface point moves with the latitude. *)
Theorem C23_prime_meridional_radius : forall E a b, shape E a b -> forall (r z : R -> R) (p : R),
  (forall p, surface_point a b p 0 (r p, 0, z p)) ->
  exists M', prime_meridional_radius E (Fin p) = Fin M' /\
  derivable_pt_lim r p (M' * - sin p) /\ derivable_pt_lim z p (M' * cos p).
Proof. exact pmr_geometry. Qed.
Print Assumptions C23_prime_meridional_radius.

Theorem C23_reduced_latitude : forall E a b, shape E a b -> forall p l, - (PI / 2) < p < PI / 2 -> exists be,
  reduced_latitude E (Fin p) = Fin be /\ - (PI / 2) < be < PI / 2 /\
  surface_point a b p l (a * cos be * cos l, a * cos be * sin l, b * sin be).
Proof. exact reduced_point. Qed.
Print Assumptions C23_reduced_latitude.

Theorem C23_geocentric_latitude : forall E a b, shape E a b -> forall p l, - (PI / 2) < p < PI / 2 -> exists ps rho,
  geocentric_latitude E (Fin p) = Fin ps /\ - (PI / 2) < ps < PI / 2 /\ 0 < rho /\
  surface_point a b p l (rho * cos ps * cos l, rho * cos ps * sin l, rho * sin ps).
Proof. exact geocentric_point. Qed.
Print Assumptions C23_geocentric_latitude.

Theorem C23_auxiliary_order : forall E a b, shape E a b -> forall p, 0 <= p < PI / 2 -> exists be ps,
  reduced_latitude E (Fin p) = Fin be /\ geocentric_latitude E (Fin p) = Fin ps /\ 0 <= ps <= be /\ be <= p.
Proof. exact aux_order. Qed.
Print Assumptions C23_auxiliary_order.

Theorem C23_auxiliary_odd : forall E a b, shape E a b -> forall p, - (PI / 2) < p < PI / 2 ->
  reduced_latitude E (Fin (- p)) = (- reduced_latitude E (Fin p))%F /\
  geocentric_latitude E (Fin (- p)) = (- geocentric_latitude E (Fin p))%F.
Proof. exact aux_odd. Qed.
Print Assumptions C23_auxiliary_odd.

Theorem C23_auxiliary_poles : forall E a b, shape E a b ->
  reduced_latitude E (Fin (PI / 2)) = Fin (PI / 2) /\
  geocentric_latitude E (Fin (PI / 2)) = Fin (PI / 2) /\
  reduced_latitude E (Fin (- (PI / 2))) = Fin (- (PI / 2)) /\
  geocentric_latitude E (Fin (- (PI / 2))) = Fin (- (PI / 2)).
Proof. exact aux_poles. Qed.
Print Assumptions C23_auxiliary_poles.

(** There is exactly one such surface point, so the hypotheses above are met. *)
Theorem C23_surface_point_unique : forall a b, 0 < b <= a -> forall p l,
  (exists S, surface_point a b p l S) /\
  forall S S', surface_point a b p l S -> surface_point a b p l S' -> S = S'.
Proof. exact (fun a b H p l => conj (surface_exists a b H p l) (surface_unique a b H p l)). Qed.
Print Assumptions C23_surface_point_unique.

Example C22_C23_ex : exists a b, shape (WGS84 (F := XR)) a b /\ b < a /\ 9 * a < 10 * b.
Proof. exact ex_wgs84. Qed.

(** ** C24 predefined constants *)

Theorem C24_ellipsoids_f64 : forall lm E, In E (ellipsoid_consts (ops := F64ops lm)) ->
  is_finite (e_a E) = true /\ is_finite (e_b E) = true /\ is_finite (e_invf E) = true /\
  0 < B2R (e_b E) < B2R (e_a E) /\ 1 < B2R (e_invf E) /\
  Rabs (B2R (e_b E) - B2R (e_a E) * (1 - 1 / B2R (e_invf E))) <= / 10 ^ 8.
Proof. exact ellipsoid_consts_f64. Qed.
Print Assumptions C24_ellipsoids_f64.

Theorem C24_ellipsoids_constructed_f64 : forall lm E, In E (ellipsoid_consts (ops := F64ops lm)) ->
  exists E', (from_ainvf (ops := F64ops lm) (e_name E) (e_a E) (e_invf E) = Ret E' \/
              from_ab (ops := F64ops lm) (e_name E) (e_a E) (e_b E) = Ret E') /\
  ellipsoid_eq (ops := F64ops lm) E E' = true.
Proof. exact ellipsoid_consts_rebuilt. Qed.
Print Assumptions C24_ellipsoids_constructed_f64.

Theorem C24_ellipsoids : forall E, In E (ellipsoid_consts (F := XR)) ->
  exists a b, b < a /\ 9 * a < 10 * b /\ shape E a b.
Proof. exact ellipsoid_consts_exact. Qed.
Print Assumptions C24_ellipsoids.

Theorem C24_meridians_f64 : forall lm P, In P (prime_meridian_consts (ops := F64ops lm)) ->
  is_finite (pm_lon P) = true /\ lon_normalized (ops := F64ops lm) (pm_lon P) = pm_lon P /\
  Rabs (B2R (pm_lon P)) < 2.
Proof. exact meridian_consts_f64. Qed.
Print Assumptions C24_meridians_f64.

Theorem C24_meridians : forall P, In P (prime_meridian_consts (F := XR)) ->
  exists deg, pm_lon P = Fin (deg / 180 * PI) /\ Rabs deg < 180.
Proof. exact meridian_consts_exact. Qed.
Print Assumptions C24_meridians.

(** The parameters are the published ones (Spec/Published.v): all ellipsoids but the last,
    SPHERE ... *)
Theorem C24_ellipsoids_published : Forall2 (fun E '(name, a, second) =>
    e_name E = name /\ e_a E = Fin a /\
    match second with InvF i => e_invf E = Fin i | Minor b => e_b E = Fin b end)
  (removelast (ellipsoid_consts (F := XR))) published_ellipsoids.
Proof. exact ellipsoids_published. Qed.
Print Assumptions C24_ellipsoids_published.

(** ... and the prime meridians, to 1e-12 of a degree; Copenhagen only to 5e-6 of a degree. *)
Theorem C24_meridians_published : Forall2 (fun P '(name, deg) => pm_name P = name /\
    exists d, pm_lon P = Fin (d / 180 * PI) /\ Rabs (d - deg) <= 5 / 10 ^ 6 /\
    (name <> "Copenhagen"%string -> Rabs (d - deg) <= / 10 ^ 12))
  (prime_meridian_consts (F := XR)) published_meridians.
Proof. exact meridians_published. Qed.
Print Assumptions C24_meridians_published.

(** The predefined datums: name, ellipsoid and Greenwich as prime meridian. *)
Theorem C24_datums_published : Forall2 (fun D '(name, a, i) => d_id D = name /\
    e_a (d_ellipsoid D) = Fin a /\ e_invf (d_ellipsoid D) = Fin i /\ pm_lon (d_pm D) = Fin 0)
  [DATUM_WGS84 (F := XR); DATUM_GGRS87; DATUM_NAD83; DATUM_RNB72] published_datums.
Proof. exact datums_published. Qed.
Print Assumptions C24_datums_published.

(** A meridian made with PrimeMeridian::new has a longitude in (-pi, pi]. *)
Theorem C24_meridian_new : forall nm a, exists x,
  pm_new nm (lon_new (Fin a)) = mkPM nm (Fin x) /\ - PI < x <= PI /\ same_angle x a.
Proof. exact pm_new_spec. Qed.
Print Assumptions C24_meridian_new.

(** The ellipsoid named SPHERE is not a sphere: its semi-minor axis is one metre shorter. *)
Theorem C24_sphere_refuted :
  shape (SPHERE (F := XR)) 6370997 6370996 /\
  forall lm, is_spherical (ops := F64ops lm) (SPHERE (ops := F64ops lm)) = false /\
  B2R (e_a (SPHERE (ops := F64ops lm))) - B2R (e_b (SPHERE (ops := F64ops lm))) = 1.
Proof. exact (conj sphere_exact sphere_f64). Qed.
Print Assumptions C24_sphere_refuted.
