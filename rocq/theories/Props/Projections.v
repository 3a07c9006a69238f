(** Properties C32-C36: Web Mercator, Mercator, transverse Mercator, UTM.

    [applied_to spec E] is the projection that [ProjectionSpec::applied_to] builds.  Positions
    [llh3 l p h] and map points [enh (x, y, h)] are finite; [lon_from], [same_lon], [nonpolar],
    [conformal_cylindrical] and [scale_at] are in Spec/Maps.v, the Krueger series in
    Spec/Krueger.v. *)
From Coq Require Import String Reals Lra ZArith List.
From Flocq Require Import Core IEEE754.BinarySingleNaN.
From Verif.Num Require Import FOps XR F64.
From Verif.Model Require Import Fp Quantities Cs Ellipsoid Geodesics Projections Crs.
From Verif.Spec Require Import Angles Axes Shape Maps Krueger Libm.
From Verif.Proofs Require Import ProjX MercX TMX UTMX MapsEx EllEx MercInv.
Local Open Scope R_scope.

(** ** C32 Web Mercator *)

Theorem C32_inverse : forall E a b lon0 lat0 fe fn, shape E a b ->
  let P := applied_to (SWebMercator (Fin lon0) (Fin lat0) (Fin fe) (Fin fn)) E in
  (forall fuel l p h, nonpolar p -> exists x y l',
     proj P (llh3 l p h) = Ok (enh (x, y, h)) /\
     unproj fuel P (enh (x, y, h)) = Ret (Ok (llh3 l' p h)) /\ same_lon l' l) /\
  (forall fuel x y h, Rabs (x - fe) < PI * a -> exists l p,
     unproj fuel P (enh (x, y, h)) = Ret (Ok (llh3 l p h)) /\ nonpolar p /\
     proj P (llh3 l p h) = Ok (enh (x, y, h))).
Proof. exact wm_inverse. Qed.
Print Assumptions C32_inverse.

(** The map: easting proportional to longitude, northing with derivative a / cos p, which makes
    it conformal for the sphere of radius a; (lon0, 0) goes to the false origin. *)
Theorem C32_map : forall E a b lon0 lat0 fe fn, shape E a b -> exists north, north 0 = fn /\
  (forall l p h, nonpolar p -> exists d, lon_from lon0 l d /\
     proj (applied_to (SWebMercator (Fin lon0) (Fin lat0) (Fin fe) (Fin fn)) E) (llh3 l p h)
     = Ok (enh (fe + a * d, north p, h))) /\
  (forall p, nonpolar p -> derivable_pt_lim north p (a / cos p)) /\
  (forall p q, nonpolar p -> nonpolar q -> p < q -> north p < north q).
Proof. exact wm_map'. Qed.
Print Assumptions C32_map.

(** lat0, documented as the latitude of natural origin, has no effect; so the natural origin does
    not go to the false origin unless it is on the equator. *)
Theorem C32_lat0_ignored : forall (E : Ellipsoid XR) lon0 lat0 lat0' fe fn llh enh fuel,
  proj (applied_to (SWebMercator lon0 lat0 fe fn) E) llh =
  proj (applied_to (SWebMercator lon0 lat0' fe fn) E) llh /\
  unproj fuel (applied_to (SWebMercator lon0 lat0 fe fn) E) enh =
  unproj fuel (applied_to (SWebMercator lon0 lat0' fe fn) E) enh.
Proof. exact wm_lat0_ignored'. Qed.
Print Assumptions C32_lat0_ignored.

Theorem C32_natural_origin_refuted : forall E a b lon0 lat0 fe fn,
  shape E a b -> nonpolar lat0 -> lat0 <> 0 ->
  exists x y, proj (applied_to (SWebMercator (Fin lon0) (Fin lat0) (Fin fe) (Fin fn)) E)
    (llh3 lon0 lat0 0) = Ok (enh (x, y, 0)) /\ y <> fn.
Proof. exact wm_lat0_refuted. Qed.
Print Assumptions C32_natural_origin_refuted.

Example C32_ex : exists a b, shape WGS84 a b /\ b < a /\ nonpolar (PI / 3) /\
  Rabs (5000 + 3 * a - 5000) < PI * a.
Proof. exact ex_wm. Qed.

(** ** C33 Mercator *)

Theorem C33_conformal : forall E a b lon0 k0 fe fn, shape E a b ->
  conformal_cylindrical a b lon0 fe fn (k0 * a)
    (proj (applied_to (SMercator1SP (Fin lon0) (Fin k0) (Fin fe) (Fin fn)) E)).
Proof. exact merc_conformal'. Qed.
Print Assumptions C33_conformal.

(** The scale on the equator is k0 ... *)
Theorem C33_scale_1sp : forall E a b k0, shape E a b -> scale_at a b (k0 * a) 0 k0.
Proof. exact merc_1sp. Qed.
Print Assumptions C33_scale_1sp.

(** ... and in the two standard parallel variant it is 1 at the standard parallel. *)
Theorem C33_scale_2sp : forall E a b lon0 lat0 fe fn, shape E a b -> nonpolar lat0 ->
  exists k0, 0 < k0 /\
  (forall llh, proj (applied_to (SMercator2SP (Fin lon0) (Fin lat0) (Fin fe) (Fin fn)) E) llh =
               proj (applied_to (SMercator1SP (Fin lon0) (Fin k0) (Fin fe) (Fin fn)) E) llh) /\
  (forall fuel enh,
     unproj fuel (applied_to (SMercator2SP (Fin lon0) (Fin lat0) (Fin fe) (Fin fn)) E) enh =
     unproj fuel (applied_to (SMercator1SP (Fin lon0) (Fin k0) (Fin fe) (Fin fn)) E) enh) /\
  scale_at a b (k0 * a) lat0 1.
Proof. exact merc_2sp'. Qed.
Print Assumptions C33_scale_2sp.

Theorem C33_symmetric : forall E a b lon0 k0 fe fn, shape E a b ->
  forall l p h, nonpolar p -> exists x y,
  let P := applied_to (SMercator1SP (Fin lon0) (Fin k0) (Fin fe) (Fin fn)) E in
  proj P (llh3 l p h) = Ok (enh (x, fn + y, h)) /\
  proj P (llh3 l (- p) h) = Ok (enh (x, fn - y, h)).
Proof. exact merc_sym'. Qed.
Print Assumptions C33_symmetric.

Theorem C33_increasing : forall E a b lon0 k0 fe fn, shape E a b ->
  forall p q, 0 < k0 -> nonpolar p -> nonpolar q -> p < q -> forall l h, exists x y y',
  let P := applied_to (SMercator1SP (Fin lon0) (Fin k0) (Fin fe) (Fin fn)) E in
  proj P (llh3 l p h) = Ok (enh (x, y, h)) /\ proj P (llh3 l q h) = Ok (enh (x, y', h)) /\ y < y'.
Proof. exact merc_incr'. Qed.
Print Assumptions C33_increasing.

Theorem C33_sphere_inverse : forall E a lon0 k0 fe fn, shape E a a -> 0 < k0 ->
  let P := applied_to (SMercator1SP (Fin lon0) (Fin k0) (Fin fe) (Fin fn)) E in
  (forall fuel l p h, nonpolar p -> exists x y l',
     proj P (llh3 l p h) = Ok (enh (x, y, h)) /\
     unproj fuel P (enh (x, y, h)) = Ret (Ok (llh3 l' p h)) /\ same_lon l' l) /\
  (forall fuel x y h, Rabs (x - fe) < PI * (k0 * a) -> exists l p,
     unproj fuel P (enh (x, y, h)) = Ret (Ok (llh3 l p h)) /\ nonpolar p /\
     proj P (llh3 l p h) = Ok (enh (x, y, h))).
Proof. exact merc_sphere_inverse2. Qed.
Print Assumptions C33_sphere_inverse.

(** On an ellipsoid of flattening at most 1/100 the inverse series returns the latitude to the tenth
    power of the eccentricity, at every latitude; back on the map the northing is off by a
    fraction of the same order and the easting is exact. *)
Theorem C33_ellipsoid_inverse : forall E a b lon0 k0 fe fn, shape E a b -> 99 * a <= 100 * b -> 0 < k0 ->
  let P := applied_to (SMercator1SP (Fin lon0) (Fin k0) (Fin fe) (Fin fn)) E in
  let e2 := (a * a - b * b) / (a * a) in
  (forall fuel l p h, nonpolar p -> exists x y l' p',
     proj P (llh3 l p h) = Ok (enh (x, y, h)) /\
     unproj fuel P (enh (x, y, h)) = Ret (Ok (llh3 l' p' h)) /\ same_lon l' l /\
     Rabs (p' - p) <= e2 ^ 5) /\
  (forall fuel x y h, Rabs (x - fe) < PI * (k0 * a) -> exists l p y',
     unproj fuel P (enh (x, y, h)) = Ret (Ok (llh3 l p h)) /\ nonpolar p /\
     proj P (llh3 l p h) = Ok (enh (x, y', h)) /\
     Rabs (y' - y) <= 27 / 20 * e2 ^ 5 * Rabs (y - fn)).
Proof. exact merc_ellipsoid_inverse. Qed.
Print Assumptions C33_ellipsoid_inverse.
(** On WGS84 that is 14e-12 radians, a tenth of a millimetre. *)
Theorem C33_wgs84 : forall a b, shape WGS84 a b ->
  99 * a <= 100 * b /\ ((a * a - b * b) / (a * a)) ^ 5 <= 14 / 1000000000000.
Proof. exact merc_wgs84. Qed.
Print Assumptions C33_wgs84.

Example C33_ex : exists a b, shape WGS84 a b /\ b < a /\ nonpolar (PI / 3) /\
  Rabs (5000 + 3 * a - 5000) < PI * a.
Proof. exact ex_wm. Qed.
Example C33_sphere_ex : exists E, from_ainvf "" (Fin 6371000) PInf = Ret E /\ shape E 6371000 6371000.
Proof. apply ex_sphere. lra. Qed.

(** ** C34 transverse Mercator *)

(** Natural origin, the poles included. *)
Theorem C34_origin : forall E a b lon0 lat0 k0 fe fn, shape E a b -> latitude lat0 -> forall h,
  proj (applied_to (STransverseMercator (Fin lon0) (Fin lat0) (Fin k0) (Fin fe) (Fin fn)) E)
    (llh3 lon0 lat0 h) = Ok (enh (fe, fn, h)).
Proof. exact tm_origin'. Qed.
Print Assumptions C34_origin.

Theorem C34_central_meridian : forall E a b lon0 lat0 k0 fe fn, shape E a b -> latitude lat0 ->
  exists north, forall l p h, latitude p -> same_angle l lon0 ->
  proj (applied_to (STransverseMercator (Fin lon0) (Fin lat0) (Fin k0) (Fin fe) (Fin fn)) E)
    (llh3 l p h) = Ok (enh (fe, north p, h)).
Proof. exact tm_central'. Qed.
Print Assumptions C34_central_meridian.

(** The two points of the equator 90 degrees from the central meridian have no image. *)
Theorem C34_east_west : forall E a b lon0 lat0 k0 fe fn, shape E a b -> latitude lat0 ->
  let P := applied_to (STransverseMercator (Fin lon0) (Fin lat0) (Fin k0) (Fin fe) (Fin fn)) E in
  forall d p h, latitude p -> - PI < d < PI -> p <> 0 \/ cos d <> 0 -> exists x y,
  proj P (llh3 (lon0 + d) p h) = Ok (enh (fe + x, y, h)) /\
  proj P (llh3 (lon0 - d) p h) = Ok (enh (fe - x, y, h)).
Proof. exact tm_east_west'. Qed.
Print Assumptions C34_east_west.

Theorem C34_north_south : forall E a b lon0 k0 fe fn, shape E a b ->
  forall l p h, latitude p -> p <> 0 \/ cos (l - lon0) <> 0 -> exists x y,
  let P := applied_to (STransverseMercator (Fin lon0) (Fin 0) (Fin k0) (Fin fe) (Fin fn)) E in
  proj P (llh3 l p h) = Ok (enh (x, fn + y, h)) /\
  proj P (llh3 l (- p) h) = Ok (enh (x, fn - y, h)).
Proof. exact tm_north_south'. Qed.
Print Assumptions C34_north_south.

(** The map is not injective: positions more than 90 degrees from the central meridian land on
    those less than 90 degrees away. *)
Theorem C34_injective_refuted : forall E a b lon0 lat0 k0 fe fn, shape E a b -> latitude lat0 ->
  let P := applied_to (STransverseMercator (Fin lon0) (Fin lat0) (Fin k0) (Fin fe) (Fin fn)) E in
  forall d p h, latitude p -> 0 < d < PI -> p <> 0 \/ cos d <> 0 ->
  proj P (llh3 (lon0 + (PI - d)) p h) = proj P (llh3 (lon0 + d) p h).
Proof. exact tm_fold'. Qed.
Print Assumptions C34_injective_refuted.

Example C34_ex : exists E a b, shape E a b /\ b < a /\ latitude (PI / 4) /\ latitude (- (PI / 2)).
Proof. exact ex_tm. Qed.

(** ** C35 inverse transverse Mercator *)

(** The loop ends on every map point that does not stand for a pole.  The answer's latitude is
    within e^2 / (1 - e^2) * 1e-12 of a latitude q for which proj gives back the map point, up to
    the difference between the two truncated series and the identity. *)
Theorem C35_unproj_terminates : forall E a b lon0 lat0 k0 fe fn, shape E a b -> latitude lat0 ->
  let P := applied_to (STransverseMercator (Fin lon0) (Fin lat0) (Fin k0) (Fin fe) (Fin fn)) E in
  k0 <> 0 -> exists M0, (lat0 = 0 -> M0 = 0) /\ forall x y h,
  let n := third_flattening a b in let r := kr_radius a n in let e2 := eccentricity_squared a b in
  let '(xi, eta) := krueger (kr_reverse n) ((y - fn + k0 * M0) / (k0 * r), (x - fe) / (k0 * r)) in
  ~ (eta = 0 /\ cos xi = 0) ->
  exists N l p, - PI <= l <= PI /\ nonpolar p /\
  (forall fuel, (N <= fuel)%nat -> unproj fuel P (enh (x, y, h)) = Ret (Ok (llh3 l p h))) /\
  (latitude xi -> exists q, Rabs (p - q) <= e2 / (1 - e2) * / 10 ^ 12 /\
     let '(xi', eta') := krueger (kr_direct n) (xi, eta) in
     proj P (llh3 l q h) = Ok (enh (fe + k0 * r * eta', fn + k0 * (r * xi' - M0), h))).
Proof. exact tm_unproj'. Qed.
Print Assumptions C35_unproj_terminates.

(** On a sphere unproj is the exact inverse. *)
Theorem C35_sphere_inverse : forall E a lon0 lat0 k0 fe fn, shape E a a -> latitude lat0 -> k0 <> 0 ->
  let P := applied_to (STransverseMercator (Fin lon0) (Fin lat0) (Fin k0) (Fin fe) (Fin fn)) E in
  (forall l p h, nonpolar p -> 0 < cos (l - lon0) -> exists x y l',
     proj P (llh3 l p h) = Ok (enh (x, y, h)) /\
     (forall fuel, (1 <= fuel)%nat -> unproj fuel P (enh (x, y, h)) = Ret (Ok (llh3 l' p h))) /\
     same_lon l' l) /\
  (forall x y h, nonpolar ((y - fn) / (k0 * a) + lat0) -> exists l p,
     (forall fuel, (1 <= fuel)%nat -> unproj fuel P (enh (x, y, h)) = Ret (Ok (llh3 l p h))) /\
     proj P (llh3 l p h) = Ok (enh (x, y, h))).
Proof. exact tm_sphere'. Qed.
Print Assumptions C35_sphere_inverse.

(** In binary64 the loop never ends on NaN ... *)
Theorem C35_nan_never_returns : forall lm, nan_through lm -> forall fuel spec E x y h,
  (match spec with STransverseMercator _ _ _ _ _ | SUTMNorth _ | SUTMSouth _ => True | _ => False end) ->
  x = B754_nan \/ y = B754_nan ->
  unproj (ops := F64ops lm) fuel (applied_to (ops := F64ops lm) spec E) (mkENH x y h) = Diverge.
Proof. exact unproj_nan'. Qed.
Print Assumptions C35_nan_never_returns.

(** ... nor on finite map points far enough to the east: UTM, easting 1e10, any northing. *)
Theorem C35_finite_terminates_refuted : forall lm,
  nan_through lm -> sin_of_inf lm -> cosh_overflows lm -> forall fuel zone y h,
  unproj (ops := F64ops lm) fuel
    (applied_to (ops := F64ops lm) (SUTMNorth zone) (GRS80 (ops := F64ops lm)))
    (mkENH (f64_ofZ 10000000000) y h) = Diverge.
Proof. exact utm_far'. Qed.
Print Assumptions C35_finite_terminates_refuted.

Example C35_unproj_ex : exists E a, shape E a a /\
  let n := third_flattening a a in let r := kr_radius a n in
  let '(xi, eta) := krueger (kr_reverse n) ((0 - 0 + 1 * 0) / (1 * r), (a - 0) / (1 * r)) in
  ~ (eta = 0 /\ cos xi = 0).
Proof. exact ex_tm_unproj. Qed.
Example C35_libm_ex : exists lm, nan_through lm /\ sin_of_inf lm /\ cosh_overflows lm.
Proof. exact ex_libm. Qed.

(** ** C36 UTM *)

(** Zone z is the transverse Mercator projection with central meridian 6 z - 180 degrees. *)
Theorem C36_parameters : forall E z, (1 <= z <= 60)%Z ->
  let lon0 := Fin ((6 * IZR z - 180) * (PI / 180)) in
  applied_to (SUTMNorth z) E =
    applied_to (STransverseMercator lon0 (Fin 0) (Fin 0.9996) (Fin 500000) (Fin 0)) E /\
  applied_to (SUTMSouth z) E =
    applied_to (STransverseMercator lon0 (Fin 0) (Fin 0.9996) (Fin 500000) (Fin 10000000)) E.
Proof. exact utm_params. Qed.
Print Assumptions C36_parameters.

(** The standard central meridian is 6 z - 183 degrees.  On no usual ellipsoid does the point
    where it meets the equator get the false easting. *)
Theorem C36_standard_meridian_refuted : forall E a b z,
  shape E a b -> a < 3 / 2 * b -> (1 <= z <= 60)%Z ->
  exists x y, proj (applied_to (SUTMNorth z) E) (llh3 ((6 * IZR z - 183) * (PI / 180)) 0 0)
    = Ok (enh (x, y, 0)) /\ x < 500000.
Proof. exact utm_standard_refuted. Qed.
Print Assumptions C36_standard_meridian_refuted.

(** Any number is accepted as a zone. *)
Theorem C36_every_zone_accepted : forall E z,
  exists l, - PI <= l <= PI /\ same_angle l ((6 * IZR z - 180) * (PI / 180)) /\
  applied_to (SUTMNorth z) E =
    applied_to (STransverseMercator (Fin l) (Fin 0) (Fin 0.9996) (Fin 500000) (Fin 0)) E /\
  applied_to (SUTMSouth z) E =
    applied_to (STransverseMercator (Fin l) (Fin 0) (Fin 0.9996) (Fin 500000) (Fin 10000000)) E.
Proof. exact utm_params_any. Qed.
Print Assumptions C36_every_zone_accepted.

Example C36_ex : exists a b, shape WGS84 a b /\ b < a /\ 9 * a < 10 * b.
Proof. exact ex_wgs84. Qed.
