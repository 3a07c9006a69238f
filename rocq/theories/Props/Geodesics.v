(** Properties C37-C43, C51: geodesics.

    [shape E a b] is in Spec/Shape.v; [position], [heading], [travel], [course] and [zcoord]
    describe great circles of the unit sphere (Spec/Sphere.v); [nonpolar], [lon_from] are in
    Spec/Maps.v, [settles] in Spec/Settle.v, what is asked of the C library in Spec/Libm.v. *)
From Coq Require Import String Reals Lra Psatz ZArith List Bool.
From Flocq Require Import Core.Raux IEEE754.BinarySingleNaN.
From Verif.Num Require Import FOps RFun XR XRLemmas F64.
From Verif.Model Require Import Fp Quantities Complex Cs Ellipsoid Geodesics Projections Crs Geometry.
From Verif.Spec Require Import Angles Axes Shape Frames Sphere Settle Libm Maps Routes.
From Verif.Proofs Require Import GeoP.
Import ListNotations.
Local Open Scope R_scope.

(** ** C37 the direct problem on the sphere *)

Theorem C37_vincenty : forall E a l p al s, shape E a a -> nonpolar p -> exists l2 p2 al2,
  solve_direct Vincenty E (Fin l, Fin p) (Fin al) (Fin s)
  = Ret (Ok (mkGeodesic (Fin l, Fin p) (Fin al) (Fin l2, Fin p2) (Fin al2) (Fin s))) /\
  - PI <= l2 <= PI /\ - (PI / 2) <= p2 <= PI / 2 /\ - PI < al2 <= PI /\
  position l2 p2 = travel (position l p) (heading l p al) (s / a) /\
  (-1 < sin p2 < 1 -> heading l2 p2 al2 = course (position l p) (heading l p al) (s / a)).
Proof. exact c37_vincenty. Qed.
Print Assumptions C37_vincenty.

Theorem C37_karney : forall E a l p al s, shape E a a -> nonpolar p ->
  -1 < zcoord (travel (position l p) (heading l p al) (s / a)) < 1 -> exists l2 p2 al2,
  solve_direct Karney E (Fin l, Fin p) (Fin al) (Fin s)
  = Ret (Ok (mkGeodesic (Fin l, Fin p) (Fin al) (Fin l2, Fin p2) (Fin al2) (Fin s))) /\
  - PI <= l2 <= PI /\ - (PI / 2) <= p2 <= PI / 2 /\ - PI < al2 <= PI /\
  position l2 p2 = travel (position l p) (heading l p al) (s / a) /\
  heading l2 p2 al2 = course (position l p) (heading l p al) (s / a).
Proof. exact c37_karney. Qed.
Print Assumptions C37_karney.

(** The azimuth is right when sin (s/a) is positive: up to half a turn, going forwards. *)
Theorem C37_rapp : forall E a l p al s, shape E a a -> nonpolar p ->
  -1 < zcoord (travel (position l p) (heading l p al) (s / a)) < 1 -> exists l2 p2 al2,
  solve_direct Rapp E (Fin l, Fin p) (Fin al) (Fin s)
  = Ret (Ok (mkGeodesic (Fin l, Fin p) (Fin al) (Fin l2, Fin p2) (Fin al2) (Fin s))) /\
  - PI <= l2 <= PI /\ - (PI / 2) <= p2 <= PI / 2 /\ - PI < al2 <= PI /\
  position l2 p2 = travel (position l p) (heading l p al) (s / a) /\
  (0 < sin (s / a) -> heading l2 p2 al2 = course (position l p) (heading l p al) (s / a)).
Proof. exact c37_rapp. Qed.
Print Assumptions C37_rapp.

(** For sin (s/a) < 0, for instance a negative distance, Rapp's end azimuth points backwards. *)
Theorem C37_rapp_azimuth_refuted : forall E a l p al s l2 p2 al2, shape E a a -> nonpolar p ->
  -1 < zcoord (travel (position l p) (heading l p al) (s / a)) < 1 -> sin (s / a) < 0 ->
  solve_direct Rapp E (Fin l, Fin p) (Fin al) (Fin s)
  = Ret (Ok (mkGeodesic (Fin l, Fin p) (Fin al) (Fin l2, Fin p2) (Fin al2) (Fin s))) ->
  heading l2 p2 al2 = vscale (-1) (course (position l p) (heading l p al) (s / a)).
Proof. exact c37_rapp_azimuth_refuted. Qed.
Print Assumptions C37_rapp_azimuth_refuted.

(** A quarter of a turn to the east on a sphere of radius 6371 km; the third conjunct for Rapp's defect. *)
Example C37_ex : exists E, shape E 6371000 6371000 /\ nonpolar 0 /\
  travel (position 0 0) (heading 0 0 (PI / 2)) (PI / 2 * 6371000 / 6371000) = position (PI / 2) 0 /\
  zcoord (position (PI / 2) 0) = 0 /\ sin (- (PI / 2) * 6371000 / 6371000) < 0.
Proof. exact c37_ex. Qed.

(** ** C38 the inverse problem on the sphere *)

Theorem C38_vincenty : forall E a l1 p1 l2 p2, shape E a a -> nonpolar p1 -> nonpolar p2 ->
  position l1 p1 <> position l2 p2 -> position l1 p1 <> vscale (-1) (position l2 p2) ->
  exists al1 al2 s, solve_inverse Vincenty E (Fin l1, Fin p1) (Fin l2, Fin p2)
  = Ret (Ok (mkGeodesic (Fin l1, Fin p1) (Fin al1) (Fin l2, Fin p2) (Fin al2) (Fin s))) /\
  0 < s < PI * a /\ - PI < al1 <= PI /\ - PI < al2 <= PI /\
  travel (position l1 p1) (heading l1 p1 al1) (s / a) = position l2 p2 /\
  course (position l1 p1) (heading l1 p1 al1) (s / a) = heading l2 p2 al2.
Proof. exact c38_vincenty. Qed.
Print Assumptions C38_vincenty.

(** Rapp: the points on neither the same nor opposite meridians, or on the same meridian. *)
Theorem C38_rapp : forall E a l1 p1 l2 p2, shape E a a -> nonpolar p1 -> nonpolar p2 ->
  sin (l2 - l1) <> 0 \/ l1 = l2 /\ p1 <> p2 ->
  exists al1 al2 s, solve_inverse Rapp E (Fin l1, Fin p1) (Fin l2, Fin p2)
  = Ret (Ok (mkGeodesic (Fin l1, Fin p1) (Fin al1) (Fin l2, Fin p2) (Fin al2) (Fin s))) /\
  0 < s < PI * a /\
  travel (position l1 p1) (heading l1 p1 al1) (s / a) = position l2 p2 /\
  course (position l1 p1) (heading l1 p1 al1) (s / a) = heading l2 p2 al2.
Proof. exact c38_rapp. Qed.
Print Assumptions C38_rapp.

(** Rapp on opposite meridians: right when the shorter way leads over the pole of the hemisphere of the first point. *)
Theorem C38_rapp_opposite : forall E a l1 p1 l2 p2, shape E a a -> nonpolar p1 -> nonpolar p2 -> same_angle (l2 - l1) PI ->
  (0 <= p1 /\ 0 < p1 + p2 \/ p1 < 0 /\ p1 + p2 < 0) ->
  exists al1 al2 s, solve_inverse Rapp E (Fin l1, Fin p1) (Fin l2, Fin p2)
  = Ret (Ok (mkGeodesic (Fin l1, Fin p1) (Fin al1) (Fin l2, Fin p2) (Fin al2) (Fin s))) /\
  0 < s < PI * a /\
  travel (position l1 p1) (heading l1 p1 al1) (s / a) = position l2 p2 /\
  course (position l1 p1) (heading l1 p1 al1) (s / a) = heading l2 p2 al2.
Proof. exact c38_rapp_opposite. Qed.
Print Assumptions C38_rapp_opposite.

(** Otherwise the azimuths are those of the longer way and the distance that of the shorter one: the answer leads to another point. *)
Theorem C38_rapp_opposite_meridian_refuted : forall E a l1 p1 l2 p2, shape E a a -> nonpolar p1 -> nonpolar p2 -> same_angle (l2 - l1) PI ->
  0 <= p1 -> p1 + p2 < 0 ->
  exists al1 al2 s, solve_inverse Rapp E (Fin l1, Fin p1) (Fin l2, Fin p2)
  = Ret (Ok (mkGeodesic (Fin l1, Fin p1) (Fin al1) (Fin l2, Fin p2) (Fin al2) (Fin s))) /\
  travel (position l1 p1) (heading l1 p1 al1) (s / a) <> position l2 p2.
Proof. exact c38_rapp_opposite_meridian_refuted. Qed.
Print Assumptions C38_rapp_opposite_meridian_refuted.

Example C38_ex : exists E, shape E 6371000 6371000 /\ position 0 0 <> position (PI / 2) 0 /\
  position 0 0 <> vscale (-1) (position (PI / 2) 0) /\ sin (PI / 2 - 0) <> 0 /\
  nonpolar (PI / 6) /\ nonpolar (- (PI / 3)) /\ PI / 6 + - (PI / 3) < 0 /\ same_angle (PI - 0) PI.
Proof. exact c38_ex. Qed.

(** ** C39 symmetries of the inverse distance *)


Theorem C39_swap : forall E a b l1 p1 l2 p2, shape E a b ->
  distance_of (solve_inverse Vincenty E (Fin l2, Fin p2) (Fin l1, Fin p1)) =
  distance_of (solve_inverse Vincenty E (Fin l1, Fin p1) (Fin l2, Fin p2)).
Proof. exact c39_swap. Qed.
Print Assumptions C39_swap.

Theorem C39_mirror : forall E a b l1 p1 l2 p2, shape E a b ->
  distance_of (solve_inverse Vincenty E (Fin l1, Fin (- p1)) (Fin l2, Fin (- p2))) =
  distance_of (solve_inverse Vincenty E (Fin l1, Fin p1) (Fin l2, Fin p2)).
Proof. exact c39_mirror. Qed.
Print Assumptions C39_mirror.

(** Turning both points around the axis changes nothing, whole turns of either longitude included; the azimuths stay too. *)
Theorem C39_shift : forall E a b l1 p1 l2 p2 l1' l2', shape E a b -> same_angle (l2' - l1') (l2 - l1) ->
  match vincenty_inverse E (Fin l1, Fin p1) (Fin l2, Fin p2) with
  | Ok g => vincenty_inverse E (Fin l1', Fin p1) (Fin l2', Fin p2)
            = Ok (mkGeodesic (Fin l1', Fin p1) (g_alpha1 g) (Fin l2', Fin p2) (g_alpha2 g) (g_s g))
  | Err e => vincenty_inverse E (Fin l1', Fin p1) (Fin l2', Fin p2) = Err e
  end.
Proof. exact c39_shift. Qed.
Print Assumptions C39_shift.

(** Both outcomes occur: see C43_equator and C43_equator_near_antipodes_refuted. *)
Example C39_ex : exists a b, shape WGS84 a b /\ b < a.
Proof. exact c39_ex. Qed.

(** ** C40 from a point to itself *)

(** Documented as the distance between two points; the two iterations divide by sin sigma = 0 and never settle. *)
Theorem C40_distance_to_itself_refuted : forall E a b l p, shape E a b ->
  solve_inverse Vincenty E (Fin l, Fin p) (Fin l, Fin p) = Ret (Err tt) /\
  (nonpolar p -> solve_inverse Rapp E (Fin l, Fin p) (Fin l, Fin p) = Ret (Err tt)).
Proof. exact c40_distance_to_itself_refuted. Qed.
Print Assumptions C40_distance_to_itself_refuted.

(** The same in binary64, with any C library that has sin 0 = 0, cos 0 = 1, atan2 (0, x) = 0 for x not negative and lets NaN through, for any ellipsoid and any latitude. *)
Theorem C40_binary64_refuted : forall (lm : libm) (E : Ellipsoid f64) (l p : f64), nan_through lm -> zero_values lm -> is_finite l = true ->
  solve_inverse (ops := F64ops lm) Vincenty E (l, p) (l, p) = Ret (Err tt) /\
  solve_inverse (ops := F64ops lm) Rapp E (l, p) (l, p) = Ret (Err tt).
Proof. exact c40_binary64_refuted. Qed.
Print Assumptions C40_binary64_refuted.

(** So a two-dimensional geographic CRS has no distance from a position to itself, *)
Theorem C40_crs_dist_refuted : forall id d ax a b buf l p h, shape (d_ellipsoid d) a b -> gaxes_dim ax = 2%nat ->
  geo_reads ax buf l p h ->
  crs_dist (GeographicCrs id d ax) (map Fin buf) (map Fin buf) = Ret (Err tt).
Proof. exact c40_crs_dist_refuted. Qed.
Print Assumptions C40_crs_dist_refuted.

(** in binary64 too, *)
Theorem C40_crs_dist_binary64_refuted : forall (lm : libm) id (d : GeodeticDatum f64) ax c llh, nan_through lm -> zero_values lm ->
  gaxes_dim ax = 2%nat -> List.length c = 2%nat ->
  gaxes_normalize (ops := F64ops lm) ax c = Ret llh -> is_finite (lon llh) = true ->
  crs_dist (ops := F64ops lm) (GeographicCrs id d ax) c c = Ret (Err tt).
Proof. exact c40_crs_dist_binary64_refuted. Qed.
Print Assumptions C40_crs_dist_binary64_refuted.

(** and a line string cannot repeat a vertex. *)
Theorem C40_repeated_vertex_refuted : forall {F} {ops : FOps F} (b : LineStringBuilder F) p, List.length p = lb_coord_dim b ->
  nth_pos (lb_coord_dim b) (lb_pos b) (n_pos (lb_coord_dim b) (lb_pos b) - 1) = Ret p ->
  crs_dist (lb_crs b) p p = Ret (Err tt) -> lsb_line_to b p = Ret (Err tt).
Proof. exact (@c40_repeated_vertex_refuted). Qed.
Print Assumptions C40_repeated_vertex_refuted.

Example C40_ex : (exists a b, shape WGS84 a b /\ b < a) /\ (exists lm, nan_through lm /\ zero_values lm) /\
  geo_reads (GEastNorth RAD) [1; 2] (1 * 1) (2 * 1) None.
Proof. exact c40_ex. Qed.

(** ** C41 geodesics of length zero *)

Theorem C41_vincenty : forall E a b l p al, shape E a b -> 9 * a <= 10 * b -> - PI <= l <= PI -> nonpolar p ->
  exists al2, solve_direct Vincenty E (Fin l, Fin p) (Fin al) (Fin 0)
  = Ret (Ok (mkGeodesic (Fin l, Fin p) (Fin al) (Fin l, Fin p) (Fin al2) (Fin 0))) /\
  - PI < al2 <= PI /\ same_angle al2 al.
Proof. exact c41_vincenty. Qed.
Print Assumptions C41_vincenty.

(** Rapp returns the start point too, but always with azimuth 0. *)
Theorem C41_rapp_azimuth_refuted : forall E a b l p al, shape E a b -> 9 * a <= 10 * b -> - PI <= l <= PI -> nonpolar p ->
  solve_direct Rapp E (Fin l, Fin p) (Fin al) (Fin 0)
  = Ret (Ok (mkGeodesic (Fin l, Fin p) (Fin al) (Fin l, Fin p) (Fin 0) (Fin 0))).
Proof. exact c41_rapp_azimuth_refuted. Qed.
Print Assumptions C41_rapp_azimuth_refuted.

Example C41_ex : exists a b, shape WGS84 a b /\ 9 * a <= 10 * b /\ nonpolar (PI / 4).
Proof. exact c41_ex. Qed.

(** ** C42 what the solvers report, and when they stop *)

(** Any arithmetic. *)
Theorem C42_direct_echo : forall {F} {ops : FOps F} sv (e : Ellipsoid F) p al s,
  exists r, solve_direct sv e p al s = Ret r /\
  match r with
  | Ok g => g_p1 g = p /\ g_alpha1 g = al /\ g_s g = s
  | Err _ => sv <> Karney
  end.
Proof. exact (@c42_direct_echo). Qed.
Print Assumptions C42_direct_echo.

Theorem C42_inverse_echo : forall {F} {ops : FOps F} sv (e : Ellipsoid F) p q, sv <> Karney ->
  exists r, solve_inverse sv e p q = Ret r /\ forall g, r = Ok g -> g_p1 g = p /\ g_p2 g = q.
Proof. exact (@c42_inverse_echo). Qed.
Print Assumptions C42_inverse_echo.

(** The solver interface promises a result; Karney's inverse panics on every input. *)
Theorem C42_karney_inverse_refuted : forall {F} {ops : FOps F} (e : Ellipsoid F) p q, solve_inverse Karney e p q = Panic.
Proof. exact (@c42_karney_inverse_refuted). Qed.
Print Assumptions C42_karney_inverse_refuted.

(** Vincenty's inverse: the answer is the first of the first 30 iterates whose longitude differs from the one before by less than 1e-12; it fails exactly when there is none. Any arithmetic. *)
Theorem C42_vincenty_inverse_stops : forall {F} {ops : FOps F} (e : Ellipsoid F) lon1 lat1 lon2 lat2,
  let b1 := reduced_latitude e lat1 in let b2 := reduced_latitude e lat2 in
  let L := lon_sub lon2 lon1 in
  let close := fun y x => flt (fabs (fsub (vi_lambda y) (vi_lambda x))) (flit 1 12) in
  let step := fun x => vincenty_inverse_step (ef e) (fsin b1) (fcos b1) (fsin b2) (fcos b2) L
                         (vi_lambda x) (vi_cos_2_sigma_m x) in
  forall st0, vi_lambda st0 = L -> vi_cos_2_sigma_m st0 = fofZ 0 ->
  match vincenty_inverse e (lon1, lat1) (lon2, lat2) with
  | Ok g => exists st, settles close step 30 st0 st /\ g_s g = vincenty_inverse_s e st
  | Err _ => never_settles close step 30 st0
  end.
Proof. exact (@c42_vincenty_inverse_stops). Qed.
Print Assumptions C42_vincenty_inverse_stops.

(** The same for Rapp's, with 5e-15. *)
Theorem C42_rapp_inverse_stops : forall {F} {ops : FOps F} (e : Ellipsoid F) lon1 lat1 lon2 lat2,
  let b1 := reduced_latitude e lat1 in let b2 := reduced_latitude e lat2 in
  let L := lon_sub lon2 lon1 in
  let close := fun y x => flt (fabs (fsub (ri_lambda y) (ri_lambda x))) (flit 5 15) in
  let z := fofZ 0 in let st0 := mkRI L z z z z z z z z z z in
  match rapp_inverse e (lon1, lat1) (lon2, lat2) with
  | Ok g => exists st, settles close (rapp_inverse_step e b1 b2 L) 30 st0 st /\
              g_s g = rapp_inverse_s e st
  | Err _ => never_settles close (rapp_inverse_step e b1 b2 L) 30 st0
  end.
Proof. exact (@c42_rapp_inverse_stops). Qed.
Print Assumptions C42_rapp_inverse_stops.

(** The direct solutions never fail on an ellipsoid flattened by at most a tenth. *)
Theorem C42_vincenty_direct_total : forall E a b l p al s, shape E a b -> 9 * a <= 10 * b -> nonpolar p ->
  exists l2 p2 al2, solve_direct Vincenty E (Fin l, Fin p) (Fin al) (Fin s)
  = Ret (Ok (mkGeodesic (Fin l, Fin p) (Fin al) (Fin l2, Fin p2) (Fin al2) (Fin s))) /\
  - PI <= l2 <= PI /\ - (PI / 2) <= p2 <= PI / 2 /\ - PI < al2 <= PI.
Proof. exact c42_vincenty_direct_total. Qed.
Print Assumptions C42_vincenty_direct_total.

Theorem C42_rapp_direct_total : forall E a b l p al s, shape E a b -> 9 * a <= 10 * b -> nonpolar p ->
  exists g, solve_direct Rapp E (Fin l, Fin p) (Fin al) (Fin s) = Ret (Ok g).
Proof. exact c42_rapp_direct_total. Qed.
Print Assumptions C42_rapp_direct_total.

Theorem C42_vincenty_inverse_range : forall E a b l1 p1 l2 p2 g, shape E a b ->
  solve_inverse Vincenty E (Fin l1, Fin p1) (Fin l2, Fin p2) = Ret (Ok g) ->
  exists al1 al2 s, g = mkGeodesic (Fin l1, Fin p1) (Fin al1) (Fin l2, Fin p2) (Fin al2) (Fin s) /\
  - PI < al1 <= PI /\ - PI < al2 <= PI.
Proof. exact c42_vincenty_inverse_range. Qed.
Print Assumptions C42_vincenty_inverse_range.

(** ** C43 the equator and the meridians *)

(** d is the longitude difference in (-pi, pi]. *)
Theorem C43_equator : forall E a b l1 l2 d, shape E a b -> 2 * a <= 3 * b -> lon_from l1 l2 d ->
  0 < Rabs d < b / a * PI ->
  exists s al, solve_inverse Vincenty E (Fin l1, Fin 0) (Fin l2, Fin 0)
  = Ret (Ok (mkGeodesic (Fin l1, Fin 0) (Fin al) (Fin l2, Fin 0) (Fin al) (Fin s))) /\
  (0 < d -> al = PI / 2) /\ (d < 0 -> al = - (PI / 2)) /\
  Rabs (s - a * Rabs d) < a / 10 ^ 12.
Proof. exact c43_equator. Qed.
Print Assumptions C43_equator.

(** No answer for equatorial points further apart than (b/a) pi in longitude: the geodesic leaves the equator, and Vincenty's iteration does not settle. *)
Theorem C43_equator_near_antipodes_refuted : forall E a b l1 l2 d, shape E a b -> a <= 2 * b -> lon_from l1 l2 d ->
  b / a * PI + / 10 ^ 12 <= Rabs d ->
  solve_inverse Vincenty E (Fin l1, Fin 0) (Fin l2, Fin 0) = Ret (Err tt).
Proof. exact c43_equator_near_antipodes_refuted. Qed.
Print Assumptions C43_equator_near_antipodes_refuted.

Theorem C43_meridian : forall E a b l1 p1 l2 p2, shape E a b -> nonpolar p1 -> nonpolar p2 -> same_angle l1 l2 -> p1 <> p2 ->
  exists s az, solve_inverse Vincenty E (Fin l1, Fin p1) (Fin l2, Fin p2)
  = Ret (Ok (mkGeodesic (Fin l1, Fin p1) (Fin az) (Fin l2, Fin p2) (Fin az) (Fin s))) /\
  (p1 < p2 -> az = 0) /\ (p2 < p1 -> az = PI).
Proof. exact c43_meridian. Qed.
Print Assumptions C43_meridian.

(** Opposite meridians: over the nearer pole. *)
Theorem C43_over_the_pole : forall E a b l1 p1 l2 p2, shape E a b -> nonpolar p1 -> nonpolar p2 ->
  same_angle (l2 - l1) PI -> p1 + p2 <> 0 ->
  exists s az1 az2, solve_inverse Vincenty E (Fin l1, Fin p1) (Fin l2, Fin p2)
  = Ret (Ok (mkGeodesic (Fin l1, Fin p1) (Fin az1) (Fin l2, Fin p2) (Fin az2) (Fin s))) /\
  (0 < p1 + p2 -> az1 = 0 /\ az2 = PI) /\ (p1 + p2 < 0 -> az1 = PI /\ az2 = 0).
Proof. exact c43_over_the_pole. Qed.
Print Assumptions C43_over_the_pole.

Example C43_ex : exists a b, shape WGS84 a b /\ 2 * a <= 3 * b /\ lon_from 0 (PI / 2) (PI / 2) /\
  0 < Rabs (PI / 2) < b / a * PI.
Proof. exact c43_ex. Qed.

Example C43_ex_antipodes : exists a b, shape WGS84 a b /\ a <= 2 * b /\ lon_from 0 PI PI /\ b / a * PI + / 10 ^ 12 <= Rabs PI.
Proof. exact c43_ex_antipodes. Qed.

(** ** C51 Karney's spherical triangle *)

(** From the node of the great circle on the equator with azimuth alpha0: the corner at the arc sigma. *)
Theorem C51_triangle_from_node : forall al0 sg, exists om be al,
  solve_triangle_from_e (Fin al0) (Fin sg) = mkTriangle (Fin al0) (Fin al) (Fin be) (Fin sg) (Fin om) /\
  - (PI / 2) <= be <= PI / 2 /\ - PI < om <= PI /\ - PI < al <= PI /\
  position om be = travel (position 0 0) (heading 0 0 al0) sg /\
  (cos be <> 0 -> heading om be al = course (position 0 0) (heading 0 0 al0) sg).
Proof. exact c51_triangle_from_node. Qed.
Print Assumptions C51_triangle_from_node.

(** From a point and an azimuth there: back to the node. *)
Theorem C51_triangle_from_point : forall be al, nonpolar be -> exists al0 sg om al',
  solve_triangle_from_p (Fin be) (Fin al) = mkTriangle (Fin al0) (Fin al) (Fin be) (Fin sg) (Fin om) /\
  - (PI / 2) <= al0 <= PI / 2 /\ - PI < sg <= PI /\ - PI < om <= PI /\ same_angle al' al /\
  position om be = travel (position 0 0) (heading 0 0 al0) sg /\
  heading om be al' = course (position 0 0) (heading 0 0 al0) sg.
Proof. exact c51_triangle_from_point. Qed.
Print Assumptions C51_triangle_from_point.
