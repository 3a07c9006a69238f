(** The statements of Props/Geodesics.v. *)
From Coq Require Import String Reals Lra Psatz ZArith List Bool.
From Flocq Require Import Core.Raux IEEE754.BinarySingleNaN.
From Verif.Num Require Import FOps RFun XR XRLemmas F64.
From Verif.Model Require Import Fp Quantities Complex Cs Ellipsoid Geodesics Projections Crs Geometry.
From Verif.Spec Require Import Angles Axes Shape Frames Sphere Settle Libm Maps Routes.
From Verif.Proofs Require Import AnglesX AxesX EllX EllF EllEx SphereG SphereN GeoG GeoV GeoVD GeoR GeoRD GeoK GeoKD GeoI GeoIS GeoEM GeoRI GeoF GeoEx MapsEx.
Import ListNotations.
Local Open Scope R_scope.

Lemma Ret_inj {A} (x y : A) : Ret x = Ret y -> x = y.
Proof. intros H. now injection H. Qed.
Lemma dist_eq r : distance_of (F := XR) (Ret r) = Ret (dist_of r).
Proof. now destruct r as [?|[]]. Qed.
Lemma node_az0 al0 : sa 0 al0 = sin al0 /\ (forall s, qz 0 al0 s = sin s * cos al0) /\ (forall s, wz 0 al0 s = cos al0 * cos s) /\ (forall s, qx 0 al0 s = cos s) /\ (forall s, qy al0 s = sin al0 * sin s).
Proof. unfold sa, qz, wz, qx, qy. rewrite sin_0, cos_0. repeat split; intros; ring. Qed.
Lemma tri_e al0 sg : exists om be al,
  solve_triangle_from_e (Fin al0) (Fin sg) = mkTriangle (Fin al0) (Fin al) (Fin be) (Fin sg) (Fin om) /\
  - (PI / 2) <= be <= PI / 2 /\ - PI < om <= PI /\ - PI < al <= PI /\
  position om be = travel (position 0 0) (heading 0 0 al0) sg /\
  (cos be <> 0 -> heading om be al = course (position 0 0) (heading 0 0 al0) sg).
Proof.
  destruct (node_az0 al0) as (S & Z & W & X & Y).
  exists (end_lon 0 al0 sg), (Ratan2 (qz 0 al0 sg) (end_cos 0 al0 sg)), (end_az 0 al0 sg). split.
  { unfold solve_triangle_from_e, carg, cabs. cbv zeta. cbn [re im]. rewrite !angle_new_RAD. xr. rewrite azimuth_new_fin, Rnorm_id by apply Ratan2_bound.
    unfold end_lon, end_az. rewrite end_cos_sa. rewrite S, Z, W, X, Y. rewrite (Rmult_comm (sin sg) (cos al0)). reflexivity. }
  pose proof (Rhypot_ge_0 (qx 0 al0 sg) (qy al0 sg)) as G. fold (end_cos 0 al0 sg) in G.
  destruct (lat_of_point (qz 0 al0 sg) (end_cos 0 al0 sg) G) as [SB CB]; [rewrite end_cos_z; ring|].
  split; [now apply Ratan2_range_pos|]. split; [apply Ratan2_bound|]. split; [apply Ratan2_bound|].
  pose proof (arrival 0 al0 sg 0 _ SB CB) as A. rewrite Rplus_0_l in A. split; [exact A|]. intros N. rewrite CB in N.
  pose proof (arrival_heading 0 al0 sg 0 _ SB CB ltac:(lra)) as H. rewrite Rplus_0_l in H. exact H.
Qed.
Lemma tri_p be al : - (PI / 2) < be < PI / 2 -> exists al0 sg om al',
  solve_triangle_from_p (Fin be) (Fin al) = mkTriangle (Fin al0) (Fin al) (Fin be) (Fin sg) (Fin om) /\
  - (PI / 2) <= al0 <= PI / 2 /\ - PI < sg <= PI /\ - PI < om <= PI /\ same_angle al' al /\
  position om be = travel (position 0 0) (heading 0 0 al0) sg /\
  heading om be al' = course (position 0 0) (heading 0 0 al0) sg.
Proof.
  intros Hb. rewrite from_p_fin. assert (CB : 0 < cos be) by (apply cos_gt_0; lra). destruct (al0_spec be al) as [CA SA]. destruct (node_az0 (al0 be al)) as (S & Z & W & X & Y).
  exists (al0 be al), (arc1 be al), (node_lon be al (arc1 be al)), (end_az 0 (al0 be al) (arc1 be al)). split; [reflexivity|]. split; [apply Ratan2_range_pos, ca0_ge|].
  split; [apply Ratan2_bound|]. split; [apply Ratan2_bound|]. destruct (arc1_spec be al) as [AC AS].
  assert (Q : sin be = qz 0 (al0 be al) (arc1 be al)) by (rewrite Z, CA, <- AS; ring).
  assert (K : cos be = end_cos 0 (al0 be al) (arc1 be al)).
  { symmetry. apply Rhypot_unique; [lra|]. pose proof (end_cos_z 0 (al0 be al) (arc1 be al)) as E. unfold end_cos in E. rewrite Rhypot_sq in E. rewrite E, <- Q. pose proof (sc be). lra. }
  assert (L : node_lon be al (arc1 be al) = 0 + end_lon 0 (al0 be al) (arc1 be al)) by (unfold node_lon, end_lon; rewrite X, Y, SA; ring).
  split.
  { destruct (Ratan2_spec (sa be al) (cos be * cos al)) as [C1 S1].
    assert (HH : Rhypot (cos be * cos al) (sa be al) = cos be) by (apply Rhypot_unique; [lra|]; unfold sa; pose proof (sc al); replace (cos al * cos al) with (1 - sin al * sin al) by lra; nra).
    rewrite HH in C1, S1. unfold end_az. rewrite S, W, SA, CA, AC. apply same_angle_trig; apply (Rmult_eq_reg_l (cos be)); unfold sa in *; lra. }
  rewrite L. split; [now apply arrival|]. apply arrival_heading; [exact Q|exact K|lra].
Qed.

Lemma c37_vincenty : forall E a l p al s, shape E a a -> nonpolar p -> exists l2 p2 al2,
  solve_direct Vincenty E (Fin l, Fin p) (Fin al) (Fin s)
  = Ret (Ok (mkGeodesic (Fin l, Fin p) (Fin al) (Fin l2, Fin p2) (Fin al2) (Fin s))) /\
  - PI <= l2 <= PI /\ - (PI / 2) <= p2 <= PI / 2 /\ - PI < al2 <= PI /\
  position l2 p2 = travel (position l p) (heading l p al) (s / a) /\
  (-1 < sin p2 < 1 -> heading l2 p2 al2 = course (position l p) (heading l p al) (s / a)).
Proof.
  intros E a l p al s HE Hp. destruct (vdir_sphere E a HE l p al s Hp) as (l2 & p2 & al2 & R & K). exists l2, p2, al2. split; [cbn [solve_direct]; now rewrite R|exact K].
Qed.
Lemma c37_karney : forall E a l p al s, shape E a a -> nonpolar p ->
  -1 < zcoord (travel (position l p) (heading l p al) (s / a)) < 1 -> exists l2 p2 al2,
  solve_direct Karney E (Fin l, Fin p) (Fin al) (Fin s)
  = Ret (Ok (mkGeodesic (Fin l, Fin p) (Fin al) (Fin l2, Fin p2) (Fin al2) (Fin s))) /\
  - PI <= l2 <= PI /\ - (PI / 2) <= p2 <= PI / 2 /\ - PI < al2 <= PI /\
  position l2 p2 = travel (position l p) (heading l p al) (s / a) /\
  heading l2 p2 al2 = course (position l p) (heading l p al) (s / a).
Proof.
  intros E a l p al s HE Hp Hz. destruct (kdir_sphere E a HE l p al s Hp Hz) as (l2 & p2 & al2 & R & K). exists l2, p2, al2. split; [cbn [solve_direct]; now rewrite R|exact K].
Qed.
Lemma c37_rapp : forall E a l p al s, shape E a a -> nonpolar p ->
  -1 < zcoord (travel (position l p) (heading l p al) (s / a)) < 1 -> exists l2 p2 al2,
  solve_direct Rapp E (Fin l, Fin p) (Fin al) (Fin s)
  = Ret (Ok (mkGeodesic (Fin l, Fin p) (Fin al) (Fin l2, Fin p2) (Fin al2) (Fin s))) /\
  - PI <= l2 <= PI /\ - (PI / 2) <= p2 <= PI / 2 /\ - PI < al2 <= PI /\
  position l2 p2 = travel (position l p) (heading l p al) (s / a) /\
  (0 < sin (s / a) -> heading l2 p2 al2 = course (position l p) (heading l p al) (s / a)).
Proof.
  intros E a l p al s HE Hp Hz. destruct (rdir_sphere E a HE l p al s Hp Hz) as (l2 & p2 & al2 & R & L & P & A & Q & W & _). exists l2, p2, al2. split; [cbn [solve_direct]; now rewrite R|].
  split; [exact L|]. split; [lra|]. split; [exact A|]. split; [exact Q|exact W].
Qed.
Lemma c37_rapp_azimuth_refuted : forall E a l p al s l2 p2 al2, shape E a a -> nonpolar p ->
  -1 < zcoord (travel (position l p) (heading l p al) (s / a)) < 1 -> sin (s / a) < 0 ->
  solve_direct Rapp E (Fin l, Fin p) (Fin al) (Fin s)
  = Ret (Ok (mkGeodesic (Fin l, Fin p) (Fin al) (Fin l2, Fin p2) (Fin al2) (Fin s))) ->
  heading l2 p2 al2 = vscale (-1) (course (position l p) (heading l p al) (s / a)).
Proof.
  intros E a l p al s l2 p2 al2 HE Hp Hz Hs. destruct (rdir_sphere E a HE l p al s Hp Hz) as (l2' & p2' & al2' & R & L & P & A & Q & _ & W & _). cbn [solve_direct]. rewrite R.
  intros I. injection I; intros <- <- <-. now apply W.
Qed.
Lemma c37_ex : exists E, shape E 6371000 6371000 /\ nonpolar 0 /\
  travel (position 0 0) (heading 0 0 (PI / 2)) (PI / 2 * 6371000 / 6371000) = position (PI / 2) 0 /\
  zcoord (position (PI / 2) 0) = 0 /\ sin (- (PI / 2) * 6371000 / 6371000) < 0.
Proof.
  destruct ex_ball as (E & _ & S & T & Z). exists E. split; [exact S|]. pose proof PI_RGT_0. split; [unfold nonpolar; lra|].
  replace (PI / 2 * 6371000 / 6371000) with (PI / 2) by field. replace (- (PI / 2) * 6371000 / 6371000) with (- (PI / 2)) by field. rewrite sin_neg, sin_PI2. repeat split; (exact T || exact Z || lra).
Qed.
Lemma c38_vincenty : forall E a l1 p1 l2 p2, shape E a a -> nonpolar p1 -> nonpolar p2 ->
  position l1 p1 <> position l2 p2 -> position l1 p1 <> vscale (-1) (position l2 p2) ->
  exists al1 al2 s, solve_inverse Vincenty E (Fin l1, Fin p1) (Fin l2, Fin p2)
  = Ret (Ok (mkGeodesic (Fin l1, Fin p1) (Fin al1) (Fin l2, Fin p2) (Fin al2) (Fin s))) /\
  0 < s < PI * a /\ - PI < al1 <= PI /\ - PI < al2 <= PI /\
  travel (position l1 p1) (heading l1 p1 al1) (s / a) = position l2 p2 /\
  course (position l1 p1) (heading l1 p1 al1) (s / a) = heading l2 p2 al2.
Proof.
  intros E a l1 p1 l2 p2 HE H1 H2 N1 N2. destruct (vinv_sphere E a HE l1 p1 l2 p2 H1 H2 N1 N2) as (x & y & s & R & K). exists x, y, s. split; [cbn [solve_inverse]; now rewrite R|exact K].
Qed.
Lemma c38_rapp : forall E a l1 p1 l2 p2, shape E a a -> nonpolar p1 -> nonpolar p2 ->
  sin (l2 - l1) <> 0 \/ l1 = l2 /\ p1 <> p2 ->
  exists al1 al2 s, solve_inverse Rapp E (Fin l1, Fin p1) (Fin l2, Fin p2)
  = Ret (Ok (mkGeodesic (Fin l1, Fin p1) (Fin al1) (Fin l2, Fin p2) (Fin al2) (Fin s))) /\
  0 < s < PI * a /\
  travel (position l1 p1) (heading l1 p1 al1) (s / a) = position l2 p2 /\
  course (position l1 p1) (heading l1 p1 al1) (s / a) = heading l2 p2 al2.
Proof.
  intros E a l1 p1 l2 p2 HE H1 H2 [S|[<- N]].
  - destruct (rinv_sphere E a HE l1 p1 l2 p2 H1 H2 S) as (x & y & s & R & B & _ & _ & K). exists x, y, s. split; [cbn [solve_inverse]; now rewrite R|]. split; assumption.
  - destruct (rinv_same_meridian E a l1 p1 p2 HE H1 H2 N) as (x & y & s & R & B & K). exists x, y, s. split; [cbn [solve_inverse]; now rewrite R|]. split; assumption.
Qed.
Lemma c38_rapp_opposite : forall E a l1 p1 l2 p2, shape E a a -> nonpolar p1 -> nonpolar p2 -> same_angle (l2 - l1) PI ->
  (0 <= p1 /\ 0 < p1 + p2 \/ p1 < 0 /\ p1 + p2 < 0) ->
  exists al1 al2 s, solve_inverse Rapp E (Fin l1, Fin p1) (Fin l2, Fin p2)
  = Ret (Ok (mkGeodesic (Fin l1, Fin p1) (Fin al1) (Fin l2, Fin p2) (Fin al2) (Fin s))) /\
  0 < s < PI * a /\
  travel (position l1 p1) (heading l1 p1 al1) (s / a) = position l2 p2 /\
  course (position l1 p1) (heading l1 p1 al1) (s / a) = heading l2 p2 al2.
Proof.
  intros E a l1 p1 l2 p2 HE H1 H2 L S. assert (L' : Rnorm (l2 - l1) = PI) by (rewrite (Rnorm_compat _ _ L); apply Rnorm_id; pose proof PI_RGT_0; lra).
  destruct (rinv_opposite_right E a l1 p1 l2 p2 HE H1 H2 L' S) as (x & y & s & R & K). exists x, y, s. split; [cbn [solve_inverse]; now rewrite R|exact K].
Qed.
Lemma c38_rapp_opposite_meridian_refuted : forall E a l1 p1 l2 p2, shape E a a -> nonpolar p1 -> nonpolar p2 -> same_angle (l2 - l1) PI ->
  0 <= p1 -> p1 + p2 < 0 ->
  exists al1 al2 s, solve_inverse Rapp E (Fin l1, Fin p1) (Fin l2, Fin p2)
  = Ret (Ok (mkGeodesic (Fin l1, Fin p1) (Fin al1) (Fin l2, Fin p2) (Fin al2) (Fin s))) /\
  travel (position l1 p1) (heading l1 p1 al1) (s / a) <> position l2 p2.
Proof.
  intros E a l1 p1 l2 p2 HE H1 H2 L P S. assert (L' : Rnorm (l2 - l1) = PI) by (rewrite (Rnorm_compat _ _ L); apply Rnorm_id; pose proof PI_RGT_0; lra).
  destruct (rinv_opposite_wrong E a l1 p1 l2 p2 HE (Logic.conj P (proj2 H1)) H2 L' S) as (s & R & K). exists 0, PI, s. split; [cbn [solve_inverse]; now rewrite R|exact K].
Qed.
Lemma c38_ex : exists E, shape E 6371000 6371000 /\ position 0 0 <> position (PI / 2) 0 /\
  position 0 0 <> vscale (-1) (position (PI / 2) 0) /\ sin (PI / 2 - 0) <> 0 /\
  nonpolar (PI / 6) /\ nonpolar (- (PI / 3)) /\ PI / 6 + - (PI / 3) < 0 /\ same_angle (PI - 0) PI.
Proof.
  destruct ex_ball as (E & _ & S & _). exists E. split; [exact S|]. destruct ex_apart as (A & B & C). pose proof PI_RGT_0. unfold nonpolar. repeat (split; [assumption || lra|]). exists 0%Z. lra.
Qed.
Lemma c39_swap : forall E a b l1 p1 l2 p2, shape E a b ->
  distance_of (solve_inverse Vincenty E (Fin l2, Fin p2) (Fin l1, Fin p1)) =
  distance_of (solve_inverse Vincenty E (Fin l1, Fin p1) (Fin l2, Fin p2)).
Proof.
  intros E a b l1 p1 l2 p2 HE. cbn [solve_inverse]. rewrite !dist_eq. f_equal. apply (vinv_swap E a b HE).
Qed.
Lemma c39_mirror : forall E a b l1 p1 l2 p2, shape E a b ->
  distance_of (solve_inverse Vincenty E (Fin l1, Fin (- p1)) (Fin l2, Fin (- p2))) =
  distance_of (solve_inverse Vincenty E (Fin l1, Fin p1) (Fin l2, Fin p2)).
Proof.
  intros E a b l1 p1 l2 p2 HE. cbn [solve_inverse]. rewrite !dist_eq. f_equal. apply (vinv_mirror E a b HE).
Qed.
Lemma c39_shift : forall E a b l1 p1 l2 p2 l1' l2', shape E a b -> same_angle (l2' - l1') (l2 - l1) ->
  match vincenty_inverse E (Fin l1, Fin p1) (Fin l2, Fin p2) with
  | Ok g => vincenty_inverse E (Fin l1', Fin p1) (Fin l2', Fin p2)
            = Ok (mkGeodesic (Fin l1', Fin p1) (g_alpha1 g) (Fin l2', Fin p2) (g_alpha2 g) (g_s g))
  | Err e => vincenty_inverse E (Fin l1', Fin p1) (Fin l2', Fin p2) = Err e
  end.
Proof.
  intros E a b l1 p1 l2 p2 l1' l2' HE. apply (vinv_shift E a b HE).
Qed.
Lemma c39_ex : exists a b, shape WGS84 a b /\ b < a.
Proof.
  destruct ex_wgs84 as (a & b & S & L & _). exists a, b. split; assumption.
Qed.
Lemma c40_distance_to_itself_refuted : forall E a b l p, shape E a b ->
  solve_inverse Vincenty E (Fin l, Fin p) (Fin l, Fin p) = Ret (Err tt) /\
  (nonpolar p -> solve_inverse Rapp E (Fin l, Fin p) (Fin l, Fin p) = Ret (Err tt)).
Proof.
  intros E a b l p HE. cbn [solve_inverse]. split; [now rewrite (vinv_self E a b HE)|]. intros Hp. now rewrite (rinv_self E a b HE).
Qed.
Lemma c40_binary64_refuted : forall (lm : libm) (E : Ellipsoid f64) (l p : f64), nan_through lm -> zero_values lm -> is_finite l = true ->
  solve_inverse (ops := F64ops lm) Vincenty E (l, p) (l, p) = Ret (Err tt) /\
  solve_inverse (ops := F64ops lm) Rapp E (l, p) (l, p) = Ret (Err tt).
Proof.
  intros lm E l p Hn Hz Hl. cbn [solve_inverse]. split; [now rewrite v_self|now rewrite r_self].
Qed.
Lemma c40_crs_dist_refuted : forall id d ax a b buf l p h, shape (d_ellipsoid d) a b -> gaxes_dim ax = 2%nat ->
  geo_reads ax buf l p h ->
  crs_dist (GeographicCrs id d ax) (map Fin buf) (map Fin buf) = Ret (Err tt).
Proof.
  intros id d ax a b buf l p h HE HD HR. apply (crs_dist_self id d ax a b buf l p h HE HD); [|exact HR]. destruct HR; try discriminate HD; reflexivity.
Qed.
Lemma c40_crs_dist_binary64_refuted : forall (lm : libm) id (d : GeodeticDatum f64) ax c llh, nan_through lm -> zero_values lm ->
  gaxes_dim ax = 2%nat -> List.length c = 2%nat ->
  gaxes_normalize (ops := F64ops lm) ax c = Ret llh -> is_finite (lon llh) = true ->
  crs_dist (ops := F64ops lm) (GeographicCrs id d ax) c c = Ret (Err tt).
Proof.
  intros lm id d ax c llh Hn Hz HD. now apply crs_dist_self_f64.
Qed.
Lemma c40_repeated_vertex_refuted : forall {F} {ops : FOps F} (b : LineStringBuilder F) p, List.length p = lb_coord_dim b ->
  nth_pos (lb_coord_dim b) (lb_pos b) (n_pos (lb_coord_dim b) (lb_pos b) - 1) = Ret p ->
  crs_dist (lb_crs b) p p = Ret (Err tt) -> lsb_line_to b p = Ret (Err tt).
Proof.
  intros F ops b p. apply line_to_same.
Qed.
Lemma c40_ex : (exists a b, shape WGS84 a b /\ b < a) /\ (exists lm, nan_through lm /\ zero_values lm) /\
  geo_reads (GEastNorth RAD) [1; 2] (1 * 1) (2 * 1) None.
Proof.
  split; [destruct ex_wgs84 as (a & b & S & L & _); exists a, b; split; assumption|]. split; [exact ex_libm_zero|]. apply reads_en. exists 1, 1. unfold RAD. repeat split; (lra || xr; try reflexivity).
Qed.
Lemma c41_vincenty : forall E a b l p al, shape E a b -> 9 * a <= 10 * b -> - PI <= l <= PI -> nonpolar p ->
  exists al2, solve_direct Vincenty E (Fin l, Fin p) (Fin al) (Fin 0)
  = Ret (Ok (mkGeodesic (Fin l, Fin p) (Fin al) (Fin l, Fin p) (Fin al2) (Fin 0))) /\
  - PI < al2 <= PI /\ same_angle al2 al.
Proof.
  intros E a b l p al HE Hf Hl Hp. destruct (vdir_zero' E a b HE Hf l p al Hl Hp) as (x & R & K). exists x. split; [cbn [solve_direct]; now rewrite R|exact K].
Qed.
Lemma c41_rapp_azimuth_refuted : forall E a b l p al, shape E a b -> 9 * a <= 10 * b -> - PI <= l <= PI -> nonpolar p ->
  solve_direct Rapp E (Fin l, Fin p) (Fin al) (Fin 0)
  = Ret (Ok (mkGeodesic (Fin l, Fin p) (Fin al) (Fin l, Fin p) (Fin 0) (Fin 0))).
Proof.
  intros E a b l p al HE Hf Hl Hp. cbn [solve_direct]. now rewrite (rdir_zero' E a b HE Hf).
Qed.
Lemma c41_ex : exists a b, shape WGS84 a b /\ 9 * a <= 10 * b /\ nonpolar (PI / 4).
Proof.
  destruct ex_wgs84 as (a & b & S & L & Q). exists a, b. pose proof PI_RGT_0. unfold nonpolar. repeat split; try (apply S || lra).
Qed.
Lemma c42_direct_echo : forall {F} {ops : FOps F} sv (e : Ellipsoid F) p al s,
  exists r, solve_direct sv e p al s = Ret r /\
  match r with
  | Ok g => g_p1 g = p /\ g_alpha1 g = al /\ g_s g = s
  | Err _ => sv <> Karney
  end.
Proof.
  intros F ops [] e p al s; cbn [solve_direct]; eexists; (split; [reflexivity|]).
  - destruct (vincenty_direct e p al s) eqn:R; [now apply vincenty_direct_echo in R|discriminate].
  - destruct (rapp_direct e p al s) eqn:R; [now apply rapp_direct_echo in R|discriminate].
  - apply karney_direct_echo.
Qed.
Lemma c42_inverse_echo : forall {F} {ops : FOps F} sv (e : Ellipsoid F) p q, sv <> Karney ->
  exists r, solve_inverse sv e p q = Ret r /\ forall g, r = Ok g -> g_p1 g = p /\ g_p2 g = q.
Proof.
  intros F ops [] e p q N; cbn [solve_inverse]; [| |now destruct N]; eexists; (split; [reflexivity|]); intros g R.
  - now apply vincenty_inverse_echo in R.
  - now apply rapp_inverse_echo in R.
Qed.
Lemma c42_karney_inverse_refuted : forall {F} {ops : FOps F} (e : Ellipsoid F) p q, solve_inverse Karney e p q = Panic.
Proof.
  intros F ops e p q. reflexivity.
Qed.
Lemma c42_vincenty_inverse_stops : forall {F} {ops : FOps F} (e : Ellipsoid F) lon1 lat1 lon2 lat2,
  let b1 := reduced_latitude e lat1 in let b2 := reduced_latitude e lat2 in
  let L := lon_sub lon2 lon1 in
  let close := fun y x => flt (fabs (fsub (vi_lambda y) (vi_lambda x))) (flit 1 12) in
  let step := fun x => vincenty_inverse_step (ef e) (fsin b1) (fcos b1) (fsin b2) (fcos b2) L
                         (vi_lambda x) (vi_cos_2_sigma_m x) in
  forall st0, vi_lambda st0 = L -> vi_cos_2_sigma_m st0 = fofZ 0 ->
  match vincenty_inverse e (lon1, lat1) (lon2, lat2) with
  | Ok g => exists st, settles close step 30 st0 st /\ g_s g = vincenty_inverse_s e st
  | Err _ => never_settles close step 30 st0
  end.
Proof.
  intros F ops e lon1 lat1 lon2 lat2. apply vincenty_inverse_settles.
Qed.
Lemma c42_rapp_inverse_stops : forall {F} {ops : FOps F} (e : Ellipsoid F) lon1 lat1 lon2 lat2,
  let b1 := reduced_latitude e lat1 in let b2 := reduced_latitude e lat2 in
  let L := lon_sub lon2 lon1 in
  let close := fun y x => flt (fabs (fsub (ri_lambda y) (ri_lambda x))) (flit 5 15) in
  let z := fofZ 0 in let st0 := mkRI L z z z z z z z z z z in
  match rapp_inverse e (lon1, lat1) (lon2, lat2) with
  | Ok g => exists st, settles close (rapp_inverse_step e b1 b2 L) 30 st0 st /\
              g_s g = rapp_inverse_s e st
  | Err _ => never_settles close (rapp_inverse_step e b1 b2 L) 30 st0
  end.
Proof.
  intros F ops e lon1 lat1 lon2 lat2. apply rapp_inverse_settles.
Qed.
Lemma c42_vincenty_direct_total : forall E a b l p al s, shape E a b -> 9 * a <= 10 * b -> nonpolar p ->
  exists l2 p2 al2, solve_direct Vincenty E (Fin l, Fin p) (Fin al) (Fin s)
  = Ret (Ok (mkGeodesic (Fin l, Fin p) (Fin al) (Fin l2, Fin p2) (Fin al2) (Fin s))) /\
  - PI <= l2 <= PI /\ - (PI / 2) <= p2 <= PI / 2 /\ - PI < al2 <= PI.
Proof.
  intros E a b l p al s HE Hf Hp. destruct (vdir_total E a b HE Hf l p al s Hp) as (x & y & z & R & K). exists x, y, z. split; [cbn [solve_direct]; now rewrite R|exact K].
Qed.
Lemma c42_rapp_direct_total : forall E a b l p al s, shape E a b -> 9 * a <= 10 * b -> nonpolar p ->
  exists g, solve_direct Rapp E (Fin l, Fin p) (Fin al) (Fin s) = Ret (Ok g).
Proof.
  intros E a b l p al s HE Hf Hp. destruct (rdir_total E a b HE Hf l p al s Hp) as (g & R). exists g. cbn [solve_direct]. now rewrite R.
Qed.
Lemma c42_vincenty_inverse_range : forall E a b l1 p1 l2 p2 g, shape E a b ->
  solve_inverse Vincenty E (Fin l1, Fin p1) (Fin l2, Fin p2) = Ret (Ok g) ->
  exists al1 al2 s, g = mkGeodesic (Fin l1, Fin p1) (Fin al1) (Fin l2, Fin p2) (Fin al2) (Fin s) /\
  - PI < al1 <= PI /\ - PI < al2 <= PI.
Proof.
  intros E a b l1 p1 l2 p2 g HE H. cbn [solve_inverse] in H. apply Ret_inj in H. exact (vinv_range E a b HE l1 p1 l2 p2 g H).
Qed.
Lemma c43_equator : forall E a b l1 l2 d, shape E a b -> 2 * a <= 3 * b -> lon_from l1 l2 d ->
  0 < Rabs d < b / a * PI ->
  exists s al, solve_inverse Vincenty E (Fin l1, Fin 0) (Fin l2, Fin 0)
  = Ret (Ok (mkGeodesic (Fin l1, Fin 0) (Fin al) (Fin l2, Fin 0) (Fin al) (Fin s))) /\
  (0 < d -> al = PI / 2) /\ (d < 0 -> al = - (PI / 2)) /\
  Rabs (s - a * Rabs d) < a / 10 ^ 12.
Proof.
  intros E a b l1 l2 d HE Hf [Hd Hs] B. assert (D : d = Rnorm (l2 - l1)).
  { rewrite <- (Rnorm_id d Hd). apply Rnorm_compat. destruct Hs as [k K]. exists k. lra. }
  destruct (vinv_equator E a b HE l1 l2 d Hf D B) as (s & R & K). cbn [solve_inverse]. rewrite R. do 2 eexists. split; [reflexivity|].
  split; [intros; now rewrite Rlt_bool_false by lra|]. split; [intros; now rewrite Rlt_bool_true by lra|]. unfold Rdiv. exact K.
Qed.
Lemma c43_equator_near_antipodes_refuted : forall E a b l1 l2 d, shape E a b -> a <= 2 * b -> lon_from l1 l2 d ->
  b / a * PI + / 10 ^ 12 <= Rabs d ->
  solve_inverse Vincenty E (Fin l1, Fin 0) (Fin l2, Fin 0) = Ret (Err tt).
Proof.
  intros E a b l1 l2 d HE Hf [Hd Hs] B. assert (D : d = Rnorm (l2 - l1)).
  { rewrite <- (Rnorm_id d Hd). apply Rnorm_compat. destruct Hs as [k K]. exists k. lra. }
  cbn [solve_inverse]. now rewrite (vinv_equator_fails E a b HE l1 l2 d Hf D B).
Qed.
Lemma c43_meridian : forall E a b l1 p1 l2 p2, shape E a b -> nonpolar p1 -> nonpolar p2 -> same_angle l1 l2 -> p1 <> p2 ->
  exists s az, solve_inverse Vincenty E (Fin l1, Fin p1) (Fin l2, Fin p2)
  = Ret (Ok (mkGeodesic (Fin l1, Fin p1) (Fin az) (Fin l2, Fin p2) (Fin az) (Fin s))) /\
  (p1 < p2 -> az = 0) /\ (p2 < p1 -> az = PI).
Proof.
  intros E a b l1 p1 l2 p2 HE H1 H2 L N. destruct (vinv_meridian E a b HE l1 p1 l2 p2 H1 H2 L N) as (s & R). cbn [solve_inverse]. rewrite R. cbv zeta. do 2 eexists. split; [reflexivity|].
  split; intros; [now rewrite Rlt_bool_true by lra|now rewrite Rlt_bool_false by lra].
Qed.
Lemma c43_over_the_pole : forall E a b l1 p1 l2 p2, shape E a b -> nonpolar p1 -> nonpolar p2 ->
  same_angle (l2 - l1) PI -> p1 + p2 <> 0 ->
  exists s az1 az2, solve_inverse Vincenty E (Fin l1, Fin p1) (Fin l2, Fin p2)
  = Ret (Ok (mkGeodesic (Fin l1, Fin p1) (Fin az1) (Fin l2, Fin p2) (Fin az2) (Fin s))) /\
  (0 < p1 + p2 -> az1 = 0 /\ az2 = PI) /\ (p1 + p2 < 0 -> az1 = PI /\ az2 = 0).
Proof.
  intros E a b l1 p1 l2 p2 HE H1 H2 L N. destruct (vinv_over_pole E a b HE l1 p1 l2 p2 H1 H2 L N) as (s & R). cbn [solve_inverse]. rewrite R.
  destruct (Rlt_bool_spec 0 (p1 + p2)); do 3 eexists; (split; [reflexivity|]); split; intros; (split; reflexivity) || lra.
Qed.
Lemma c43_ex : exists a b, shape WGS84 a b /\ 2 * a <= 3 * b /\ lon_from 0 (PI / 2) (PI / 2) /\
  0 < Rabs (PI / 2) < b / a * PI.
Proof.
  destruct ex_wgs84_equator as (a & b & S & _ & A & _ & B). exists a, b. pose proof PI_RGT_0. rewrite Rminus_0_r, Rnorm_id in B by lra. split; [exact S|]. split; [exact A|]. split; [|exact B]. split; [lra|]. exists 0%Z. lra.
Qed.
Lemma c43_ex_antipodes : exists a b, shape WGS84 a b /\ a <= 2 * b /\ lon_from 0 PI PI /\ b / a * PI + / 10 ^ 12 <= Rabs PI.
Proof.
  destruct ex_wgs84_antipodal as (a & b & S & A & B). exists a, b. pose proof PI_RGT_0. rewrite Rminus_0_r, Rnorm_id in B by lra. split; [exact S|]. split; [exact A|]. split; [|exact B]. split; [lra|]. exists 0%Z. lra.
Qed.
Lemma c51_triangle_from_node : forall al0 sg, exists om be al,
  solve_triangle_from_e (Fin al0) (Fin sg) = mkTriangle (Fin al0) (Fin al) (Fin be) (Fin sg) (Fin om) /\
  - (PI / 2) <= be <= PI / 2 /\ - PI < om <= PI /\ - PI < al <= PI /\
  position om be = travel (position 0 0) (heading 0 0 al0) sg /\
  (cos be <> 0 -> heading om be al = course (position 0 0) (heading 0 0 al0) sg).
Proof.
  intros al0 sg. apply tri_e.
Qed.
Lemma c51_triangle_from_point : forall be al, nonpolar be -> exists al0 sg om al',
  solve_triangle_from_p (Fin be) (Fin al) = mkTriangle (Fin al0) (Fin al) (Fin be) (Fin sg) (Fin om) /\
  - (PI / 2) <= al0 <= PI / 2 /\ - PI < sg <= PI /\ - PI < om <= PI /\ same_angle al' al /\
  position om be = travel (position 0 0) (heading 0 0 al0) sg /\
  heading om be al' = course (position 0 0) (heading 0 0 al0) sg.
Proof.
  intros be al H. now apply tri_p.
Qed.
