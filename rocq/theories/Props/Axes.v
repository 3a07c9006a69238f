(** Properties C16-C20: axes, tolerances, Cartesian distance.

    See Spec/Axes.v for [worth], [geo_reads], [proj_reads], [all_within] and [edist]. *)
From Coq Require Import Reals Lra ZArith List.
From Flocq Require Import Core IEEE754.BinarySingleNaN.
From Verif.Num Require Import FOps XR XRLemmas F64 F64Lemmas.
From Verif.Model Require Import Fp Quantities Cs Ellipsoid Geodesics Projections Crs.
From Verif.Spec Require Import Angles Axes.
From Verif.Proofs Require Import AxesX AxesEx.
Import ListNotations.
Local Open Scope R_scope.

(** ** C16 normalize and denormalize are mutually inverse *)

(** What normalize returns, for any buffer: the longitude modulo a turn, the latitude clamped. *)
Theorem C16_geodetic_normalize : forall ax buf l p h rest, geo_reads ax buf l p h ->
  exists lw pw,
  gaxes_normalize ax (map Fin buf ++ rest) = Ret (mkLLH (Fin lw) (Fin pw) (Fin (height_of h))) /\
  - PI <= lw <= PI /\ same_angle lw l /\ pw = Rmax (- (PI / 2)) (Rmin (PI / 2) p).
Proof. exact geo_normalize_any. Qed.
Print Assumptions C16_geodetic_normalize.

Theorem C16_geodetic_normalize_in_range : forall ax buf l p h rest, geo_reads ax buf l p h ->
  - PI <= l <= PI -> - (PI / 2) <= p <= PI / 2 ->
  gaxes_normalize ax (map Fin buf ++ rest) = Ret (mkLLH (Fin l) (Fin p) (Fin (height_of h))).
Proof. exact geo_normalize_in_range. Qed.
Print Assumptions C16_geodetic_normalize_in_range.

(** What denormalize writes: entries that read as the given coordinates. *)
Theorem C16_geodetic_denormalize : forall ax l p h buf,
  units_ok (geo_units ax) -> (gaxes_dim ax <= length buf)%nat ->
  exists out,
  gaxes_denormalize ax (mkLLH (Fin l) (Fin p) (Fin h)) buf = Ret (map Fin out ++ skipn (gaxes_dim ax) buf) /\
  length out = gaxes_dim ax /\ geo_reads ax out l p (carried (gaxes_dim ax) h).
Proof. exact geo_denormalize. Qed.
Print Assumptions C16_geodetic_denormalize.

Theorem C16_geodetic_normalize_after_denormalize : forall ax l p h buf,
  units_ok (geo_units ax) -> (gaxes_dim ax <= length buf)%nat ->
  - PI <= l <= PI -> - (PI / 2) <= p <= PI / 2 ->
  obind (gaxes_denormalize ax (mkLLH (Fin l) (Fin p) (Fin h)) buf) (gaxes_normalize ax) =
  Ret (mkLLH (Fin l) (Fin p) (Fin (height_of (carried (gaxes_dim ax) h)))).
Proof. exact geo_normalize_denormalize. Qed.
Print Assumptions C16_geodetic_normalize_after_denormalize.

Theorem C16_geodetic_denormalize_after_normalize : forall ax buf l p h rest dst,
  geo_reads ax buf l p h ->
  - PI <= l <= PI -> - (PI / 2) <= p <= PI / 2 -> (gaxes_dim ax <= length dst)%nat ->
  obind (gaxes_normalize ax (map Fin buf ++ rest)) (fun llh => gaxes_denormalize ax llh dst) =
  Ret (map Fin buf ++ skipn (gaxes_dim ax) dst).
Proof. exact geo_denormalize_normalize. Qed.
Print Assumptions C16_geodetic_denormalize_after_normalize.

(** Latitude 45 N, longitude 90 W, 100 ft up; and the same position with a westing axis. *)
Example C16_geodetic_ex :
  geo_reads (GNorthEastUp DEG FT) [45; -90; 100] (-90 * (PI / 180)) (45 * (PI / 180)) (Some (100 * 0.3048)) /\
  - PI <= -90 * (PI / 180) <= PI /\ - (PI / 2) <= 45 * (PI / 180) <= PI / 2 /\
  units_positive (geo_units (GNorthEastUp DEG FT)).
Proof. exact ex_geo. Qed.
Example C16_geodetic_west_ex :
  geo_reads (GNorthWest DEG) [45; 90] (- 90 * (PI / 180)) (45 * (PI / 180)) None.
Proof. exact ex_geo_west. Qed.

Theorem C16_projected_normalize : forall ax buf e n h rest, proj_reads ax buf e n h ->
  paxes_normalize ax (map Fin buf ++ rest) = Ret (mkENH (Fin e) (Fin n) (Fin (height_of h))).
Proof. exact proj_normalize. Qed.
Print Assumptions C16_projected_normalize.

Theorem C16_projected_normalize_after_denormalize : forall ax e n h buf,
  units_ok (proj_units ax) -> (paxes_dim ax <= length buf)%nat ->
  obind (paxes_denormalize ax (mkENH (Fin e) (Fin n) (Fin h)) buf) (paxes_normalize ax) =
  Ret (mkENH (Fin e) (Fin n) (Fin (height_of (carried (paxes_dim ax) h)))).
Proof. exact proj_normalize_denormalize. Qed.
Print Assumptions C16_projected_normalize_after_denormalize.

Theorem C16_projected_denormalize_after_normalize : forall ax buf e n h rest dst,
  proj_reads ax buf e n h -> (paxes_dim ax <= length dst)%nat ->
  obind (paxes_normalize ax (map Fin buf ++ rest)) (fun p => paxes_denormalize ax p dst) =
  Ret (map Fin buf ++ skipn (paxes_dim ax) dst).
Proof. exact proj_denormalize_normalize. Qed.
Print Assumptions C16_projected_denormalize_after_normalize.

Example C16_projected_ex :
  proj_reads (PEastNorthUp M FT) [500; 1000; 10] (500 * 1) (1000 * 1) (Some (10 * 0.3048)) /\
  units_positive (proj_units (PEastNorthUp M FT)).
Proof. exact ex_proj. Qed.

(** Geocentric axes, for any numbers including NaN and infinities. *)
Theorem C16_geocentric_normalize_after_denormalize : forall (p : XYZ XR) buf, (3 <= length buf)%nat ->
  obind (xaxes_denormalize p buf) xaxes_normalize = Ret p /\
  exists x y z, xaxes_denormalize p buf = Ret ([x; y; z] ++ skipn 3 buf) /\ p = mkXYZ x y z.
Proof. exact xyz_normalize_denormalize. Qed.
Print Assumptions C16_geocentric_normalize_after_denormalize.

Theorem C16_geocentric_denormalize_after_normalize : forall (x y z : XR) rest dst, (3 <= length dst)%nat ->
  obind (xaxes_normalize (x :: y :: z :: rest)) (fun p => xaxes_denormalize p dst) =
  Ret (x :: y :: z :: skipn 3 dst).
Proof. exact xyz_denormalize_normalize. Qed.
Print Assumptions C16_geocentric_denormalize_after_normalize.

(** ** C17 exactly dim entries are written or read, in any arithmetic *)

Theorem C17_geodetic_denormalize_frame : forall (F : Type) (ops : FOps F) (ax : GeodeticAxes F) (llh : LLH F),
  exists out, length out = gaxes_dim ax /\ forall buf,
    ((gaxes_dim ax <= length buf)%nat ->
      gaxes_denormalize ax llh buf = Ret (out ++ skipn (gaxes_dim ax) buf)) /\
    ((length buf < gaxes_dim ax)%nat -> gaxes_denormalize ax llh buf = Panic).
Proof. exact geo_writes_exactly. Qed.
Print Assumptions C17_geodetic_denormalize_frame.

Theorem C17_projected_denormalize_frame : forall (F : Type) (ops : FOps F) (ax : ProjectedAxes F) (p : ENH F),
  exists out, length out = paxes_dim ax /\ forall buf,
    ((paxes_dim ax <= length buf)%nat ->
      paxes_denormalize ax p buf = Ret (out ++ skipn (paxes_dim ax) buf)) /\
    ((length buf < paxes_dim ax)%nat -> paxes_denormalize ax p buf = Panic).
Proof. exact proj_writes_exactly. Qed.
Print Assumptions C17_projected_denormalize_frame.

Theorem C17_geocentric_denormalize_frame : forall (F : Type) (ops : FOps F) (p : XYZ F),
  exists out, length out = 3%nat /\ forall buf,
    ((3 <= length buf)%nat -> xaxes_denormalize p buf = Ret (out ++ skipn 3 buf)) /\
    ((length buf < 3)%nat -> xaxes_denormalize p buf = Panic).
Proof. exact xyz_writes_exactly. Qed.
Print Assumptions C17_geocentric_denormalize_frame.

Theorem C17_geodetic_normalize_frame : forall (F : Type) (ops : FOps F) (ax : GeodeticAxes F) (buf : list F),
  ((gaxes_dim ax <= length buf)%nat -> exists llh, gaxes_normalize ax buf = Ret llh /\
     forall buf', firstn (gaxes_dim ax) buf' = firstn (gaxes_dim ax) buf -> gaxes_normalize ax buf' = Ret llh) /\
  ((length buf < gaxes_dim ax)%nat -> gaxes_normalize ax buf = Panic).
Proof. exact geo_reads_exactly. Qed.
Print Assumptions C17_geodetic_normalize_frame.

Theorem C17_projected_normalize_frame : forall (F : Type) (ops : FOps F) (ax : ProjectedAxes F) (buf : list F),
  ((paxes_dim ax <= length buf)%nat -> exists p, paxes_normalize ax buf = Ret p /\
     forall buf', firstn (paxes_dim ax) buf' = firstn (paxes_dim ax) buf -> paxes_normalize ax buf' = Ret p) /\
  ((length buf < paxes_dim ax)%nat -> paxes_normalize ax buf = Panic).
Proof. exact proj_reads_exactly. Qed.
Print Assumptions C17_projected_normalize_frame.

Theorem C17_geocentric_normalize_frame : forall (F : Type) (ops : FOps F) (buf : list F),
  ((3 <= length buf)%nat -> exists p, xaxes_normalize buf = Ret p /\
     forall buf', firstn 3 buf' = firstn 3 buf -> xaxes_normalize buf' = Ret p) /\
  ((length buf < 3)%nat -> xaxes_normalize buf = Panic).
Proof. exact xyz_reads_exactly. Qed.
Print Assumptions C17_geocentric_normalize_frame.

(** The dimensions: 3 with a height axis, else 2. *)
Theorem C17_dimensions : forall (F : Type) (u v : unit_ F),
  gaxes_dim (GEastNorthUp u v) = 3%nat /\ gaxes_dim (GNorthEastUp u v) = 3%nat /\
  gaxes_dim (GEastNorth u) = 2%nat /\ gaxes_dim (GNorthEast u) = 2%nat /\ gaxes_dim (GNorthWest u) = 2%nat /\
  paxes_dim (PEastNorthUp u v) = 3%nat /\ paxes_dim (PEastNorth u) = 2%nat /\ xaxes_dim = 3%nat.
Proof. repeat split. Qed.
Print Assumptions C17_dimensions.

(** ** C18 tolerances follow the axes *)

Theorem C18_geodetic_tolerance : forall id d ax a b l1 p1 h1 l2 p2 h2 tl tp th,
  units_positive (geo_units ax) -> geo_reads ax a l1 p1 h1 -> geo_reads ax b l2 p2 h2 ->
  exists r, crs_approx_eq (GeographicCrs id d ax) (map Fin a) (map Fin b)
              (gaxes_denormalize_tol ax (mkGT (Fin tl) (Fin tp) (Fin th))) = Ret r /\
  (r = true <-> Rabs (l1 - l2) <= tl /\ Rabs (p1 - p2) <= tp /\ heights_within h1 h2 th).
Proof. exact geo_tol. Qed.
Print Assumptions C18_geodetic_tolerance.

Theorem C18_projected_tolerance : forall id d ax s a b e1 n1 h1 e2 n2 h2 t th,
  units_positive (proj_units ax) -> proj_reads ax a e1 n1 h1 -> proj_reads ax b e2 n2 h2 ->
  exists r, crs_approx_eq (ProjectedCrs id d ax s) (map Fin a) (map Fin b)
              (paxes_denormalize_tol ax (mkPT (Fin t) (Fin th))) = Ret r /\
  (r = true <-> Rabs (e1 - e2) <= t /\ Rabs (n1 - n2) <= t /\ heights_within h1 h2 th).
Proof. exact proj_tol. Qed.
Print Assumptions C18_projected_tolerance.

Theorem C18_geocentric_tolerance : forall id d x1 y1 z1 x2 y2 z2 t,
  exists r, crs_approx_eq (GeocentricCrs id d) [Fin x1; Fin y1; Fin z1] [Fin x2; Fin y2; Fin z2]
              (xaxes_denormalize_tol (Fin t)) = Ret r /\
  (r = true <-> Rabs (x1 - x2) <= t /\ Rabs (y1 - y2) <= t /\ Rabs (z1 - z2) <= t).
Proof. exact xyz_tol. Qed.
Print Assumptions C18_geocentric_tolerance.

Theorem C18_geodetic_tiny : gt_tiny = mkGT (Fin (/ 10 ^ 12)) (Fin (/ 10 ^ 12)) (Fin (/ 10 ^ 4)) /\
  gt_small = mkGT (Fin (/ 10 ^ 9)) (Fin (/ 10 ^ 9)) (Fin (/ 10 ^ 4)).
Proof. exact gt_values. Qed.
Print Assumptions C18_geodetic_tiny.

(** small() is documented to allow 1e-3 m on the height axis; it allows 1e-4 m. *)
Theorem C18_geodetic_small_height_refuted : gt_height (gt_small (F := XR)) = Fin (/ 10 ^ 4) /\
  gt_height (gt_small (F := XR)) <> Fin (/ 10 ^ 3).
Proof. exact gt_small_height. Qed.
Print Assumptions C18_geodetic_small_height_refuted.

Theorem C18_cartesian_tiny_small : ct_tiny = Fin (/ 10 ^ 4) /\ ct_small = Fin (/ 10 ^ 3) /\
  pt_tiny = mkPT (Fin (/ 10 ^ 4)) (Fin (/ 10 ^ 4)) /\ pt_small = mkPT (Fin (/ 10 ^ 3)) (Fin (/ 10 ^ 3)).
Proof. exact cartesian_tol_values. Qed.
Print Assumptions C18_cartesian_tiny_small.

(** A geographic CRS compares raw coordinates: 180 E and 180 W normalize to approximately equal
    coordinates but are told apart by Crs::approx_eq. *)
Theorem C18_antimeridian_refuted : forall id d, exists a b l,
  gaxes_normalize (GEastNorth RAD) a = Ret l /\
  (exists l', gaxes_normalize (GEastNorth RAD) b = Ret l' /\ llh_approx_eq l l' gt_tiny = true) /\
  crs_approx_eq (GeographicCrs id d (GEastNorth RAD)) a b
    (gaxes_denormalize_tol (GEastNorth RAD) gt_tiny) = Ret false.
Proof. exact antimeridian_not_equal. Qed.
Print Assumptions C18_antimeridian_refuted.

(** ** C19 approx_eq *)

Theorem C19_llh_approx_eq : forall l1 p1 h1 l2 p2 h2 tl tp th,
  llh_approx_eq (mkLLH (Fin l1) (Fin p1) (Fin h1)) (mkLLH (Fin l2) (Fin p2) (Fin h2))
     (mkGT (Fin tl) (Fin tp) (Fin th)) = true <->
  circle_within l1 l2 tl /\ Rabs (p1 - p2) <= tp /\ Rabs (h1 - h2) <= th.
Proof. exact llh_approx. Qed.
Print Assumptions C19_llh_approx_eq.

Theorem C19_xyz_approx_eq : forall x1 y1 z1 x2 y2 z2 t,
  xyz_approx_eq (mkXYZ (Fin x1) (Fin y1) (Fin z1)) (mkXYZ (Fin x2) (Fin y2) (Fin z2)) (Fin t) = true <->
  Rabs (x1 - x2) <= t /\ Rabs (y1 - y2) <= t /\ Rabs (z1 - z2) <= t.
Proof. exact xyz_approx. Qed.
Print Assumptions C19_xyz_approx_eq.

Theorem C19_enh_approx_eq : forall e1 n1 h1 e2 n2 h2 t th,
  enh_approx_eq (mkENH (Fin e1) (Fin n1) (Fin h1)) (mkENH (Fin e2) (Fin n2) (Fin h2))
     (mkPT (Fin t) (Fin th)) = true <->
  Rabs (e1 - e2) <= t /\ Rabs (n1 - n2) <= t /\ Rabs (h1 - h2) <= th.
Proof. exact enh_approx. Qed.
Print Assumptions C19_enh_approx_eq.

Theorem C19_approx_eq_reflexive : forall (l p h tl tp th : R) (q : R3) (t th' : R),
  0 <= tl -> 0 <= tp -> 0 <= th -> 0 <= t -> 0 <= th' ->
  llh_approx_eq (mkLLH (Fin l) (Fin p) (Fin h)) (mkLLH (Fin l) (Fin p) (Fin h)) (mkGT (Fin tl) (Fin tp) (Fin th)) = true /\
  xyz_approx_eq (xyz q) (xyz q) (Fin t) = true /\
  enh_approx_eq (enh q) (enh q) (mkPT (Fin t) (Fin th')) = true.
Proof. exact approx_refl. Qed.
Print Assumptions C19_approx_eq_reflexive.

Theorem C19_approx_eq_symmetric : forall (l1 p1 h1 l2 p2 h2 tl tp th : R) (q1 q2 : R3) (t th' : R),
  llh_approx_eq (mkLLH (Fin l1) (Fin p1) (Fin h1)) (mkLLH (Fin l2) (Fin p2) (Fin h2)) (mkGT (Fin tl) (Fin tp) (Fin th)) =
  llh_approx_eq (mkLLH (Fin l2) (Fin p2) (Fin h2)) (mkLLH (Fin l1) (Fin p1) (Fin h1)) (mkGT (Fin tl) (Fin tp) (Fin th)) /\
  xyz_approx_eq (xyz q1) (xyz q2) (Fin t) = xyz_approx_eq (xyz q2) (xyz q1) (Fin t) /\
  enh_approx_eq (enh q1) (enh q2) (mkPT (Fin t) (Fin th')) = enh_approx_eq (enh q2) (enh q1) (mkPT (Fin t) (Fin th')).
Proof. exact approx_sym. Qed.
Print Assumptions C19_approx_eq_symmetric.

Example C19_ex : llh_approx_eq (mkLLH (Fin PI) (Fin 0) (Fin 5)) (mkLLH (Fin (- PI)) (Fin 0) (Fin 5)) gt_tiny = true /\
  xyz_approx_eq (xyz (1, 2, 3)) (xyz (1, 2, 4)) ct_tiny = false.
Proof. exact ex_tol. Qed.

(** Crs::approx_eq, in any arithmetic: a panic for coordinates of the wrong length, else the
    conjunction of the componentwise comparisons.  A tolerance that is too short panics once the
    components it covers are found close. *)
Theorem C19_crs_approx_eq_length : forall (F : Type) (ops : FOps F) (c : Crs F) a b tol,
  length a <> crs_dim c \/ length b <> crs_dim c -> crs_approx_eq c a b tol = Panic.
Proof. exact @crs_approx_eq_panics. Qed.
Print Assumptions C19_crs_approx_eq_length.

Theorem C19_crs_approx_eq_all : forall (F : Type) (ops : FOps F) (c : Crs F) a b tol,
  length a = crs_dim c -> length b = crs_dim c -> length tol = crs_dim c ->
  crs_approx_eq c a b tol = Ret (all_within a b tol).
Proof. exact @crs_approx_eq_all. Qed.
Print Assumptions C19_crs_approx_eq_all.

Theorem C19_crs_approx_eq_short_tolerance : forall (F : Type) (ops : FOps F) (c : Crs F) a b tol,
  length a = crs_dim c -> length b = crs_dim c -> (length tol < crs_dim c)%nat ->
  all_within a b tol = true -> crs_approx_eq c a b tol = Panic.
Proof. exact @crs_approx_eq_short_tol. Qed.
Print Assumptions C19_crs_approx_eq_short_tolerance.

(** ** C20 Cartesian distance *)

Theorem C20_xyz_metric : forall p q r : R3,
  exists d, xyz_dist_to (xyz p) (xyz q) = Fin d /\ d = edist p q /\ 0 <= d /\
  xyz_dist_to (xyz q) (xyz p) = Fin d /\ (d = 0 <-> p = q) /\
  exists d1 d2, xyz_dist_to (xyz p) (xyz r) = Fin d1 /\ xyz_dist_to (xyz r) (xyz q) = Fin d2 /\ d <= d1 + d2.
Proof. exact metric_xyz. Qed.
Print Assumptions C20_xyz_metric.

Theorem C20_enh_metric : forall p q r : R3,
  exists d, enh_dist_to (enh p) (enh q) = Fin d /\ d = edist p q /\ 0 <= d /\
  enh_dist_to (enh q) (enh p) = Fin d /\ (d = 0 <-> p = q) /\
  exists d1 d2, enh_dist_to (enh p) (enh r) = Fin d1 /\ enh_dist_to (enh r) (enh q) = Fin d2 /\ d <= d1 + d2.
Proof. exact metric_enh. Qed.
Print Assumptions C20_enh_metric.

Example C20_ex : xyz_dist_to (xyz (1, 2, 3)) (xyz (4, 6, 15)) = Fin 13.
Proof. exact ex_dist. Qed.

Theorem C20_geocentric_crs_dist : forall id d (p q : R3),
  let buf '(x, y, z) := [Fin x; Fin y; Fin z] in
  crs_dist (GeocentricCrs id d) (buf p) (buf q) = Ret (Ok (Fin (edist p q))).
Proof. exact crs_dist_geocentric. Qed.
Print Assumptions C20_geocentric_crs_dist.

Theorem C20_projected_crs_dist : forall id d ax s a b e1 n1 h1 e2 n2 h2,
  proj_reads ax a e1 n1 h1 -> proj_reads ax b e2 n2 h2 ->
  crs_dist (ProjectedCrs id d ax s) (map Fin a) (map Fin b) =
  Ret (Ok (Fin (edist (e1, n1, height_of h1) (e2, n2, height_of h2)))).
Proof. exact crs_dist_projected. Qed.
Print Assumptions C20_projected_crs_dist.

(** Binary64, NaN and infinities included. *)
Theorem C20_symmetric_f64 : forall lm : libm,
  (forall x y : f64, lm_hypot lm (Bopp x) y = lm_hypot lm x y /\ lm_hypot lm x (Bopp y) = lm_hypot lm x y) ->
  (forall p q : XYZ f64, xyz_dist_to (ops := F64ops lm) p q = xyz_dist_to (ops := F64ops lm) q p) /\
  (forall p q : ENH f64, enh_dist_to (ops := F64ops lm) p q = enh_dist_to (ops := F64ops lm) q p).
Proof. exact dist_symmetric_f64. Qed.
Print Assumptions C20_symmetric_f64.

Theorem C20_self_distance_f64 : forall lm : libm,
  lm_hypot lm (B754_zero false) (B754_zero false) = B754_zero false ->
  (forall p : XYZ f64, is_finite (x_ p) = true -> is_finite (y_ p) = true -> is_finite (z_ p) = true ->
     xyz_dist_to (ops := F64ops lm) p p = B754_zero false) /\
  (forall p : ENH f64, is_finite (easting p) = true -> is_finite (northing p) = true -> is_finite (eheight p) = true ->
     enh_dist_to (ops := F64ops lm) p p = B754_zero false).
Proof. exact dist_self_f64. Qed.
Print Assumptions C20_self_distance_f64.
