(** Properties C27-C31: datum transformations, transformations between coordinate reference
    systems, and what every projection does.

    Exact arithmetic is the instance XR (Num/XR.v); theorems over an arbitrary [F] hold in every
    arithmetic, binary64 included.  [xyz P] is the real point P as a geocentric coordinate. *)
From Coq Require Import String Reals Lra ZArith List.
From Flocq Require Import Core IEEE754.BinarySingleNaN.
From Verif.Num Require Import FOps XR XRLemmas F64.
From Verif.Model Require Import Fp Quantities Cs Ellipsoid Geodesics Projections Crs.
From Verif.Spec Require Import Angles Axes Shape Frames Totality.
From Verif.Proofs Require Import TransX TransG TransEx ProjX.
Import ListNotations.
Local Open Scope R_scope.

(** ** C27 translations *)

Theorem C27_translation : forall tx ty tz P,
  to_ref (GeocentricTranslation (Fin tx) (Fin ty) (Fin tz)) (xyz P) = xyz (vadd P (tx, ty, tz)).
Proof. exact translation_to_ref. Qed.
Print Assumptions C27_translation.

Theorem C27_translation_inverse : forall tx ty tz,
  exact_inverse (GeocentricTranslation (Fin tx) (Fin ty) (Fin tz)).
Proof. exact translation_inverse. Qed.
Print Assumptions C27_translation_inverse.

Theorem C27_identity_inverse : exact_inverse (XYZIdentity (F := XR)).
Proof. exact identity_inverse. Qed.
Print Assumptions C27_identity_inverse.

Theorem C27_translation_isometry : forall tx ty tz P Q,
  let T := GeocentricTranslation (Fin tx) (Fin ty) (Fin tz) in
  xyz_dist_to (to_ref T (xyz P)) (to_ref T (xyz Q)) = xyz_dist_to (xyz P) (xyz Q).
Proof. exact translation_isometry. Qed.
Print Assumptions C27_translation_isometry.

(** In binary64 the round trip is off by at most 2^-51 of the magnitudes involved. *)
Theorem C27_translation_round_trip_f64 : forall (lm : libm) (tx ty tz x y z : f64),
  Forall (fun v => is_finite v = true /\ Rabs (B2R v) <= bpow radix2 1000) [tx; ty; tz; x; y; z] ->
  let T := GeocentricTranslation tx ty tz in
  exists x' y' z',
  from_ref (ops := F64ops lm) T (to_ref (ops := F64ops lm) T (mkXYZ x y z)) = mkXYZ x' y' z' /\
  Forall (fun v => is_finite v = true) [x'; y'; z'] /\
  Rabs (B2R x' - B2R x) <= bpow radix2 (-51) * (Rabs (B2R x) + Rabs (B2R tx)) /\
  Rabs (B2R y' - B2R y) <= bpow radix2 (-51) * (Rabs (B2R y) + Rabs (B2R ty)) /\
  Rabs (B2R z' - B2R z) <= bpow radix2 (-51) * (Rabs (B2R z) + Rabs (B2R tz)).
Proof. exact translation_round_trip_f64. Qed.
Print Assumptions C27_translation_round_trip_f64.

Example C27_translation_ex :
  from_ref (GeocentricTranslation (Fin 84.87) (Fin 96.49) (Fin 116.95))
    (to_ref (GeocentricTranslation (Fin 84.87) (Fin 96.49) (Fin 116.95)) (xyz (3771793, 140253, 5124304)))
  = xyz (3771793, 140253, 5124304).
Proof. cbn. unfold xyz. f_equal; f_equal; lra. Qed.

(** ** C28 Helmert transformations *)

(** [to_ref] is the small-rotation similarity of EPSG methods 1033 and 1032. *)
Theorem C28_helmert_to_ref : forall c rx ry rz tx ty tz ppm P,
  to_ref (helmert_new c (Fin rx) (Fin ry) (Fin rz) (Fin tx) (Fin ty) (Fin tz) (Fin ppm)) (xyz P) =
  xyz (vadd (vscale (1 + ppm / 1000000) (vadd P (vscale (turn c) (cross (rx, ry, rz) P)))) (tx, ty, tz)).
Proof. exact helmert_to_ref. Qed.
Print Assumptions C28_helmert_to_ref.

Theorem C28_helmert_conventions : forall rx ry rz tx ty tz ppm : XR,
  helmert_new PositionVector rx ry rz tx ty tz ppm =
  helmert_new CoordinateFrame (fneg rx) (fneg ry) (fneg rz) tx ty tz ppm.
Proof. exact helmert_conventions. Qed.
Print Assumptions C28_helmert_conventions.

(** What [from_ref] after [to_ref] adds to a point: second-order terms in the point, first-order
    terms in the translation. *)
Theorem C28_helmert_residual : forall c rx ry rz tx ty tz ppm P,
  let T := helmert_new c (Fin rx) (Fin ry) (Fin rz) (Fin tx) (Fin ty) (Fin tz) (Fin ppm) in
  let m := ppm / 1000000 in let r := (rx, ry, rz) in let t := (tx, ty, tz) in
  from_ref T (to_ref T (xyz P)) =
  xyz (vadd P (vadd (vadd (vscale (- (m * m)) P) (vscale (- (1 - m * m)) (cross r (cross r P))))
                    (vadd (vscale (- m) t) (vscale (- (turn c) * (1 - m)) (cross r t))))).
Proof. exact helmert_residual. Qed.
Print Assumptions C28_helmert_residual.

Theorem C28_helmert_bound : forall c rx ry rz tx ty tz ppm P,
  let T := helmert_new c (Fin rx) (Fin ry) (Fin rz) (Fin tx) (Fin ty) (Fin tz) (Fin ppm) in
  let m := ppm / 1000000 in let r := vnorm (rx, ry, rz) in let t := vnorm (tx, ty, tz) in
  exists Q, from_ref T (to_ref T (xyz P)) = xyz Q /\
  edist Q P <= (m * m + Rabs (1 - m * m) * (r * r)) * vnorm P + (Rabs m + Rabs (1 - m) * r) * t.
Proof. exact helmert_bound. Qed.
Print Assumptions C28_helmert_bound.

Theorem C28_helmert_without_rotation_and_scale : forall c tx ty tz,
  exact_inverse (helmert_new c (Fin 0) (Fin 0) (Fin 0) (Fin tx) (Fin ty) (Fin tz) (Fin 0)).
Proof. exact helmert_translation. Qed.
Print Assumptions C28_helmert_without_rotation_and_scale.

(** [from_ref] is not the inverse of [to_ref]: with 20 ppm and a translation of one kilometre the
    round trip moves a point of the equator by at least 2 cm. *)
Theorem C28_helmert_inverse_refuted : forall c, exists Q,
  let T := helmert_new c (Fin 0) (Fin 0) (Fin 0) (Fin 0) (Fin 0) (Fin 1000) (Fin 20) in
  from_ref T (to_ref T (xyz (6378000, 0, 0))) = xyz Q /\ 2 / 100 <= edist Q (6378000, 0, 0).
Proof. exact helmert_not_inverse. Qed.
Print Assumptions C28_helmert_inverse_refuted.

Example C28_helmert_ex :
  to_ref (helmert_new PositionVector (Fin 0) (Fin 0) (Fin 0.000002) (Fin 0) (Fin 0) (Fin 4.5) (Fin 0.219))
    (xyz (3657660, 255768, 5201382)) = xyz (3657660.289491427973616, 255775.371334794055080, 5201387.639102658).
Proof.
  rewrite helmert_to_ref. cbn. unfold xyz. f_equal; f_equal; lra.
Qed.

(** ** C29 transformations between reference systems *)

(** [fwd] moves the named point through the two datum transformations and writes coordinates of
    the image; the rest of the buffer is unchanged.  [bwd] does the same the other way. *)
Theorem C29_fwd : forall fuel t src rest dst P P' Q,
  locates (tr_src t) src P -> covers (tr_src t) P ->
  to_ref (tr_src_to_ref t) (xyz P) = xyz Q -> from_ref (tr_dst_to_ref t) (xyz Q) = xyz P' ->
  covers (tr_dst t) P' -> (3 <= List.length dst)%nat ->
  exists out, tr_fwd fuel t (map Fin src ++ rest) dst = Ret (Ok (map Fin out ++ skipn 3 dst)) /\
  locates (tr_dst t) out P'.
Proof. exact tr_fwd_spec. Qed.
Print Assumptions C29_fwd.

Theorem C29_bwd : forall fuel t dst rest src P P' Q,
  locates (tr_dst t) dst P -> covers (tr_dst t) P ->
  to_ref (tr_dst_to_ref t) (xyz P) = xyz Q -> from_ref (tr_src_to_ref t) (xyz Q) = xyz P' ->
  covers (tr_src t) P' -> (3 <= List.length src)%nat ->
  exists out, tr_bwd fuel t (map Fin dst ++ rest) src = Ret (Ok (map Fin out ++ skipn 3 src)) /\
  locates (tr_src t) out P'.
Proof. exact tr_bwd_spec. Qed.
Print Assumptions C29_bwd.

(** There and back gives the coordinates one started from. *)
Theorem C29_round_trip : forall fuel fuel' t src rest P P' Q dst dst',
  proper (tr_src t) src -> locates (tr_src t) src P -> covers (tr_src t) P ->
  exact_inverse (tr_src_to_ref t) -> exact_inverse (tr_dst_to_ref t) ->
  to_ref (tr_src_to_ref t) (xyz P) = xyz Q -> from_ref (tr_dst_to_ref t) (xyz Q) = xyz P' ->
  covers (tr_dst t) P' -> (3 <= List.length dst)%nat -> (3 <= List.length dst')%nat ->
  exists out, tr_fwd fuel t (map Fin src ++ rest) dst = Ret (Ok (map Fin out ++ skipn 3 dst)) /\
  tr_bwd fuel' t (map Fin out ++ skipn 3 dst) dst' = Ret (Ok (map Fin src ++ skipn 3 dst')).
Proof. exact round_trip. Qed.
Print Assumptions C29_round_trip.

Theorem C29_proper_coordinates_name_a_point : forall c buf, proper c buf -> exists P, locates c buf P.
Proof. exact proper_locates. Qed.
Print Assumptions C29_proper_coordinates_name_a_point.

Example C29_round_trip_ex : exists t src P P' Q,
  proper (tr_src t) src /\ locates (tr_src t) src P /\ covers (tr_src t) P /\
  exact_inverse (tr_src_to_ref t) /\ exact_inverse (tr_dst_to_ref t) /\
  to_ref (tr_src_to_ref t) (xyz P) = xyz Q /\ from_ref (tr_dst_to_ref t) (xyz Q) = xyz P' /\
  covers (tr_dst t) P' /\ P <> P' /\
  src = [0; 0; 1000] /\ tr_src_to_ref t = GeocentricTranslation (Fin 84) (Fin 0) (Fin 50).
Proof. exact ex_round_trip. Qed.

(** Any arithmetic, any input: Ok, and exactly dim entries written.  Only a transverse Mercator
    source can fail to return. *)
Theorem C29_fwd_total : forall {F : Type} {ops : FOps F} fuel t (src dst : list F),
  crs_never_loops (tr_src t) ->
  (crs_dim (tr_src t) <= List.length src)%nat -> (crs_dim (tr_dst t) <= List.length dst)%nat ->
  exists out, List.length out = crs_dim (tr_dst t) /\
    tr_fwd fuel t src dst = Ret (Ok (out ++ skipn (crs_dim (tr_dst t)) dst)).
Proof. exact @tr_fwd_total. Qed.
Print Assumptions C29_fwd_total.

Theorem C29_bwd_total : forall {F : Type} {ops : FOps F} fuel t (dst src : list F),
  crs_never_loops (tr_dst t) ->
  (crs_dim (tr_dst t) <= List.length dst)%nat -> (crs_dim (tr_src t) <= List.length src)%nat ->
  exists out, List.length out = crs_dim (tr_src t) /\
    tr_bwd fuel t dst src = Ret (Ok (out ++ skipn (crs_dim (tr_src t)) src)).
Proof. exact @tr_bwd_total. Qed.
Print Assumptions C29_bwd_total.

(** No reference system, projected ones included, ever makes a transformation report an error. *)
Theorem C29_never_err : forall {F : Type} {ops : FOps F} fuel t (a b : list F) e,
  tr_fwd fuel t a b <> Ret (Err e) /\ tr_bwd fuel t a b <> Ret (Err e).
Proof. exact @tr_never_err. Qed.
Print Assumptions C29_never_err.

(** It panics exactly when a buffer is too short. *)
Theorem C29_panics_iff_short : forall {F : Type} {ops : FOps F} fuel t (a b : list F),
  crs_never_loops (tr_src t) -> crs_never_loops (tr_dst t) ->
  ((List.length a < crs_dim (tr_src t))%nat \/ (List.length b < crs_dim (tr_dst t))%nat <->
     tr_fwd fuel t a b = Panic) /\
  ((List.length b < crs_dim (tr_dst t))%nat \/ (List.length a < crs_dim (tr_src t))%nat <->
     tr_bwd fuel t b a = Panic).
Proof. exact @tr_short. Qed.
Print Assumptions C29_panics_iff_short.

Example C29_total_ex : exists (t : CrsXYZTransformation XR) (src dst : list XR),
  crs_never_loops (tr_src t) /\ (crs_dim (tr_src t) <= List.length src)%nat /\
  (crs_dim (tr_dst t) <= List.length dst)%nat /\ src = [NaN; NaN; NaN] /\ crs_dim (tr_dst t) = 2%nat.
Proof. exact ex_total. Qed.

(** ** C30 projections report no errors; C31 they keep the height *)

Theorem C30_proj_never_err : forall {F : Type} {ops : FOps F} (p : projection F) llh e,
  proj p llh <> Err e.
Proof. exact @proj_never_err. Qed.
Print Assumptions C30_proj_never_err.

Theorem C30_unproj_never_err : forall {F : Type} {ops : FOps F} fuel (p : projection F) enh e,
  unproj fuel p enh <> Ret (Err e) /\ unproj fuel p enh <> Panic.
Proof. exact @unproj_never_err. Qed.
Print Assumptions C30_unproj_never_err.

(** The poles and coordinates off the map are answered too; at the pole web Mercator's exact
    answer is an infinite northing. *)
Theorem C30_pole_is_not_reported : forall lon0 lat0 fe fn l,
  exists e, proj (applied_to (SWebMercator (Fin lon0) (Fin lat0) (Fin fe) (Fin fn)) WGS84)
    (mkLLH (Fin l) (Fin (- (PI / 2))) (Fin 0)) = Ok (mkENH (Fin e) MInf (Fin 0)).
Proof. exact wm_pole. Qed.
Print Assumptions C30_pole_is_not_reported.

Theorem C31_proj_keeps_height : forall {F : Type} {ops : FOps F} (p : projection F) llh enh,
  proj p llh = Ok enh -> eheight enh = height llh.
Proof. exact @proj_height. Qed.
Print Assumptions C31_proj_keeps_height.

Theorem C31_unproj_keeps_height : forall {F : Type} {ops : FOps F} fuel (p : projection F) enh llh,
  unproj fuel p enh = Ret (Ok llh) -> height llh = eheight enh.
Proof. exact @unproj_height. Qed.
Print Assumptions C31_unproj_keeps_height.

Example C31_ex : exists enh : ENH XR,
  proj (applied_to (SUTMNorth 31) GRS80) (mkLLH (Fin 0.04) (Fin 0.7) (Fin 123)) = Ok enh /\
  eheight enh = Fin 123.
Proof. eexists. split; reflexivity. Qed.
