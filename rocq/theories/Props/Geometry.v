(** Properties C44-C49: points, line strings, curves, the sampling of the sphere.

    Spec/Lines.v defines [line_tos] and [appends] (runs of builder calls), [has_positions],
    [measured], [chained], [well_made], [total] and [between]. *)
From Coq Require Import String Bool Reals Lra List Arith.
From Flocq Require Import Core IEEE754.BinarySingleNaN.
From Verif.Num Require Import FOps XR XRLemmas F64.
From Verif.Model Require Import Fp Quantities Cs Ellipsoid Geodesics Projections Crs Geometry.
From Verif.Spec Require Import Shape Lines.
From Verif.Proofs Require Import LinesG LinesX EqS2 LinesEx.
Import ListNotations.

(** ** C44 line string builder, for every arithmetic and every CRS *)

Theorem C44_built_line : forall F (ops : FOps F) (crs : Crs F) p q b0 ps b,
  lsb_with_line crs p q = Ret (Ok b0) -> line_tos b0 ps = Ret (Ok b) ->
  let l := lsb_build b in let pts := p :: q :: ps in
  has_positions l pts /\ measured crs pts (ls_len l) /\ ls_coord_dim l = crs_dim crs /\
  Forall (fun x => List.length x = crs_dim crs) pts /\
  ls_start l = Ret p /\ ls_end l = Ret (last pts []).
Proof. exact @build_spec. Qed.
Print Assumptions C44_built_line.

Theorem C44_closed_line : forall F (ops : FOps F) (crs : Crs F) p q b0 ps b l,
  lsb_with_line crs p q = Ret (Ok b0) -> line_tos b0 ps = Ret (Ok b) -> lsb_close b = Ret (Ok l) ->
  let pts := p :: q :: ps ++ [p] in
  has_positions l pts /\ measured crs pts (ls_len l) /\ ls_start l = Ret p /\ ls_end l = Ret p.
Proof. exact @close_spec. Qed.
Print Assumptions C44_closed_line.

Theorem C44_one_more_position : forall F (ops : FOps F) (crs : Crs F) pts ds,
  measured crs pts ds -> List.length pts = S (List.length ds).
Proof. exact @measured_length. Qed.
Print Assumptions C44_one_more_position.

(** [with_line] panics exactly when a position has the wrong number of coordinates and fails
    exactly when the distance does. *)
Theorem C44_with_line_cases : forall F (ops : FOps F) (crs : Crs F) p q,
  (List.length p = crs_dim crs -> List.length q = crs_dim crs ->
   exists r, crs_dist crs p q = Ret r /\
   match r with
   | Ok _ => exists b, lsb_with_line crs p q = Ret (Ok b)
   | Err _ => lsb_with_line crs p q = Ret (Err tt)
   end) /\
  (~ (List.length p = crs_dim crs /\ List.length q = crs_dim crs) -> lsb_with_line crs p q = Panic).
Proof. exact @with_line_total. Qed.
Print Assumptions C44_with_line_cases.

(** No later call panics; [line_to] fails exactly on a wrong number of coordinates or a failing
    distance. *)
Theorem C44_run_never_panics : forall F (ops : FOps F) (crs : Crs F) p q b0 ps,
  lsb_with_line crs p q = Ret (Ok b0) ->
  exists r, line_tos b0 ps = Ret r /\ (forall b, r = Ok b -> exists r', lsb_close b = Ret r').
Proof. exact @run_total. Qed.
Print Assumptions C44_run_never_panics.

Theorem C44_line_to_error : forall F (ops : FOps F) (crs : Crs F) p q b0 ps x,
  lsb_with_line crs p q = Ret (Ok b0) -> (exists b, line_tos b0 ps = Ret (Ok b)) ->
  (line_tos b0 (ps ++ [x]) = Ret (Err tt) <->
   List.length x <> crs_dim crs \/ crs_dist crs (last (p :: q :: ps) []) x = Ret (Err tt)).
Proof. exact @run_error. Qed.
Print Assumptions C44_line_to_error.

Theorem C44_pos_iter : forall F (l : LineString F) pts,
  has_positions l pts -> ls_pos_iter l = pts.
Proof. exact @pos_iter_spec. Qed.
Print Assumptions C44_pos_iter.

(** [LineString::new] cuts the slice into its positions. *)
Theorem C44_line_string_new : forall F d (pos len : list F) l,
  d <> 0 -> ls_new d pos len = Ret l ->
  exists pts, pos = concat pts /\ Forall (fun p => List.length p = d) pts /\
  2 <= List.length pts /\ List.length pts = S (List.length len) /\
  has_positions l pts /\ ls_coord_dim l = d /\ ls_len l = len.
Proof. exact @ls_new_spec. Qed.
Print Assumptions C44_line_string_new.

Theorem C44_length_is_sum : forall l ds, ls_len l = fins ds -> ls_length l = Fin (total ds).
Proof. exact ls_length_fins. Qed.
Print Assumptions C44_length_is_sum.

Example C44_example : exists b0 b,
  lsb_with_line plane (fins [0; 0]%R) (fins [3; 4]%R) = Ret (Ok b0) /\
  line_tos b0 [fins [3; 10]%R] = Ret (Ok b) /\
  let l := lsb_build b in
  has_positions l (map fins [[0; 0]; [3; 4]; [3; 10]]%R) /\ ls_len l = fins [5; 6]%R /\
  ls_param l (Fin 8) = Ret (fins [3; 7]%R).
Proof. exact exact_built. Qed.

(** ** C45 parameterisation of a line string *)

Theorem C45_param_on_segment : forall l pts ds, has_positions l (map fins pts) ->
  ls_len l = fins ds -> List.length pts = S (List.length ds) -> Forall (fun d => 0 <= d)%R ds -> ds <> [] ->
  forall s, (0 <= s <= total ds)%R -> (0 < s \/ 0 < hd 0 ds)%R ->
  exists i r p q, nth_error pts i = Some p /\ nth_error pts (S i) = Some q /\ (0 <= r <= 1)%R /\
  (0 < nth i ds 0)%R /\ (s = total (firstn i ds) + r * nth i ds 0)%R /\
  ls_param l (Fin s) = Ret (fins (between r p q)).
Proof. exact param_on. Qed.
Print Assumptions C45_param_on_segment.

Theorem C45_param_start : forall l pts ds, has_positions l (map fins pts) ->
  ls_len l = fins ds -> List.length pts = S (List.length ds) -> Forall (fun d => 0 <= d)%R ds -> ds <> [] ->
  (0 < hd 0 ds)%R -> ls_param l (Fin 0) = ls_start l.
Proof. exact param_start. Qed.
Print Assumptions C45_param_start.

(** Zero-length segments must join equal positions, as Cartesian distances guarantee. *)
Theorem C45_param_end : forall l pts ds, has_positions l (map fins pts) ->
  ls_len l = fins ds -> List.length pts = S (List.length ds) -> Forall (fun d => 0 <= d)%R ds -> ds <> [] ->
  (0 < total ds)%R ->
  (forall i p q, nth_error pts i = Some p -> nth_error pts (S i) = Some q -> nth i ds 0%R = 0%R -> p = q) ->
  ls_param l (Fin (total ds)) = ls_end l.
Proof. exact param_end. Qed.
Print Assumptions C45_param_end.

Theorem C45_param_beyond_panics : forall l ds, ls_len l = fins ds ->
  (forall s, (total ds < s)%R -> ls_param l (Fin s) = Panic) /\ ls_param l NaN = Panic.
Proof. intros l ds HL. split; [exact (param_beyond l ds HL)|exact (param_nan l ds HL)]. Qed.
Print Assumptions C45_param_beyond_panics.

(** Defects: nothing stops a negative argument, a first segment of length zero gives NaN at 0. *)
Theorem C45_param_negative_extrapolates : forall l pts ds, has_positions l (map fins pts) ->
  ls_len l = fins ds -> List.length pts = S (List.length ds) -> Forall (fun d => 0 <= d)%R ds -> ds <> [] ->
  forall s, (s < 0)%R -> (0 < hd 0 ds)%R -> exists p q, nth_error pts 0 = Some p /\
  nth_error pts 1 = Some q /\ ls_param l (Fin s) = Ret (fins (between (s / hd 0%R ds) p q)).
Proof. exact param_negative. Qed.
Print Assumptions C45_param_negative_extrapolates.

Theorem C45_zero_first_segment_refuted : forall l pts ds, has_positions l (map fins pts) ->
  ls_len l = fins ds -> List.length pts = S (List.length ds) -> Forall (fun d => 0 <= d)%R ds -> ds <> [] ->
  hd 0%R ds = 0%R -> exists p, nth_error pts 0 = Some p /\
  ls_param l (Fin 0) = Ret (map (fun _ => NaN) p).
Proof. exact param_zero_first. Qed.
Print Assumptions C45_zero_first_segment_refuted.

(** In binary64 [param(length)] can panic, for a line of the builder too: (0,0), (1,0),
    (1, 3 2^-54).  The hypothesis is what the C standard (F.10.4.3) requires of hypot. *)
Theorem C45_param_length_f64_refuted : forall lm : libm,
  (forall x, lm_hypot lm x (B754_zero false) = Babs x /\ lm_hypot lm (B754_zero false) x = Babs x) ->
  exists b0 b,
  lsb_with_line (ops := F64ops lm) (plane (ops := F64ops lm)) [f_0; f_0] [f_1; f_0] = Ret (Ok b0) /\
  line_tos (ops := F64ops lm) b0 [[f_1; f_small]] = Ret (Ok b) /\
  ls_len (lsb_build b) = [f_1; f_small] /\
  ls_param (ops := F64ops lm) (lsb_build b) (ls_length (ops := F64ops lm) (lsb_build b)) = Panic.
Proof. exact built_param_length_panics. Qed.
Print Assumptions C45_param_length_f64_refuted.

Example C45_example : exists b0 b,
  lsb_with_line plane (fins [0; 0]%R) (fins [3; 4]%R) = Ret (Ok b0) /\
  line_tos b0 [fins [3; 10]%R] = Ret (Ok b) /\
  let l := lsb_build b in
  has_positions l (map fins [[0; 0]; [3; 4]; [3; 10]]%R) /\ ls_len l = fins [5; 6]%R /\
  ls_param l (Fin 8) = Ret (fins [3; 7]%R).
Proof. exact exact_built. Qed.

(** ** C46 curve builder *)

Theorem C46_built_curve : forall F (ops : FOps F) (crs : Crs F) s0 b0 ss b,
  cvb_with_seg crs s0 = Ok b0 -> appends b0 ss = Ret (Ok b) ->
  let c := cvb_build b in
  cv_seg c = s0 :: ss /\ chained (s0 :: ss) /\ cv_coord_dim c = crs_dim crs /\
  Forall (fun s => ls_coord_dim s = crs_dim crs) ss /\
  cv_start c = ls_start s0 /\ cv_end c = ls_end (last (s0 :: ss) s0).
Proof. exact @curve_spec. Qed.
Print Assumptions C46_built_curve.

(** [append_segment] succeeds exactly for a segment of the right dimension that starts at the end. *)
Theorem C46_append_cases : forall F (ops : FOps F) (crs : Crs F) s0 b0 ss b s,
  cvb_with_seg crs s0 = Ok b0 -> appends b0 ss = Ret (Ok b) ->
  well_made s0 -> Forall well_made ss -> well_made s ->
  exists e c, ls_end (last (s0 :: ss) s0) = Ret e /\ ls_start s = Ret c /\
  cvb_append b s = (if Nat.eqb (ls_coord_dim s) (crs_dim crs) && pos_eq e c
                    then Ret (Ok (mkCVB crs (crs_dim crs) (s0 :: ss ++ [s]))) else Ret (Err tt)).
Proof. exact @append_cases. Qed.
Print Assumptions C46_append_cases.

Theorem C46_built_lines_are_well_made : forall F (ops : FOps F) (crs : Crs F) p q b0 ps b,
  lsb_with_line crs p q = Ret (Ok b0) -> line_tos b0 ps = Ret (Ok b) -> well_made (lsb_build b).
Proof. exact @built_well_made. Qed.
Print Assumptions C46_built_lines_are_well_made.

Theorem C46_length_is_sum : forall (c : Curve XR) Ls,
  Forall2 (fun g L => ls_length g = Fin L /\ (0 <= L)%R) (cv_seg c) Ls -> cv_length c = Fin (total Ls).
Proof. exact cv_length_spec. Qed.
Print Assumptions C46_length_is_sum.

Theorem C46_param_dispatch : forall (c : Curve XR) Ls s,
  Forall2 (fun g L => ls_length g = Fin L /\ (0 <= L)%R) (cv_seg c) Ls ->
  cv_seg c <> [] -> (0 <= s <= total Ls)%R ->
  exists i s' g, nth_error (cv_seg c) i = Some g /\ (0 <= s' <= nth i Ls 0)%R /\
  (s = total (firstn i Ls) + s')%R /\ (0 < s -> 0 < s')%R /\ cv_param c (Fin s) = ls_param g (Fin s').
Proof. exact cv_param_spec. Qed.
Print Assumptions C46_param_dispatch.

(** Defect: the dimension of the first segment is not checked. *)
Theorem C46_first_segment_dimension_refuted : forall F (ops : FOps F) (d : GeodeticDatum F) (x y z : F),
  exists crs l b, crs_dim crs = 2 /\ ls_new 3 [x; y; z; y; z; x] [x] = Ret l /\
  cvb_with_seg crs l = Ok b /\ cv_geometry_type (cvb_build b) = GCurve 2 /\
  cv_start (cvb_build b) = Ret [x; y; z].
Proof. exact @with_seg_unchecked. Qed.
Print Assumptions C46_first_segment_dimension_refuted.

Example C46_example : exists b0 b,
  cvb_with_seg plane (mkLS 2 (fins [0; 0; 3; 4]%R) (fins [5]%R)) = Ok b0 /\
  appends b0 [mkLS 2 (fins [3; 4; 3; 10]%R) (fins [6]%R)] = Ret (Ok b) /\
  cv_end (cvb_build b) = Ret (fins [3; 10]%R).
Proof. exact curve_example. Qed.

(** ** C47 cycles and boundaries *)

Theorem C47_curve_boundary : forall F (ops : FOps F) (c : Curve F) s0 ss,
  cv_seg c = s0 :: ss -> well_made s0 -> Forall well_made ss ->
  exists s e, cv_start c = Ret s /\ cv_end c = Ret e /\
  exists y, cv_is_cycle c = Ret y /\ (y = pos_eq s e) /\
  (y = true -> cv_boundary c = Ret None) /\
  (y = false -> exists P Q, cv_boundary c = Ret (Some (mkCB P Q)) /\
     point_deref P = Ret s /\ point_deref Q = Ret e).
Proof. exact @curve_cycle. Qed.
Print Assumptions C47_curve_boundary.

(** [pos_eq], the comparison of slices, is coordinatewise equality of floats. *)
Theorem C47_pos_eq : forall F (ops : FOps F) (a b : list F),
  pos_eq a b = true <-> Forall2 (fun x y => feq x y = true) a b.
Proof. exact @pos_eq_iff. Qed.
Print Assumptions C47_pos_eq.

(** In binary64 a closed curve is a cycle exactly when its start has no NaN. *)
Theorem C47_pos_eq_reflexive_f64 : forall (lm : libm) (p : list f64),
  pos_eq (ops := F64ops lm) p p = true <-> Forall (fun x => is_nan x = false) p.
Proof. exact pos_eq_refl_f64. Qed.
Print Assumptions C47_pos_eq_reflexive_f64.

Theorem C47_line_string_boundary : forall F (ops : FOps F) (l : LineString F), well_made l ->
  exists s e P Q, ls_start l = Ret s /\ ls_end l = Ret e /\ ls_curve_boundary l = Ret (mkCB P Q) /\
  point_deref P = Ret s /\ point_deref Q = Ret e /\ cb_geometry_type (mkCB P Q) = GPoint (ls_coord_dim l).
Proof. exact @ls_boundary. Qed.
Print Assumptions C47_line_string_boundary.

Example C47_example :
  let open_ := mkCurve 2 [mkLS 2 (fins [0; 0; 3; 4]%R) (fins [5]%R)] in
  let closed := mkCurve 2 [mkLS 2 (fins [0; 0; 3; 4; 0; 0]%R) (fins [5; 5]%R)] in
  cv_boundary closed = Ret None /\ exists b, cv_boundary open_ = Ret (Some b).
Proof. exact boundary_example. Qed.

(** ** C48 points *)

Theorem C48_point_new : forall F (ops : FOps F) (pos : list F),
  (List.length pos = 2 \/ List.length pos = 3 ->
   exists P, point_new pos = Ret P /\ point_deref P = Ret pos /\ pt_coord_dim P = List.length pos) /\
  (List.length pos <> 2 -> List.length pos <> 3 -> point_new pos = Panic).
Proof. exact @point_new_deref. Qed.
Print Assumptions C48_point_new.

Theorem C48_point_eq : forall p q P Q, point_new (fins p) = Ret P -> point_new (fins q) = Ret Q ->
  (point_eq P Q = true <-> p = q).
Proof. exact point_eq_real. Qed.
Print Assumptions C48_point_eq.

Theorem C48_point_eq_f64 : forall (lm : libm) p q P Q, point_new (ops := F64ops lm) p = Ret P ->
  point_new (ops := F64ops lm) q = Ret Q ->
  (point_eq (ops := F64ops lm) P Q = true <-> Forall2 (fun x y => Beqb x y = true) p q).
Proof. exact point_eq_f64. Qed.
Print Assumptions C48_point_eq_f64.

(** Assignment through [DerefMut] changes the coordinate asked for and no other. *)
Theorem C48_point_set : forall F (ops : FOps F) (p : list F) P i v, point_new p = Ret P ->
  (i < List.length p -> exists P' p', point_set P i v = Ret P' /\ list_set p i v = Ret p' /\
   point_new p' = Ret P' /\ point_deref P' = Ret p') /\
  (List.length p <= i -> point_set P i v = Panic).
Proof. exact @point_set_spec. Qed.
Print Assumptions C48_point_set.

Theorem C48_geometry_types : forall F (P : Point F) (c : Curve F) d,
  gtype_dim (point_geometry_type P) = 0 /\ gtype_coord_dim (point_geometry_type P) = pt_coord_dim P /\
  point_is_cycle P = true /\
  gtype_dim (cv_geometry_type c) = 1 /\ gtype_coord_dim (cv_geometry_type c) = cv_coord_dim c /\
  gtype_dim (GSurface d) = 2 /\ gtype_coord_dim (GSurface d) = d /\
  gtype_dim GSolid = 3 /\ gtype_coord_dim GSolid = 3.
Proof. exact @geometry_types. Qed.
Print Assumptions C48_geometry_types.

Example C48_example : exists P Q, point_new (fins [1; 2]%R) = Ret P /\ point_new (fins [1; 2; 0]%R) = Ret Q /\
  point_eq P Q = false.
Proof. exact point_example. Qed.

(** ** C49 sampling *)

Theorem C49_s2_on_ellipsoid : forall a i m u x y z,
  (0 < a -> 1 < i -> m <> 0 -> u <> 0 -> x * x + y * y + z * z = 1 ->
  exists X Y Z l p,
  s2_to_xyz (Fin a) (Fin i) (Fin m) (Fin x) (Fin y) (Fin z) = (Fin (X / m), Fin (Y / m), Fin (Z / m)) /\
  s2_to_ll (Fin i) (Fin u) (Fin x) (Fin y) (Fin z) = (Fin (l / u), Fin (p / u)) /\
  - PI < l <= PI /\ - (PI / 2) <= p <= PI / 2 /\
  surface_point a (a * (1 - 1 / i)) p l (X, Y, Z))%R.
Proof. exact s2_spec. Qed.
Print Assumptions C49_s2_on_ellipsoid.

Theorem C49_s2_on_sphere : forall a m u x y z,
  (0 < a -> m <> 0 -> u <> 0 -> x * x + y * y + z * z = 1 ->
  exists X Y Z l p,
  s2_to_xyz (Fin a) PInf (Fin m) (Fin x) (Fin y) (Fin z) = (Fin (X / m), Fin (Y / m), Fin (Z / m)) /\
  s2_to_ll PInf (Fin u) (Fin x) (Fin y) (Fin z) = (Fin (l / u), Fin (p / u)) /\
  - PI < l <= PI /\ - (PI / 2) <= p <= PI / 2 /\
  surface_point a a p l (X, Y, Z))%R.
Proof. exact s2_spec_sphere. Qed.
Print Assumptions C49_s2_on_sphere.

Example C49_example :
  s2_to_xyz (Fin 10) (Fin 5) (Fin 1) (Fin (2/3)) (Fin (2/3)) (Fin (1/3)) =
    (Fin (20/3), Fin (20/3), Fin (8/3)) /\
  (2/3 * (2/3) + 2/3 * (2/3) + 1/3 * (1/3) = 1)%R.
Proof. exact s2_example. Qed.
