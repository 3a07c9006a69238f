(** Concrete cases for the properties of points, line strings and curves. *)
From Coq Require Import Reals Lra List Bool ZArith String.
From Flocq Require Import Core IEEE754.BinarySingleNaN.
From Verif.Num Require Import FOps RFun XR XRLemmas F64 F64Lemmas.
From Verif.Model Require Import Fp Quantities Cs Ellipsoid Geodesics Projections Crs Geometry.
From Verif.Spec Require Import Lines Shape.
From Verif.Proofs Require Import AnglesX AxesX LinesG LinesX EqS2.
Import ListNotations.

Definition plane {F} {ops : FOps F} : Crs F :=
  ProjectedCrs "plane" (mkDatum "d" WGS84 GREENWICH) (PEastNorth M) (SUTMNorth 31).

(** ** binary64: a line of the builder whose own length is out of the range of [param] *)
Section F64.
Variable lm : libm.
#[local] Instance ops : FOps f64 := F64ops lm.
Lemma dist_plane_f64 (x y x' y' dx dy d r : f64) :
  Bminus mode_NE (length_new x M) (length_new x' M) = dx ->
  Bminus mode_NE (length_new y M) (length_new y' M) = dy ->
  lm_hypot lm dx dy = d -> lm_hypot lm d (B754_zero false) = r ->
  crs_dist plane [x; y] [x'; y'] = Ret (Ok r).
Proof.
  intros <- <- <- <-.
  cbn [crs_dist plane crs_dim paxes_dim List.length Nat.eqb rassert paxes_normalize index nth_error obind].
  do 2 f_equal.
Qed.
Lemma built_param_length_panics :
  (forall x, lm_hypot lm x (B754_zero false) = Babs x /\ lm_hypot lm (B754_zero false) x = Babs x) ->
  exists b0 b,
  lsb_with_line plane [f_0; f_0] [f_1; f_0] = Ret (Ok b0) /\
  line_tos b0 [[f_1; f_small]] = Ret (Ok b) /\
  ls_len (lsb_build b) = [f_1; f_small] /\
  ls_param (lsb_build b) (ls_length (lsb_build b)) = Panic.
Proof.
  intros HH. eexists _, (mkLSB plane 2 [f_0; f_0; f_1; f_0; f_1; f_small] [f_1; f_small]).
  assert (E1 : crs_dist plane [f_0; f_0] [f_1; f_0] = Ret (Ok f_1)).
  { apply dist_plane_f64 with (Bopp f_1) (B754_zero false) f_1.
    - apply B2SF_inj; vm_compute; reflexivity.
    - apply B2SF_inj; vm_compute; reflexivity.
    - rewrite (proj1 (HH _)). apply B2SF_inj; vm_compute; reflexivity.
    - rewrite (proj1 (HH _)). apply B2SF_inj; vm_compute; reflexivity. }
  assert (E2 : crs_dist plane [f_1; f_0] [f_1; f_small] = Ret (Ok f_small)).
  { apply dist_plane_f64 with (B754_zero false) (Bopp f_small) f_small.
    - apply B2SF_inj; vm_compute; reflexivity.
    - apply B2SF_inj; vm_compute; reflexivity.
    - rewrite (proj2 (HH _)). apply B2SF_inj; vm_compute; reflexivity.
    - rewrite (proj1 (HH _)). apply B2SF_inj; vm_compute; reflexivity. }
  split; [|split; [|split]].
  - unfold lsb_with_line. rewrite E1. cbn [obind]. unfold lsb_new, rassert.
    cbn [crs_dim plane paxes_dim List.length app]. reflexivity.
  - cbn [line_tos]. unfold lsb_line_to.
    cbn [lb_coord_dim lb_pos lb_len lb_crs crs_dim paxes_dim List.length Nat.eqb].
    change (nth_pos 2 [f_0; f_0; f_1; f_0] (n_pos 2 [f_0; f_0; f_1; f_0] - 1)) with (Ret [f_1; f_0]).
    cbn [app obind]. rewrite E2. reflexivity.
  - reflexivity.
  - vm_compute. reflexivity.
Qed.
End F64.

(** ** exact arithmetic: (0,0), (3,4), (3,10) *)
Local Open Scope R_scope.
Lemma dist_plane x y x' y' d : 0 <= d -> (x' - x) * (x' - x) + (y' - y) * (y' - y) = d * d ->
  crs_dist plane (fins [x; y]) (fins [x'; y']) = Ret (Ok (Fin d)).
Proof.
  intros Hd E.
  cbn [crs_dist plane crs_dim paxes_dim List.length Nat.eqb rassert paxes_normalize index nth_error obind fins map].
  do 2 f_equal. unfold enh_dist_to. cbn [easting northing eheight]. rewrite ?length_new_M. xr.
  f_equal. apply Rhypot_unique; [easy|]. rewrite Rhypot_sq. rewrite <- E. ring.
Qed.
Lemma exact_built : exists b0 b,
  lsb_with_line plane (fins [0; 0]) (fins [3; 4]) = Ret (Ok b0) /\
  line_tos b0 [fins [3; 10]] = Ret (Ok b) /\
  let l := lsb_build b in
  has_positions l (map fins [[0; 0]; [3; 4]; [3; 10]]) /\ ls_len l = fins [5; 6] /\
  ls_param l (Fin 8) = Ret (fins [3; 7]).
Proof.
  set (b1 := mkLSB (plane (ops := XRops)) 2 (fins [0; 0; 3; 4]) (fins [5])).
  set (b2 := mkLSB (plane (ops := XRops)) 2 (fins [0; 0; 3; 4; 3; 10]) (fins [5; 6])).
  assert (E1 : lsb_with_line plane (fins [0; 0]) (fins [3; 4]) = Ret (Ok b1)).
  { unfold lsb_with_line. rewrite (dist_plane 0 0 3 4 5) by lra. reflexivity. }
  assert (E2 : line_tos b1 [fins [3; 10]] = Ret (Ok b2)).
  { cbn [line_tos]. unfold lsb_line_to, b1.
    cbn [lb_coord_dim lb_pos lb_len lb_crs crs_dim paxes_dim plane List.length Nat.eqb n_pos Nat.div Nat.divmod fst
         app Nat.sub nth_pos slice Nat.mul Nat.add Nat.leb andb firstn skipn obind fins map].
    fold (plane (ops := XRops)). change [Fin 3; Fin 4] with (fins [3; 4]).
    change [Fin 3; Fin 10] with (fins [3; 10]). rewrite (dist_plane 3 4 3 10 6) by lra. reflexivity. }
  exists b1, b2. split; [easy|]. split; [easy|]. cbn zeta.
  destruct (build_spec _ _ _ _ _ _ E1 E2) as (P & _).
  split; [easy|]. split; [easy|].
  rewrite (ls_param_at (lsb_build b2) [[0;0];[3;4];[3;10]] [5;6] P eq_refl 8 1 (1/2) [3;4] [3;10]); try easy.
  - do 2 f_equal. cbn. f_equal; [field|f_equal; field].
  - unfold total; cbn; lra.
  - change (ls_len (lsb_build b2)) with [Fin 5; Fin 6]. cbn [ls_locate]. xr.
    rewrite Rle_bool_f by lra. rewrite Rle_bool_t by lra. rewrite xdiv_fin by lra. f_equal. f_equal. field.
Qed.
Lemma curve_example : exists b0 b,
  cvb_with_seg plane (mkLS 2 (fins [0; 0; 3; 4]) (fins [5])) = Ok b0 /\
  appends b0 [mkLS 2 (fins [3; 4; 3; 10]) (fins [6])] = Ret (Ok b) /\
  cv_end (cvb_build b) = Ret (fins [3; 10]).
Proof.
  eexists. exists (mkCVB plane 2 [mkLS 2 (fins [0; 0; 3; 4]) (fins [5]); mkLS 2 (fins [3; 4; 3; 10]) (fins [6])]).
  split; [reflexivity|]. split; [|reflexivity]. cbn [appends]. unfold cvb_append.
  cbn [cvb_coord_dim crs_dim plane paxes_dim ls_coord_dim Nat.eqb negb cvb_seg].
  change (last_unwrap [mkLS 2 (fins [0; 0; 3; 4]) (fins [5])]) with (Ret (mkLS 2 (fins [0; 0; 3; 4]) (fins [5]))).
  cbn [obind].
  change (ls_end (mkLS 2 (fins [0; 0; 3; 4]) (fins [5]))) with (Ret (fins [3; 4])).
  change (ls_start (mkLS 2 (fins [3; 4; 3; 10]) (fins [6]))) with (Ret (fins [3; 4])).
  cbn [obind fins map pos_eq feq XRops xeq]. rewrite !Req_bool_t by easy. reflexivity.
Qed.
Lemma boundary_example :
  let open_ := mkCurve 2 [mkLS 2 (fins [0; 0; 3; 4]) (fins [5])] in
  let closed := mkCurve 2 [mkLS 2 (fins [0; 0; 3; 4; 0; 0]) (fins [5; 5])] in
  cv_boundary closed = Ret None /\ exists b, cv_boundary open_ = Ret (Some b).
Proof.
  unfold cv_boundary, cv_is_cycle. cbn -[Req_bool]. rewrite !Req_bool_t by easy.
  rewrite (Req_bool_f 0 3) by lra. split; [easy|]. eexists. reflexivity.
Qed.
Lemma geometry_types F (P : Point F) (c : Curve F) d :
  gtype_dim (point_geometry_type P) = 0%nat /\ gtype_coord_dim (point_geometry_type P) = pt_coord_dim P /\
  point_is_cycle P = true /\
  gtype_dim (cv_geometry_type c) = 1%nat /\ gtype_coord_dim (cv_geometry_type c) = cv_coord_dim c /\
  gtype_dim (GSurface d) = 2%nat /\ gtype_coord_dim (GSurface d) = d /\
  gtype_dim GSolid = 3%nat /\ gtype_coord_dim GSolid = 3%nat.
Proof. repeat split. Qed.
Lemma point_example : exists P Q, point_new (fins [1; 2]) = Ret P /\ point_new (fins [1; 2; 0]) = Ret Q /\
  point_eq P Q = false.
Proof. eexists _, _. repeat split. Qed.
Lemma s2_example :
  s2_to_xyz (Fin 10) (Fin 5) (Fin 1) (Fin (2/3)) (Fin (2/3)) (Fin (1/3)) =
    (Fin (20/3), Fin (20/3), Fin (8/3)) /\
  2/3 * (2/3) + 2/3 * (2/3) + 1/3 * (1/3) = 1.
Proof.
  split; [|lra]. unfold s2_to_xyz. xr. rewrite !xdiv_fin by lra. xr. rewrite !xdiv_fin by lra.
  f_equal; [f_equal|]; f_equal; field.
Qed.
