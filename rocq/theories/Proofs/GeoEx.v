(** The geodesic solvers: totality, ranges, distances, examples. *)
From Coq Require Import String Reals Lra Psatz ZArith List Bool Lia.
From Flocq Require Import Core.Raux IEEE754.BinarySingleNaN.
From Verif.Num Require Import FOps RFun XR XRLemmas F64.
From Verif.Model Require Import Fp Quantities Complex Cs Ellipsoid Geodesics Projections Crs Geometry.
From Verif.Spec Require Import Angles Axes Shape Frames Sphere Settle Libm.
From Verif.Proofs Require Import AnglesX AxesX EllX EllF EllEx SphereG SphereN GeoG GeoV GeoVD GeoR GeoRD GeoK GeoKD GeoI GeoIS GeoEM GeoRI GeoF MapsEx.
Import ListNotations.
Local Open Scope R_scope.

Section T.
Context (E : Ellipsoid XR) (a b : R) (HE : shape E a b) (Hf : 9 * a <= 10 * b).
Let Hab : 0 < b <= a := proj1 HE.
Lemma end_cos_ge be al sg : 0 <= end_cos be al sg.
Proof. unfold end_cos. apply Rhypot_ge_0. Qed.
Lemma vdir_total l p al s : - (PI / 2) < p < PI / 2 ->
  exists l2 p2 al2, vincenty_direct E (Fin l, Fin p) (Fin al) (Fin s) = Ok (mkGeodesic (Fin l, Fin p) (Fin al) (Fin l2, Fin p2) (Fin al2) (Fin s)) /\
    - PI <= l2 <= PI /\ - (PI / 2) <= p2 <= PI / 2 /\ - PI < al2 <= PI.
Proof.
  intros Hp. pose proof (vu_small a b p al Hab Hf) as U. pose proof (RA_small _ U) as A. rewrite (vdir_fin E a b HE) by (assumption || lra).
  destruct (vd_converges _ (vs1 a b p al) (s / (RA (vu a b p al) * b)) (RB_small _ U)) as (sg & -> & _).
  unfold vout. do 3 eexists. split; [reflexivity|]. split; [apply Rwrap_spec|]. split; [|apply Rnorm_spec].
  unfold vlat. apply Ratan2_range_pos. apply Rmult_le_pos; [apply Rlt_le, Rdiv_lt_0_compat; lra|apply end_cos_ge].
Qed.
Lemma rdir_total l p al s : - (PI / 2) < p < PI / 2 -> exists g, rapp_direct E (Fin l, Fin p) (Fin al) (Fin s) = Ok g.
Proof.
  intros Hp. pose proof (vu_small a b p al Hab Hf) as U. destruct (Rb_small _ U) as [B0 B].
  destruct (rd_converges (Rb0 (vu a b p al)) (Rb2 (vu a b p al)) (Rb4 (vu a b p al)) (Rb6 (vu a b p al)) (arc1 (vbe a b p) al) (s / (Rb0 (vu a b p al) * b))) as (sg & old & L & _); [lra|exact B|].
  eapply (rdir_ok E a b HE); [exact Hp|lra|exact L].
Qed.
Lemma vinv_range l1 p1 l2 p2 g : vincenty_inverse E (Fin l1, Fin p1) (Fin l2, Fin p2) = Ok g ->
  exists al1 al2 s, g = mkGeodesic (Fin l1, Fin p1) (Fin al1) (Fin l2, Fin p2) (Fin al2) (Fin s) /\ - PI < al1 <= PI /\ - PI < al2 <= PI.
Proof.
  destruct (reduced_any E a b HE p1) as [b1 H1]. destruct (reduced_any E a b HE p2) as [b2 H2].
  rewrite (vinv_gen E a b HE _ _ _ _ _ _ H1 H2). destruct (Rloop _ _ _ _ _ _ _) as [[[x y] c]|]; [|discriminate]. intros I. injection I; intros <-.
  do 3 eexists. split; [reflexivity|]. split; apply Rnorm_spec.
Qed.
Lemma vdir_zero' l p al : - PI <= l <= PI -> - (PI / 2) < p < PI / 2 ->
  exists al2, vincenty_direct E (Fin l, Fin p) (Fin al) (Fin 0) = Ok (mkGeodesic (Fin l, Fin p) (Fin al) (Fin l, Fin p) (Fin al2) (Fin 0)) /\
   - PI < al2 <= PI /\ same_angle al2 al.
Proof. intros Hl Hp. apply (vdir_zero E a b HE); [exact Hl|exact Hp|]. pose proof (RA_small _ (vu_small a b p al Hab Hf)). lra. Qed.
Lemma rdir_zero' l p al : - PI <= l <= PI -> - (PI / 2) < p < PI / 2 ->
  rapp_direct E (Fin l, Fin p) (Fin al) (Fin 0) = Ok (mkGeodesic (Fin l, Fin p) (Fin al) (Fin l, Fin p) (Fin 0) (Fin 0)).
Proof. intros Hl Hp. apply (rdir_zero E a b HE); [exact Hl|exact Hp|]. pose proof (proj1 (Rb_small _ (vu_small a b p al Hab Hf))). lra. Qed.
End T.

(** distances of a geographic CRS with two axes *)
Lemma crs_dist_via {F} {ops : FOps F} id d ax c llh : crs_dim (GeographicCrs id d ax) = 2%nat -> List.length c = 2%nat -> gaxes_normalize ax c = Ret llh ->
  vincenty_inverse (d_ellipsoid d) (lon llh, lat llh) (lon llh, lat llh) = Err tt -> crs_dist (GeographicCrs id d ax) c c = Ret (Err tt).
Proof.
  intros D L N V. unfold crs_dist. rewrite L, ?D. cbn [Nat.eqb rassert]. rewrite N. cbn [obind]. rewrite ?D. cbn [Nat.eqb]. cbn [solve_inverse obind]. rewrite V. reflexivity.
Qed.
Lemma crs_dist_self id d ax a b buf l p h : shape (d_ellipsoid d) a b -> gaxes_dim ax = 2%nat -> List.length buf = 2%nat -> geo_reads ax buf l p h ->
  crs_dist (GeographicCrs id d ax) (map Fin buf) (map Fin buf) = Ret (Err tt).
Proof.
  intros HE HD HL HR. destruct (geo_normalize_any ax buf l p h [] HR) as (lw & pw & N & _). rewrite app_nil_r in N.
  eapply crs_dist_via; [exact HD|now rewrite map_length|exact N|]. cbn [lon lat]. apply (vinv_self _ a b HE).
Qed.
Lemma crs_dist_self_f64 (lm : libm) id (d : GeodeticDatum f64) ax c llh : nan_through lm -> zero_values lm ->
  crs_dim (GeographicCrs id d ax) = 2%nat -> List.length c = 2%nat -> gaxes_normalize (ops := F64ops lm) ax c = Ret llh -> is_finite (lon llh) = true ->
  crs_dist (ops := F64ops lm) (GeographicCrs id d ax) c c = Ret (Err tt).
Proof. intros Hn Hz D L N F. eapply crs_dist_via; [exact D|exact L|exact N|]. now apply v_self. Qed.
(** so repeating a vertex breaks the construction of a line *)
Lemma line_to_same {F} {ops : FOps F} (b : LineStringBuilder F) p : List.length p = lb_coord_dim b ->
  nth_pos (lb_coord_dim b) (lb_pos b) (n_pos (lb_coord_dim b) (lb_pos b) - 1) = Ret p -> crs_dist (lb_crs b) p p = Ret (Err tt) -> lsb_line_to b p = Ret (Err tt).
Proof. intros L N D. unfold lsb_line_to. rewrite L, Nat.eqb_refl, N. cbn [obind]. rewrite D. reflexivity. Qed.

(** opposite meridians, Rapp *)
Lemma rinv_opposite_wrong E a l1 p1 l2 p2 : shape E a a -> 0 <= p1 < PI / 2 -> - (PI / 2) < p2 < PI / 2 -> Rnorm (l2 - l1) = PI -> p1 + p2 < 0 ->
  exists s, rapp_inverse E (Fin l1, Fin p1) (Fin l2, Fin p2) = Ok (mkGeodesic (Fin l1, Fin p1) (Fin 0) (Fin l2, Fin p2) (Fin PI) (Fin s)) /\
   travel (position l1 p1) (heading l1 p1 0) (s / a) <> position l2 p2.
Proof.
  intros HE H1 H2 L S. pose proof (proj1 HE) as Ha. pose proof PI_pos as PP.
  assert (SN : sin (p1 + p2) < 0) by (apply sin_lt_0_var; lra).
  rewrite (rinv_opposite E a HE) by lra. rewrite Rle_bool_true by lra. eexists. split; [reflexivity|].
  replace (a * isg p1 p2 PI / a) with (isg p1 p2 PI) by (field; lra). intros T. apply (f_equal zcoord) in T.
  unfold travel, heading, position, north_of, east_of, vadd, vscale, zcoord in T. rewrite cos_0, sin_0 in T. destruct (isg_spec p1 p2 PI) as [SS CS]. rewrite SS, CS in T.
  assert (I : iss p1 p2 PI = - sin (p1 + p2)).
  { unfold iss, ew, ns. rewrite sin_PI, cos_PI. replace (_ + _) with (Rsqr (- sin (p1 + p2))) by (rewrite sin_plus; unfold Rsqr; ring). apply sqrt_Rsqr. lra. }
  rewrite I in T. unfold ics in T. rewrite cos_PI in T.
  assert (C1 : 0 < cos p1) by (apply cos_gt_0; lra). pose proof (sc p1) as Q. rewrite sin_plus in T, SN.
  assert (K : - 2 * (cos p1 * (sin p1 * cos p2 + cos p1 * sin p2)) = 0); [|assert (0 < cos p1 * - (sin p1 * cos p2 + cos p1 * sin p2)) by (apply Rmult_lt_0_compat; lra); lra].
  assert (T' : (sin p1 * sin p1) * sin p2 - 2 * (sin p1 * cos p1 * cos p2) - (cos p1 * cos p1) * sin p2 - sin p2 = 0) by lra.
  replace (sin p1 * sin p1) with (1 - cos p1 * cos p1) in T' by lra. lra.
Qed.
Lemma rinv_opposite_right E a l1 p1 l2 p2 : shape E a a -> - (PI / 2) < p1 < PI / 2 -> - (PI / 2) < p2 < PI / 2 -> Rnorm (l2 - l1) = PI ->
  (0 <= p1 /\ 0 < p1 + p2 \/ p1 < 0 /\ p1 + p2 < 0) ->
  exists al1 al2 s, rapp_inverse E (Fin l1, Fin p1) (Fin l2, Fin p2) = Ok (mkGeodesic (Fin l1, Fin p1) (Fin al1) (Fin l2, Fin p2) (Fin al2) (Fin s)) /\
   0 < s < PI * a /\ travel (position l1 p1) (heading l1 p1 al1) (s / a) = position l2 p2 /\ course (position l1 p1) (heading l1 p1 al1) (s / a) = heading l2 p2 al2.
Proof.
  intros HE H1 H2 L S. pose proof (proj1 HE) as Ha. pose proof PI_pos as PP.
  assert (SN : sin (p1 + p2) <> 0) by (destruct S as [[_ S]|[_ S]]; [pose proof (sin_gt_0 (p1 + p2)); lra|pose proof (sin_lt_0_var (p1 + p2)); lra]).
  assert (HS : iss p1 p2 (Rnorm (l2 - l1)) <> 0).
  { rewrite L. intros Z. pose proof (iss_sq p1 p2 PI) as Q. rewrite Z in Q. unfold ew, ns in Q. rewrite sin_PI, cos_PI in Q. rewrite sin_plus in SN. nra. }
  rewrite (rinv_opposite E a HE) by assumption. pose proof (sphere_route l1 p1 l2 p2 H1 H2 HS) as [T C]. rewrite L in *.
  assert (AZ : iaz1 p1 p2 PI = (if Rle_bool 0 p1 then 0 else PI) /\ iaz2 p1 p2 PI = (if Rle_bool 0 p1 then PI else 0)).
  { unfold iaz1, iaz2, ew, ns. rewrite sin_PI, cos_PI, !Rmult_0_r.
    replace (cos p1 * sin p2 - sin p1 * cos p2 * -1) with (sin (p1 + p2)) by (rewrite sin_plus; ring). replace (- sin p1 * cos p2 + cos p1 * sin p2 * -1) with (- sin (p1 + p2)) by (rewrite sin_plus; ring).
    destruct S as [[P S]|[P S]].
    - assert (0 < sin (p1 + p2)) by (apply sin_gt_0; lra). rewrite Rle_bool_true by lra. rewrite Ratan2_0_pos, Ratan2_0_neg by lra. tauto.
    - assert (sin (p1 + p2) < 0) by (apply sin_lt_0_var; lra). rewrite Rle_bool_false by lra. rewrite Ratan2_0_neg, Ratan2_0_pos by lra. tauto. }
  destruct AZ as [A1 A2]. rewrite A1 in T, C. rewrite A2 in C. pose proof (isg_bound p1 p2 PI) as B. destruct (isg_spec p1 p2 PI) as [S' _].
  assert (isg p1 p2 PI <> 0) by (intros Z; rewrite Z, sin_0 in S'; lra). assert (isg p1 p2 PI <> PI) by (intros Z; rewrite Z, sin_PI in S'; lra).
  exists (if Rle_bool 0 p1 then 0 else PI), (if Rle_bool 0 p1 then PI else 0), (a * isg p1 p2 PI). replace (a * isg p1 p2 PI / a) with (isg p1 p2 PI) by (field; lra).
  split; [destruct (Rle_bool 0 p1); reflexivity|]. split; [split; nra|]. split; assumption.
Qed.
(** the great circle one leaves along the meridian *)
Lemma rinv_same_meridian E a l p1 p2 : shape E a a -> - (PI / 2) < p1 < PI / 2 -> - (PI / 2) < p2 < PI / 2 -> p1 <> p2 ->
  exists al1 al2 s, rapp_inverse E (Fin l, Fin p1) (Fin l, Fin p2) = Ok (mkGeodesic (Fin l, Fin p1) (Fin al1) (Fin l, Fin p2) (Fin al2) (Fin s)) /\
   0 < s < PI * a /\ travel (position l p1) (heading l p1 al1) (s / a) = position l p2 /\ course (position l p1) (heading l p1 al1) (s / a) = heading l p2 al2.
Proof.
  intros HE H1 H2 N. pose proof (proj1 HE) as Ha. pose proof PI_pos as PP. rewrite (rinv_meridian E a HE) by assumption. cbv zeta. do 3 eexists. split; [reflexivity|].
  assert (D : 0 < Rabs (p2 - p1) < PI) by (split; [apply Rabs_pos_lt; lra|apply Rabs_def1; lra]).
  split; [split; nra|]. replace (a * Rabs (p2 - p1) / a) with (Rabs (p2 - p1)) by (field; lra).
  unfold travel, course, heading, position, north_of, east_of, vadd, vscale. destruct (Rlt_bool_spec p1 p2) as [L|L].
  - rewrite Rabs_pos_eq by lra. rewrite cos_0, sin_0. assert (P : exists d, p2 = p1 + d) by (exists (p2 - p1); ring). destruct P as [d ->]. replace (p1 + d - p1) with d by ring. rewrite cos_plus, sin_plus. pose proof (sc p1). split; apply R3_eq; ring.
  - rewrite Rabs_left by lra. rewrite cos_PI, sin_PI. assert (P : exists d, p2 = p1 - d) by (exists (p1 - p2); ring). destruct P as [d ->]. replace (- (p1 - d - p1)) with d by ring. rewrite cos_minus, sin_minus. pose proof (sc p1). split; apply R3_eq; ring.
Qed.

(** ** examples *)
Lemma ex_ball : exists E, from_ainvf "" (Fin 6371000) PInf = Ret E /\ shape E 6371000 6371000 /\
  travel (position 0 0) (heading 0 0 (PI / 2)) (PI / 2) = position (PI / 2) 0 /\ zcoord (position (PI / 2) 0) = 0.
Proof.
  destruct (ex_sphere 6371000 ltac:(lra)) as (E & R & S). exists E. split; [exact R|]. split; [exact S|]. split; [|unfold zcoord, position; apply sin_0].
  unfold travel, heading, position, north_of, east_of, vadd, vscale. rewrite sin_0, cos_0, sin_PI2, cos_PI2. apply R3_eq; ring.
Qed.
Lemma ex_apart : position 0 0 <> position (PI / 2) 0 /\ position 0 0 <> vscale (-1) (position (PI / 2) 0) /\ sin (PI / 2 - 0) <> 0.
Proof.
  unfold position, vscale. rewrite sin_0, cos_0, sin_PI2, cos_PI2. rewrite Rminus_0_r, sin_PI2. repeat split; try lra; intros H; injection H; intros; lra.
Qed.
Lemma ex_wgs84_equator : exists a b, shape (WGS84 (F := XR)) a b /\ 9 * a <= 10 * b /\ 2 * a <= 3 * b /\ a <= 2 * b /\
  0 < Rabs (Rnorm (PI / 2 - 0)) < b / a * PI.
Proof.
  destruct ex_wgs84 as (a & b & S & L & Q). exists a, b. pose proof (proj1 S) as P. pose proof PI_pos as PP. repeat split; try (apply S || lra).
  - rewrite Rnorm_id by lra. apply Rabs_pos_lt. lra.
  - rewrite Rnorm_id by lra. rewrite Rabs_pos_eq by lra. assert (9 / 10 < b / a) by (apply (Rmult_lt_reg_r a); [lra|]; unfold Rdiv; rewrite (Rmult_assoc b), Rinv_l; lra). nra.
Qed.
Lemma ex_wgs84_antipodal : exists a b, shape (WGS84 (F := XR)) a b /\ a <= 2 * b /\ b / a * PI + / 10 ^ 12 <= Rabs (Rnorm (PI - 0)).
Proof.
  pose proof (def_ainvf_shape "WGS 84" 6378137 (298257223563 / 1000000000) ltac:(lra) ltac:(lra)) as S. do 2 eexists. split.
  { change (WGS84 (F := XR)) with (def_ainvf (F := XR) "WGS 84" (Fin (Rlit 6378137 0)) (Fin (Rlit 298257223563 9))). replace (Rlit 6378137 0) with 6378137 by (unfold Rlit; lra). exact S. }
  split; [lra|]. rewrite Rminus_0_r, Rnorm_id by (pose proof PI_pos; lra). pose proof PI_RGT_0. rewrite Rabs_pos_eq by lra. pose proof PI2_3_2 as P3.
  replace (6378137 * _ / 6378137) with (1 - 1000000000 / 298257223563) by field. lra.
Qed.
Lemma ex_libm_zero : exists lm, nan_through lm /\ zero_values lm.
Proof.
  pose (nn := fun _ : f64 => B754_nan : f64). pose (n2 := fun _ _ : f64 => B754_nan : f64).
  exists {| lm_sin := fun x => x; lm_cos := fun x => if is_nan x then B754_nan else f64_ofZ 1; lm_tan := nn; lm_asin := nn; lm_atan := nn;
    lm_atan2 := fun y x => if is_nan x then B754_nan else y; lm_hypot := n2; lm_cbrt := nn;
    lm_powf := n2; lm_exp := nn; lm_ln := nn; lm_sinh := nn; lm_cosh := nn; lm_tanh := nn; lm_asinh := nn; lm_atanh := nn |}.
  split.
  - unfold nan_through. cbn [lm_sin lm_cos lm_tan lm_asin lm_atan lm_exp lm_ln lm_sinh lm_cosh lm_tanh lm_asinh lm_atanh]. repeat constructor.
  - unfold zero_values. cbn [lm_sin lm_cos lm_atan2]. repeat split; try reflexivity.
    + intros x N _. now rewrite N.
    + intros x. now destruct (is_nan x).
Qed.
