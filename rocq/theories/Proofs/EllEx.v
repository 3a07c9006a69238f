(** Examples and findings for Props/Ellipsoid.v. *)
From Coq Require Import Reals Lra Lia ZArith Bool List Psatz String.
From Flocq Require Import Core IEEE754.BinarySingleNaN.
From Verif.Num Require Import FOps RFun XR XRLemmas F64 F64Lemmas.
From Verif.Model Require Import Fp Quantities Cs Ellipsoid.
From Verif.Spec Require Import Angles Axes Shape.
From Verif.Proofs Require Import AnglesX AnglesEx MathF AxesX EllX EllF DatumX.
Import ListNotations.
Local Open Scope R_scope.

(** A flattened ellipsoid with round numbers, and its surface at 45 degrees. *)
Lemma ex_shape : exists E, from_ab "" (Fin 5) (Fin 3) = Ret E /\ shape E 5 3 /\
  e_sq E = Fin (16 / 25) /\ ef E = Fin (2 / 5).
Proof.
  destruct (from_ab_ok "" 5 3 ltac:(lra)) as (E & R & S). exists E. split; [easy|]. split; [easy|].
  rewrite (e_sq_fin _ 5 3 S), (ef_fin _ 5 3 S). split; f_equal; lra.
Qed.
Lemma ex_wgs84 : exists a b, shape (WGS84 (F := XR)) a b /\ b < a /\ 9 * a < 10 * b.
Proof.
  destruct (ellipsoid_consts_exact WGS84) as (a & b & H1 & H2 & H3).
  { unfold ellipsoid_consts. cbn [In]. tauto. }
  now exists a, b.
Qed.

(** Points on or above the ellipsoid. *)
Lemma above_outside_core a b x y z : 0 < b <= a -> a * a < 2 * (b * b) ->
  1 <= (x * x + y * y) / (a * a) + z * z / (b * b) -> outside_core a b (x, y, z).
Proof.
  intros H C O. unfold outside_core.
  assert (A : 0 < a * a) by nra. assert (B : 0 < b * b) by nra.
  set (A2 := a * a) in *. set (B2 := b * b) in *. assert (B2 <= A2) by (unfold A2, B2; nra).
  set (r := x * x + y * y) in *. set (s := z * z) in *.
  assert (R0 : 0 <= r) by (unfold r; nra). assert (S0 : 0 <= s) by (unfold s; nra).
  clearbody A2 B2 r s.
  assert (O' : A2 * B2 <= r * B2 + s * A2).
  { apply Rmult_le_compat_r with (r := A2 * B2) in O; [|nra].
    replace ((r / A2 + s / B2) * (A2 * B2)) with (r * B2 + s * A2) in O by (field; lra). lra. }
  assert (B2 * B2 <= A2 * r + B2 * s).
  { apply Rmult_le_reg_r with A2; [easy|].
    assert (B2 * (A2 * B2) <= B2 * (r * B2 + s * A2)) by nra.
    assert (B2 * B2 * r <= A2 * A2 * r) by (apply Rmult_le_compat_r; nra). nra. }
  nra.
Qed.
Lemma not_deep a b p h : 0 < b <= a -> a * a < 2 * (b * b) -> 0 <= h ->
  (a * a - b * b) / gell a b p < b * b / gell a b p + h.
Proof.
  intros H C Hh. pose proof (gell_bound a b H p).
  assert (0 < (2 * (b * b) - a * a) / gell a b p) by (apply Rdiv_lt_0_compat; lra).
  replace (b * b / gell a b p) with ((a * a - b * b) / gell a b p + (2 * (b * b) - a * a) / gell a b p) by (field; lra).
  lra.
Qed.
Lemma to_llh_to_xyz' d a b m l p h : shape (d_ellipsoid d) a b -> pm_lon (d_pm d) = Fin m ->
  b < a -> a * a < 2 * (b * b) -> - PI < l < PI -> - (PI / 2) < p < PI / 2 -> 0 <= h ->
  exists P, llh_to_xyz d (llh3 l p h) = xyz P /\ xyz_to_llh d (xyz P) = llh3 l p h.
Proof.
  intros HE HM L C Hl Hp Hh. pose proof (proj1 HE) as Hab.
  destruct (deep_enough d a b m HE HM l p h L (not_deep a b p h Hab C Hh)) as [D O].
  destruct (to_llh_to_xyz d a b m HE HM l p h L ltac:(lra) D) as (P & E & Q).
  exists P. split; [easy|]. destruct (Q (O P E)) as (l' & R & R1 & R2). rewrite R.
  specialize (R2 Hp). f_equal. destruct (Req_dec l' (- PI)) as [Z|Z].
  - subst. exfalso. pose proof PI_pos. apply same_angle_sin in R2 as Ss. apply same_angle_cos in R2 as Cc.
    assert (l = PI); [|lra]. apply angle_unique; try lra.
    + rewrite <- Ss, sin_neg, sin_PI. ring.
    + rewrite <- Cc, cos_neg. easy.
  - apply same_angle_unique; lra || easy.
Qed.
Lemma to_xyz_to_llh' d a b m x y z : shape (d_ellipsoid d) a b -> pm_lon (d_pm d) = Fin m ->
  b < a -> a * a < 2 * (b * b) -> 1 <= (x * x + y * y) / (a * a) + z * z / (b * b) ->
  exists l p h, xyz_to_llh d (xyz (x, y, z)) = llh3 l p h /\ - PI <= l <= PI /\ - (PI / 2) <= p <= PI / 2 /\
  llh_to_xyz d (llh3 l p h) = xyz (x, y, z).
Proof.
  intros HE HM L C O. apply (to_xyz_to_llh d a b m HE HM); [easy|]. apply above_outside_core; trivial. apply HE.
Qed.

(** A sphere with a prime meridian at 90 E. *)
Lemma sphere_meridian_ignored : exists d m llh P, shape (d_ellipsoid d) 1 1 /\ pm_lon (d_pm d) = Fin m /\
  llh = llh3 0 0 0 /\ llh_to_xyz d llh = xyz P /\ ~ geodetic_point 1 1 0 (0 + m) 0 P.
Proof.
  destruct (from_ab_ok "" 1 1 ltac:(lra)) as (E & _ & S).
  exists (mkDatum "" E (mkPM "" (Fin (PI / 2)))), (PI / 2), (llh3 0 0 0), (1, 0, 0).
  split; [easy|]. split; [easy|]. split; [easy|].
  split.
  - rewrite (to_xyz_sph (mkDatum "" E (mkPM "" (Fin (PI / 2)))) 1 1 S) by easy. rewrite sin_0, cos_0. f_equal. f_equal; [f_equal|]; ring.
  - intros (x & y & z & Su & N). apply (surface_the 1 1 ltac:(lra)) in Su as (_ & Ey & _).
    unfold normal in N. cbv beta iota in N. injection N as N1 N2 N3.
    rewrite Rplus_0_l, sin_PI2, gell_sphere, cos_0 in * by lra. lra.
Qed.

(** The centre of the Earth. *)
Lemma centre_nan d a b : shape (d_ellipsoid d) a b -> b < a ->
  height (xyz_to_llh d (xyz (0, 0, 0))) = NaN.
Proof.
  intros HE L. unfold xyz_to_llh. rewrite (spherical_f _ a b HE L), (e_sq_fin _ a b HE), (proj1 (proj2 HE)).
  pose proof (proj1 HE) as Hab. set (e2 := (a * a - b * b) / (a * a)).
  assert (E2 : 0 < e2 < 1).
  { split; [apply Rdiv_lt_0_compat; nra|]. apply (e2_bound a b Hab). }
  assert (HY : Rhypot 0 0 = 0) by (unfold Rhypot; replace (0 * 0 + 0 * 0) with 0 by ring; apply sqrt_0).
  assert (K : vermeille_k (Fin e2) (Fin a) (Fin 0) (Fin 0) = Fin 0).
  { unfold vermeille_k, fpow3. xr. rewrite !(xdiv_fin _ a) by lra. xr. rewrite (xdiv_fin _ 6) by lra. xr.
    replace (0 / a) with 0 by (field; lra). rewrite ?Rmult_0_r, ?Rmult_0_l, ?Rmult_0_r, ?Rplus_0_l, ?Rmult_0_l, ?Rminus_0_l.
    set (r := - (e2 * e2) / 6). assert (R0 : r < 0) by (unfold r; nra).
    assert (R3 : 4 * (r * r * r) < 0).
    { assert (0 < (- r) * (- r) * (- r)) by (repeat apply Rmult_lt_0_compat; lra). nra. }
    clearbody r.
    rewrite (xdiv_fin _ (4 * (r * r * r))) by lra. xr.
    replace (0 / (4 * (r * r * r))) with 0 by (unfold Rdiv; ring).
    rewrite Rmult_0_l, xsqrt_fin, sqrt_0 by lra. xr. rewrite !Rplus_0_r.
    assert (T : Rcbrt 1 = 1).
    { pose proof (Rcbrt_cube 1). pose proof (Rcbrt_pos 1 ltac:(lra)). set (t := Rcbrt 1) in *.
      assert ((t - 1) * (t * t + t + 1) = 0) as Z by nra. apply Rmult_integral in Z as [Z|Z]; nra. }
    rewrite T. rewrite (xdiv_fin 1 1) by lra. xr.
    replace (r * (1 + 1 + 1 / 1)) with (3 * r) by field.
    assert (V : sqrt (3 * r * (3 * r)) = - (3 * r)).
    { replace (3 * r * (3 * r)) with ((- (3 * r)) * (- (3 * r))) by ring. apply sqrt_square. lra. }
    rewrite ?Rmult_0_r, ?Rplus_0_r. rewrite xsqrt_fin by nra. rewrite V. xr. rewrite (xdiv_fin _ (2 * - (3 * r))) by lra. xr.
    replace (e2 * (3 * r + - (3 * r) - 0) / (2 * - (3 * r))) with 0 by (field; lra).
    replace (3 * r + - (3 * r) + 0 * 0) with 0 by ring. rewrite xsqrt_fin, sqrt_0 by lra. xr. f_equal. ring. }
  unfold xyz. cbn [x_ y_ z_]. xr. rewrite HY, K. xr. rewrite (xdiv_fin _ (0 + e2)) by lra. xr.
  replace (0 * 0 / (0 + e2)) with 0 by (field; lra). rewrite HY. cbn [height].
  unfold xdiv. rewrite Req_bool_t by easy. unfold xinf_sign. rewrite Rlt_bool_f, Rlt_bool_t by lra.
  cbn [xmul]. unfold xinf_sign. rewrite !Rlt_bool_f by lra. cbn [xneg].
  now rewrite length_new_M.
Qed.

Lemma to_llh_to_xyz_deep d a b m l p h N : shape (d_ellipsoid d) a b -> pm_lon (d_pm d) = Fin m ->
  b < a -> - (PI / 2) <= p <= PI / 2 ->
  prime_vertical_radius (d_ellipsoid d) (Fin p) = Fin N -> (a * a - 2 * (b * b)) / (a * a) * N < h ->
  exists P l', llh_to_xyz d (llh3 l p h) = xyz P /\ xyz_to_llh d (xyz P) = llh3 l' p h /\
  - PI <= l' <= PI /\ (- (PI / 2) < p < PI / 2 -> same_angle l' l).
Proof.
  intros HE HM L Hp EN Hh. pose proof (proj1 HE) as Hab. pose proof (gell_bound a b Hab p) as G.
  rewrite (pvr_fin _ a b HE) in EN. apply Fin_inj in EN. subst N.
  destruct (deep_enough d a b m HE HM l p h L) as [D O].
  { replace ((a * a - 2 * (b * b)) / (a * a) * (a * a / gell a b p)) with
      ((a * a - b * b) / gell a b p - b * b / gell a b p) in Hh by (field; lra). lra. }
  destruct (to_llh_to_xyz d a b m HE HM l p h L Hp D) as (P & E & Q).
  destruct (Q (O P E)) as (l' & R). exists P, l'. easy.
Qed.
Lemma ex_datum : exists d a b, shape (d_ellipsoid d) a b /\ pm_lon (d_pm d) = Fin (PI / 6) /\ b < a /\
  a * a < 2 * (b * b) /\ 1 <= (3 * a * (3 * a) + 0 * 0) / (a * a) + 0 * 0 / (b * b).
Proof.
  destruct ex_wgs84 as (a & b & S & L & Q). exists (mkDatum "" WGS84 (mkPM "" (Fin (PI / 6)))), a, b.
  pose proof (proj1 S). split; [easy|]. split; [easy|]. split; [easy|]. split; [nra|].
  replace ((3 * a * (3 * a) + 0 * 0) / (a * a) + 0 * 0 / (b * b)) with 9 by (field; lra). lra.
Qed.
Lemma shape_inf_ok nm a : 0 < a -> exists E, from_ainvf nm (Fin a) PInf = Ret E /\ shape E a a.
Proof. exact (from_ainvf_inf nm a). Qed.
