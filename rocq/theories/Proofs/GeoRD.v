(** Rapp's direct solution: the sphere, zero length, convergence. *)
From Coq Require Import Reals Lra Psatz ZArith List Bool Lia.
From Coquelicot Require Import Coquelicot.
From Flocq Require Import Core.Raux.
From Verif.Num Require Import FOps RFun XR XRLemmas.
From Verif.Model Require Import Fp Quantities Complex Cs Ellipsoid Geodesics.
From Verif.Spec Require Import Angles Axes Shape Frames Sphere Series.
From Verif.Proofs Require Import AnglesX EllX MathX SphereG SphereN GeoG GeoV GeoVD GeoR.
Import ListNotations.
Local Open Scope R_scope.

Lemma tol5_pos : 0 < 5 / 10 ^ 15.
Proof. apply Rdiv_lt_0_compat; [lra|]. apply pow_lt. lra. Qed.
Lemma rd_once b0 b2 b4 b6 s1 s0 : b0 <> 0 -> Rrd (b2 / b0) (b4 / b0) (b6 / b0) s1 s0 s0 = s0 ->
  rapp_direct_loop MAX_ITERATIONS (Fin b0) (Fin b2) (Fin b4) (Fin b6) (Fin s1) (Fin s0) (Fin s0) = Ok (mkRD (Fin s0) (Fin s0)).
Proof.
  intros B H. change MAX_ITERATIONS with (S 29). generalize 29%nat. intros n. rewrite rd_step by exact B. cbv zeta. rewrite H.
  rewrite Rminus_diag_eq, Rabs_R0, Rlt_bool_t by (reflexivity || apply tol5_pos). reflexivity.
Qed.

(** Rapp's formulas at the end of the arc *)
Section End.
Context (be al t : R) (C1 : 0 < cos be) (Q : -1 < qz be al t < 1).
Notation b2 := (asin (qz be al t)).
Lemma re_sin : sin b2 = qz be al t. Proof. apply sin_asin. lra. Qed.
Lemma re_pos : 0 < end_cos be al t. Proof. now apply end_cos_nz. Qed.
Lemma re_cos : cos b2 = end_cos be al t.
Proof. rewrite cos_asin by lra. unfold Rsqr. rewrite <- end_cos_z. apply sqrt_square. pose proof re_pos. lra. Qed.
Lemma re_lon : Ratan2 (rsl al t b2) (rcl be t b2) = end_lon be al t.
Proof.
  pose proof re_pos as P. unfold rsl, rcl, end_lon. rewrite re_sin, re_cos, <- node_qx, <- (Ratan2_scale (qy al t) (qx be al t) (/ end_cos be al t)) by (apply Rinv_0_lt_compat; lra).
  f_equal; unfold qy; field; lra.
Qed.
Lemma re_az : raz be b2 (rsl al t b2) (rcl be t b2) = Ratan2 (sin t / end_cos be al t * sa be al) (sin t / end_cos be al t * wz be al t).
Proof.
  pose proof re_pos as P. pose proof (end_cos_z be al t) as Z. unfold raz, rsl, rcl. rewrite re_sin, re_cos. f_equal.
  - unfold sa. field. lra.
  - replace (sin t / end_cos be al t * wz be al t) with ((sin t * wz be al t) / end_cos be al t) by (field; lra). rewrite back_sin.
    transitivity ((qz be al t * (cos t - sin be * qz be al t) - sin be * (end_cos be al t * end_cos be al t)) / end_cos be al t); [field; lra|]. rewrite Z. f_equal. ring.
Qed.
Lemma re_az_fwd : 0 < sin t -> raz be b2 (rsl al t b2) (rcl be t b2) = end_az be al t.
Proof. intros S. rewrite re_az. apply Ratan2_scale. apply Rdiv_lt_0_compat; [lra|apply re_pos]. Qed.
Lemma re_az_zero : sin t = 0 -> raz be b2 (rsl al t b2) (rcl be t b2) = 0.
Proof. intros S. rewrite re_az, S. unfold Rdiv. rewrite !Rmult_0_l. apply Ratan2_0_pos. lra. Qed.
Lemma re_az_back : sin t < 0 -> same_angle (raz be b2 (rsl al t b2) (rcl be t b2)) (end_az be al t + PI).
Proof.
  intros S. rewrite re_az. pose proof re_pos as P.
  replace (sin t / end_cos be al t * sa be al) with (- sin t / end_cos be al t * - sa be al) by (field; lra).
  replace (sin t / end_cos be al t * wz be al t) with (- sin t / end_cos be al t * - wz be al t) by (field; lra).
  rewrite Ratan2_scale by (apply Rdiv_lt_0_compat; lra). unfold end_az.
  destruct (Ratan2_spec (sa be al) (wz be al t)) as [X Y]. destruct (Ratan2_spec (- sa be al) (- wz be al t)) as [X' Y'].
  rewrite Rhypot_opp_l, Rhypot_opp_r in X', Y'. assert (H : Rhypot (wz be al t) (sa be al) <> 0) by (rewrite <- end_cos_sa; lra).
  apply same_angle_trig; [rewrite neg_sin|rewrite neg_cos]; apply (Rmult_eq_reg_l (Rhypot (wz be al t) (sa be al))); try exact H; lra.
Qed.
End End.

Section Sphere.
Context (E : Ellipsoid XR) (a : R) (HE : shape E a a).
Lemma rdir_sphere_fin l p al s : - (PI / 2) < p < PI / 2 -> -1 < qz p al (s / a) < 1 ->
  rapp_direct E (Fin l, Fin p) (Fin al) (Fin s) = Ok (mkGeodesic (Fin l, Fin p) (Fin al) (Fin (Rwrap (l + end_lon p al (s / a))), Fin (asin (qz p al (s / a))))
    (Fin (Rnorm (raz p (asin (qz p al (s / a))) (rsl al (s / a) (asin (qz p al (s / a)))) (rcl p (s / a) (asin (qz p al (s / a))))))) (Fin s)).
Proof.
  intros Hp Q. pose proof (proj1 HE) as Ha. pose proof (cos_nz p Hp) as CP.
  assert (U : vu a a p al = 0) by (unfold vu; replace (a * a - a * a) with 0 by ring; unfold Rdiv; ring).
  assert (B : vbe a a p = p) by (unfold vbe; replace (a / a) with 1 by (field; lra); rewrite Rmult_1_l; apply atan_tan; lra).
  assert (B0 : Rb0 0 = 1) by (unfold Rb0; field).
  pose proof (rdir_fin E a a HE l p al s Hp) as D. rewrite U, B, B0 in D. specialize (D ltac:(lra)). rewrite Rmult_1_l in D. rewrite rd_once in D.
  - rewrite D by exact Q. unfold rout, rbe2. cbv zeta. rewrite B. rewrite re_lon by assumption.
    replace (rdlon a a _ _ _ _ _) with 0.
    2:{ unfold rdlon, rax. replace ((a - a) / a) with 0 by (field; lra). ring. }
    rewrite Rminus_0_r. replace (Ratan2 (tan (asin (qz p al (s / a)))) (a / a)) with (asin (qz p al (s / a))); [reflexivity|].
    replace (a / a) with 1 by (field; lra). rewrite Ratan2_pos by lra. unfold Rdiv. rewrite Rinv_1, Rmult_1_r. symmetry. apply atan_tan. apply asin_bound_lt. exact Q.
  - lra.
  - unfold Rrd, Rb2, Rb4, Rb6. field. lra.
Qed.
Lemma rdir_sphere l p al s : - (PI / 2) < p < PI / 2 -> -1 < zcoord (travel (position l p) (heading l p al) (s / a)) < 1 ->
  exists l2 p2 al2, rapp_direct E (Fin l, Fin p) (Fin al) (Fin s) = Ok (mkGeodesic (Fin l, Fin p) (Fin al) (Fin l2, Fin p2) (Fin al2) (Fin s)) /\
    - PI <= l2 <= PI /\ - (PI / 2) < p2 < PI / 2 /\ - PI < al2 <= PI /\
    position l2 p2 = travel (position l p) (heading l p al) (s / a) /\
    (0 < sin (s / a) -> heading l2 p2 al2 = course (position l p) (heading l p al) (s / a)) /\
    (sin (s / a) < 0 -> heading l2 p2 al2 = vscale (-1) (course (position l p) (heading l p al) (s / a))) /\
    (sin (s / a) = 0 -> al2 = 0).
Proof.
  intros Hp Q. rewrite travel_eq in Q. cbn [zcoord] in Q. pose proof (cos_nz p Hp) as CP. rewrite rdir_sphere_fin by assumption. set (t := s / a) in *.
  do 3 eexists. split; [reflexivity|]. destruct (Rwrap_spec (l + end_lon p al t)) as (W1 & W2 & _).
  set (x := raz _ _ _ _). destruct (Rnorm_spec x) as (N1 & N2). pose proof (re_sin p al t Q) as S. pose proof (re_cos p al t Q) as C. pose proof (re_pos p al t Q) as P.
  split; [lra|]. split; [apply asin_bound_lt; exact Q|]. split; [exact N1|]. split; [|split; [|split]].
  - rewrite (position_same _ _ _ W2). now apply arrival.
  - intros Z. unfold x in N2. rewrite re_az_fwd in N2 by assumption. unfold x. rewrite re_az_fwd by assumption. rewrite (heading_same _ _ _ _ _ W2 N2). now apply arrival_heading.
  - intros Z. pose proof (same_angle_trans _ _ _ N2 (re_az_back p al t CP Q Z)) as N3. rewrite (heading_same _ _ _ _ _ W2 N3).
    rewrite <- (arrival_heading p al t l _ S C P). unfold heading. rewrite neg_cos, neg_sin. unfold vadd, vscale, north_of, east_of. apply R3_eq; ring.
  - intros Z. unfold x. rewrite re_az_zero by assumption. apply Rnorm_id. pose proof PI_pos. lra.
Qed.
End Sphere.

Section Zero.
Context (E : Ellipsoid XR) (a b : R) (HE : shape E a b).
Let Hab : 0 < b <= a := proj1 HE.
Lemma rdir_zero l p al : - PI <= l <= PI -> - (PI / 2) < p < PI / 2 -> Rb0 (vu a b p al) <> 0 ->
  rapp_direct E (Fin l, Fin p) (Fin al) (Fin 0) = Ok (mkGeodesic (Fin l, Fin p) (Fin al) (Fin l, Fin p) (Fin 0) (Fin 0)).
Proof.
  intros Hl Hp HB. pose proof (cos_vbe_pos a b p) as CP. pose proof (rdir_fin E a b HE l p al 0 Hp HB) as D.
  replace (0 / (Rb0 (vu a b p al) * b)) with 0 in D by (field; split; [lra|exact HB]). rewrite rd_once in D; [|exact HB|unfold Rrd; rewrite !Rmult_0_r, sin_0; ring].
  assert (Z0 : qz (vbe a b p) al 0 = sin (vbe a b p)) by (unfold qz; rewrite sin_0, cos_0; ring).
  assert (Q : -1 < qz (vbe a b p) al 0 < 1) by (rewrite Z0; pose proof (sc (vbe a b p)); nra).
  rewrite (D Q). unfold rout, rbe2. cbv zeta. rewrite re_lon, re_az_zero by (assumption || apply sin_0).
  replace (rdlon a b _ _ _ _ _) with 0 by (unfold rdlon, rax; rewrite !Rmult_0_r, sin_0; ring).
  replace (end_lon (vbe a b p) al 0) with 0 by (unfold end_lon, qx, qy; rewrite sin_0, cos_0; symmetry; rewrite Rmult_0_l; apply Ratan2_0_pos; lra).
  rewrite Rminus_0_r, Rplus_0_r. unfold Rwrap. rewrite Rrem_id by (try apply Rabs_le; pose proof PI_pos; lra).
  rewrite (Rnorm_id 0) by (pose proof PI_pos; lra). rewrite Z0. unfold vbe at 1. rewrite asin_sin by (pose proof (atan_bound' (b / a * tan p)); lra). rewrite tan_atan.
  replace (Ratan2 (b / a * tan p) (b / a)) with p; [reflexivity|].
  assert (0 < b / a) by (apply Rdiv_lt_0_compat; lra). rewrite Ratan2_pos by assumption. replace (b / a * tan p / (b / a)) with (tan p) by (field; lra). symmetry. apply atan_tan. lra.
Qed.
End Zero.

(** Convergence *)
Definition Rrd' (c2 c4 c6 s1 t : R) : R := - c2 * cos (2 * s1 + 2 * t) - 2 * c4 * cos (2 * (2 * s1 + 2 * t)) - 3 * c6 * cos (3 * (2 * s1 + 2 * t)).
Lemma Rrd_deriv c2 c4 c6 s1 s0 t : is_derive (fun x : R => Rrd c2 c4 c6 s1 s0 x) t (Rrd' c2 c4 c6 s1 t).
Proof.
  unfold Rrd. auto_derive; [easy|]. unfold Rrd'.
  replace (2 * s1 + 2 * t) with (t + (2 * s1 + t)) by ring. rewrite !Rmult_plus_distr_l, !cos_plus, !sin_plus. ring.
Qed.
Lemma rd_converges b0 b2 b4 b6 s1 s0 : b0 <> 0 -> Rabs (b2 / b0) + 2 * Rabs (b4 / b0) + 3 * Rabs (b6 / b0) <= / 9 -> exists sg old,
  rapp_direct_loop MAX_ITERATIONS (Fin b0) (Fin b2) (Fin b4) (Fin b6) (Fin s1) (Fin s0) (Fin s0) = Ok (mkRD (Fin sg) (Fin old)) /\
  sg = Rrd (b2 / b0) (b4 / b0) (b6 / b0) s1 s0 old /\ Rabs (sg - old) < 5 / 10 ^ 15.
Proof.
  intros B0 K. pose proof (rd_loop_fin MAX_ITERATIONS b0 b2 b4 b6 s1 s0 s0 B0) as V. destruct (rapp_direct_loop _ _ _ _ _ _ _ _) as [r|m].
  - destruct V as (sg & old & -> & A & B). eauto.
  - exfalso. specialize (V 20%nat ltac:(unfold MAX_ITERATIONS; lia)). cbn zeta in V. set (c2 := b2 / b0) in *. set (c4 := b4 / b0) in *. set (c6 := b6 / b0) in *.
    assert (M : forall c x, -1 <= x <= 1 -> - Rabs c <= c * x <= Rabs c).
    { intros c x X. pose proof (Rabs_pos c). unfold Rabs in *. destruct (Rcase_abs c); nra. }
    assert (L : forall x y, Rabs (Rrd c2 c4 c6 s1 s0 x - Rrd c2 c4 c6 s1 s0 y) <= / 9 * Rabs (x - y)).
    { apply (lipschitz (Rrd c2 c4 c6 s1 s0) (Rrd' c2 c4 c6 s1) (/ 9) (Rrd_deriv c2 c4 c6 s1 s0)). intros t. unfold Rrd'.
      pose proof (M c2 _ (COS_bound (2 * s1 + 2 * t))). pose proof (M c4 _ (COS_bound (2 * (2 * s1 + 2 * t)))). pose proof (M c6 _ (COS_bound (3 * (2 * s1 + 2 * t)))).
      apply Rabs_le. lra. }
    pose proof (contraction_steps _ _ s0 20 L ltac:(lra)) as C.
    assert (Rabs (Rrd c2 c4 c6 s1 s0 s0 - s0) <= 1).
    { unfold Rrd. assert (W : forall u v, -1 <= sin u * cos v <= 1) by (intros u v; pose proof (SIN_bound u); pose proof (COS_bound v); nra).
      pose proof (M c2 _ (W s0 (2 * s1 + s0))). pose proof (M c4 _ (W (2 * s0) (2 * (2 * s1 + s0)))). pose proof (M c6 _ (W (3 * s0) (3 * (2 * s1 + s0)))).
      pose proof (Rabs_pos c2). pose proof (Rabs_pos c4). pose proof (Rabs_pos c6). apply Rabs_le. lra. }
    assert ((/ 9) ^ 20 < 5 / 10 ^ 15) by (rewrite pow_inv; apply (Rlt_le_trans _ (/ 10 ^ 15)); [apply Rinv_lt_contravar; lra|lra]).
    assert (0 < (/ 9) ^ 20) by (apply pow_lt; lra). nra.
Qed.
Lemma Rb_small u : 0 <= u <= 2 / 5 -> 1 <= Rb0 u /\ Rabs (Rb2 u / Rb0 u) + 2 * Rabs (Rb4 u / Rb0 u) + 3 * Rabs (Rb6 u / Rb0 u) <= / 9.
Proof.
  intros H. assert (H2 : 0 <= u * u <= 4 / 25) by nra. assert (H3 : 0 <= u * u * u <= 8 / 125) by nra. assert (H4 : 0 <= u * u * u * u <= 16 / 625) by nra.
  assert (B0 : 1 <= Rb0 u) by (unfold Rb0; nra). split; [exact B0|].
  assert (D : forall x k, - k <= x <= k -> Rabs (x / Rb0 u) <= k).
  { intros x k K. assert (0 <= k) by lra. apply Rabs_le. assert (0 < / Rb0 u <= 1) by (split; [apply Rinv_0_lt_compat; lra|rewrite <- Rinv_1; apply Rinv_le_contravar; lra]). unfold Rdiv. split; nra. }
  pose proof (D (Rb2 u) (/ 10) ltac:(unfold Rb2; split; nra)). pose proof (D (Rb4 u) (1 / 500) ltac:(unfold Rb4; split; nra)). pose proof (D (Rb6 u) (1 / 1000) ltac:(unfold Rb6; split; nra)). lra.
Qed.
