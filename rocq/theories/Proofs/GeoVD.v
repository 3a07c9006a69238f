(** Vincenty's direct solution: the sphere, zero length, convergence. *)
From Coq Require Import Reals Lra Psatz ZArith List Bool Lia.
From Coquelicot Require Import Coquelicot.
From Flocq Require Import Core.Raux.
From Verif.Num Require Import FOps RFun XR XRLemmas.
From Verif.Model Require Import Fp Quantities Complex Cs Ellipsoid Geodesics.
From Verif.Spec Require Import Angles Axes Shape Frames Sphere.
From Verif.Proofs Require Import AnglesX EllX SphereG SphereN GeoG GeoV.
Import ListNotations.
Local Open Scope R_scope.

Lemma vd_once B s1 s0 s : Rabs (Rvd B s1 s0 s - s) < / 10 ^ 12 ->
  vincenty_direct_loop MAX_ITERATIONS (Fin B) (Fin s1) (Fin s0) (Fin s) = Ok (Fin (Rvd B s1 s0 s)).
Proof.
  intros H. change MAX_ITERATIONS with (S 29). generalize 29%nat. intros n. cbn [vincenty_direct_loop]. pose proof (vd_next_fin B s1 s0 s) as N. unfold vd_next in N.
  rewrite N, tol12. apply tol_iff in H. now rewrite H.
Qed.
Lemma tol_pos : 0 < / 10 ^ 12. Proof. apply Rinv_0_lt_compat, pow_lt. lra. Qed.

(** the latitude of the end point *)
Lemma vlat_sphere a be al sg : 0 < a -> sin (vlat a a be al sg) = qz be al sg /\ cos (vlat a a be al sg) = end_cos be al sg.
Proof.
  intros A. unfold vlat. replace (a / a) with 1 by (field; lra). rewrite Rmult_1_l. apply lat_of_point; [apply Rhypot_ge_0|].
  rewrite end_cos_z. ring.
Qed.

Section Sphere.
Context (E : Ellipsoid XR) (a : R) (HE : shape E a a).
Lemma vbe_sphere p : - (PI / 2) < p < PI / 2 -> vbe a a p = p.
Proof. intros H. destruct HE as [? _]. unfold vbe. replace (a / a) with 1 by (field; lra). rewrite Rmult_1_l. apply atan_tan. lra. Qed.
Lemma vu_sphere p al : vu a a p al = 0.
Proof. unfold vu. replace (a * a - a * a) with 0 by ring. unfold Rdiv. ring. Qed.
Lemma vdir_sphere l p al s : - (PI / 2) < p < PI / 2 ->
  exists l2 p2 al2, vincenty_direct E (Fin l, Fin p) (Fin al) (Fin s) = Ok (mkGeodesic (Fin l, Fin p) (Fin al) (Fin l2, Fin p2) (Fin al2) (Fin s)) /\
    - PI <= l2 <= PI /\ - (PI / 2) <= p2 <= PI / 2 /\ - PI < al2 <= PI /\
    position l2 p2 = travel (position l p) (heading l p al) (s / a) /\
    (-1 < sin p2 < 1 -> heading l2 p2 al2 = course (position l p) (heading l p al) (s / a)).
Proof.
  intros Hp. pose proof (proj1 HE) as Ha. rewrite (vdir_fin E a a HE) by first [exact Hp | rewrite vu_sphere; unfold RA; lra].
  rewrite vu_sphere. replace (RA 0) with 1 by (unfold RA; lra). replace (RB 0) with 0 by (unfold RB; lra). rewrite Rmult_1_l.
  assert (S : Rvd 0 (vs1 a a p al) (s / a) (s / a) = s / a) by (unfold Rvd, Rdelta; ring).
  rewrite vd_once; rewrite S; [|rewrite Rminus_diag_eq by reflexivity; rewrite Rabs_R0; apply tol_pos].
  unfold vout. rewrite vbe_sphere by exact Hp. replace ((a - a) / a) with 0 by (field; lra).
  replace (Rdlon 0 (vq a a p al) (sa p al) (s / a) (vs1 a a p al)) with 0 by (unfold Rdlon; ring). rewrite Rminus_0_r.
  do 3 eexists. split; [reflexivity|]. destruct (vlat_sphere a p al (s / a)) as [Z C]; [lra|].
  destruct (Rwrap_spec (l + end_lon p al (s / a))) as (W1 & W2 & _).
  destruct (Rnorm_spec (end_az p al (s / a))) as (N1 & N2).
  split; [lra|]. split.
  - apply Ratan2_range_pos. replace (a / a) with 1 by (field; lra). rewrite Rmult_1_l. apply Rhypot_ge_0.
  - split; [lra|]. split.
    + rewrite (position_same _ _ _ W2). now apply arrival.
    + intros P. rewrite Z in P. rewrite (heading_same _ _ _ _ _ W2 N2). apply arrival_heading; [assumption..|]. now apply end_cos_nz.
Qed.
End Sphere.

Section Zero.
Context (E : Ellipsoid XR) (a b : R) (HE : shape E a b).
Let Hab : 0 < b <= a := proj1 HE.
Lemma vlat_start p al : - (PI / 2) < p < PI / 2 -> vlat a b (vbe a b p) al 0 = p.
Proof.
  intros Hp. pose proof (cos_nz p Hp) as C. unfold vlat, qz, end_cos, qx, qy. rewrite sin_0, cos_0.
  destruct (atan_scaled (b / a) p) as (r & R0 & C1 & S1); [apply Rdiv_lt_0_compat; lra|easy|]. fold (vbe a b p) in C1, S1.
  pose proof (cos_vbe_pos a b p) as CP.
  replace (Rhypot _ _) with (cos (vbe a b p)) by (symmetry; apply Rhypot_unique; [lra|ring]).
  apply (Ratan2_unique _ _ (b / a / r)); [repeat apply Rdiv_lt_0_compat; lra| | |lra].
  - rewrite C1. field. lra.
  - rewrite Rmult_1_r, Rmult_0_r, Rmult_0_l, Rplus_0_r. replace (b / a / r * sin p) with (b / a * sin p / r) by (field; lra). rewrite S1. field. lra.
Qed.
Lemma vdir_zero l p al : - PI <= l <= PI -> - (PI / 2) < p < PI / 2 -> RA (vu a b p al) <> 0 ->
  exists al2, vincenty_direct E (Fin l, Fin p) (Fin al) (Fin 0) = Ok (mkGeodesic (Fin l, Fin p) (Fin al) (Fin l, Fin p) (Fin al2) (Fin 0)) /\
   - PI < al2 <= PI /\ same_angle al2 al.
Proof.
  intros Hl Hp HA. rewrite (vdir_fin E a b HE) by assumption.
  replace (0 / (RA (vu a b p al) * b)) with 0 by (field; split; [lra|exact HA]).
  assert (S : Rvd (RB (vu a b p al)) (vs1 a b p al) 0 0 = 0) by (unfold Rvd, Rdelta; rewrite sin_0; ring).
  rewrite vd_once; rewrite S; [|rewrite Rminus_0_r, Rabs_R0; apply tol_pos].
  unfold vout. rewrite vlat_start by exact Hp. pose proof (cos_vbe_pos a b p) as CP.
  replace (end_lon (vbe a b p) al 0) with 0 by (unfold end_lon, qx, qy; rewrite sin_0, cos_0; symmetry; rewrite Rmult_0_l; apply Ratan2_0_pos; lra).
  replace (Rdlon _ _ _ 0 _) with 0 by (unfold Rdlon; rewrite sin_0; ring). rewrite Rminus_0_r, Rplus_0_r.
  unfold Rwrap. rewrite Rrem_id by (try apply Rabs_le; pose proof PI_pos; lra).
  eexists. split; [reflexivity|]. destruct (Rnorm_spec (end_az (vbe a b p) al 0)) as (N1 & N2). split; [exact N1|].
  eapply same_angle_trans; [exact N2|]. unfold end_az, wz, sa. rewrite sin_0, cos_0.
  replace (- sin (vbe a b p) * 0 + cos (vbe a b p) * 1 * cos al) with (cos (vbe a b p) * cos al) by ring. rewrite Ratan2_scale by exact CP.
  destruct (Ratan2_spec (sin al) (cos al)) as [X Y]. assert (H1 : Rhypot (cos al) (sin al) = 1) by (apply Rhypot_unique; [lra|pose proof (sc al); lra]).
  rewrite H1 in *. apply same_angle_trig; lra.
Qed.
End Zero.

(** Convergence *)
Lemma mul_bound k x : 0 <= k -> -1 <= x <= 1 -> - k <= k * x <= k.
Proof. nra. Qed.
Lemma Rdelta_trig B t th : Rdelta B (sin t) (cos t) (cos th) =
  B * (sin t * cos th) + B * B / 8 * (sin (2 * t) * cos (2 * th)) + B * B * B / 24 * (sin (3 * t) * cos (3 * th)).
Proof.
  replace (3 * t) with (2 * t + t) by ring. replace (3 * th) with (2 * th + th) by ring.
  rewrite (sin_plus (2 * t) t), (cos_plus (2 * th) th), !sin_2a, !cos_2a. unfold Rdelta.
  pose proof (sc t). pose proof (sc th).
  replace (sin th * sin th) with (1 - cos th * cos th) by lra.
  replace (2 * sin th * cos th * sin th) with (2 * cos th * (1 - cos th * cos th)) by (rewrite <- H0; ring).
  replace ((cos t * cos t - sin t * sin t) * sin t) with ((1 - 2 * (sin t * sin t)) * sin t) by (rewrite <- H; ring).
  replace (2 * sin t * cos t * cos t) with (2 * sin t * (1 - sin t * sin t)) by (rewrite <- H; ring). field.
Qed.
(** derivative of sin (k t) cos (k (c + t)) *)
Lemma wave_deriv k c t : is_derive (fun x : R => sin (k * x) * cos (k * (c + x))) t (k * cos (k * (c + 2 * t))).
Proof.
  auto_derive; [easy|]. replace (k * (c + 2 * t)) with (k * t + k * (c + t)) by ring. rewrite cos_plus. ring.
Qed.
Definition Rvd' (B s1 t : R) : R := B * cos (2 * s1 + 2 * t) + B * B / 4 * cos (2 * (2 * s1 + 2 * t)) + B * B * B / 8 * cos (3 * (2 * s1 + 2 * t)).
Lemma Rvd_deriv B s1 s0 t : is_derive (fun x : R => Rvd B s1 s0 x) t (Rvd' B s1 t).
Proof.
  apply is_derive_ext with (fun x : R => s0 + (B * (sin (1 * x) * cos (1 * (2 * s1 + x))) + B * B / 8 * (sin (2 * x) * cos (2 * (2 * s1 + x))) + B * B * B / 24 * (sin (3 * x) * cos (3 * (2 * s1 + x))))).
  { intros x. unfold Rvd. rewrite Rdelta_trig. rewrite !Rmult_1_l. reflexivity. }
  pose proof (wave_deriv 1 (2 * s1) t) as D1. pose proof (wave_deriv 2 (2 * s1) t) as D2. pose proof (wave_deriv 3 (2 * s1) t) as D3.
  auto_derive; [easy|]. unfold Rvd'. replace (1 * (2 * s1 + 2 * t)) with (2 * s1 + 2 * t) in D1 by ring.
  replace (2 * s1 + 2 * t) with (t + (2 * s1 + t)) by ring. rewrite !Rmult_plus_distr_l.
  replace (2 * t + (2 * (2 * s1) + 2 * t)) with (2 * t + (2 * (2 * s1) + 2 * t)) by ring. rewrite !cos_plus, !sin_plus.
  rewrite ?Rmult_1_l. field.
Qed.
Lemma Rvd'_bound B s1 t : 0 <= B <= / 10 -> Rabs (Rvd' B s1 t) <= / 9.
Proof.
  intros H. unfold Rvd'. pose proof (COS_bound (2 * s1 + 2 * t)). pose proof (COS_bound (2 * (2 * s1 + 2 * t))). pose proof (COS_bound (3 * (2 * s1 + 2 * t))).
  set (x := cos (2 * s1 + 2 * t)) in *. set (y := cos (2 * (2 * s1 + 2 * t))) in *. set (z := cos (3 * (2 * s1 + 2 * t))) in *. assert (0 <= B * B <= / 100) by nra. assert (0 <= B * B * B <= / 1000) by nra.
  apply Rabs_le. pose proof (mul_bound B x ltac:(lra) ltac:(lra)). pose proof (mul_bound (B * B) y ltac:(lra) ltac:(lra)). pose proof (mul_bound (B * B * B) z ltac:(lra) ltac:(lra)). lra.
Qed.
(** a function with derivative at most k contracts *)
Lemma lipschitz (f df : R -> R) (k : R) : (forall x, is_derive f x (df x)) -> (forall x, Rabs (df x) <= k) -> forall x y, Rabs (f x - f y) <= k * Rabs (x - y).
Proof.
  intros D B x y. destruct (MVT_gen f y x df) as (z & _ & M).
  - intros; apply D.
  - intros. apply continuity_pt_filterlim. apply (ex_derive_continuous (V := R_NormedModule)). eexists. apply D.
  - rewrite M, Rabs_mult. apply Rmult_le_compat_r; [apply Rabs_pos|apply B].
Qed.
Lemma iter_succ {A} n (f : A -> A) x : iter n f (f x) = f (iter n f x).
Proof. revert x. induction n; intros; cbn [iter]; auto. Qed.
Lemma contraction_steps f k x n : (forall x y, Rabs (f x - f y) <= k * Rabs (x - y)) -> 0 <= k ->
  Rabs (f (iter n f x) - iter n f x) <= k ^ n * Rabs (f x - x).
Proof.
  intros L K. induction n as [|n IH]; [cbn; lra|]. cbn [iter]. rewrite iter_succ. eapply Rle_trans; [apply L|]. cbn [pow]. nra.
Qed.
Lemma vd_converges B s1 s0 : 0 <= B <= / 10 -> exists sg,
  vincenty_direct_loop MAX_ITERATIONS (Fin B) (Fin s1) (Fin s0) (Fin s0) = Ok (Fin sg) /\ Rabs (sg - Rvd B s1 s0 sg) <= / 9 * / 10 ^ 12.
Proof.
  intros HB. pose proof (lipschitz (Rvd B s1 s0) (Rvd' B s1) (/ 9) (Rvd_deriv B s1 s0) (fun t => Rvd'_bound B s1 t HB)) as L.
  pose proof (vd_loop_fin B s1 s0 s0) as V. destruct (vincenty_direct_loop _ _ _ _ _) as [r|m].
  - destruct V as (k & x & K & _ & -> & T). eexists. split; [reflexivity|]. rewrite Rabs_minus_sym.
    eapply Rle_trans; [apply L|]. apply Rmult_le_compat_l; lra.
  - exfalso. specialize (V 20%nat ltac:(lia)). cbn zeta in V. pose proof (contraction_steps _ _ s0 20 L ltac:(lra)) as C.
    assert (Rabs (Rvd B s1 s0 s0 - s0) <= 1).
    { unfold Rvd. replace (s0 + _ - s0) with (Rdelta B (sin s0) (cos s0) (cos (2 * s1 + s0))) by ring. rewrite Rdelta_trig.
      assert (W : forall u v, -1 <= sin u * cos v <= 1) by (intros u v; pose proof (SIN_bound u); pose proof (COS_bound v); nra).
      pose proof (W s0 (2 * s1 + s0)). pose proof (W (2 * s0) (2 * (2 * s1 + s0))). pose proof (W (3 * s0) (3 * (2 * s1 + s0))).
      set (x := sin s0 * _) in *. set (y := sin (2 * s0) * _) in *. set (z := sin (3 * s0) * _) in *. assert (0 <= B * B <= / 100) by nra. assert (0 <= B * B * B <= / 1000) by nra.
      apply Rabs_le. pose proof (mul_bound B x ltac:(lra) ltac:(lra)). pose proof (mul_bound (B * B) y ltac:(lra) ltac:(lra)). pose proof (mul_bound (B * B * B) z ltac:(lra) ltac:(lra)). lra. }
    assert ((/ 9) ^ 20 < / 10 ^ 12) by (rewrite pow_inv; apply Rinv_lt_contravar; [|]; lra || (cbn [pow]; lra)). assert (0 < (/ 9) ^ 20) by (apply pow_lt; lra). nra.
Qed.
Lemma RB_small u : 0 <= u <= 2 / 5 -> 0 <= RB u <= / 10.
Proof. intros H. unfold RB. assert (0 <= u * u <= 4 / 25) by nra. assert (0 <= u * u * u <= 8 / 125) by nra. assert (0 <= u * u * u * u <= 16 / 625) by nra. split; nra. Qed.
Lemma RA_small u : 0 <= u <= 2 / 5 -> 1 <= RA u <= 6 / 5.
Proof. intros H. unfold RA. assert (0 <= u * u <= 4 / 25) by nra. assert (0 <= u * u * u <= 8 / 125) by nra. assert (0 <= u * u * u * u <= 16 / 625) by nra. split; nra. Qed.
Lemma vu_small a b p al : 0 < b <= a -> 9 * a <= 10 * b -> 0 <= vu a b p al <= 2 / 5.
Proof.
  intros H K. unfold vu, vq. pose proof (q01 (vbe a b p) al) as Q.
  assert (0 <= (a * a - b * b) / (b * b) <= 2 / 5).
  { split; [apply Rdiv_le_0_compat; nra|]. apply (Rmult_le_reg_r (b * b)); [nra|]. replace ((a * a - b * b) / (b * b) * (b * b)) with (a * a - b * b) by (field; lra). nra. }
  nra.
Qed.
