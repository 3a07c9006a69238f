(** Vincenty's direct solution in exact arithmetic. *)
From Coq Require Import Reals Lra Psatz ZArith List Bool Lia.
From Flocq Require Import Core.Raux.
From Verif.Num Require Import FOps RFun XR XRLemmas.
From Verif.Model Require Import Fp Quantities Complex Cs Ellipsoid Geodesics.
From Verif.Spec Require Import Angles Axes Shape Frames Sphere.
From Verif.Proofs Require Import AnglesX EllX SphereG GeoG.
Import ListNotations.
Local Open Scope R_scope.

Definition RA (u : R) : R := 1 + u / 16384 * (4096 + u * (- 768 + u * (320 - 175 * u))).
Definition RB (u : R) : R := u / 1024 * (256 + u * (- 128 + u * (74 - 47 * u))).
Definition Rdelta (B s c m : R) : R :=
  B * s * (m + B / 4 * (c * (- 1 + 2 * (m * m)) - B / 6 * m * (- 3 + 4 * (s * s)) * (- 3 + 4 * (m * m)))).
Definition Rvd (B s1 s0 s : R) : R := s0 + Rdelta B (sin s) (cos s) (cos (2 * s1 + s)).
Definition RC (f q : R) : R := f / 16 * q * (4 + f * (4 - 3 * q)).
Definition Rdlon (f q sa s s1 : R) : R :=
  (1 - RC f q) * f * sa * (s + RC f q * sin s * (cos (2 * s1 + s) + RC f q * cos s * (- 1 + 2 * (cos (2 * s1 + s) * cos (2 * s1 + s))))).

Lemma tol12 : flit 1 12 = Fin (/ 10 ^ 12).
Proof. cbn -[pow]. unfold Rlit. f_equal. cbn [Pos.to_nat]. lra. Qed.

Lemma vA_fin u : vincenty_A (Fin u) = Fin (RA u).
Proof. unfold vincenty_A, RA. xr. rewrite xdiv_fin by lra. xr. f_equal; lra. Qed.
Lemma vB_fin u : vincenty_B (Fin u) = Fin (RB u).
Proof. unfold vincenty_B, RB. xr. rewrite xdiv_fin by lra. xr. f_equal; lra. Qed.
Lemma vdelta_fin B s c m : vincenty_delta_sigma (Fin B) (Fin s) (Fin c) (Fin m) = Fin (Rdelta B s c m).
Proof. unfold vincenty_delta_sigma, Rdelta. xr. rewrite !xdiv_fin by lra. xr. f_equal; lra. Qed.
Lemma vd_next_fin B s1 s0 s : vd_next (Fin B) (Fin s1) (Fin s0) (Fin s) = Fin (Rvd B s1 s0 s).
Proof. unfold vd_next, Rvd. rewrite angle_new_RAD. xr. rewrite vdelta_fin. xr. reflexivity. Qed.
Lemma vd_iter_fin n B s1 s0 s : iter n (vd_next (Fin B) (Fin s1) (Fin s0)) (Fin s) = Fin (iter n (Rvd B s1 s0) s).
Proof. revert s. induction n as [|n IH]; intros s; [reflexivity|]. cbn [iter]. now rewrite vd_next_fin, IH. Qed.
Lemma tol_iff k x y : flt (fabs (fsub (Fin x) (Fin y))) (Fin k) = true <-> Rabs (x - y) < k.
Proof. xr. destruct (Rlt_bool_spec (Rabs (x - y)) k); split; try easy; lra. Qed.

(** the loop ends with a fixed point up to the tolerance *)
Lemma vd_loop_fin B s1 s0 s : match vincenty_direct_loop MAX_ITERATIONS (Fin B) (Fin s1) (Fin s0) (Fin s) with
  | Ok r => exists k x, (k < 30)%nat /\ x = iter k (Rvd B s1 s0) s /\ r = Fin (Rvd B s1 s0 x) /\ Rabs (Rvd B s1 s0 x - x) < / 10 ^ 12
  | Err _ => forall k, (k < 30)%nat -> let x := iter k (Rvd B s1 s0) s in / 10 ^ 12 <= Rabs (Rvd B s1 s0 x - x) end.
Proof.
  destruct (vincenty_direct_loop _ _ _ _ _) as [r|m] eqn:E.
  - apply vd_loop_some in E as (k & K & R1 & T & _). rewrite vd_iter_fin, vd_next_fin in R1. rewrite vd_iter_fin, R1, tol12, tol_iff in T.
    exists k. eexists. repeat split; [exact K|exact R1|exact T].
  - intros k K. pose proof (vd_loop_none _ _ _ _ _ _ E k K) as T. cbn zeta. cbn [iter] in T.
    rewrite vd_next_fin, !vd_iter_fin, tol12 in T. assert (C : forall n f (x : R), iter n f (f x) = f (iter n f x)) by (induction n; intros; cbn [iter]; auto).
    rewrite C in T. apply Rnot_lt_le. intros A. apply tol_iff in A. congruence.
Qed.

Section D.
Context (E : Ellipsoid XR) (a b : R) (HE : shape E a b).
Let Hab : 0 < b <= a := proj1 HE.
Let Hb : e_b E = Fin b. Proof. apply HE. Qed.

Definition vbe (p : R) : R := atan (b / a * tan p).
Definition vq (p al : R) : R := 1 - sa (vbe p) al * sa (vbe p) al.
Definition vu (p al : R) : R := vq p al * ((a * a - b * b) / (b * b)).
Definition vs1 (p al : R) : R := Ratan2 (b / a * tan p) (cos al).
Definition vlat (be al sg : R) : R := Ratan2 (qz be al sg) (b / a * end_cos be al sg).
Definition vout (l p al s sg : R) : Geodesic XR :=
  mkGeodesic (Fin l, Fin p) (Fin al)
    (Fin (Rwrap (l + (end_lon (vbe p) al sg - Rdlon ((a - b) / a) (vq p al) (sa (vbe p) al) sg (vs1 p al)))),
     Fin (vlat (vbe p) al sg)) (Fin (Rnorm (end_az (vbe p) al sg))) (Fin s).

Lemma cos_vbe p : cos (vbe p) = / sqrt (1 + b / a * tan p * (b / a * tan p)).
Proof. apply cos_atan. Qed.
Lemma sin_vbe p : sin (vbe p) = b / a * tan p * / sqrt (1 + b / a * tan p * (b / a * tan p)).
Proof. unfold vbe. rewrite sin_atan. reflexivity. Qed.
Lemma cos_vbe_pos p : 0 < cos (vbe p).
Proof. apply cos_gt_0; apply atan_bound'. Qed.

Lemma vdir_fin l p al s : - (PI / 2) < p < PI / 2 -> RA (vu p al) <> 0 ->
  vincenty_direct E (Fin l, Fin p) (Fin al) (Fin s) =
  match vincenty_direct_loop MAX_ITERATIONS (Fin (RB (vu p al))) (Fin (vs1 p al)) (Fin (s / (RA (vu p al) * b))) (Fin (s / (RA (vu p al) * b))) with
  | Ok (Fin sg) => Ok (vout l p al s sg) | Ok _ => Err tt | Err m => Err m end.
Proof.
  intros Hp HA. unfold vincenty_direct. cbv zeta. rewrite (ef_fin E a b HE), (e_prime_sq_fin E a b HE), Hb.
  pose proof (cos_nz p Hp) as C. set (k := b / a * tan p).
  assert (P : 0 < sqrt (1 + k * k)) by (apply sqrt_lt_R0; nra).
  assert (T : (fsub (fofZ 1) (Fin ((a - b) / a))) = Fin (b / a)) by (xr; f_equal; field; lra). rewrite T.
  assert (T2 : fmul (Fin (b / a)) (ftan (Fin p)) = Fin k) by (xr; rewrite xtan_fin by lra; now xr). rewrite T2.
  assert (T3 : fdiv (fofZ 1) (fsqrt (fadd (fofZ 1) (fmul (Fin k) (Fin k)))) = Fin (cos (vbe p))).
  { xr. rewrite xsqrt_fin by nra. rewrite xdiv_fin by lra. f_equal. rewrite cos_vbe. fold k. field. lra. }
  rewrite T3. assert (T4 : fmul (Fin k) (Fin (cos (vbe p))) = Fin (sin (vbe p))) by (xr; f_equal; rewrite sin_vbe, cos_vbe; fold k; field; lra).
  rewrite T4. unfold arc_div, length_scale. rewrite !angle_new_RAD.
  assert (T5 : fatan2 (Fin k) (fcos (Fin al)) = Fin (vs1 p al)) by reflexivity. rewrite T5.
  assert (T6 : fmul (Fin (cos (vbe p))) (fsin (Fin al)) = Fin (sa (vbe p) al)) by reflexivity. rewrite T6.
  assert (T7 : fsub (fofZ 1) (fsq (Fin (sa (vbe p) al))) = Fin (vq p al)) by (xr; reflexivity). rewrite T7.
  assert (T8 : fmul (Fin (vq p al)) (Fin ((a * a - b * b) / (b * b))) = Fin (vu p al)) by reflexivity. rewrite T8.
  rewrite vA_fin, vB_fin. assert (T9 : fdiv (Fin s) (fmul (Fin (RA (vu p al))) (Fin b)) = Fin (s / (RA (vu p al) * b))).
  { xr. rewrite xdiv_fin; [reflexivity|]. intros Z. apply Rmult_integral in Z. lra. }
  rewrite T9. pose proof (vd_loop_fin (RB (vu p al)) (vs1 p al) (s / (RA (vu p al) * b)) (s / (RA (vu p al) * b))) as L.
  destruct (vincenty_direct_loop _ _ _ _ _) as [r|m]; [|reflexivity]. destruct L as (n & x & _ & _ & -> & _).
  set (sg := Rvd _ _ _ x). f_equal. unfold vout. f_equal.
  - f_equal.
    + xr. rewrite !xdiv_fin by lra. xr. rewrite !angle_new_RAD. xr. rewrite lon_add_fin. reflexivity.
    + xr. rewrite xsqrt_fin by (apply Rplus_le_le_0_compat; apply Rle_0_sqr). xr. rewrite angle_new_RAD, lat_new_id.
      * f_equal. unfold vlat, qz, end_cos. f_equal. f_equal. fold (end_cos (vbe p) al sg). rewrite end_cos_sa. unfold Rhypot, wz, sa. f_equal. ring.
      * apply Ratan2_range_pos. apply Rmult_le_pos; [left; apply Rdiv_lt_0_compat; lra|apply sqrt_pos].
  - xr. rewrite angle_new_RAD, azimuth_new_fin. unfold end_az, wz. reflexivity.
Qed.
End D.
