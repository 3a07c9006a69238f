(** Geometry of great circles. *)
From Coq Require Import Reals Lra Psatz ZArith.
From Verif.Num Require Import RFun XRLemmas.
From Verif.Spec Require Import Angles Axes Frames Sphere.
From Verif.Proofs Require Import AnglesX.
Local Open Scope R_scope.

Lemma sc x : sin x * sin x + cos x * cos x = 1.
Proof. pose proof (sin2_cos2 x) as H. unfold Rsqr in H. exact H. Qed.
Lemma R3_eq (x y z x' y' z' : R) : x = x' -> y = y' -> z = z' -> (x, y, z) = (x', y', z').
Proof. now intros -> -> ->. Qed.

Section Arc.
Context (be al sg : R).
Definition qx : R := cos be * cos sg - sin be * sin sg * cos al.
Definition qy : R := sin sg * sin al.
Definition qz : R := sin be * cos sg + cos be * sin sg * cos al.
Definition wx : R := - cos be * sin sg - sin be * cos sg * cos al.
Definition wy : R := cos sg * sin al.
Definition wz : R := - sin be * sin sg + cos be * cos sg * cos al.
Definition sa : R := cos be * sin al.
Lemma q_unit : qx * qx + qy * qy + qz * qz = 1.
Proof.
  unfold qx, qy, qz. pose proof (sc be). pose proof (sc al). pose proof (sc sg).
  transitivity ((sin be * sin be + cos be * cos be) * (cos sg * cos sg) + (sin be * sin be + cos be * cos be) * (sin sg * sin sg) * (cos al * cos al) + sin sg * sin sg * (sin al * sin al)); [ring|].
  rewrite H. rewrite !Rmult_1_l. replace (cos al * cos al) with (1 - sin al * sin al) by lra. lra.
Qed.
Lemma w_unit : wx * wx + wy * wy + wz * wz = 1.
Proof.
  unfold wx, wy, wz. pose proof (sc be). pose proof (sc al). pose proof (sc sg).
  transitivity ((sin be * sin be + cos be * cos be) * (sin sg * sin sg) + (sin be * sin be + cos be * cos be) * (cos sg * cos sg) * (cos al * cos al) + cos sg * cos sg * (sin al * sin al)); [ring|].
  rewrite H. rewrite !Rmult_1_l. replace (cos al * cos al) with (1 - sin al * sin al) by lra. lra.
Qed.
Lemma qw_orth : qx * wx + qy * wy + qz * wz = 0.
Proof.
  unfold qx, qy, qz, wx, wy, wz. pose proof (sc be). pose proof (sc al). pose proof (sc sg).
  transitivity (sin sg * cos sg * (- (sin be * sin be + cos be * cos be) + (sin be * sin be + cos be * cos be) * (cos al * cos al) + sin al * sin al)); [ring|].
  rewrite H. replace (sin al * sin al) with (1 - cos al * cos al) by lra. ring.
Qed.
Lemma clairaut : qx * wy - qy * wx = sa.
Proof.
  unfold qx, qy, wx, wy, sa. pose proof (sc sg).
  transitivity (cos be * sin al * (sin sg * sin sg + cos sg * cos sg)); [ring|]. rewrite H. ring.
Qed.
Lemma q_horiz : qx * qx + qy * qy = sa * sa + wz * wz.
Proof.
  pose proof q_unit as U. pose proof w_unit as V. pose proof qw_orth as O. pose proof clairaut as C.
  assert (K : (qx * qx + qy * qy) * (wx * wx + wy * wy) = sa * sa + (qx * wx + qy * wy) * (qx * wx + qy * wy)) by (rewrite <- C; ring).
  replace (wx * wx + wy * wy) with (1 - wz * wz) in K by lra. replace (qx * wx + qy * wy) with (- (qz * wz)) in K by lra.
  replace (- (qz * wz) * - (qz * wz)) with (qz * qz * (wz * wz)) in K by ring.
  replace (qz * qz) with (1 - (qx * qx + qy * qy)) in K by lra. lra.
Qed.
Lemma travel_eq l : travel (position l be) (heading l be al) sg = (qx * cos l - qy * sin l, qx * sin l + qy * cos l, qz).
Proof. unfold travel, position, heading, north_of, east_of, vadd, vscale, qx, qy, qz. apply R3_eq; ring. Qed.
Lemma course_eq l : course (position l be) (heading l be al) sg = (wx * cos l - wy * sin l, wx * sin l + wy * cos l, wz).
Proof. unfold course, position, heading, north_of, east_of, vadd, vscale, wx, wy, wz. apply R3_eq; ring. Qed.

(** The end point and the azimuth there, as the solvers compute them. *)
Definition end_lon : R := Ratan2 qy qx.
Definition end_az : R := Ratan2 sa wz.
Definition end_cos : R := Rhypot qx qy.
Lemma end_cos_sa : end_cos = Rhypot wz sa.
Proof. unfold end_cos, Rhypot. f_equal. pose proof q_horiz. lra. Qed.
Lemma arrival l b2 : sin b2 = qz -> cos b2 = end_cos -> position (l + end_lon) b2 = travel (position l be) (heading l be al) sg.
Proof.
  intros S C. rewrite travel_eq. unfold position. rewrite cos_plus, sin_plus, S, C.
  destruct (Ratan2_spec qy qx) as [X Y]. fold end_lon end_cos in X, Y.
  set (cl := cos end_lon) in *. set (sl := sin end_lon) in *. rewrite <- X, <- Y. apply R3_eq; ring.
Qed.
Lemma arrival_heading l b2 : sin b2 = qz -> cos b2 = end_cos -> 0 < end_cos ->
  heading (l + end_lon) b2 end_az = course (position l be) (heading l be al) sg.
Proof.
  intros S C P. rewrite course_eq. destruct (Ratan2_spec qy qx) as [X Y]. fold end_lon end_cos in X, Y.
  destruct (Ratan2_spec sa wz) as [X' Y']. fold end_az in X', Y'. rewrite <- end_cos_sa in X', Y'.
  pose proof q_unit as U. pose proof qw_orth as O. pose proof clairaut as K.
  assert (HH : end_cos * end_cos = qx * qx + qy * qy) by apply Rhypot_sq.
  set (r := end_cos) in *. unfold heading, north_of, east_of, vadd, vscale. rewrite S, C, cos_plus, sin_plus.
  set (cl := cos end_lon) in *. set (sl := sin end_lon) in *. set (ca := cos end_az) in *. set (sz := sin end_az) in *.
  assert (WX : wx = - qz * cl * ca - sl * sz).
  { apply (Rmult_eq_reg_l (r * r)); [|nra]. transitivity ((qx * qx + qy * qy) * wx); [rewrite HH; reflexivity|].
    transitivity (- qz * (r * cl) * (r * ca) - (r * sl) * (r * sz)); [|ring]. rewrite X, Y, X', Y', <- K.
    replace (- qz * qx * wz) with (- qx * (qz * wz)) by ring. replace (qz * wz) with (- (qx * wx + qy * wy)) by lra. ring. }
  assert (WY : wy = - qz * sl * ca + cl * sz).
  { apply (Rmult_eq_reg_l (r * r)); [|nra]. transitivity ((qx * qx + qy * qy) * wy); [rewrite HH; reflexivity|].
    transitivity (- qz * (r * sl) * (r * ca) + (r * cl) * (r * sz)); [|ring]. rewrite X, Y, X', Y', <- K.
    replace (- qz * qy * wz) with (- qy * (qz * wz)) by ring. replace (qz * wz) with (- (qx * wx + qy * wy)) by lra. ring. }
  rewrite WX, WY. apply R3_eq; [ring|ring|]. rewrite <- X'. ring.
Qed.
Lemma end_cos_pos : end_cos <> 0 -> 0 < end_cos.
Proof. pose proof (Rhypot_ge_0 qx qy). unfold end_cos in *. lra. Qed.
Lemma end_cos_z : end_cos * end_cos = 1 - qz * qz.
Proof. unfold end_cos. rewrite Rhypot_sq. pose proof q_unit. lra. Qed.
Lemma end_cos_nz : -1 < qz < 1 -> 0 < end_cos.
Proof. intros H. apply end_cos_pos. intros Z. pose proof end_cos_z. rewrite Z in *. nra. Qed.
End Arc.

Lemma position_same l l' p : same_angle l l' -> position l p = position l' p.
Proof. intros H. unfold position. now rewrite (same_angle_cos _ _ H), (same_angle_sin _ _ H). Qed.
Lemma heading_same l l' p al al' : same_angle l l' -> same_angle al al' -> heading l p al = heading l' p al'.
Proof. intros H G. unfold heading, north_of, east_of. now rewrite (same_angle_cos _ _ H), (same_angle_sin _ _ H), (same_angle_cos _ _ G), (same_angle_sin _ _ G). Qed.
(** the angle of latitude [Ratan2 z r] *)
Lemma lat_of_point z r : 0 <= r -> z * z + r * r = 1 -> sin (Ratan2 z r) = z /\ cos (Ratan2 z r) = r.
Proof.
  intros Hr H. destruct (Ratan2_spec z r) as [C S]. assert (Rhypot r z = 1) by (apply Rhypot_unique; lra). rewrite H0 in *. lra.
Qed.
