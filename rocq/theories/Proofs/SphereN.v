(** Great circles referred to the point where they cross the equator northwards. *)
From Coq Require Import Reals Lra Psatz ZArith.
From Verif.Num Require Import RFun XRLemmas.
From Verif.Spec Require Import Angles Axes Frames Sphere.
From Verif.Proofs Require Import AnglesX SphereG.
Local Open Scope R_scope.

Section Node.
Context (be al : R).
Notation sa := (sa be al).
(** cosine of the azimuth at the equator, and the arc from the equator to the start *)
Definition ca0 : R := sqrt (1 - sa * sa).
Definition arc1 : R := Ratan2 (sin be) (cos be * cos al).
Lemma ca0_arg : 1 - sa * sa = cos be * cos al * (cos be * cos al) + sin be * sin be.
Proof. unfold SphereG.sa. pose proof (sc be). pose proof (sc al). replace (sin be * sin be) with (1 - cos be * cos be) by lra. replace (cos be * cos al * (cos be * cos al)) with (cos be * cos be * (1 - sin al * sin al)) by (rewrite <- (sc al); ring). ring. Qed.
Lemma ca0_hyp : ca0 = Rhypot (cos be * cos al) (sin be).
Proof. unfold ca0, Rhypot. now rewrite ca0_arg. Qed.
Lemma ca0_sq : ca0 * ca0 = 1 - sa * sa.
Proof. unfold ca0. apply sqrt_sqrt. rewrite ca0_arg. nra. Qed.
Lemma ca0_ge : 0 <= ca0. Proof. apply sqrt_pos. Qed.
Lemma q01 : 0 <= 1 - sa * sa <= 1.
Proof. pose proof ca0_sq. pose proof ca0_ge. nra. Qed.
Lemma arc1_spec : ca0 * cos arc1 = cos be * cos al /\ ca0 * sin arc1 = sin be.
Proof. rewrite ca0_hyp. apply Ratan2_spec. Qed.
Lemma qz_node t : qz be al t = ca0 * sin (arc1 + t).
Proof. unfold qz. destruct arc1_spec as [C S]. rewrite sin_plus, <- S. replace (cos be * sin t * cos al) with (cos be * cos al * sin t) by ring. rewrite <- C. ring. Qed.
Lemma wz_node t : wz be al t = ca0 * cos (arc1 + t).
Proof. unfold wz. destruct arc1_spec as [C S]. rewrite cos_plus, <- S. replace (cos be * cos t * cos al) with (cos be * cos al * cos t) by ring. rewrite <- C. ring. Qed.

(** longitude counted from the node *)
Definition node_lon (t : R) : R := Ratan2 (sa * sin t) (cos t).
Lemma node_qx t : cos be * qx be al t = cos t - sin be * qz be al t.
Proof. unfold qx, qz. pose proof (sc be). replace (cos t) with ((sin be * sin be + cos be * cos be) * cos t) at 2 by (rewrite H; ring). ring. Qed.
Lemma node_hyp t : Rhypot (cos (arc1 + t)) (sa * sin (arc1 + t)) = end_cos be al t.
Proof.
  apply Rhypot_unique; [apply Rhypot_ge_0|]. rewrite end_cos_z, qz_node. pose proof ca0_sq. pose proof (sc (arc1 + t)).
  replace (ca0 * sin (arc1 + t) * (ca0 * sin (arc1 + t))) with ((1 - sa * sa) * (sin (arc1 + t) * sin (arc1 + t))) by (rewrite <- H; ring).
  replace (sin (arc1 + t) * sin (arc1 + t)) with (1 - cos (arc1 + t) * cos (arc1 + t)) by lra.
  replace (sa * sin (arc1 + t) * (sa * sin (arc1 + t))) with (sa * sa * (1 - cos (arc1 + t) * cos (arc1 + t))) by (rewrite <- H0; ring). ring.
Qed.
Lemma node_lon_diff t : 0 < cos be -> 0 < end_cos be al t -> same_angle (node_lon (arc1 + t) - node_lon arc1) (end_lon be al t).
Proof.
  intros C0 C2. destruct (Ratan2_spec (sa * sin (arc1 + t)) (cos (arc1 + t))) as [X2 Y2].
  destruct (Ratan2_spec (sa * sin arc1) (cos arc1)) as [X1 Y1]. pose proof (node_hyp t) as H2. pose proof (node_hyp 0) as H1.
  rewrite Rplus_0_r in H1. rewrite H2 in X2, Y2. rewrite H1 in X1, Y1.
  assert (E0 : end_cos be al 0 = cos be) by (unfold end_cos, qx, qy; rewrite sin_0, cos_0; apply Rhypot_unique; [lra|ring]). rewrite E0 in *.
  fold (node_lon (arc1 + t)) in X2, Y2. fold (node_lon arc1) in X1, Y1.
  destruct (Ratan2_spec (qy al t) (qx be al t)) as [X Y]. fold (end_lon be al t) (end_cos be al t) in X, Y.
  set (r := end_cos be al t) in *. pose proof ca0_sq as Q. destruct arc1_spec as [P1 P2]. pose proof (sc arc1) as SC.
  assert (A : cos be * r * cos (node_lon (arc1 + t) - node_lon arc1) = cos be * r * cos (end_lon be al t)).
  { rewrite cos_minus. transitivity (r * cos (node_lon (arc1 + t)) * (cos be * cos (node_lon arc1)) + r * sin (node_lon (arc1 + t)) * (cos be * sin (node_lon arc1))); [ring|].
    rewrite X1, Y1, X2, Y2. replace (cos be * r * cos (end_lon be al t)) with (cos be * (r * cos (end_lon be al t))) by ring. rewrite X, node_qx, qz_node, <- P2.
    transitivity (cos (arc1 + t) * cos arc1 + (1 - ca0 * ca0) * sin (arc1 + t) * sin arc1); [rewrite Q; ring|].
    replace (cos t) with (cos (arc1 + t - arc1)) by (f_equal; ring). rewrite cos_minus. ring. }
  assert (B : cos be * r * sin (node_lon (arc1 + t) - node_lon arc1) = cos be * r * sin (end_lon be al t)).
  { rewrite sin_minus. transitivity (r * sin (node_lon (arc1 + t)) * (cos be * cos (node_lon arc1)) - r * cos (node_lon (arc1 + t)) * (cos be * sin (node_lon arc1))); [ring|].
    rewrite X1, Y1, X2, Y2. replace (cos be * r * sin (end_lon be al t)) with (cos be * (r * sin (end_lon be al t))) by ring. rewrite Y. unfold qy.
    replace (sin t) with (sin (arc1 + t - arc1)) by (f_equal; ring). rewrite sin_minus. unfold SphereG.sa. ring. }
  assert (P : cos be * r <> 0) by (apply Rmult_integral_contrapositive; lra).
  apply Rmult_eq_reg_l in A, B; [|exact P..]. apply same_angle_trig; assumption.
Qed.

(** from the end point and the arc back: Rapp's formulas *)
Lemma back_sin t : sin t * wz be al t = cos t * qz be al t - sin be.
Proof. unfold wz, qz. pose proof (sc t). replace (sin be) with ((sin t * sin t + cos t * cos t) * sin be) at 3 by (rewrite H; ring). ring. Qed.
End Node.
