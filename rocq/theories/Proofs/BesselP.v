(** Where Bessel's curve is, and its direction there. *)
From Coq Require Import Reals Lra Psatz.
From Verif.Num Require Import FOps RFun XR XRLemmas.
From Verif.Spec Require Import Angles Axes Shape Frames Sphere Geodesic.
From Verif.Proofs Require Import AnglesX SphereG SphereN GeoV GeoVD Bessel.
Local Open Scope R_scope.

Section P.
Context (a b be al l : R) (Hab : 0 < b <= a) (Hbe : 0 < cos be).
Notation s := (sa be al).
Notation c := (ca0 be al).
Notation t1 := (arc1 be al).
Notation l0 := (l - node_lon be al t1).
Notation bw := (bw a b c).
Notation bth := (bth a b s c t1).
Notation g := (bpt a b s c t1 l0).
Notation T := (bdir a b s c t1 l0).
Notation len := (blen a b c t1).
Lemma sc0 : s * s + c * c = 1. Proof. rewrite ca0_sq. ring. Qed.
Lemma curve_geodesic : geodesic a b g T len.
Proof. apply bessel_geodesic; [exact Hab|apply sc0]. Qed.
Lemma w_hyp t : Rhypot (b / a * end_cos be al t) (qz be al t) = bw (t1 + t).
Proof.
  apply Rhypot_unique; [left; apply (bw_pos a b s c Hab sc0)|]. rewrite (bw_sq a b s c Hab sc0). rewrite <- qz_node.
  pose proof (end_cos_z be al t) as Q. replace (b / a * end_cos be al t * (b / a * end_cos be al t)) with (b / a * (b / a) * (end_cos be al t * end_cos be al t)) by ring. rewrite Q, <- (e2_b a b) by exact Hab. ring.
Qed.
Lemma vlat_trig t : bw (t1 + t) * cos (vlat a b be al t) = b / a * end_cos be al t /\ bw (t1 + t) * sin (vlat a b be al t) = c * sin (t1 + t).
Proof. rewrite <- w_hyp, <- qz_node. unfold vlat. apply Ratan2_spec. Qed.
Definition lon_at (t : R) : R := l + end_lon be al t - bth t.
Lemma horiz t : let ps := l0 - bth t in
  cos (t1 + t) * cos ps - s * sin (t1 + t) * sin ps = end_cos be al t * cos (lon_at t) /\
  cos (t1 + t) * sin ps + s * sin (t1 + t) * cos ps = end_cos be al t * sin (lon_at t).
Proof.
  cbv zeta. destruct (Ratan2_spec (s * sin (t1 + t)) (cos (t1 + t))) as [X Y]. rewrite node_hyp in X, Y. fold (node_lon be al (t1 + t)) in X, Y. rewrite <- X, <- Y.
  destruct (Rhypot_ge_0 (qx be al t) (qy al t)) as [P|P]; fold (end_cos be al t) in P.
  - pose proof (node_lon_diff be al t Hbe P) as D. unfold lon_at. set (r := end_cos be al t) in *. set (n := node_lon be al (t1 + t)) in *.
    assert (E : same_angle (n + (l0 - bth t)) (l + end_lon be al t - bth t)).
    { destruct D as [k D]. exists k. lra. }
    rewrite <- (same_angle_cos _ _ E), <- (same_angle_sin _ _ E), cos_plus, sin_plus. split; ring.
  - rewrite <- P. split; ring.
Qed.
Lemma curve_at t : surface_point a b (vlat a b be al t) (lon_at t) (g t).
Proof.
  split; [apply on_ell; [exact Hab|exact sc0]|]. destruct (horiz t) as [X Y]. destruct (vlat_trig t) as [C S].
  assert (W : 0 < bw (t1 + t)) by (apply (bw_pos a b s c Hab sc0)). exists (bw (t1 + t) / b). split; [apply Rdiv_lt_0_compat; lra|].
  unfold bpt, bps, normal. rewrite X, Y. clear X Y.
  replace (bw (t1 + t) / b * (cos (vlat a b be al t) * cos (lon_at t))) with (bw (t1 + t) * cos (vlat a b be al t) * cos (lon_at t) / b) by (field; lra).
  replace (bw (t1 + t) / b * (cos (vlat a b be al t) * sin (lon_at t))) with (bw (t1 + t) * cos (vlat a b be al t) * sin (lon_at t) / b) by (field; lra).
  replace (bw (t1 + t) / b * sin (vlat a b be al t)) with (bw (t1 + t) * sin (vlat a b be al t) / b) by (field; lra). rewrite C, S. repeat split; field; lra.
Qed.
Lemma dir_at t : 0 < end_cos be al t -> T t = heading (lon_at t) (vlat a b be al t) (end_az be al t).
Proof.
  intros P. destruct (horiz t) as [X Y]. destruct (vlat_trig t) as [C S].
  assert (W : 0 < bw (t1 + t)) by (apply (bw_pos a b s c Hab sc0)).
  pose proof (bw_sq a b s c Hab sc0 (t1 + t)) as Q. rewrite <- qz_node in Q, S. pose proof (end_cos_z be al t) as Z. rewrite <- Z in Q.
  destruct (Ratan2_spec s (wz be al t)) as [X' Y']. fold (end_az be al t) in X', Y'. rewrite <- end_cos_sa, wz_node in X'. rewrite <- end_cos_sa in Y'.
  assert (B : s * (brate a b c (t1 + t)) * (end_cos be al t * end_cos be al t) = s * (1 - bw (t1 + t))).
  { unfold brate. replace (s * ((a * a - b * b) / (a * a) / (1 + bw (t1 + t))) * (end_cos be al t * end_cos be al t)) with (s * ((a * a - b * b) / (a * a) * (end_cos be al t * end_cos be al t)) / (1 + bw (t1 + t))) by (field; split; lra).
    replace ((a * a - b * b) / (a * a) * (end_cos be al t * end_cos be al t)) with ((1 + bw (t1 + t)) * (1 - bw (t1 + t))) by lra. field. lra. }
  pose proof (sc (t1 + t)) as SC. pose proof sc0 as S0. pose proof (qz_node be al t) as QZ. rewrite QZ in Z.
  unfold bdir, heading, north_of, east_of, vadd, vscale, h1, h2, h3, bp, bps. 
  set (k := end_cos be al t) in *. set (w := bw (t1 + t)) in *. set (cx := cos (t1 + t)) in *. set (sx := sin (t1 + t)) in *.
  set (ps := l0 - bth t) in *. set (cl := cos (lon_at t)) in *. set (sl := sin (lon_at t)) in *. set (r := brate a b c (t1 + t)) in *. rewrite QZ in S. fold sx in S.
  set (cz := cos (end_az be al t)) in *. set (sz := sin (end_az be al t)) in *.
  assert (CL : cos ps * k * k = cx * (k * cl) + s * sx * (k * sl)).
  { rewrite <- X, <- Y. transitivity (cos ps * (cx * cx + s * s * (sx * sx))); [|ring]. rewrite Rmult_assoc, Z. replace (s * s) with (1 - c * c) by lra. transitivity (cos ps * (sx * sx + cx * cx - c * sx * (c * sx))); [rewrite SC; ring|ring]. }
  assert (SL : sin ps * k * k = cx * (k * sl) - s * sx * (k * cl)).
  { rewrite <- X, <- Y. transitivity (sin ps * (cx * cx + s * s * (sx * sx))); [|ring]. rewrite Rmult_assoc, Z. replace (s * s) with (1 - c * c) by lra. transitivity (sin ps * (sx * sx + cx * cx - c * sx * (c * sx))); [rewrite SC; ring|ring]. }
  assert (KK : k * k = s * s + c * c * (cx * cx)) by (rewrite Z; replace (cx * cx) with (1 - sx * sx) by lra; nra).
  assert (wk : w * (k * k) <> 0) by (apply Rgt_not_eq; apply Rmult_lt_0_compat; nra). assert (wkk : w * k * (k * k) <> 0) by (apply Rgt_not_eq; repeat apply Rmult_lt_0_compat; nra).
  assert (kn : k <> 0) by lra. assert (wn : w <> 0) by lra.
  assert (SV : sin (vlat a b be al t) = c * sx / w) by (rewrite <- S; field; exact wn).
  assert (CV : cos (vlat a b be al t) = b / a * k / w) by (rewrite <- C; field; exact wn).
  assert (CZ : cz = c * cx / k) by (rewrite <- X'; field; exact kn). assert (SZ : sz = s / k) by (apply (Rmult_eq_reg_l k); [rewrite Y'; field|]; exact kn).
  assert (RR : s * r = s * (1 - w) / (k * k)) by (rewrite <- B; field; exact kn).
  assert (CP : cos ps = (cx * cl + s * sx * sl) / k) by (apply (Rmult_eq_reg_r (k * k)); [|nra]; rewrite <- Rmult_assoc, CL; field; exact kn).
  assert (SP : sin ps = (cx * sl - s * sx * cl) / k) by (apply (Rmult_eq_reg_r (k * k)); [|nra]; rewrite <- Rmult_assoc, SL; field; exact kn).
  assert (H1 : - sx * (1 + s * - (s * r)) / w = - sx * (c * c * (cx * cx) + s * s * w) / (w * (k * k))).
  { rewrite RR. apply (Rmult_eq_reg_r (w * (k * k))); [|exact wk]. transitivity (- sx * (k * k - s * s * (1 - w))); [field; repeat split; first [assumption | lra]|]. transitivity (- sx * (c * c * (cx * cx) + s * s * w)); [rewrite KK; ring|field; repeat split; first [assumption | lra]]. }
  assert (H2 : cx * (s + - (s * r)) / w = s * cx * (w - c * c * (sx * sx)) / (w * (k * k))).
  { rewrite RR. apply (Rmult_eq_reg_r (w * (k * k))); [|exact wk]. transitivity (s * cx * (k * k - (1 - w))); [field; repeat split; first [assumption | lra]|]. transitivity (s * cx * (w - c * c * (sx * sx))); [rewrite Z; ring|field; repeat split; first [assumption | lra]]. }
  rewrite H1, H2, CP, SP, SV, CV, CZ, SZ. clear H1 H2 CP SP SV CV CZ SZ RR CL SL X Y C S X' Y' B Q.
  apply R3_eq.
  - apply (Rmult_eq_reg_r (w * k * (k * k))); [|exact wkk]. transitivity (cl * (- sx * (c * c * (cx * cx) + s * s * w) * cx + s * cx * (w - c * c * (sx * sx)) * (s * sx)) - sl * (sx * (c * c * (cx * cx) + s * s * w) * (s * sx) + s * cx * (w - c * c * (sx * sx)) * cx)); [field; repeat split; first [assumption | lra]|].
    replace (cx * cx) with (1 - sx * sx) by lra.
    transitivity (- cl * (c * c) * cx * sx * (k * k) - s * sl * w * (k * k)); [|field; repeat split; first [assumption | lra]]. rewrite KK. replace (s * s) with (1 - c * c) by lra.
    replace (cx * cx) with (1 - sx * sx) by lra. 
    transitivity (cl * cx * sx * (- (c * c * (1 - sx * sx) + (1 - c * c) * w) + (1 - c * c) * (w - c * c * (sx * sx))) - s * sl * (sx * sx * (c * c * (1 - sx * sx) + (1 - c * c) * w) + (w - c * c * (sx * sx)) * (cx * cx))); [replace (1 - c * c) with (s * s) by lra; ring|]. replace (cx * cx) with (1 - sx * sx) by lra. ring.
  - apply (Rmult_eq_reg_r (w * k * (k * k))); [|exact wkk]. transitivity (sl * (- sx * (c * c * (cx * cx) + s * s * w) * cx + s * cx * (w - c * c * (sx * sx)) * (s * sx)) + cl * (sx * (c * c * (cx * cx) + s * s * w) * (s * sx) + s * cx * (w - c * c * (sx * sx)) * cx)); [field; repeat split; first [assumption | lra]|].
    replace (cx * cx) with (1 - sx * sx) by lra.
    transitivity (- sl * (c * c) * cx * sx * (k * k) + s * cl * w * (k * k)); [|field; repeat split; first [assumption | lra]]. rewrite KK. replace (s * s) with (1 - c * c) by lra.
    replace (cx * cx) with (1 - sx * sx) by lra. 
    transitivity (sl * cx * sx * (- (c * c * (1 - sx * sx) + (1 - c * c) * w) + (1 - c * c) * (w - c * c * (sx * sx))) + s * cl * (sx * sx * (c * c * (1 - sx * sx) + (1 - c * c) * w) + (w - c * c * (sx * sx)) * (cx * cx))); [replace (1 - c * c) with (s * s) by lra; ring|]. replace (cx * cx) with (1 - sx * sx) by lra. ring.
  - field; repeat split; first [assumption | lra].
Qed.
End P.
