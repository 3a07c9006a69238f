(** Binary64: routes to, from and between projected reference systems. *)
From Coq Require Import ZArith Reals QArith Qreals Lra Lia Bool Psatz List String.
From Flocq Require Import Core IEEE754.BinarySingleNaN.
From Verif.Num Require Import FOps RFun XRLemmas F64 F64Lemmas PIBounds Near.
From Verif.Model Require Import Fp Quantities Cs Ellipsoid Projections Crs.
From Verif.Spec Require Import Angles Axes Shape Frames Sphere Maps Krueger Reach Accurate Binary64 Routes64 Transverse64 MapRoutes64.
From Verif.Proofs Require Import AxesX TransX AnglesX AnglesF EllX DatumX MathF NearX NearL LlhF LlhInvF LlhInvG LlhInvH LibmOk Bin64P TransB.
Import ListNotations.
Local Open Scope R_scope.

(** ** A point as a function of its normal *)
Lemma sq_abs t : Rabs t * Rabs t = t * t.
Proof. rewrite <- Rabs_mult. apply Rabs_right. pose proof (Rle_0_sqr t) as X. unfold Rsqr in X. lra. Qed.
Lemma vnorm_sq x y z c : 0 <= c -> x * x + y * y + z * z <= c * c -> vnorm (x, y, z) <= c.
Proof. intros C H. unfold vnorm. cbn [edist]. rewrite !Rminus_0_r. rewrite <- (sqrt_square c) by exact C. now apply sqrt_le_1_alt. Qed.
Lemma vnorm_stretch x y z A B : 0 <= B <= A -> vnorm (A * x, A * y, B * z) <= A * vnorm (x, y, z).
Proof.
  intros H. apply vnorm_sq; [apply Rmult_le_pos; [lra|apply sqrt_pos]|]. replace (A * vnorm (x, y, z) * (A * vnorm (x, y, z))) with (A * A * (vnorm (x, y, z) * vnorm (x, y, z))) by ring.
  assert (S : vnorm (x, y, z) * vnorm (x, y, z) = x * x + y * y + z * z) by (unfold vnorm; cbn [edist]; rewrite !Rminus_0_r; apply sqrt_sqrt; nra). rewrite S. assert (B * B <= A * A) by nra. assert (0 <= z * z) by nra. nra.
Qed.
Lemma turn_dist l p l' p' m : edist (position (l + m) p) (position (l' + m) p') = edist (position l p) (position l' p').
Proof.
  unfold position. cbn [edist]. rewrite !planar. f_equal. f_equal. f_equal. replace (l + m - (l' + m)) with (l - l') by ring. reflexivity.
Qed.
Lemma gp_position a b p l h P p' l' h' P' m : 6300000 <= b -> b < a -> a <= 6400000 -> 99 * a <= 100 * b -> geodetic_point a b p (l + m) h P -> geodetic_point a b p' (l' + m) h' P' -> Rabs h <= 100000 ->
  edist P P' <= 6800000 * edist (position l p) (position l' p') + Rabs (h - h').
Proof.
  intros B1 B2 B3 B4 G G' H. rewrite <- (turn_dist l p l' p' m). set (L := l + m) in *. set (L' := l' + m) in *. clearbody L L'. assert (HAB : 0 < b <= a) by lra.
  rewrite (gp_unique a b p L h P _ HAB G (gp_at a b p L h HAB)). rewrite (gp_unique a b p' L' h' P' _ HAB G' (gp_at a b p' L' h' HAB)). unfold mr, mz, position.
  pose proof (gell_bound a b HAB p) as GB. pose proof (gell_sq a b HAB p) as GS. pose proof (gell_bound a b HAB p') as GB'. pose proof (gell_sq a b HAB p') as GS'.
  set (g := gell a b p) in *. set (g' := gell a b p') in *. pose proof (sin2_cos2 p) as SC. pose proof (sin2_cos2 p') as SC'. pose proof (sin2_cos2 L') as SL'. unfold Rsqr in SC, SC', SL'.
  set (x := cos p * cos L). set (y := cos p * sin L). set (x' := cos p' * cos L'). set (y' := cos p' * sin L'). set (z := sin p) in *. set (z' := sin p') in *.
  assert (U' : x' * x' + y' * y' + z' * z' = 1). { unfold x', y'. replace (cos p' * cos L' * (cos p' * cos L') + cos p' * sin L' * (cos p' * sin L')) with (cos p' * cos p' * (sin L' * sin L' + cos L' * cos L')) by ring. rewrite SL'. lra. }
  set (D := edist (x, y, z) (x', y', z')). assert (DD : D = vnorm (x - x', y - y', z - z')) by (unfold D, vnorm; cbn [edist]; rewrite !Rminus_0_r; reflexivity).
  assert (D0 : 0 <= D) by (unfold D; cbn [edist]; apply sqrt_pos).
  assert (DZ : Rabs (z - z') <= D).
  { unfold D. cbn [edist]. rewrite <- sqrt_Rsqr_abs. apply sqrt_le_1_alt. unfold Rsqr. pose proof (Rle_0_sqr (x - x')). pose proof (Rle_0_sqr (y - y')). unfold Rsqr in *. lra. }
  rewrite edist_vnorm.
  match goal with |- vnorm ?t <= _ => replace t with (vadd (vadd (a * a / g * (x - x'), a * a / g * (y - y'), b * b / g * (z - z')) (a * a * (/ g - / g') * x', a * a * (/ g - / g') * y', b * b * (/ g - / g') * z')) (vadd (vscale h (x - x', y - y', z - z')) (vscale (h - h') (x', y', z')))) end.
  2: { unfold x, y, x', y', z, z', vadd, vscale. f_equal; [f_equal|]; field; lra. }
  eapply Rle_trans; [apply vnorm_add|]. pose proof (vnorm_add (a * a / g * (x - x'), a * a / g * (y - y'), b * b / g * (z - z')) (a * a * (/ g - / g') * x', a * a * (/ g - / g') * y', b * b * (/ g - / g') * z')) as V1. pose proof (vnorm_add (vscale h (x - x', y - y', z - z')) (vscale (h - h') (x', y', z'))) as V2. rewrite !vnorm_scale, <- DD in V2.
  assert (N1 : vnorm (x', y', z') <= 1) by (apply vnorm_sq; lra).
  assert (IG : 0 < / g <= / b) by (split; [apply Rinv_0_lt_compat; lra|apply Rinv_le_contravar; lra]).
  assert (SP : a * a / b <= 6466000). { assert (XX : a * a / b * b = a * a) by (field; lra). apply (Rmult_le_reg_r b); [lra|]; rewrite XX; nra. }
  assert (A1 : vnorm (a * a / g * (x - x'), a * a / g * (y - y'), b * b / g * (z - z')) <= 6466000 * D).
  { rewrite DD. eapply Rle_trans; [apply vnorm_stretch|]. { unfold Rdiv. split; [apply Rmult_le_pos; nra|apply Rmult_le_compat_r; nra]. } apply Rmult_le_compat_r; [rewrite <- DD; exact D0|]. eapply Rle_trans; [|exact SP]. unfold Rdiv. apply Rmult_le_compat_l; nra. }
  (* the change of the radius *)
  assert (ZB : Rabs z <= 1 /\ Rabs z' <= 1) by (split; apply Rabs_le; pose proof (SIN_bound p); pose proof (SIN_bound p'); unfold z, z'; lra).
  assert (GD : Rabs (g' - g) <= 131000 * D).
  { assert (E1 : (g' - g) * (g' + g) = (a * a - b * b) * ((z - z') * (z + z'))).
    { replace ((g' - g) * (g' + g)) with (g' * g' - g * g) by ring. rewrite GS, GS'. replace (cos p * cos p) with (1 - z * z) by lra. replace (cos p' * cos p') with (1 - z' * z') by lra. fold z z'. ring. }
    assert (E2 : Rabs (g' - g) * (g' + g) = (a * a - b * b) * (Rabs (z - z') * Rabs (z + z'))).
    { rewrite <- (Rabs_right (g' + g)) at 1 by lra. rewrite <- Rabs_mult, E1, !Rabs_mult. rewrite (Rabs_right (a * a - b * b)) by nra. reflexivity. }
    assert (ZZ : Rabs (z + z') <= 2) by (eapply Rle_trans; [apply Rabs_triang|lra]). pose proof (Rabs_pos (z - z')) as Z0. pose proof (Rabs_pos (z + z')) as Z1. pose proof (Rabs_pos (g' - g)) as G0.
    assert (E3 : Rabs (z - z') * Rabs (z + z') <= D * 2) by (apply Rmult_le_compat; lra).
    assert (AB : a * a - b * b <= 131000 * b) by (assert (a - b <= a / 100) by lra; assert ((a - b) * (a + b) <= a / 100 * (a + b)) by (apply Rmult_le_compat_r; lra); nra).
    apply (Rmult_le_reg_r (2 * b)); [lra|]. apply Rle_trans with (Rabs (g' - g) * (g' + g)); [apply Rmult_le_compat_l; lra|]. rewrite E2. apply Rle_trans with ((a * a - b * b) * (D * 2)); [apply Rmult_le_compat_l; [nra|exact E3]|].
    replace (131000 * D * (2 * b)) with (131000 * b * (D * 2)) by ring. apply Rmult_le_compat_r; lra. }
  assert (IGD : Rabs (/ g - / g') <= 131000 * D / (b * b)).
  { replace (/ g - / g') with ((g' - g) * / (g * g')) by (field; lra). rewrite Rabs_mult, (Rabs_right (/ (g * g'))) by (apply Rle_ge; left; apply Rinv_0_lt_compat; nra). unfold Rdiv. apply Rmult_le_compat; [apply Rabs_pos|left; apply Rinv_0_lt_compat; nra|exact GD|apply Rinv_le_contravar; nra]. }
  assert (A2 : vnorm (a * a * (/ g - / g') * x', a * a * (/ g - / g') * y', b * b * (/ g - / g') * z') <= 134000 * D).
  { replace (a * a * (/ g - / g') * x', a * a * (/ g - / g') * y', b * b * (/ g - / g') * z') with (vscale (/ g - / g') (a * a * x', a * a * y', b * b * z')) by (unfold vscale; f_equal; [f_equal|]; ring). rewrite vnorm_scale.
    assert (S : vnorm (a * a * x', a * a * y', b * b * z') <= a * a) by (eapply Rle_trans; [apply vnorm_stretch; nra|]; rewrite <- (Rmult_1_r (a * a)) at 2; apply Rmult_le_compat_l; [nra|exact N1]).
    eapply Rle_trans; [apply Rmult_le_compat; [apply Rabs_pos|apply sqrt_pos|exact IGD|exact S]|]. replace (131000 * D / (b * b) * (a * a)) with (131000 * D * (a * a / (b * b))) by (field; lra).
    assert (Q : a * a / (b * b) <= 10204 / 10000). { apply (Rmult_le_reg_r (b * b)); [nra|]. unfold Rdiv at 1. rewrite Rmult_assoc, Rinv_l, Rmult_1_r by nra. assert (a <= 100 / 99 * b) by lra. assert (a * a <= 100 / 99 * b * (100 / 99 * b)) by (apply Rmult_le_compat; lra). nra. }
    apply Rle_trans with (131000 * D * (10204 / 10000)); [apply Rmult_le_compat_l; lra|lra]. }
  assert (A3 : Rabs h * D <= 100000 * D) by (apply Rmult_le_compat_r; lra). assert (A4 : Rabs (h - h') * vnorm (x', y', z') <= Rabs (h - h') * 1) by (apply Rmult_le_compat_l; [apply Rabs_pos|exact N1]).
  clear - V1 V2 A1 A2 A3 A4 D0. lra.
Qed.
