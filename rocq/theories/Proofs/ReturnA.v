(** Points close to each other have geodetic coordinates close to each other. *)
From Coq Require Import ZArith Reals Lra Lia Psatz.
From Flocq Require Import Core.
From Verif.Num Require Import FOps RFun.
From Verif.Spec Require Import Angles Axes Shape Frames Sphere.
From Verif.Proofs Require Import AxesX TransX EllX LlhInvG LlhInvH Bin64P TMBack TransB MapRoute.
Local Open Scope R_scope.

Lemma edist_ge0 P Q : 0 <= edist P Q.
Proof. destruct P as [[x y] z], Q as [[x' y'] z']. apply sqrt_pos. Qed.
Lemma dot_le x y z x' y' z' u v w : (x - x') * u + (y - y') * v + (z - z') * w <= edist (x, y, z) (x', y', z') * sqrt (u * u + v * v + w * w).
Proof.
  cbn [edist]. set (p := x - x'). set (q := y - y'). set (r := z - z'). assert (A : 0 <= p * p + q * q + r * r) by nra. assert (B : 0 <= u * u + v * v + w * w) by nra. rewrite <- sqrt_mult by assumption.
  eapply Rle_trans; [apply Rle_abs|]. rewrite <- sqrt_Rsqr_abs. apply sqrt_le_1_alt. unfold Rsqr.
  pose proof (Rle_0_sqr (p * v - q * u)) as Q1. pose proof (Rle_0_sqr (p * w - r * u)) as Q2. pose proof (Rle_0_sqr (q * w - r * v)) as Q3. unfold Rsqr in *. nra.
Qed.

Section N.
Context (a b : R) (HAB : 0 < b <= a) (x y z x' y' z' S S' : R).
Context (U : x * x + y * y + z * z = 1) (U' : x' * x' + y' * y' + z' * z' = 1) (BS : b <= S <= a) (BS' : b <= S' <= a)
  (ES : S * S = a * a * (x * x + y * y) + b * b * (z * z)) (ES' : S' * S' = a * a * (x' * x' + y' * y') + b * b * (z' * z')).
Let C := x * x' + y * y' + z * z'.
Let I := a * a * (x * x' + y * y') + b * b * (z * z').
Lemma dot_1 : C <= 1.
Proof. unfold C. pose proof (Rle_0_sqr (x - x')). pose proof (Rle_0_sqr (y - y')). pose proof (Rle_0_sqr (z - z')). unfold Rsqr in *. nra. Qed.
Lemma support : b * b * (1 - C) <= S * S' - I.
Proof.
  assert (SS : 0 < S * S') by (apply Rmult_lt_0_compat; lra).
  assert (N1 : b * b * ((x * S' - x' * S) * (x * S' - x' * S) + (y * S' - y' * S) * (y * S' - y' * S) + (z * S' - z' * S) * (z * S' - z' * S)) <=
    a * a * ((x * S' - x' * S) * (x * S' - x' * S) + (y * S' - y' * S) * (y * S' - y' * S)) + b * b * ((z * S' - z' * S) * (z * S' - z' * S))).
  { assert (b * b <= a * a) by (apply Rmult_le_compat; lra). pose proof (Rle_0_sqr (x * S' - x' * S)) as Q1. pose proof (Rle_0_sqr (y * S' - y' * S)) as Q2. unfold Rsqr in *. nra. }
  assert (L : (x * S' - x' * S) * (x * S' - x' * S) + (y * S' - y' * S) * (y * S' - y' * S) + (z * S' - z' * S) * (z * S' - z' * S) = (S - S') * (S - S') + 2 * (S * S') * (1 - C)).
  { transitivity (S' * S' * (x * x + y * y + z * z) + S * S * (x' * x' + y' * y' + z' * z') - 2 * (S * S') * C); [unfold C; ring|]. rewrite U, U'. ring. }
  assert (R : a * a * ((x * S' - x' * S) * (x * S' - x' * S) + (y * S' - y' * S) * (y * S' - y' * S)) + b * b * ((z * S' - z' * S) * (z * S' - z' * S)) = 2 * (S * S') * (S * S' - I)).
  { transitivity (S' * S' * (a * a * (x * x + y * y) + b * b * (z * z)) + S * S * (a * a * (x' * x' + y' * y') + b * b * (z' * z')) - 2 * (S * S') * I); [unfold I; ring|]. rewrite <- ES, <- ES'. ring. }
  rewrite L, R in N1. pose proof (Rle_0_sqr (S - S')) as Q. unfold Rsqr in Q. pose proof (Rmult_le_pos (b * b) _ (Rle_0_sqr b) Q) as Q'. apply (Rmult_le_reg_l (2 * (S * S'))); [lra|]. nra.
Qed.
Context (h h' : R).
Let P : R3 := ((a * a / S + h) * x, (a * a / S + h) * y, (b * b / S + h) * z).
Let Q : R3 := ((a * a / S' + h') * x', (a * a / S' + h') * y', (b * b / S' + h') * z').
Lemma normal_lip K : 0 < K -> K <= b * b / a + (h + h') / 2 -> K * edist (x, y, z) (x', y', z') <= edist P Q.
Proof.
  intros K0 HK. set (n := edist (x, y, z) (x', y', z')). assert (NP : 0 <= n) by apply edist_ge0. destruct (Req_dec n 0) as [->|NZ]; [rewrite Rmult_0_r; apply edist_ge0|].
  apply (Rmult_le_reg_r n); [lra|]. pose proof (dot_le ((a * a / S + h) * x) ((a * a / S + h) * y) ((b * b / S + h) * z) ((a * a / S' + h') * x') ((a * a / S' + h') * y') ((b * b / S' + h') * z') (x - x') (y - y') (z - z')) as D. fold P Q in D.
  change (sqrt ((x - x') * (x - x') + (y - y') * (y - y') + (z - z') * (z - z'))) with n in D. eapply Rle_trans; [|exact D].
  assert (NN : n * n = 2 * (1 - C)). { unfold n. rewrite edist_sq. unfold C. nra. }
  apply Rle_trans with (K * (n * n)); [right; ring|]. rewrite NN.
  assert (E : ((a * a / S + h) * x - (a * a / S' + h') * x') * (x - x') + ((a * a / S + h) * y - (a * a / S' + h') * y') * (y - y') + ((b * b / S + h) * z - (b * b / S' + h') * z') * (z - z') = (/ S + / S') * (S * S' - I) + (h + h') * (1 - C)).
  { transitivity (/ S * (a * a * (x * x + y * y) + b * b * (z * z)) + / S' * (a * a * (x' * x' + y' * y') + b * b * (z' * z')) - (/ S + / S') * I + h * (x * x + y * y + z * z) + h' * (x' * x' + y' * y' + z' * z') - (h + h') * C); [unfold I, C; field; lra|]. rewrite U, U', <- ES, <- ES'. field. lra. }
  rewrite E. pose proof support as SP. pose proof dot_1 as C1. assert (IS : / a <= / S) by (apply Rinv_le_contravar; lra). assert (IS' : / a <= / S') by (apply Rinv_le_contravar; lra). assert (IA : 0 < / a) by (apply Rinv_0_lt_compat; lra).
  assert (L1 : 2 * / a * (b * b * (1 - C)) <= (/ S + / S') * (S * S' - I)). { apply Rmult_le_compat; [lra|apply Rmult_le_pos; [nra|lra]|lra|exact SP]. }
  assert (L2 : 2 * K * (1 - C) <= (2 * (b * b / a) + (h + h')) * (1 - C)) by (apply Rmult_le_compat_r; lra). unfold Rdiv in L2. lra.
Qed.
Lemma height_up : h - h' * C <= edist P Q.
Proof.
  pose proof (dot_le ((a * a / S + h) * x) ((a * a / S + h) * y) ((b * b / S + h) * z) ((a * a / S' + h') * x') ((a * a / S' + h') * y') ((b * b / S' + h') * z') x y z) as D. fold P Q in D. rewrite U, sqrt_1, Rmult_1_r in D. eapply Rle_trans; [|exact D].
  assert (E : ((a * a / S + h) * x - (a * a / S' + h') * x') * x + ((a * a / S + h) * y - (a * a / S' + h') * y') * y + ((b * b / S + h) * z - (b * b / S' + h') * z') * z = / S' * (S * S' - I) + h - h' * C).
  { transitivity (/ S * (a * a * (x * x + y * y) + b * b * (z * z)) - / S' * I + h * (x * x + y * y + z * z) - h' * C); [unfold I, C; field; lra|]. rewrite U, <- ES. field. lra. }
  rewrite E. pose proof support as SP. pose proof dot_1 as C1. assert (0 <= / S' * (S * S' - I)); [|lra]. apply Rmult_le_pos; [left; apply Rinv_0_lt_compat; lra|]. assert (0 <= b * b * (1 - C)) by (apply Rmult_le_pos; nra). lra.
Qed.
End N.

Lemma gp_close a b p l h P p' l' h' Q m : 6300000 <= b -> b < a -> a <= 6400000 -> 99 * a <= 100 * b -> geodetic_point a b p (l + m) h P -> geodetic_point a b p' (l' + m) h' Q -> Rabs h <= 210000 -> Rabs h' <= 210000 -> edist P Q <= 1000 ->
  edist (position l p) (position l' p') <= edist P Q / 6000000 /\ Rabs (h - h') <= 1001 / 1000 * edist P Q.
Proof.
  intros B1 B2 B3 B4 G G' H H' D. assert (HAB : 0 < b <= a) by lra. rewrite <- (turn_dist l p l' p' m). set (L := l + m) in *. set (L' := l' + m) in *. clearbody L L'.
  rewrite (gp_unique a b p L h P _ HAB G (gp_at a b p L h HAB)) in *. rewrite (gp_unique a b p' L' h' Q _ HAB G' (gp_at a b p' L' h' HAB)) in *. unfold mr, mz in *. rewrite !Rmult_assoc in *. clear G G'.
  assert (UN : forall q t, cos q * cos t * (cos q * cos t) + cos q * sin t * (cos q * sin t) + sin q * sin q = 1). { intros q t. pose proof (sc1 q). pose proof (sc1 t). transitivity (cos q * cos q * (sin t * sin t + cos t * cos t) + sin q * sin q); [ring|]. rewrite H1. lra. }
  assert (EN : forall q t, gell a b q * gell a b q = a * a * (cos q * cos t * (cos q * cos t) + cos q * sin t * (cos q * sin t)) + b * b * (sin q * sin q)). { intros q t. rewrite (gell_sq a b HAB). pose proof (sc1 t). replace (cos q * cos t * (cos q * cos t) + cos q * sin t * (cos q * sin t)) with (cos q * cos q * (sin t * sin t + cos t * cos t)) by ring. rewrite H0. ring. }
  pose proof (gell_bound a b HAB p) as GB. pose proof (gell_bound a b HAB p') as GB'. apply Rabs_le_inv in H, H'.
  set (PP := ((a * a / gell a b p + h) * (cos p * cos L), (a * a / gell a b p + h) * (cos p * sin L), (b * b / gell a b p + h) * sin p)) in *. set (QQ := ((a * a / gell a b p' + h') * (cos p' * cos L'), (a * a / gell a b p' + h') * (cos p' * sin L'), (b * b / gell a b p' + h') * sin p')) in *.
  assert (K : 6000000 <= b * b / a + (h + h') / 2). { assert (99 / 100 * b <= b * b / a). { apply (Rmult_le_reg_r a); [lra|]. unfold Rdiv. rewrite (Rmult_assoc (b * b)), Rinv_l by lra. nra. } lra. }
  pose proof (normal_lip a b HAB _ _ _ _ _ _ _ _ (UN p L) (UN p' L') GB GB' (EN p L) (EN p' L') h h' 6000000 ltac:(lra) K) as NL. fold PP QQ in NL. change (cos p * cos L, cos p * sin L, sin p) with (position L p) in NL. change (cos p' * cos L', cos p' * sin L', sin p') with (position L' p') in NL.
  split; [apply (Rmult_le_reg_l 6000000); [lra|]; replace (6000000 * (edist PP QQ / 6000000)) with (edist PP QQ) by field; exact NL|].
  pose proof (height_up a b HAB _ _ _ _ _ _ _ _ (UN p L) (UN p' L') GB GB' (EN p L) (EN p' L') h h') as U1. fold PP QQ in U1. pose proof (height_up a b HAB _ _ _ _ _ _ _ _ (UN p' L') (UN p L) GB' GB (EN p' L') (EN p L) h' h) as U2. fold PP QQ in U2. rewrite edist_sym in U2.
  set (C := cos p * cos L * (cos p' * cos L') + cos p * sin L * (cos p' * sin L') + sin p * sin p') in *. replace (cos p' * cos L' * (cos p * cos L) + cos p' * sin L' * (cos p * sin L) + sin p' * sin p) with C in U2 by (unfold C; ring).
  assert (NN : edist (position L p) (position L' p') * edist (position L p) (position L' p') = 2 * (1 - C)). { rewrite edist_sq. unfold position, C. pose proof (UN p L). pose proof (UN p' L'). nra. }
  set (n := edist (position L p) (position L' p')) in *. set (dd := edist PP QQ) in *. assert (N0 : 0 <= n) by apply edist_ge0. clearbody n dd C.
  assert (NQ : n * n <= dd / 6000000 * (1000 / 6000000)) by (apply Rmult_le_compat; lra). assert (C1 : 0 <= 1 - C <= dd / 10 ^ 10) by (split; [nra|lra]).
  assert (0 <= dd) by lra. assert (CH : Rabs (h * (1 - C)) <= 210000 * (dd / 10 ^ 10)) by (rewrite Rabs_mult; apply Rmult_le_compat; try apply Rabs_pos; apply Rabs_le; lra). assert (CH' : Rabs (h' * (1 - C)) <= 210000 * (dd / 10 ^ 10)) by (rewrite Rabs_mult; apply Rmult_le_compat; try apply Rabs_pos; apply Rabs_le; lra).
  apply Rabs_le_inv in CH, CH'. apply Rabs_le. lra.
Qed.
