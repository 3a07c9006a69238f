(** What is left of a Helmert transformation there and back. *)
From Coq Require Import Reals Lra List.
From Flocq Require Import Core IEEE754.BinarySingleNaN.
From Verif.Num Require Import FOps F64.
From Verif.Model Require Import Fp Quantities Cs Ellipsoid Projections Crs.
From Verif.Spec Require Import Axes Shape Frames Binary64 Routes64 MapRoutes64 GridRoutes64 Return64.
From Verif.Proofs Require Import AxesX TransX TransB.
Local Open Scope R_scope.

Lemma vneg X Y Z : vscale (-1) (X, Y, Z) = (- X, - Y, - Z).
Proof. cbn. f_equal; [f_equal|]; ring. Qed.
Lemma off P e : edist (vadd P e) P = vnorm e.
Proof. destruct P as [[x y] z], e as [[x' y'] z']. unfold vnorm, edist, vadd. f_equal. ring. Qed.
Lemma turn1 c : Rabs (turn c) = 1.
Proof. destruct c; cbn; [rewrite Rabs_right|rewrite Rabs_left]; lra. Qed.
(** the residual with the sign [s] of the scale difference in the last term *)
Lemma resid_norm a m s r t P : Rabs a = 1 -> Rabs s = Rabs m ->
  vnorm (vadd (vadd (vscale (- (m * m)) P) (vscale (- (1 - m * m)) (cross r (cross r P)))) (vadd (vscale (- m) t) (vscale (a * (1 + s)) (cross r t)))) <=
  (m * m + Rabs (1 - m * m) * (vnorm r * vnorm r)) * vnorm P + (Rabs m + (1 + Rabs m) * vnorm r) * vnorm t.
Proof.
  intros A S. eapply Rle_trans; [apply vnorm_add|]. pose proof (vnorm_add (vscale (- (m * m)) P) (vscale (- (1 - m * m)) (cross r (cross r P)))) as H1. pose proof (vnorm_add (vscale (- m) t) (vscale (a * (1 + s)) (cross r t))) as H2.
  rewrite !vnorm_scale, !Rabs_Ropp in H1. rewrite !vnorm_scale, !Rabs_Ropp, Rabs_mult, A, Rmult_1_l in H2. rewrite (Rabs_pos_eq (m * m)) in H1 by nra.
  pose proof (vnorm_ge_0 r) as R0. pose proof (vnorm_ge_0 t) as T0. pose proof (vnorm_ge_0 P) as P0.
  assert (C1 : vnorm (cross r (cross r P)) <= vnorm r * vnorm r * vnorm P). { eapply Rle_trans; [apply vnorm_cross|]. rewrite Rmult_assoc. apply Rmult_le_compat_l; [exact R0|apply vnorm_cross]. }
  assert (C2 : Rabs (1 - m * m) * vnorm (cross r (cross r P)) <= Rabs (1 - m * m) * (vnorm r * vnorm r * vnorm P)) by (apply Rmult_le_compat_l; [apply Rabs_pos|exact C1]).
  assert (C3 : Rabs (1 + s) <= 1 + Rabs m). { eapply Rle_trans; [apply Rabs_triang|]. rewrite Rabs_R1, S. lra. }
  assert (C4 : Rabs (1 + s) * vnorm (cross r t) <= (1 + Rabs m) * (vnorm r * vnorm t)). { apply Rmult_le_compat; [apply Rabs_pos|apply vnorm_ge_0|exact C3|apply vnorm_cross]. }
  lra.
Qed.
Lemma resid f g e : residual64 f g e -> forall P, edist (g (f P)) P <= e (vnorm P) /\ edist (f (g P)) P <= e (vnorm P).
Proof.
  intros H P. destruct H as [|X Y Z|c r t m].
  - rewrite (proj2 (edist_0 P P) eq_refl). lra.
  - assert (E : vadd (vadd P (X, Y, Z)) (- X, - Y, - Z) = P /\ vadd (vadd P (- X, - Y, - Z)) (X, Y, Z) = P) by (destruct P as [[x y] z]; cbn; split; (f_equal; [f_equal|]); ring).
    destruct E as [-> ->]. rewrite (proj2 (edist_0 P P) eq_refl). lra.
  - pose proof (turn1 c) as T. split.
    + pose proof (resid_norm (- turn c) m (- m) r t P ltac:(now rewrite Rabs_Ropp) (Rabs_Ropp m)) as N. rewrite <- off with (P := P) in N. eapply Rle_trans; [|exact N]. right. f_equal.
      destruct P as [[x y] z], r as [[a b] d], t as [[u v] w]. destruct c; cbn; (f_equal; [f_equal|]); ring.
    + pose proof (resid_norm (- turn c) m m r t P ltac:(now rewrite Rabs_Ropp) eq_refl) as N. rewrite <- off with (P := P) in N. eapply Rle_trans; [|exact N]. right. f_equal.
      destruct P as [[x y] z], r as [[a b] d], t as [[u v] w]. destruct c; cbn; (f_equal; [f_equal|]); ring.
Qed.
Lemma has_resid lm T f g : moves64 lm T f g -> exists e, residual64 f g e.
Proof.
  destruct 1 as [|tx ty tz X Y Z V1 V2 V3 B1 B2 B3|c rx ry rz tx ty tz ppm A B C X Y Z S VA VB VC V1 V2 V3 V4 BA BB BC B1 B2 B3 B4].
  - eexists. apply res_none.
  - eexists. apply res_tr.
  - eexists. rewrite <- vneg. apply (res_helmert c (A, B, C) (X, Y, Z) (S / 1000000)).
Qed.
Lemma c68_resid : forall lm T1 f1 g1 T2 f2 g2, moves64 lm T1 f1 g1 -> moves64 lm T2 f2 g2 ->
  exists e1 e2, residual64 f1 g1 e1 /\ residual64 f2 g2 e2 /\ forall P, edist (g1 (f2 (g2 (f1 P)))) P <= e1 (vnorm P) + 1003 / 1000 * e2 (vnorm (f1 P)).
Proof.
  intros lm T1 f1 g1 T2 f2 g2 M1 M2. destruct (has_resid lm T1 f1 g1 M1) as [e1 H1]. destruct (has_resid lm T2 f2 g2 M2) as [e2 H2]. exists e1, e2. split; [exact H1|]. split; [exact H2|]. intros P.
  pose proof (resid _ _ _ H1 P) as [R1 _]. pose proof (resid _ _ _ H2 (f1 P)) as [_ R2]. destruct (move_lip lm T1 f1 g1 M1 (f2 (g2 (f1 P))) (f1 P)) as [_ [L _]]. pose proof (edist_triangle (g1 (f2 (g2 (f1 P)))) (g1 (f1 P)) P) as T. lra.
Qed.
(** 20 ppm, a turn of about a second of arc and 100 metres: at most half a centimetre at 6400 km. *)
Lemma c68_resid_ex : residual64 (fun P => vadd (vscale (1 + 20 / 1000000) (vadd P (vscale (turn PositionVector) (cross (5 / 1000000, 0, 0) P)))) (100, 0, 0))
    (fun P => vadd (vscale (1 - 20 / 1000000) (vadd P (vscale (- turn PositionVector) (cross (5 / 1000000, 0, 0) P)))) (vscale (-1) (100, 0, 0)))
    (fun n => (20 / 1000000 * (20 / 1000000) + Rabs (1 - 20 / 1000000 * (20 / 1000000)) * (vnorm (5 / 1000000, 0, 0) * vnorm (5 / 1000000, 0, 0))) * n + (Rabs (20 / 1000000) + (1 + Rabs (20 / 1000000)) * vnorm (5 / 1000000, 0, 0)) * vnorm (100, 0, 0)) /\
  (20 / 1000000 * (20 / 1000000) + Rabs (1 - 20 / 1000000 * (20 / 1000000)) * (vnorm (5 / 1000000, 0, 0) * vnorm (5 / 1000000, 0, 0))) * 6400000 + (Rabs (20 / 1000000) + (1 + Rabs (20 / 1000000)) * vnorm (5 / 1000000, 0, 0)) * vnorm (100, 0, 0) <= 6 / 1000.
Proof.
  split; [apply res_helmert|]. assert (V : forall x, 0 <= x -> vnorm (x, 0, 0) = x). { intros x H. unfold vnorm, edist. replace ((x - 0) * (x - 0) + (0 - 0) * (0 - 0) + (0 - 0) * (0 - 0)) with (x * x) by ring. now apply sqrt_square. }
  rewrite !V by lra. rewrite !Rabs_pos_eq by lra. lra.
Qed.
