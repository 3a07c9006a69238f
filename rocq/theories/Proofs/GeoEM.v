(** Vincenty's inverse on the equator and along meridians. *)
From Coq Require Import Reals Lra Psatz ZArith List Bool Lia.
From Flocq Require Import Core.Raux.
From Verif.Num Require Import FOps RFun XR XRLemmas.
From Verif.Model Require Import Fp Quantities Complex Cs Ellipsoid Geodesics.
From Verif.Spec Require Import Angles Axes Shape Frames Sphere.
From Verif.Proofs Require Import AnglesX EllX SphereG SphereN GeoG GeoV GeoVD GeoI GeoIS.
Import ListNotations.
Local Open Scope R_scope.

Section Eq.
Context (e : R) (He : e = 1 \/ e = -1).
Lemma ee : e * e = 1. Proof. destruct He as [-> | ->]; ring. Qed.
Lemma sin_e t : sin (e * t) = e * sin t.
Proof. destruct He as [-> | ->]; [now rewrite !Rmult_1_l|]. replace (-1 * t) with (- t) by ring. rewrite sin_neg. ring. Qed.
Lemma cos_e t : cos (e * t) = cos t.
Proof. destruct He as [-> | ->]; [now rewrite !Rmult_1_l|]. replace (-1 * t) with (- t) by ring. apply cos_neg. Qed.
Lemma eq_ics l : ics 0 0 l = cos l. Proof. unfold ics. rewrite sin_0, cos_0. ring. Qed.
Lemma eq_iss l : iss 0 0 l = Rabs (sin l).
Proof. rewrite iss_alt, eq_ics. pose proof (sc l). replace (1 - cos l * cos l) with (Rsqr (sin l)) by (unfold Rsqr; lra). apply sqrt_Rsqr_abs. Qed.
(** t between 0 and pi *)
Lemma eq_front t : 0 < t < PI -> iss 0 0 (e * t) = sin t /\ isg 0 0 (e * t) = t /\ isa 0 0 (e * t) = e.
Proof.
  intros H. pose proof (sin_gt_0 t ltac:(lra) ltac:(lra)) as S.
  assert (A : iss 0 0 (e * t) = sin t) by (rewrite eq_iss, sin_e; destruct He as [-> | ->]; [rewrite Rmult_1_l, Rabs_pos_eq; lra|replace (-1 * sin t) with (- sin t) by ring; rewrite Rabs_Ropp, Rabs_pos_eq; lra]).
  split; [exact A|]. split.
  - unfold isg. rewrite A, eq_ics, cos_e. apply (Ratan2_unique _ _ 1); lra.
  - unfold isa. rewrite A, sin_e, cos_0. field. lra.
Qed.
(** t between pi and 2 pi *)
Lemma eq_back t : PI < t < 2 * PI -> iss 0 0 (e * t) = - sin t /\ isg 0 0 (e * t) = 2 * PI - t /\ isa 0 0 (e * t) = - e.
Proof.
  intros H. assert (S : sin t < 0) by (apply sin_lt_0; lra).
  assert (A : iss 0 0 (e * t) = - sin t) by (rewrite eq_iss, sin_e; destruct He as [-> | ->]; [rewrite Rmult_1_l, Rabs_left; lra|replace (-1 * sin t) with (- sin t) by ring; rewrite Rabs_pos_eq; lra]).
  split; [exact A|]. split.
  - unfold isg. rewrite A, eq_ics, cos_e. apply (Ratan2_unique _ _ 1); [lra| | |lra].
    + rewrite cos_minus, cos_2PI, sin_2PI. ring.
    + rewrite sin_minus, cos_2PI, sin_2PI. ring.
  - unfold isa. rewrite A, sin_e, cos_0. field. lra.
Qed.
Lemma eq_iq l : isa 0 0 l * isa 0 0 l = 1 -> iq 0 0 l = 0.
Proof. unfold iq. lra. Qed.
Lemma eq_lam_front f M t : 0 < t < PI -> iss 0 0 (e * t) <> 0 /\ Rlam f 0 0 (e * M) (e * t) = e * (f * t + M) /\ (forall m, Rcm 0 0 (e * t) m = m) /\ iq 0 0 (e * t) = 0.
Proof.
  intros H. destruct (eq_front t H) as (A & B & C). pose proof (sin_gt_0 t ltac:(lra) ltac:(lra)) as S.
  assert (Q : iq 0 0 (e * t) = 0) by (apply eq_iq; rewrite C; apply ee). unfold Rlam, Rcm. rewrite Q, Req_bool_t by reflexivity. rewrite A, B, C.
  repeat split; try lra. 
Qed.
Lemma eq_lam_back f M t : PI < t < 2 * PI -> Rlam f 0 0 (e * M) (e * t) = e * (M - f * (2 * PI - t)) /\ (forall m, Rcm 0 0 (e * t) m = m).
Proof.
  intros H. destruct (eq_back t H) as (A & B & C).
  assert (Q : iq 0 0 (e * t) = 0) by (apply eq_iq; rewrite C; pose proof ee; lra). unfold Rlam, Rcm. rewrite Q, Req_bool_t by reflexivity. rewrite B, C. split; [ring|reflexivity].
Qed.
Lemma abs_e x : Rabs (e * x) = Rabs x.
Proof. rewrite Rabs_mult. destruct He as [-> | ->]; [rewrite Rabs_R1|rewrite Rabs_left by lra]; ring. Qed.

Lemma eq_converges n f M t m : 0 <= f < 1 -> 0 < M -> 0 < t <= M / (1 - f) -> M / (1 - f) < PI -> (1 - f) * (M / (1 - f) - t) * f ^ n < / 10 ^ 12 ->
  exists x, Rloop (S n) f 0 0 (e * M) (e * t) m = Some (e * x, e * (f * x + M), m) /\ 0 < x <= M / (1 - f) /\ (1 - f) * (M / (1 - f) - x) < / 10 ^ 12.
Proof.
  intros Hf HM. revert t. induction n as [|n IH]; intros t Ht HP HT.
  - destruct (eq_lam_front f M t ltac:(lra)) as (A & B & C & _). cbn [Rloop]. rewrite Req_bool_f by exact A. rewrite B, C.
    replace (e * (f * t + M) - e * t) with (e * ((1 - f) * (M / (1 - f) - t))) by (field; lra). rewrite abs_e, Rabs_pos_eq by (apply Rmult_le_pos; lra).
    cbn [pow] in HT. rewrite Rlt_bool_t by lra. exists t. repeat split; lra.
  - destruct (eq_lam_front f M t ltac:(lra)) as (A & B & C & _). remember (S n) as k. cbn [Rloop]. rewrite Req_bool_f by exact A. rewrite B, C.
    replace (e * (f * t + M) - e * t) with (e * ((1 - f) * (M / (1 - f) - t))) by (field; lra). rewrite abs_e, Rabs_pos_eq by (apply Rmult_le_pos; lra).
    destruct (Rlt_bool_spec ((1 - f) * (M / (1 - f) - t)) (/ 10 ^ 12)) as [L|L].
    + exists t. repeat split; lra.
    + subst k. apply IH; [|exact HP|].
      * assert (K : M / (1 - f) - (f * t + M) = f * (M / (1 - f) - t)) by (field; lra). split; [nra|]. assert (0 <= f * (M / (1 - f) - t)) by (apply Rmult_le_pos; lra). lra.
      * replace (M / (1 - f) - (f * t + M)) with (f * (M / (1 - f) - t)) by (field; lra). cbn [pow] in HT. lra.
Qed.
Lemma eq_diverges n f M t m : 0 <= f <= / 2 -> (1 - f) * PI + / 10 ^ 12 <= M <= PI -> 0 < t < 2 * PI -> Rloop n f 0 0 (e * M) (e * t) m = None.
Proof.
  intros Hf HM. pose proof PI_pos as PP. pose proof tol_pos as TP. assert (F : / 10 ^ 12 <= f * PI) by lra. revert t m. induction n as [|n IH]; intros t m Ht; [reflexivity|]. cbn [Rloop].
  destruct (Req_bool_spec (iss 0 0 (e * t)) 0) as [Z|Z]; [reflexivity|].
  assert (t <> PI). { intros ->. apply Z. rewrite eq_iss, sin_e, sin_PI, Rmult_0_r. apply Rabs_R0. }
  destruct (Rlt_le_dec t PI) as [L|L].
  - destruct (eq_lam_front f M t ltac:(lra)) as (_ & B & C & _). rewrite B, C. replace (e * (f * t + M) - e * t) with (e * (M - (1 - f) * t)) by ring.
    assert ((1 - f) * t <= (1 - f) * PI) by (apply Rmult_le_compat_l; lra).
    rewrite abs_e, Rabs_pos_eq by lra. rewrite Rlt_bool_f by lra. apply IH. assert (0 <= f * t <= f * PI) by (split; [apply Rmult_le_pos|apply Rmult_le_compat_l]; lra). nra.
  - destruct (eq_lam_back f M t ltac:(lra)) as (B & C). rewrite B, C. replace (e * (M - f * (2 * PI - t)) - e * t) with (e * - (t - M + f * (2 * PI - t))) by ring.
    rewrite abs_e, Rabs_Ropp. assert (f * PI <= t - M + f * (2 * PI - t)) by nra.
    rewrite Rabs_pos_eq by lra. rewrite Rlt_bool_f by lra. apply IH. assert (0 <= f * (2 * PI - t) <= f * PI) by (split; [apply Rmult_le_pos|apply Rmult_le_compat_l]; lra). nra.
Qed.
End Eq.

Section I.
Context (E : Ellipsoid XR) (a b : R) (HE : shape E a b).
Let Hab : 0 < b <= a := proj1 HE.
Lemma vbe0 : vbe a b 0 = 0.
Proof. unfold vbe. rewrite tan_0, Rmult_0_r. apply atan_0. Qed.
Lemma f_bound : 0 <= (a - b) / a < 1.
Proof. split; [apply Rmult_le_pos; [lra|apply Rlt_le, Rinv_0_lt_compat; lra]|]. apply (Rmult_lt_reg_r a); [lra|]. unfold Rdiv. rewrite Rmult_assoc, Rinv_l by lra. lra. Qed.
Lemma sign_of x : exists e, (e = 1 \/ e = -1) /\ x = e * Rabs x /\ (0 <= x -> e = 1) /\ (x < 0 -> e = -1).
Proof. destruct (Rle_lt_dec 0 x); [exists 1|exists (-1)]; repeat split; try tauto; try lra; [rewrite Rabs_pos_eq; lra|rewrite Rabs_left; lra]. Qed.
Lemma vinv_equator l1 l2 d : 2 * a <= 3 * b -> d = Rnorm (l2 - l1) -> 0 < Rabs d < (b / a) * PI ->
  exists s, vincenty_inverse E (Fin l1, Fin 0) (Fin l2, Fin 0) = Ok (mkGeodesic (Fin l1, Fin 0) (Fin (if Rlt_bool d 0 then - (PI / 2) else PI / 2)) (Fin l2, Fin 0) (Fin (if Rlt_bool d 0 then - (PI / 2) else PI / 2)) (Fin s)) /\
   Rabs (s - a * Rabs d) < a * / 10 ^ 12.
Proof.
  intros Hf Hd HB. pose proof PI_pos as PP. pose proof f_bound as FB. rewrite (vinv_fin E a b HE) by lra. rewrite <- Hd, vbe0. set (f := (a - b) / a) in *.
  destruct (sign_of d) as (e & He & De & Pos & Neg). set (M := Rabs d) in *. assert (BA : b / a = 1 - f) by (unfold f; field; lra). rewrite BA in HB.
  assert (F3 : f <= / 3). { unfold f. apply (Rmult_le_reg_r a); [lra|]. unfold Rdiv. rewrite Rmult_assoc, Rinv_l by lra. lra. }
  assert (MP : M / (1 - f) < PI). { apply (Rmult_lt_reg_r (1 - f)); [lra|]. unfold Rdiv. rewrite Rmult_assoc, Rinv_l by lra. lra. }
  assert (M1 : M <= M / (1 - f)). { apply (Rmult_le_reg_r (1 - f)); [lra|]. unfold Rdiv. rewrite Rmult_assoc, Rinv_l by lra. nra. }
  destruct (eq_converges e He 29 f M M 0) as (x & L & X & T); try lra.
  { replace ((1 - f) * (M / (1 - f) - M)) with (f * M) by (field; lra). replace (f * M * f ^ 29) with (M * f ^ 30) by ring.
    assert (0 <= f ^ 30 <= (/ 3) ^ 30) by (split; [apply pow_le; lra|apply pow_incr; lra]).
    assert ((/ 3) ^ 30 * 4 < / 10 ^ 12). { rewrite pow_inv. apply (Rmult_lt_reg_r (10 ^ 12 * 3 ^ 30)); [lra|]. replace (/ 3 ^ 30 * 4 * (10 ^ 12 * 3 ^ 30)) with (4 * 10 ^ 12) by (field; lra). replace (/ 10 ^ 12 * (10 ^ 12 * 3 ^ 30)) with (3 ^ 30) by (field; lra). lra. }
    pose proof PI_4. assert (M * f ^ 30 <= 4 * (/ 3) ^ 30) by (apply Rmult_le_compat; lra). lra. }
  rewrite De, L. destruct (eq_lam_front e He f M x ltac:(lra)) as (_ & _ & _ & Q). destruct (eq_front e He x ltac:(lra)) as (_ & G & _).
  unfold Rdist. rewrite Q, Req_bool_t, G by reflexivity.
  assert (Y : 0 < f * x + M < PI). { assert (K : M / (1 - f) - (f * x + M) = f * (M / (1 - f) - x)) by (field; lra). split; [assert (0 <= f * x) by (apply Rmult_le_pos; lra); lra|]. assert (0 <= f * (M / (1 - f) - x)) by (apply Rmult_le_pos; lra). lra. }
  pose proof (sin_gt_0 (f * x + M) ltac:(lra) ltac:(lra)) as SY.
  assert (AZ : iaz1 0 0 (e * (f * x + M)) = e * (PI / 2) /\ iaz2 0 0 (e * (f * x + M)) = e * (PI / 2)).
  { unfold iaz1, iaz2, ew, ns. rewrite sin_0, cos_0, (sin_e e He). split; (apply (Ratan2_unique _ _ (sin (f * x + M))); [exact SY|rewrite (cos_e e He (PI / 2)), cos_PI2; ring|rewrite (sin_e e He (PI / 2)), sin_PI2; ring|destruct He as [-> | ->]; lra]). }
  destruct AZ as [-> ->]. rewrite Rnorm_id by (destruct He as [-> | ->]; lra).
  exists (b * x). split.
  - do 2 f_equal; f_equal; (destruct (Rlt_bool_spec (e * M) 0) as [N|N]; [rewrite Neg by lra|rewrite Pos by lra]; ring).
  - replace (b * x - a * M) with (- (a * ((1 - f) * (M / (1 - f) - x)))) by (unfold f; field; lra). rewrite Rabs_Ropp, Rabs_pos_eq by (apply Rmult_le_pos; [lra|apply Rmult_le_pos; lra]).
    apply Rmult_lt_compat_l; lra.
Qed.
Lemma vinv_equator_fails l1 l2 d : a <= 2 * b -> d = Rnorm (l2 - l1) -> (b / a) * PI + / 10 ^ 12 <= Rabs d ->
  vincenty_inverse E (Fin l1, Fin 0) (Fin l2, Fin 0) = Err tt.
Proof.
  intros Hf Hd HB. pose proof PI_pos as PP. pose proof f_bound as FB. rewrite (vinv_fin E a b HE) by lra. rewrite <- Hd, vbe0. set (f := (a - b) / a) in *.
  destruct (sign_of d) as (e & He & De & Pos & Neg). assert (BA : b / a = 1 - f) by (unfold f; field; lra). rewrite BA in HB.
  assert (F3 : f <= / 2). { unfold f. apply (Rmult_le_reg_r a); [lra|]. unfold Rdiv. rewrite Rmult_assoc, Rinv_l by lra. lra. }
  destruct (Rnorm_spec (l2 - l1)) as [N _]. rewrite <- Hd in N. assert (DP : Rabs d <= PI) by (apply Rabs_le; lra). pose proof tol_pos.
  rewrite De. rewrite (eq_diverges e He); [reflexivity|lra|lra|]. assert (0 <= (1 - f) * PI) by (apply Rmult_le_pos; lra). lra.
Qed.
(** points of one meridian circle *)
Lemma vbe_lt p q : - (PI / 2) < p < PI / 2 -> - (PI / 2) < q < PI / 2 -> p < q -> vbe a b p < vbe a b q.
Proof.
  intros H1 H2 L. unfold vbe. apply atan_increasing. apply Rmult_lt_compat_l; [apply Rdiv_lt_0_compat; lra|]. apply tan_increasing; lra.
Qed.
Lemma vbe_neg p : vbe a b (- p) = - vbe a b p.
Proof. unfold vbe. rewrite tan_neg, Ropp_mult_distr_r_reverse. apply atan_opp. Qed.
Lemma merid_loop n b1 b2 L : sin L = 0 -> ns b1 b2 L <> 0 -> Rloop (S n) ((a - b) / a) b1 b2 L L 0 = Some (L, L, Rcm b1 b2 L 0).
Proof.
  intros S N. cbn [Rloop]. assert (I : iss b1 b2 L <> 0). { intros Z. pose proof (iss_sq b1 b2 L) as Q. rewrite Z in Q. unfold ew in Q. rewrite S in Q. apply N. nra. }
  rewrite Req_bool_f by exact I. assert (A : isa b1 b2 L = 0) by (unfold isa; rewrite S; unfold Rdiv; ring).
  assert (EL : Rlam ((a - b) / a) b1 b2 L L = L) by (unfold Rlam; rewrite A; destruct (Req_bool _ _); ring).
  rewrite EL, Rminus_diag_eq, Rabs_R0, Rlt_bool_t by (reflexivity || apply tol_pos). reflexivity.
Qed.
Lemma vinv_meridian l1 p1 l2 p2 : - (PI / 2) < p1 < PI / 2 -> - (PI / 2) < p2 < PI / 2 -> same_angle l1 l2 -> p1 <> p2 ->
  exists s, vincenty_inverse E (Fin l1, Fin p1) (Fin l2, Fin p2) =
    let az := if Rlt_bool p1 p2 then 0 else PI in Ok (mkGeodesic (Fin l1, Fin p1) (Fin az) (Fin l2, Fin p2) (Fin az) (Fin s)).
Proof.
  intros H1 H2 HL N. pose proof PI_pos as PP. rewrite (vinv_fin E a b HE) by assumption.
  assert (L0 : Rnorm (l2 - l1) = 0).
  { rewrite (Rnorm_compat _ 0); [apply Rnorm_id; lra|]. replace 0 with (l2 - l2) by ring. apply same_angle_sub; [apply same_angle_refl|exact HL]. }
  rewrite L0. set (b1 := vbe a b p1). set (b2 := vbe a b p2).
  assert (B1 : - (PI / 2) < b1 < PI / 2) by apply atan_bound'. assert (B2 : - (PI / 2) < b2 < PI / 2) by apply atan_bound'.
  assert (NS : ns b1 b2 0 = sin (b2 - b1)) by (unfold ns; rewrite cos_0, sin_minus; ring).
  assert (SG : (p1 < p2 -> 0 < sin (b2 - b1)) /\ (p2 < p1 -> sin (b2 - b1) < 0)).
  { split; intros L. - pose proof (vbe_lt _ _ H1 H2 L). apply sin_gt_0; unfold b1, b2 in *; lra. - pose proof (vbe_lt _ _ H2 H1 L). apply sin_lt_0_var; unfold b1, b2 in *; lra. }
  change 30%nat with (S 29). rewrite merid_loop; [|apply sin_0|rewrite NS; destruct (Rtotal_order p1 p2) as [L|[L|L]]; [apply SG in L; lra|lra|apply SG in L; lra]].
  eexists. unfold iaz1, iaz2, ew. rewrite NS, sin_0, cos_0, !Rmult_0_r. replace (- sin b1 * cos b2 + cos b1 * sin b2 * 1) with (sin (b2 - b1)) by (rewrite sin_minus; ring).
  destruct (Rlt_bool_spec p1 p2) as [L|L].
  - apply SG in L. rewrite Ratan2_0_pos by lra. rewrite Rnorm_id by lra. reflexivity.
  - assert (L' : p2 < p1) by lra. apply SG in L'. rewrite Ratan2_0_neg by lra. rewrite Rnorm_id by lra. reflexivity.
Qed.
Lemma vinv_over_pole l1 p1 l2 p2 : - (PI / 2) < p1 < PI / 2 -> - (PI / 2) < p2 < PI / 2 -> same_angle (l2 - l1) PI -> p1 + p2 <> 0 ->
  exists s, vincenty_inverse E (Fin l1, Fin p1) (Fin l2, Fin p2) =
    let '(az1, az2) := if Rlt_bool 0 (p1 + p2) then (0, PI) else (PI, 0) in Ok (mkGeodesic (Fin l1, Fin p1) (Fin az1) (Fin l2, Fin p2) (Fin az2) (Fin s)).
Proof.
  intros H1 H2 HL N. pose proof PI_pos as PP. rewrite (vinv_fin E a b HE) by assumption.
  assert (L0 : Rnorm (l2 - l1) = PI) by (rewrite (Rnorm_compat _ PI) by exact HL; apply Rnorm_id; lra).
  rewrite L0. set (b1 := vbe a b p1). set (b2 := vbe a b p2).
  assert (B1 : - (PI / 2) < b1 < PI / 2) by apply atan_bound'. assert (B2 : - (PI / 2) < b2 < PI / 2) by apply atan_bound'.
  assert (NS : ns b1 b2 PI = sin (b2 + b1)) by (unfold ns; rewrite cos_PI, sin_plus; ring).
  assert (SG : (0 < p1 + p2 -> 0 < sin (b2 + b1)) /\ (p1 + p2 < 0 -> sin (b2 + b1) < 0)).
  { split; intros L. - pose proof (vbe_lt (- p1) p2 ltac:(lra) H2 ltac:(lra)) as V. rewrite vbe_neg in V. apply sin_gt_0; unfold b1, b2 in *; lra.
    - pose proof (vbe_lt p2 (- p1) H2 ltac:(lra) ltac:(lra)) as V. rewrite vbe_neg in V. apply sin_lt_0_var; unfold b1, b2 in *; lra. }
  change 30%nat with (S 29). rewrite merid_loop; [|apply sin_PI|rewrite NS; destruct (Rtotal_order 0 (p1 + p2)) as [L|[L|L]]; [apply SG in L; lra|lra|apply SG in L; lra]].
  eexists. unfold iaz1, iaz2, ew. rewrite NS, sin_PI, cos_PI, !Rmult_0_r. replace (- sin b1 * cos b2 + cos b1 * sin b2 * -1) with (- sin (b2 + b1)) by (rewrite sin_plus; ring).
  destruct (Rlt_bool_spec 0 (p1 + p2)) as [L|L].
  - apply SG in L. rewrite Ratan2_0_pos, Ratan2_0_neg by lra. rewrite !Rnorm_id by lra. reflexivity.
  - assert (L' : p1 + p2 < 0) by lra. apply SG in L'. rewrite Ratan2_0_neg, Ratan2_0_pos by lra. rewrite !Rnorm_id by lra. reflexivity.
Qed.
End I.
