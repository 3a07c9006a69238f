(** Vincenty's inverse: symmetries, equal points, the sphere, equator and meridians. *)
From Coq Require Import Reals Lra Psatz ZArith List Bool Lia.
From Flocq Require Import Core.Raux.
From Verif.Num Require Import FOps RFun XR XRLemmas.
From Verif.Model Require Import Fp Quantities Complex Cs Ellipsoid Geodesics.
From Verif.Spec Require Import Angles Axes Shape Frames Sphere.
From Verif.Proofs Require Import AnglesX EllX SphereG SphereN GeoG GeoV GeoVD GeoI.
Import ListNotations.
Local Open Scope R_scope.

Lemma iss_alt b1 b2 l : iss b1 b2 l = sqrt (1 - ics b1 b2 l * ics b1 b2 l).
Proof. unfold iss. f_equal. pose proof (aux_unit b1 b2 l). lra. Qed.

Section Swap.
Context (b1 b2 K : R) (HK : same_angle K 0).
Lemma sin_K l : sin (K - l) = - sin l.
Proof. rewrite sin_minus, (same_angle_sin _ _ HK), (same_angle_cos _ _ HK), sin_0, cos_0. ring. Qed.
Lemma cos_K l : cos (K - l) = cos l.
Proof. rewrite cos_minus, (same_angle_sin _ _ HK), (same_angle_cos _ _ HK), sin_0, cos_0. ring. Qed.
Lemma ics_swap l : ics b2 b1 (K - l) = ics b1 b2 l.
Proof. unfold ics. rewrite cos_K. ring. Qed.
Lemma iss_swap l : iss b2 b1 (K - l) = iss b1 b2 l.
Proof. now rewrite !iss_alt, ics_swap. Qed.
Lemma isg_swap l : isg b2 b1 (K - l) = isg b1 b2 l.
Proof. unfold isg. now rewrite iss_swap, ics_swap. Qed.
Lemma isa_swap l : isa b2 b1 (K - l) = - isa b1 b2 l.
Proof. unfold isa. rewrite iss_swap, sin_K. unfold Rdiv. ring. Qed.
Lemma iq_swap l : iq b2 b1 (K - l) = iq b1 b2 l.
Proof. unfold iq. rewrite isa_swap. ring. Qed.
Lemma icm_swap l : icm b2 b1 (K - l) = icm b1 b2 l.
Proof. unfold icm. rewrite iq_swap, ics_swap. unfold Rdiv. ring. Qed.
Lemma Rlam_swap f L l : Rlam f b2 b1 (K - L) (K - l) = K - Rlam f b1 b2 L l.
Proof. unfold Rlam. rewrite iq_swap, isa_swap, isg_swap, icm_swap, iss_swap, ics_swap. destruct (Req_bool _ _); ring. Qed.
Lemma Rcm_swap l m : Rcm b2 b1 (K - l) m = Rcm b1 b2 l m.
Proof. unfold Rcm. now rewrite iq_swap, icm_swap. Qed.
Lemma Rloop_swap n f L l m : Rloop n f b2 b1 (K - L) (K - l) m =
  match Rloop n f b1 b2 L l m with Some (x, y, c) => Some (K - x, K - y, c) | None => None end.
Proof.
  revert l m. induction n as [|n IH]; intros l m; [reflexivity|]. cbn [Rloop]. rewrite iss_swap, Rlam_swap, Rcm_swap.
  destruct (Req_bool _ _); [reflexivity|]. replace (K - Rlam f b1 b2 L l - (K - l)) with (- (Rlam f b1 b2 L l - l)) by ring. rewrite Rabs_Ropp.
  destruct (Rlt_bool _ _); [reflexivity|]. apply IH.
Qed.
End Swap.
Section Neg.
Context (b1 b2 : R).
Lemma ics_neg l : ics (- b1) (- b2) l = ics b1 b2 l.
Proof. unfold ics. rewrite !sin_neg, !cos_neg. ring. Qed.
Lemma iss_neg l : iss (- b1) (- b2) l = iss b1 b2 l.
Proof. now rewrite !iss_alt, ics_neg. Qed.
Lemma isg_neg l : isg (- b1) (- b2) l = isg b1 b2 l.
Proof. unfold isg. now rewrite iss_neg, ics_neg. Qed.
Lemma isa_neg l : isa (- b1) (- b2) l = isa b1 b2 l.
Proof. unfold isa. rewrite iss_neg, !cos_neg. reflexivity. Qed.
Lemma iq_neg l : iq (- b1) (- b2) l = iq b1 b2 l.
Proof. unfold iq. now rewrite isa_neg. Qed.
Lemma icm_neg l : icm (- b1) (- b2) l = icm b1 b2 l.
Proof. unfold icm. rewrite iq_neg, ics_neg, !sin_neg. f_equal. f_equal. ring. Qed.
Lemma Rloop_neg n f L l m : Rloop n f (- b1) (- b2) L l m = Rloop n f b1 b2 L l m.
Proof.
  revert l m. induction n as [|n IH]; intros l m; [reflexivity|]. cbn [Rloop].
  assert (EL : Rlam f (- b1) (- b2) L l = Rlam f b1 b2 L l) by (unfold Rlam; now rewrite iq_neg, isa_neg, isg_neg, icm_neg, iss_neg, ics_neg).
  assert (EC : Rcm (- b1) (- b2) l m = Rcm b1 b2 l m) by (unfold Rcm; now rewrite iq_neg, icm_neg).
  now rewrite iss_neg, EL, EC, IH.
Qed.
End Neg.

Definition dist_of (r : result (Geodesic XR) unit) : result XR unit := match r with Ok g => Ok (g_s g) | Err e => Err e end.

Section I.
Context (E : Ellipsoid XR) (a b : R) (HE : shape E a b).
Let Hab : 0 < b <= a := proj1 HE.
Lemma Rnorm_swap l1 l2 : exists K, same_angle K 0 /\ Rnorm (l1 - l2) = K - Rnorm (l2 - l1).
Proof.
  exists (Rnorm (l1 - l2) + Rnorm (l2 - l1)). split; [|ring]. replace 0 with ((l1 - l2) + (l2 - l1)) by ring.
  apply same_angle_add; apply Rnorm_spec.
Qed.
Lemma vinv_swap l1 p1 l2 p2 : dist_of (vincenty_inverse E (Fin l2, Fin p2) (Fin l1, Fin p1)) = dist_of (vincenty_inverse E (Fin l1, Fin p1) (Fin l2, Fin p2)).
Proof.
  destruct (reduced_any E a b HE p1) as [b1 H1]. destruct (reduced_any E a b HE p2) as [b2 H2].
  rewrite (vinv_gen E a b HE _ _ _ _ _ _ H2 H1), (vinv_gen E a b HE _ _ _ _ _ _ H1 H2). destruct (Rnorm_swap l1 l2) as (K & HK & ->).
  rewrite Rloop_swap by exact HK. destruct (Rloop _ _ _ _ _ _ _) as [[[x y] c]|]; [|reflexivity]. cbn [dist_of g_s].
  now rewrite iq_swap, isg_swap.
Qed.
(** the azimuths exchange, reversed *)
Lemma opposite_atan2 y x : y <> 0 \/ x <> 0 -> same_angle (Ratan2 (- y) (- x)) (Ratan2 y x + PI).
Proof.
  intros H. destruct (Ratan2_spec y x) as [X Y]. destruct (Ratan2_spec (- y) (- x)) as [X' Y']. rewrite Rhypot_opp_l, Rhypot_opp_r in X', Y'.
  pose proof (Rhypot_pos x y ltac:(tauto)) as P. apply same_angle_trig; [rewrite neg_sin|rewrite neg_cos]; apply (Rmult_eq_reg_l (Rhypot x y)); lra.
Qed.
Lemma vinv_shift l1 p1 l2 p2 l1' l2' : same_angle (l2' - l1') (l2 - l1) ->
  match vincenty_inverse E (Fin l1, Fin p1) (Fin l2, Fin p2) with
  | Ok g => vincenty_inverse E (Fin l1', Fin p1) (Fin l2', Fin p2) = Ok (mkGeodesic (Fin l1', Fin p1) (g_alpha1 g) (Fin l2', Fin p2) (g_alpha2 g) (g_s g))
  | Err e => vincenty_inverse E (Fin l1', Fin p1) (Fin l2', Fin p2) = Err e end.
Proof.
  intros H. destruct (reduced_any E a b HE p1) as [b1 H1]. destruct (reduced_any E a b HE p2) as [b2 H2].
  rewrite !(vinv_gen E a b HE _ _ _ _ _ _ H1 H2). rewrite (Rnorm_compat _ _ H). destruct (Rloop _ _ _ _ _ _ _) as [[[x y] c]|]; reflexivity.
Qed.
Lemma reduced_neg p be : reduced_latitude E (Fin p) = Fin be -> reduced_latitude E (Fin (- p)) = Fin (- be).
Proof.
  unfold reduced_latitude. rewrite (ef_fin E a b HE), !angle_new_RAD. xr. replace (1 - (a - b) / a) with (b / a) by (field; lra).
  assert (0 < b / a) by (apply Rdiv_lt_0_compat; lra). unfold xtan. rewrite cos_neg. destruct (Req_bool_spec (cos p) 0) as [C|C].
  - assert (sin p <> 0) by (pose proof (sc p) as SC; rewrite C in SC; nra). rewrite sin_neg. unfold xinf_sign.
    destruct (Rlt_bool_spec 0 (sin p)) as [S|S].
    + rewrite (Rlt_bool_f 0 (- sin p)), (Rlt_bool_t (- sin p) 0) by lra. xr. unfold xinf_sign. rewrite Rlt_bool_t by lra. cbn. intros I. injection I; intros <-. reflexivity.
    + rewrite (Rlt_bool_t 0 (- sin p)), (Rlt_bool_t (sin p) 0) by lra. xr. unfold xinf_sign. rewrite Rlt_bool_t by lra. cbn. intros I. injection I; intros <-. now rewrite Ropp_involutive.
  - xr. intros I. injection I; intros <-. cbn. f_equal. rewrite tan_neg, Ropp_mult_distr_r_reverse. apply atan_opp.
Qed.
Lemma vinv_mirror l1 p1 l2 p2 : dist_of (vincenty_inverse E (Fin l1, Fin (- p1)) (Fin l2, Fin (- p2))) = dist_of (vincenty_inverse E (Fin l1, Fin p1) (Fin l2, Fin p2)).
Proof.
  destruct (reduced_any E a b HE p1) as [b1 H1]. destruct (reduced_any E a b HE p2) as [b2 H2].
  rewrite (vinv_gen E a b HE _ _ _ _ _ _ H1 H2), (vinv_gen E a b HE _ _ _ _ _ _ (reduced_neg _ _ H1) (reduced_neg _ _ H2)). rewrite Rloop_neg.
  destruct (Rloop _ _ _ _ _ _ _) as [[[x y] c]|]; [|reflexivity]. cbn [dist_of g_s]. now rewrite iq_neg, isg_neg.
Qed.
(** equal points *)
Lemma vinv_self l p : vincenty_inverse E (Fin l, Fin p) (Fin l, Fin p) = Err tt.
Proof.
  destruct (reduced_any E a b HE p) as [b1 H1]. rewrite (vinv_gen E a b HE _ _ _ _ _ _ H1 H1).
  replace (l - l) with 0 by ring. rewrite (Rnorm_id 0) by (pose proof PI_pos; lra). cbn [Rloop].
  rewrite Req_bool_t; [reflexivity|]. rewrite iss_alt. unfold ics. rewrite cos_0. pose proof (sc b1).
  replace (1 - _) with 0; [apply sqrt_0|]. replace (sin b1 * sin b1 + cos b1 * cos b1 * 1) with 1 by lra. ring.
Qed.
End I.

(** the great circle from the first point to the second, with the computed azimuths and arc *)
Section Great.
Context (b1 b2 l : R) (HS : iss b1 b2 l <> 0).
Notation al := (iaz1 b1 b2 l). Notation sg := (isg b1 b2 l).
Lemma iaz1_spec : iss b1 b2 l * cos al = ns b1 b2 l /\ iss b1 b2 l * sin al = ew b2 l.
Proof.
  destruct (Ratan2_spec (ew b2 l) (ns b1 b2 l)) as [C S]. fold (iaz1 b1 b2 l) in C, S.
  assert (H : Rhypot (ns b1 b2 l) (ew b2 l) = iss b1 b2 l) by (unfold Rhypot, iss; f_equal; ring). rewrite H in *. tauto.
Qed.
Lemma g_qx : qx b1 al sg = cos b2 * cos l.
Proof.
  unfold qx. destruct (isg_spec b1 b2 l) as [-> ->]. destruct iaz1_spec as [C _]. rewrite Rmult_assoc, C. unfold ics, ns. pose proof (sc b1).
  transitivity (cos b2 * cos l * (sin b1 * sin b1 + cos b1 * cos b1)); [ring|]. rewrite H. ring.
Qed.
Lemma g_qy : qy al sg = cos b2 * sin l.
Proof. unfold qy. destruct (isg_spec b1 b2 l) as [-> _]. destruct iaz1_spec as [_ S]. rewrite S. reflexivity. Qed.
Lemma g_qz : qz b1 al sg = sin b2.
Proof.
  unfold qz. destruct (isg_spec b1 b2 l) as [-> ->]. destruct iaz1_spec as [C _]. rewrite Rmult_assoc, C. unfold ics, ns. pose proof (sc b1).
  transitivity (sin b2 * (sin b1 * sin b1 + cos b1 * cos b1)); [ring|]. rewrite H. ring.
Qed.
Lemma g_end_cos : 0 <= cos b2 -> end_cos b1 al sg = cos b2.
Proof. intros H. unfold end_cos. rewrite g_qx, g_qy. apply Rhypot_unique; [exact H|]. pose proof (sc l). transitivity (cos b2 * cos b2 * (sin l * sin l + cos l * cos l)); [rewrite H0|]; ring. Qed.
Lemma g_end_lon : 0 < cos b2 -> same_angle (end_lon b1 al sg) l.
Proof.
  intros H. unfold end_lon. rewrite g_qx, g_qy, Ratan2_scale by exact H. destruct (Ratan2_spec (sin l) (cos l)) as [X Y].
  assert (H1 : Rhypot (cos l) (sin l) = 1) by (apply Rhypot_unique; [lra|pose proof (sc l); lra]). rewrite H1 in *. apply same_angle_trig; lra.
Qed.
Lemma g_sa : sa b1 al = isa b1 b2 l.
Proof. unfold sa, isa. destruct iaz1_spec as [_ S]. apply (Rmult_eq_reg_l (iss b1 b2 l)); [|exact HS]. transitivity (cos b1 * (iss b1 b2 l * sin al)); [ring|]. rewrite S. unfold ew. field. exact HS. Qed.
Lemma g_wz : iss b1 b2 l * wz b1 al sg = cos b2 * (- sin b1 * cos b2 + cos b1 * sin b2 * cos l).
Proof.
  unfold wz. destruct (isg_spec b1 b2 l) as [-> ->]. destruct iaz1_spec as [C _]. pose proof (iss_sq b1 b2 l) as Q. pose proof (aux_unit b1 b2 l) as U.
  transitivity (- sin b1 * (iss b1 b2 l * iss b1 b2 l) + cos b1 * ics b1 b2 l * (iss b1 b2 l * cos al)); [ring|]. rewrite C, Q.
  replace (ew b2 l * ew b2 l + ns b1 b2 l * ns b1 b2 l) with (1 - ics b1 b2 l * ics b1 b2 l) by lra. unfold ics, ns. pose proof (sc b1) as S1. pose proof (sc b2) as S2.
  replace (cos b1 * (sin b1 * sin b2 + cos b1 * cos b2 * cos l) * (cos b1 * sin b2 - sin b1 * cos b2 * cos l)) with
    (sin b1 * (cos b1 * cos b1) * (sin b2 * sin b2) + cos b1 * (cos b1 * cos b1) * sin b2 * cos b2 * cos l - cos b1 * (sin b1 * sin b1) * sin b2 * cos b2 * cos l - sin b1 * (cos b1 * cos b1) * (cos b2 * cos b2) * (cos l * cos l)) by ring.
  replace (sin b1 * sin b1) with (1 - cos b1 * cos b1) by lra.
  replace (- sin b1 * (1 - (sin b1 * sin b2 + cos b1 * cos b2 * cos l) * (sin b1 * sin b2 + cos b1 * cos b2 * cos l))) with
    (- sin b1 * (1 - (sin b1 * sin b1) * (sin b2 * sin b2) - (cos b1 * cos b1) * (cos b2 * cos b2) * (cos l * cos l)) + 2 * (sin b1 * sin b1) * cos b1 * sin b2 * cos b2 * cos l) by ring.
  replace (sin b1 * sin b1) with (1 - cos b1 * cos b1) by lra. replace (sin b2 * sin b2) with (1 - cos b2 * cos b2) by lra. ring.
Qed.
Lemma g_end_az : 0 < cos b2 -> end_az b1 al sg = iaz2 b1 b2 l.
Proof.
  intros H. unfold end_az, iaz2. assert (P : 0 < iss b1 b2 l) by (pose proof (iss_ge b1 b2 l); lra).
  rewrite <- (Ratan2_scale (sa b1 al) (wz b1 al sg) (iss b1 b2 l)) by exact P. rewrite g_wz, g_sa.
  replace (iss b1 b2 l * isa b1 b2 l) with (cos b2 * (cos b1 * sin l)) by (unfold isa; field; exact HS). now apply Ratan2_scale.
Qed.
Lemma g_iq : iq b1 b2 l = 1 - sa b1 al * sa b1 al.
Proof. unfold iq. now rewrite g_sa. Qed.
Lemma g_icm : iq b1 b2 l <> 0 -> icm b1 b2 l = cos (2 * arc1 b1 al + sg).
Proof.
  intros Q. unfold icm. destruct (isg_spec b1 b2 l) as [_ C]. rewrite <- C. destruct (arc1_spec b1 al) as [_ S1]. pose proof (qz_node b1 al sg) as Z. rewrite g_qz in Z.
  rewrite <- S1, Z. set (k := ca0 b1 al) in *. set (x := arc1 b1 al) in *. assert (K : k * k = iq b1 b2 l) by (unfold k; rewrite ca0_sq, g_iq; reflexivity).
  replace (2 * (k * sin x) * (k * sin (x + sg)) / iq b1 b2 l) with (2 * sin x * sin (x + sg)) by (rewrite <- K; field; intros N; rewrite N in K; lra).
  replace (2 * x + sg) with (x + (x + sg)) by ring. replace sg with (x + sg - x) at 1 by ring. rewrite cos_minus, (cos_plus x (x + sg)). ring.
Qed.
End Great.

Section Sphere.
Context (E : Ellipsoid XR) (a : R) (HE : shape E a a).
Lemma vinv_sphere_fin l1 p1 l2 p2 : - (PI / 2) < p1 < PI / 2 -> - (PI / 2) < p2 < PI / 2 -> iss p1 p2 (Rnorm (l2 - l1)) <> 0 ->
  vincenty_inverse E (Fin l1, Fin p1) (Fin l2, Fin p2) =
    Ok (mkGeodesic (Fin l1, Fin p1) (Fin (iaz1 p1 p2 (Rnorm (l2 - l1)))) (Fin l2, Fin p2) (Fin (iaz2 p1 p2 (Rnorm (l2 - l1)))) (Fin (a * isg p1 p2 (Rnorm (l2 - l1))))).
Proof.
  intros H1 H2 HS. pose proof (proj1 HE) as Ha. rewrite (vinv_fin E a a HE) by assumption.
  rewrite !(vbe_sphere E a HE) by assumption. replace ((a - a) / a) with 0 by (field; lra). set (l := Rnorm (l2 - l1)) in *.
  change 30%nat with (S 29). generalize 29%nat. intros n. cbn [Rloop]. rewrite Req_bool_f by exact HS.
  assert (EL : Rlam 0 p1 p2 l l = l) by (unfold Rlam; destruct (Req_bool _ _); ring). rewrite EL, Rminus_diag_eq, Rabs_R0, Rlt_bool_t by (reflexivity || apply tol_pos).
  rewrite !Rnorm_id by apply Ratan2_bound. do 2 f_equal. f_equal. unfold Rdist. replace ((a * a - a * a) / (a * a)) with 0 by (field; lra). rewrite Rmult_0_r.
  destruct (Req_bool _ _); [reflexivity|]. unfold Rdelta. replace (RB 0) with 0 by (unfold RB; field). replace (RA 0) with 1 by (unfold RA; field). field.
Qed.
Lemma sphere_route l1 p1 l2 p2 : - (PI / 2) < p1 < PI / 2 -> - (PI / 2) < p2 < PI / 2 ->
  let l := Rnorm (l2 - l1) in iss p1 p2 l <> 0 ->
  travel (position l1 p1) (heading l1 p1 (iaz1 p1 p2 l)) (isg p1 p2 l) = position l2 p2 /\
  course (position l1 p1) (heading l1 p1 (iaz1 p1 p2 l)) (isg p1 p2 l) = heading l2 p2 (iaz2 p1 p2 l).
Proof.
  intros H1 H2 l HS. pose proof (cos_nz _ H1) as C1. pose proof (cos_nz _ H2) as C2. set (al := iaz1 p1 p2 l). set (sg := isg p1 p2 l).
  assert (W : same_angle (l1 + end_lon p1 al sg) l2).
  { replace l2 with (l1 + (l2 - l1)) by ring. apply same_angle_add; [apply same_angle_refl|]. eapply same_angle_trans; [apply g_end_lon; assumption|]. apply Rnorm_spec. }
  split.
  - rewrite <- (arrival p1 al sg l1 p2); [apply position_same; exact W|symmetry; now apply g_qz|symmetry; apply g_end_cos; lra].
  - rewrite <- (arrival_heading p1 al sg l1 p2); [|symmetry; now apply g_qz|symmetry; apply g_end_cos; lra|unfold al, sg; rewrite g_end_cos; [exact C2|lra]].
    unfold al, sg. rewrite g_end_az by assumption. apply heading_same; [exact W|apply same_angle_refl].
Qed.
(** neither equal nor opposite *)
Lemma ics_dot l1 p1 l2 p2 : ics p1 p2 (Rnorm (l2 - l1)) = pdot (position l1 p1) (position l2 p2).
Proof. unfold ics, pdot, position. rewrite (same_angle_cos _ _ (proj2 (Rnorm_spec (l2 - l1)))), cos_minus. ring. Qed.
Lemma unit_dot P Q : pdot P P = 1 -> pdot Q Q = 1 -> (pdot P Q = 1 -> P = Q) /\ (pdot P Q = -1 -> P = vscale (-1) Q).
Proof.
  destruct P as [[x y] z], Q as [[x' y'] z']. cbn [pdot]. intros HP HQ.
  assert (SQ : forall u v w : R, u * u + v * v + w * w = 0 -> u = 0 /\ v = 0 /\ w = 0).
  { intros u v w H. pose proof (Rle_0_sqr u). pose proof (Rle_0_sqr v). pose proof (Rle_0_sqr w). unfold Rsqr in *. repeat split; apply Rsqr_0_uniq; unfold Rsqr; lra. }
  split; intros H; unfold vscale.
  - destruct (SQ (x - x') (y - y') (z - z')) as (A & B & C); [lra|]. apply R3_eq; lra.
  - destruct (SQ (x + x') (y + y') (z + z')) as (A & B & C); [lra|]. apply R3_eq; lra.
Qed.
Lemma position_unit l p : pdot (position l p) (position l p) = 1.
Proof. unfold pdot, position. pose proof (sc l). pose proof (sc p). transitivity (cos p * cos p * (sin l * sin l + cos l * cos l) + sin p * sin p); [ring|]. rewrite H. lra. Qed.
Lemma iss_distinct l1 p1 l2 p2 : position l1 p1 <> position l2 p2 -> position l1 p1 <> vscale (-1) (position l2 p2) -> iss p1 p2 (Rnorm (l2 - l1)) <> 0.
Proof.
  intros H1 H2 Z. pose proof (iss_sq p1 p2 (Rnorm (l2 - l1))) as S. pose proof (aux_unit p1 p2 (Rnorm (l2 - l1))) as U. rewrite Z in S. rewrite ics_dot in U.
  destruct (unit_dot _ _ (position_unit l1 p1) (position_unit l2 p2)) as [D1 D2]. set (d := pdot (position l1 p1) (position l2 p2)) in *.
  assert (Hd : (d - 1) * (d + 1) = 0) by lra. apply Rmult_integral in Hd as [Hd|Hd]; [apply H1, D1; lra|apply H2, D2; lra].
Qed.
Lemma vinv_sphere l1 p1 l2 p2 : - (PI / 2) < p1 < PI / 2 -> - (PI / 2) < p2 < PI / 2 ->
  position l1 p1 <> position l2 p2 -> position l1 p1 <> vscale (-1) (position l2 p2) ->
  exists al1 al2 s, vincenty_inverse E (Fin l1, Fin p1) (Fin l2, Fin p2) = Ok (mkGeodesic (Fin l1, Fin p1) (Fin al1) (Fin l2, Fin p2) (Fin al2) (Fin s)) /\
    0 < s < PI * a /\ - PI < al1 <= PI /\ - PI < al2 <= PI /\
    travel (position l1 p1) (heading l1 p1 al1) (s / a) = position l2 p2 /\
    course (position l1 p1) (heading l1 p1 al1) (s / a) = heading l2 p2 al2.
Proof.
  intros H1 H2 N1 N2. pose proof (iss_distinct _ _ _ _ N1 N2) as HS. pose proof (proj1 HE) as Ha. rewrite vinv_sphere_fin by assumption.
  set (l := Rnorm (l2 - l1)) in *. do 3 eexists. split; [reflexivity|]. pose proof (isg_bound p1 p2 l) as B. destruct (isg_spec p1 p2 l) as [S _].
  assert (isg p1 p2 l <> 0) by (intros Z; rewrite Z, sin_0 in S; lra). assert (isg p1 p2 l <> PI) by (intros Z; rewrite Z, sin_PI in S; lra).
  split; [split; nra|]. split; [apply Ratan2_bound|]. split; [apply Ratan2_bound|]. replace (a * isg p1 p2 l / a) with (isg p1 p2 l) by (field; lra). now apply sphere_route.
Qed.
End Sphere.
