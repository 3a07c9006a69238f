(** Exact arithmetic: northings on the central meridian and the length of the meridian. *)
From Coq Require Import String Reals Lra Lia ZArith Bool Psatz List.
From Coquelicot Require Import Coquelicot.
From Flocq Require Import Core.Raux.
From Verif.Num Require Import FOps RFun XR XRLemmas.
From Verif.Model Require Import Fp Quantities Cs Ellipsoid Geodesics Projections Crs.
From Verif.Spec Require Import Angles Series Axes Shape Maps Krueger Conformal.
From Verif.Proofs Require Import AnglesX MathX AxesX EllX DatumX EllEx ProjX MercX TransG TMX TMInv MercInv TMConf TMScale.
Import ListNotations.
Local Open Scope R_scope.

Lemma cos_PI4' : cos (PI / 4) = sqrt 2 / 2.
Proof. rewrite cos_PI4. assert (Q : sqrt 2 * sqrt 2 = 2) by (apply sqrt_sqrt; lra). assert (0 < sqrt 2) by (apply sqrt_lt_R0; lra). apply (Rmult_eq_reg_r (sqrt 2)); [|lra]. replace (1 / sqrt 2 * sqrt 2) with 1 by (field; lra). lra. Qed.
Lemma same_cs l l0 : same_angle l l0 -> cos (l - l0) = 1 /\ sin (l - l0) = 0.
Proof. intros Hl. pose proof (same_angle_sin _ _ Hl) as A. pose proof (same_angle_cos _ _ Hl) as B. rewrite sin_minus, cos_minus, A, B. split; [|ring]. pose proof (sc2 l0). lra. Qed.
Lemma same_cos1 l l0 : same_angle l l0 -> cos (l - l0) = 1. Proof. intros H. now apply same_cs. Qed.
Lemma cnorth_same a b lon0 lat0 k0 fn l p : same_angle l lon0 -> cnorth a b lon0 lat0 k0 fn l p = cnorth a b lon0 lat0 k0 fn lon0 p.
Proof. intros H. destruct (same_cs _ _ H) as [C S]. unfold cnorth, tx, te. rewrite C, S. replace (lon0 - lon0) with 0 by ring. now rewrite cos_0, sin_0. Qed.
Lemma ceast_same a b lon0 k0 fe l p : same_angle l lon0 -> ceast a b lon0 k0 fe l p = fe.
Proof.
  intros H. destruct (same_cs _ _ H) as [C S]. unfold ceast. set (q := cq a b p). assert (T : te q (l - lon0) = 0) by (unfold te; rewrite S; unfold Rdiv; rewrite Rmult_0_l; apply Ratanh_0).
  rewrite T. unfold cos_series. destruct (hs (tn a b)) as [[[h1 h2] h3] h4]. rewrite !Rmult_0_r, sinh_0'. ring.
Qed.
Section Arc.
Context (E : Ellipsoid XR) (a b : R) (HE : shape E a b).
Lemma cscale_pos lon0 k0 l p : 0 < k0 -> nonpolar p -> 0 <= cscale a b lon0 k0 l p.
Proof.
  intros Hk Hp. unfold cscale. apply Rdiv_le_0_compat; [|apply (mer_x_pos E a b HE p Hp)]. apply Rmult_le_pos; [|apply Rhypot_ge_0]. apply Rmult_le_pos; [lra|]. left. apply (tB_pos E a b HE).
Qed.
Definition mspeed (p : R) : R := a * a * (b * b) / (gell a b p * gell a b p * gell a b p).
Lemma mspeed_pos p : 0 < mspeed p.
Proof. pose proof (proj1 HE) as Ha. pose proof (gell_pos E a b HE p) as G. unfold mspeed. apply Rdiv_lt_0_compat; repeat apply Rmult_lt_0_compat; lra. Qed.
Lemma arc_deriv x z D : meridian a b x z -> meridian_arc x z D -> forall p, is_derive D p (mspeed p).
Proof.
  intros M A p. destruct (A p) as (x' & z' & X & Z & L). apply is_derive_Reals.
  assert (X1 : x' = - (a * a * (b * b) * sin p / (gell a b p * gell a b p * gell a b p))).
  { apply (uniqueness_limite x p); [exact X|]. apply is_derive_Reals. apply (is_derive_ext (mer_x a b)); [intros t; symmetry; apply (meridian_unique E a b HE t _ _ (M t))|apply (mer_x_deriv E a b HE)]. }
  assert (Z1 : z' = a * a * (b * b) * cos p / (gell a b p * gell a b p * gell a b p)).
  { apply (uniqueness_limite z p); [exact Z|]. apply is_derive_Reals. apply (is_derive_ext (mer_z a b)); [intros t; symmetry; apply (meridian_unique E a b HE t _ _ (M t))|apply (mer_z_deriv E a b HE)]. }
  rewrite X1, Z1, (mer_speed E a b HE) in L. exact L.
Qed.
Lemma arc_exists : exists D, meridian_arc (mer_x a b) (mer_z a b) D.
Proof.
  exists (fun p => RInt mspeed 0 p). intros p. do 2 eexists. split; [apply is_derive_Reals, (mer_x_deriv E a b HE)|]. split; [apply is_derive_Reals, (mer_z_deriv E a b HE)|]. rewrite (mer_speed E a b HE). fold (mspeed p). apply is_derive_Reals.
  assert (C : forall t, continuous mspeed t).
  { intros t. apply (ex_derive_continuous (V := R_NormedModule)). pose proof (gell_pos E a b HE t) as G. pose proof (gell_deriv E a b HE t) as GD. unfold mspeed. auto_derive. repeat split; try (eexists; exact GD). assert (0 < gell a b t * gell a b t * gell a b t) by (repeat apply Rmult_lt_0_compat; exact G). lra. }
  apply (is_derive_RInt mspeed (fun p => RInt mspeed 0 p) 0 p); [|apply C]. exists (mkposreal 1 Rlt_0_1). intros t _. apply (RInt_correct mspeed). apply (ex_RInt_continuous mspeed). intros; apply C.
Qed.
Context (Hf : 99 * a <= 100 * b) (lon0 lat0 k0 fe fn : R) (Hk : 0 < k0).
Let N := cnorth a b lon0 lat0 k0 fn lon0.
Let ep := 25 * third_flattening a b ^ 5.
Lemma north_deriv p : nonpolar p -> exists r, is_derive N p (k0 * (1 + r) * mspeed p) /\ Rabs r <= ep.
Proof.
  intros Hp. assert (SA : same_angle lon0 lon0) by (exists 0%Z; ring). assert (C : 0 < cos (lon0 - lon0)) by (rewrite (same_cos1 _ _ SA); lra).
  destruct (central_scale E a b HE Hf lon0 k0 Hk lon0 p Hp SA) as [S T]. destruct (cconf E a b HE lon0 lat0 k0 fe fn lon0 p Hp C) as (x' & z' & X & Z & K). cbv zeta in K. destruct K as (_ & _ & _ & _ & _ & K).
  assert (X1 : x' = - (a * a * (b * b) * sin p / (gell a b p * gell a b p * gell a b p))) by (apply (uniqueness_limite (mer_x a b) p); [exact X|apply is_derive_Reals, (mer_x_deriv E a b HE)]).
  assert (Z1 : z' = a * a * (b * b) * cos p / (gell a b p * gell a b p * gell a b p)) by (apply (uniqueness_limite (mer_z a b) p); [exact Z|apply is_derive_Reals, (mer_z_deriv E a b HE)]).
  rewrite X1, Z1, (mer_speed E a b HE), T, cos_0 in K. fold (mspeed p) in K.
  exists (cscale a b lon0 k0 lon0 p / k0 - 1). split; [|].
  - apply is_derive_Reals. replace (k0 * (1 + (cscale a b lon0 k0 lon0 p / k0 - 1)) * mspeed p) with (cscale a b lon0 k0 lon0 p * mspeed p * 1) by (field; lra). exact K.
  - replace (cscale a b lon0 k0 lon0 p / k0 - 1) with ((cscale a b lon0 k0 lon0 p - k0) / k0) by (field; lra). unfold Rdiv. rewrite Rabs_mult, (Rabs_right (/ k0)) by (left; now apply Rinv_0_lt_compat). apply (Rmult_le_reg_r k0); [exact Hk|]. rewrite Rmult_assoc, Rinv_l, Rmult_1_r by lra. exact S.
Qed.
Lemma arc_bound_le x z D : meridian a b x z -> meridian_arc x z D -> forall p q, nonpolar p -> nonpolar q -> p <= q ->
  0 <= D q - D p /\ Rabs (N q - N p - k0 * (D q - D p)) <= ep * k0 * (D q - D p).
Proof.
  intros M A p q Hp Hq L. pose proof (arc_deriv x z D M A) as DD.
  assert (NP : forall t, p <= t <= q -> nonpolar t) by (unfold nonpolar in *; intros; lra).
  assert (MV : forall c, exists t r, p <= t <= q /\ Rabs r <= ep /\ N q - N p - k0 * (1 + c) * (D q - D p) = k0 * (r - c) * mspeed t * (q - p)).
  { intros c. set (F := fun t => N t - k0 * (1 + c) * D t).
    assert (FD : forall t, p <= t <= q -> exists r, is_derive F t (k0 * (r - c) * mspeed t) /\ Rabs r <= ep).
    { intros t Ht. destruct (north_deriv t (NP t Ht)) as (r & ND & Hr). exists r. split; [|exact Hr]. pose proof (DD t) as Dt. unfold F. auto_derive; [repeat split; first [exists (k0 * (1 + r) * mspeed t); exact ND|exists (mspeed t); exact Dt]|].
      pose proof (is_derive_unique _ _ _ ND) as U1. pose proof (is_derive_unique _ _ _ Dt) as U2. change (Derive (fun x => N x) t) with (Derive N t). change (Derive (fun x => D x) t) with (Derive D t). rewrite U1, U2. ring. }
    destruct (MVT_gen F p q (Derive F)) as (t & Ht & K).
    - intros t Ht. rewrite Rmin_left, Rmax_right in Ht by exact L. assert (Ht' : p <= t <= q) by lra. destruct (FD t Ht') as (r & H & _). apply Derive_correct. exists (k0 * (r - c) * mspeed t). exact H.
    - intros t Ht. rewrite Rmin_left, Rmax_right in Ht by exact L. assert (Ht' : p <= t <= q) by lra. destruct (FD t Ht') as (r & H & _). apply continuity_pt_filterlim. apply (ex_derive_continuous (V := R_NormedModule)). exists (k0 * (r - c) * mspeed t). exact H.
    - rewrite Rmin_left, Rmax_right in Ht by exact L. destruct (FD t Ht) as (r & H & Hr). rewrite (is_derive_unique _ _ _ H) in K. exists t, r. split; [exact Ht|]. split; [exact Hr|]. unfold F in K. lra. }
  split.
  - destruct (MVT_gen D p q mspeed) as (t & Ht & K).
    + intros t _. apply DD.
    + intros t _. apply continuity_pt_filterlim. apply (ex_derive_continuous (V := R_NormedModule)). eexists. apply DD.
    + rewrite K. pose proof (mspeed_pos t). apply Rmult_le_pos; lra.
  - destruct (MV ep) as (t & r & _ & Hr & K1). destruct (MV (- ep)) as (t' & r' & _ & Hr' & K2). apply Rabs_le_inv in Hr. apply Rabs_le_inv in Hr'.
    assert (A1 : 0 <= k0 * (ep - r) * mspeed t * (q - p)) by (apply Rmult_le_pos; [apply Rmult_le_pos; [apply Rmult_le_pos; lra|left; apply mspeed_pos]|lra]).
    assert (A2 : 0 <= k0 * (r' - - ep) * mspeed t' * (q - p)) by (apply Rmult_le_pos; [apply Rmult_le_pos; [apply Rmult_le_pos; lra|left; apply mspeed_pos]|lra]).
    apply Rabs_le. split; lra.
Qed.
Lemma arc_bound x z D : meridian a b x z -> meridian_arc x z D -> forall p q, nonpolar p -> nonpolar q ->
  Rabs (N q - N p - k0 * (D q - D p)) <= ep * k0 * Rabs (D q - D p).
Proof.
  intros M A p q Hp Hq. destruct (Rle_or_lt p q) as [L|L].
  - destruct (arc_bound_le x z D M A p q Hp Hq L) as [P B]. now rewrite (Rabs_right (D q - D p)) by lra.
  - destruct (arc_bound_le x z D M A q p Hq Hp ltac:(lra)) as [P B]. rewrite (Rabs_left1 (D q - D p)) by lra. replace (- (D q - D p)) with (D p - D q) by ring. rewrite <- Rabs_Ropp. replace (- (N q - N p - k0 * (D q - D p))) with (N p - N q - k0 * (D p - D q)) by ring. exact B.
Qed.
End Arc.
