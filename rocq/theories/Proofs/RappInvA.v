(** Rapp's inverse solution gives a geodesic that ends at the second point. *)
From Coq Require Import Reals Lra Psatz Lia Bool List.
From Flocq Require Import Core.Raux.
From Coquelicot Require Import Coquelicot.
From Verif.Num Require Import FOps RFun XR XRLemmas.
From Verif.Model Require Import Fp Quantities Complex Cs Ellipsoid Geodesics.
From Verif.Spec Require Import Angles Axes Shape Frames Sphere Geodesic Maps Rapp.
From Verif.Proofs Require Import AnglesX EllX AxesX SphereG SphereN GeoG GeoV GeoVD GeoI GeoIS GeoEM GeoR GeoRI GeoUniq Bessel BesselP GeoAcc VincAcc VincDir VincInv VincInvA RappAcc RappDir RappP RappInv.
Local Open Scope R_scope.

(** ** Turning the azimuth a little *)
Section Turn.
Context (a b be al al' k : R) (Hab : 0 < b <= a) (Hf : 99 * a <= 100 * b) (Hk : 0 <= k) (HK : 2 - 2 * cos (al' - al) <= k * k).
Notation s := (sa be al).
Notation c := (ca0 be al).
Notation t1 := (arc1 be al).
Notation s' := (sa be al').
Notation c' := (ca0 be al').
Notation t1' := (arc1 be al').
Lemma turn_sq : (cos al' - cos al) * (cos al' - cos al) + (sin al' - sin al) * (sin al' - sin al) <= k * k.
Proof. rewrite cos_minus in HK. pose proof (sc al). pose proof (sc al'). nra. Qed.
Lemma sq_abs x : x * x <= k * k -> Rabs x <= k.
Proof. intros H. rewrite <- (Rabs_right k) by lra. apply Rsqr_le_abs_0. exact H. Qed.
Lemma turn_cos : Rabs (cos al' - cos al) <= k.
Proof. apply sq_abs. pose proof turn_sq. pose proof (Rle_0_sqr (sin al' - sin al)) as Q. unfold Rsqr in Q. lra. Qed.
Lemma turn_sin : Rabs (sin al' - sin al) <= k.
Proof. apply sq_abs. pose proof turn_sq. pose proof (Rle_0_sqr (cos al' - cos al)) as Q. unfold Rsqr in Q. lra. Qed.
Lemma prod_le x y m : Rabs x <= 1 -> Rabs y <= m -> Rabs (x * y) <= m.
Proof. intros H1 H2. rewrite Rabs_mult. pose proof (Rabs_pos x). pose proof (Rabs_pos y). nra. Qed.
Lemma trig1 x : Rabs (cos x) <= 1 /\ Rabs (sin x) <= 1.
Proof. split; apply Rabs_le; [apply COS_bound|apply SIN_bound]. Qed.
Lemma turn_z t : Rabs (qz be al' t - qz be al t) <= k.
Proof.
  unfold qz. replace (_ - _) with (cos be * (sin t * (cos al' - cos al))) by ring. apply prod_le; [apply trig1|]. apply prod_le; [apply trig1|apply turn_cos].
Qed.
Lemma e2_small : 0 <= (a * a - b * b) / (a * a) <= 199 / 10000.
Proof.
  split; [apply Rdiv_le_0_compat; nra|]. apply (Rmult_le_reg_r (a * a)); [nra|]. replace ((a * a - b * b) / (a * a) * (a * a)) with (a * a - b * b) by (field; lra). nra.
Qed.
Lemma bw_at t : bw a b c (t1 + t) * bw a b c (t1 + t) = 1 - (a * a - b * b) / (a * a) * (1 - qz be al t * qz be al t).
Proof. rewrite (bw_sq a b s c Hab (sc0 be al)), <- qz_node. reflexivity. Qed.
End Turn.
Section Turn2.
Context (a b be al al' k : R) (Hab : 0 < b <= a) (Hf : 99 * a <= 100 * b) (Hk : 0 <= k) (HK : 2 - 2 * cos (al' - al) <= k * k).
Notation s := (sa be al).
Notation c := (ca0 be al).
Notation t1 := (arc1 be al).
Notation s' := (sa be al').
Notation c' := (ca0 be al').
Notation t1' := (arc1 be al').
Lemma bw_99 z t : 99 / 100 <= bw a b (ca0 be z) (arc1 be z + t) <= 1.
Proof.
  split; [|apply (bw_le a b (sa be z) _ Hab (sc0 be z))]. eapply Rle_trans; [|apply (bw_ge a b (sa be z) _ Hab (sc0 be z))].
  apply (Rmult_le_reg_r a); [lra|]. replace (b / a * a) with b by (field; lra). lra.
Qed.
Lemma turn_bw t : Rabs (bw a b c' (t1' + t) - bw a b c (t1 + t)) <= 202 / 10000 * k.
Proof.
  pose proof (bw_at a b be al Hab t) as Q. pose proof (bw_at a b be al' Hab t) as Q'. pose proof (bw_99 al t) as W. pose proof (bw_99 al' t) as W'. pose proof (turn_z be al al' k Hk HK t) as Z. pose proof (e2_small a b Hab Hf) as E.
  set (w := bw a b c (t1 + t)) in *. set (w' := bw a b c' (t1' + t)) in *. set (z := qz be al t) in *. set (z' := qz be al' t) in *. set (e := (a * a - b * b) / (a * a)) in *.
  assert (Z1 : Rabs z <= 1) by (apply Rabs_le; pose proof (q_unit be al t); unfold z; split; nra). assert (Z1' : Rabs z' <= 1) by (apply Rabs_le; pose proof (q_unit be al' t); unfold z'; split; nra).
  assert (D : (w' - w) * (w' + w) = e * ((z' - z) * (z' + z))) by lra.
  assert (S : Rabs (z' + z) <= 2) by (eapply Rle_trans; [apply Rabs_triang|]; lra).
  apply (f_equal Rabs) in D. rewrite !Rabs_mult, (Rabs_right e), (Rabs_right (w' + w)) in D by lra.
  pose proof (Rabs_pos (z' - z)). pose proof (Rabs_pos (z' + z)). pose proof (Rabs_pos (w' - w)).
  assert (Rabs (z' - z) * Rabs (z' + z) <= k * 2) by (apply Rmult_le_compat; assumption). assert (0 <= Rabs (z' - z) * Rabs (z' + z)) by (apply Rmult_le_pos; assumption).
  assert (e * (Rabs (z' - z) * Rabs (z' + z)) <= 199 / 10000 * (k * 2)) by (apply Rmult_le_compat; lra).
  assert (Rabs (w' - w) * (198 / 100) <= Rabs (w' - w) * (w' + w)) by (apply Rmult_le_compat_l; lra). lra.
Qed.
Lemma turn_len t : Rabs (blen a b c' t1' t - blen a b c t1 t) <= a * (202 / 10000 * k) * Rabs t.
Proof.
  pose proof (lipschitz (fun t => blen a b c' t1' t - blen a b c t1 t) (fun t => a * bw a b c' (t1' + t) - a * bw a b c (t1 + t)) (a * (202 / 10000 * k))) as H.
  assert (D : forall x, is_derive (fun t => blen a b c' t1' t - blen a b c t1 t) x (a * bw a b c' (t1' + x) - a * bw a b c (t1 + x))).
  { intros x. apply (is_derive_minus (blen a b c' t1') (blen a b c t1)); [apply (blen_deriv a b s')|apply (blen_deriv a b s)]; first [exact Hab|apply sc0]. }
  specialize (H D). assert (B : forall x, Rabs (a * bw a b c' (t1' + x) - a * bw a b c (t1 + x)) <= a * (202 / 10000 * k)).
  { intros x. rewrite <- Rmult_minus_distr_l, Rabs_mult, (Rabs_right a) by lra. apply Rmult_le_compat_l; [lra|apply turn_bw]. }
  specialize (H B t 0). cbv beta in H. rewrite !blen_0 in H. replace (blen a b c' t1' t - blen a b c t1 t) with (blen a b c' t1' t - blen a b c t1 t - (0 - 0)) by ring. replace (Rabs t) with (Rabs (t - 0)) by (f_equal; ring). exact H.
Qed.
Lemma turn_rate t : Rabs (s' * brate a b c' (t1' + t) - s * brate a b c (t1 + t)) <= 11 / 1000 * k.
Proof.
  unfold brate. pose proof (bw_99 al t) as W. pose proof (bw_99 al' t) as W'. pose proof (turn_bw t) as D. pose proof (e2_small a b Hab Hf) as E.
  set (w := bw a b c (t1 + t)) in *. set (w' := bw a b c' (t1' + t)) in *. set (e := (a * a - b * b) / (a * a)) in *.
  replace (s' * (e / (1 + w')) - s * (e / (1 + w))) with (e / (1 + w') * (s' - s) + e / ((1 + w) * (1 + w')) * (s * (w - w'))) by (field; lra).
  assert (I1 : 0 <= / (1 + w') <= 100 / 199) by (split; [left; apply Rinv_0_lt_compat; lra|]; replace (100 / 199) with (/ (199 / 100)) by lra; apply Rinv_le_contravar; lra).
  assert (I2 : 0 <= / (1 + w) <= 100 / 199) by (split; [left; apply Rinv_0_lt_compat; lra|]; replace (100 / 199) with (/ (199 / 100)) by lra; apply Rinv_le_contravar; lra).
  assert (B1 : 0 <= e / (1 + w') <= / 100) by (unfold Rdiv; split; [apply Rmult_le_pos; lra|]; nra).
  assert (B2 : 0 <= e / ((1 + w) * (1 + w')) <= 6 / 1000).
  { replace (e / ((1 + w) * (1 + w'))) with (e / (1 + w') * / (1 + w)) by (field; lra). split; [apply Rmult_le_pos; lra|]. nra. }
  assert (S1 : Rabs (s' - s) <= k) by (unfold sa; rewrite <- Rmult_minus_distr_l; apply prod_le; [apply trig1|apply (turn_sin al al'); assumption]).
  assert (S2 : Rabs (s * (w - w')) <= 202 / 10000 * k) by (rewrite Rabs_minus_sym in D; apply prod_le; [|exact D]; unfold sa; apply prod_le; apply trig1).
  eapply Rle_trans; [apply Rabs_triang|]. rewrite (Rabs_mult (e / (1 + w'))), (Rabs_mult (e / ((1 + w) * (1 + w')))), (Rabs_right (e / (1 + w'))), (Rabs_right (e / ((1 + w) * (1 + w')))) by lra.
  pose proof (Rabs_pos (s' - s)). pose proof (Rabs_pos (s * (w - w'))).
  assert (e / (1 + w') * Rabs (s' - s) <= / 100 * k) by (apply Rmult_le_compat; lra). assert (e / ((1 + w) * (1 + w')) * Rabs (s * (w - w')) <= 6 / 1000 * (202 / 10000 * k)) by (apply Rmult_le_compat; lra). lra.
Qed.
Lemma turn_th t : Rabs (bth a b s' c' t1' t - bth a b s c t1 t) <= 11 / 1000 * k * Rabs t.
Proof.
  pose proof (lipschitz (fun t => bth a b s' c' t1' t - bth a b s c t1 t) (fun t => s' * brate a b c' (t1' + t) - s * brate a b c (t1 + t)) (11 / 1000 * k)) as H.
  assert (D : forall x, is_derive (fun t => bth a b s' c' t1' t - bth a b s c t1 t) x (s' * brate a b c' (t1' + x) - s * brate a b c (t1 + x))).
  { intros x. apply (is_derive_minus (bth a b s' c' t1') (bth a b s c t1)); apply bth_deriv; first [exact Hab|apply sc0]. }
  specialize (H D turn_rate t 0). cbv beta in H. rewrite !bth_0 in H. replace (bth a b s' c' t1' t - bth a b s c t1 t) with (bth a b s' c' t1' t - bth a b s c t1 t - (0 - 0)) by ring. replace (Rabs t) with (Rabs (t - 0)) by (f_equal; ring). exact H.
Qed.
Lemma turn_sphere t m : sin t * k <= m -> 0 <= sin t -> 
  (qx be al' t - qx be al t) * (qx be al' t - qx be al t) + (qy al' t - qy al t) * (qy al' t - qy al t) + (qz be al' t - qz be al t) * (qz be al' t - qz be al t) <= m * m.
Proof.
  intros M S. pose proof (turn_sq al al' k HK) as T. pose proof (sc be) as B. unfold qx, qy, qz.
  replace (_ + _) with (sin t * sin t * ((sin be * sin be + cos be * cos be) * ((cos al' - cos al) * (cos al' - cos al)) + (sin al' - sin al) * (sin al' - sin al))) by ring. rewrite B.
  apply (Rle_trans _ (sin t * sin t * (k * k))); [apply Rmult_le_compat_l; [apply Rle_0_sqr|lra]|]. replace (sin t * sin t * (k * k)) with ((sin t * k) * (sin t * k)) by ring. apply Rmult_le_compat; try assumption; apply Rmult_le_pos; assumption.
Qed.
End Turn2.
(** A geodesic whose azimuth is turned a little ends near the end of the other one. *)
Lemma rot_dist a b th th' x y z x' y' z' m n : 0 < b <= a -> 0 <= m -> x * x + y * y <= 1 -> (x' - x) * (x' - x) + (y' - y) * (y' - y) + (z' - z) * (z' - z) <= m * m -> Rabs (th' - th) <= n ->
  edist (a * (x' * cos th' - y' * sin th'), a * (x' * sin th' + y' * cos th'), b * z') (a * (x * cos th - y * sin th), a * (x * sin th + y * cos th), b * z) <= a * (m + n).
Proof.
  intros Hab M U H N. eapply Rle_trans; [apply (edist_triangle _ (a * (x * cos th' - y * sin th'), a * (x * sin th' + y * cos th'), b * z))|]. rewrite (Rmult_plus_distr_l a m n). apply Rplus_le_compat.
  - unfold edist. rewrite <- (sqrt_Rsqr (a * m)) by (apply Rmult_le_pos; lra). apply sqrt_le_1_alt. unfold Rsqr. pose proof (sc th') as T.
    replace (_ + _) with (a * a * ((sin th' * sin th' + cos th' * cos th') * ((x' - x) * (x' - x) + (y' - y) * (y' - y))) + b * b * ((z' - z) * (z' - z))) by ring. rewrite T, Rmult_1_l.
    replace (a * m * (a * m)) with (a * a * (m * m)) by ring. pose proof (Rle_0_sqr (z' - z)) as Z. unfold Rsqr in Z.
    assert (b * b * ((z' - z) * (z' - z)) <= a * a * ((z' - z) * (z' - z))) by (apply Rmult_le_compat_r; nra). assert (a * a * ((x' - x) * (x' - x) + (y' - y) * (y' - y) + (z' - z) * (z' - z)) <= a * a * (m * m)) by (apply Rmult_le_compat_l; [nra|exact H]). lra.
  - assert (N0 : 0 <= n) by (eapply Rle_trans; [apply Rabs_pos|exact N]).
    unfold edist. rewrite <- (sqrt_Rsqr (a * n)) by (apply Rmult_le_pos; lra). apply sqrt_le_1_alt. unfold Rsqr. pose proof (sc th) as T. pose proof (sc th') as T'.
    replace (_ + _) with (a * a * ((x * x + y * y) * ((sin th * sin th + cos th * cos th) + (sin th' * sin th' + cos th' * cos th') - 2 * (cos th' * cos th + sin th' * sin th)))) by ring. rewrite T, T', <- cos_minus.
    destruct (chord_angle 0 0 (th' - th)) as [C _]. replace (a * n * (a * n)) with (a * a * (n * n)) by ring. apply Rmult_le_compat_l; [nra|].
    pose proof (COS_bound (th' - th)). assert (0 <= x * x + y * y) by nra. assert ((th' - th) * (th' - th) <= n * n). { rewrite <- (Rabs_right n) in N by lra. apply Rsqr_le_abs_1 in N. exact N. }
    nra.
Qed.
Lemma ends_turn a b p al al' l sg d D e1 e2 l2 k m : 0 < b <= a -> 99 * a <= 100 * b -> - (PI / 2) < p < PI / 2 -> 0 <= k -> 2 - 2 * cos (al' - al) <= k * k ->
  0 <= sg <= 9 * sin sg -> sin sg * k <= m -> let be := vbe a b p in
  Rabs (blen a b (ca0 be al) (arc1 be al) sg - d) <= e1 -> Rabs (D - bth a b (sa be al) (ca0 be al) (arc1 be al) sg) <= e2 ->
  same_angle l2 (l + end_lon be al sg - D) ->
  ends_within a b l p al' d l2 (vlat a b be al sg) (e1 + a * e2 + a * (13 / 10 * m)).
Proof.
  intros Hab Hf Hp Hk HK SG M be H1 H2 A. pose proof (cos_vbe_pos a b p : 0 < cos be) as Hbe.
  assert (S0 : 0 <= sin sg) by lra. assert (KT : k * Rabs sg <= 9 * m) by (rewrite (Rabs_right sg) by lra; apply (Rle_trans _ (k * (9 * sin sg))); [apply Rmult_le_compat_l; lra|lra]).
  assert (M0 : 0 <= m) by (eapply Rle_trans; [|exact M]; apply Rmult_le_pos; assumption).
  destruct (len_onto a b be al' Hab d) as [t Lt]. destruct (curve_start a b be al' l Hab Hbe) as [C1 C2].
  assert (VS : vlat a b be al' 0 = p) by (unfold be; apply (vlat_start_ab a b Hab p al' Hp)). rewrite VS in C1, C2.
  pose proof (curve_geodesic a b be al' l Hab) as CG. pose proof (curve_chord a b be al' l Hab t sg) as CH. rewrite Lt, Rabs_minus_sym in CH.
  destruct (horiz a b be al' l Hbe sg) as [HX HY]. pose proof (qz_node be al' sg) as QZ.
  pose proof (turn_len a b be al al' k Hab Hf Hk HK sg) as TL. pose proof (turn_th a b be al al' k Hab Hf Hk HK sg) as TT. pose proof (turn_sphere be al al' k Hk HK sg m M S0) as TS.
  set (h := bpt a b (sa be al') (ca0 be al') (arc1 be al') (l - node_lon be al' (arc1 be al'))) in *. set (S := bdir a b (sa be al') (ca0 be al') (arc1 be al') (l - node_lon be al' (arc1 be al'))) in *. set (ln := blen a b (ca0 be al') (arc1 be al')) in *.
  assert (L0 : ln 0 = 0) by apply blen_0. assert (LV : leaves a b l p al' h S ln) by (repeat (split; [assumption|]); assumption).
  split; [exists h, S, ln, t; split; assumption|]. intros g T len u (G & Z0 & P0 & T0) Hu Q HQ.
  destruct (geodesic_follows a b Hab h S ln g T len u b ltac:(lra) (len_grows a b be al' Hab) (len_onto a b be al' Hab) CG L0 G Z0 ltac:(apply (surface_unique a b Hab p l); assumption) ltac:(rewrite T0, C2; reflexivity) t ltac:(rewrite Lt; symmetry; exact Hu)) as [-> _].
  set (th := l - D). set (th' := l - bth a b (sa be al') (ca0 be al') (arc1 be al') sg).
  assert (EQ : Q = (a * (qx be al sg * cos th - qy al sg * sin th), a * (qx be al sg * sin th + qy al sg * cos th), b * qz be al sg)).
  { apply (surface_unique a b Hab (vlat a b be al sg) l2); [exact HQ|]. apply (surface_same a b _ (l + end_lon be al sg - D)); [apply same_angle_sym; exact A|].
    destruct (Ratan2_spec (qy al sg) (qx be al sg)) as [X Y]. fold (end_lon be al sg) (end_cos be al sg) in X, Y.
    replace (a * (qx be al sg * cos th - qy al sg * sin th), a * (qx be al sg * sin th + qy al sg * cos th), b * qz be al sg) with (par a b be al sg (l + end_lon be al sg - D)); [apply par_point; assumption|].
    unfold par. rewrite qz_node. replace (l + end_lon be al sg - D) with (end_lon be al sg + th) by (unfold th; ring). rewrite cos_plus, sin_plus, <- X, <- Y. f_equal. f_equal; ring. }
  assert (EH : h sg = (a * (qx be al' sg * cos th' - qy al' sg * sin th'), a * (qx be al' sg * sin th' + qy al' sg * cos th'), b * qz be al' sg)).
  { unfold h, bpt, bps. rewrite HX, HY, QZ. unfold lon_at. replace (l + end_lon be al' sg - _) with (end_lon be al' sg + th') by (unfold th'; ring). rewrite cos_plus, sin_plus.
    destruct (Ratan2_spec (qy al' sg) (qx be al' sg)) as [X Y]. fold (end_lon be al' sg) (end_cos be al' sg) in X, Y. rewrite <- X, <- Y. f_equal. f_equal; ring. }
  assert (TH : Rabs (th' - th) <= e2 + 11 / 1000 * k * Rabs sg).
  { unfold th, th'. replace (_ - _) with (D - bth a b (sa be al) (ca0 be al) (arc1 be al) sg + - (bth a b (sa be al') (ca0 be al') (arc1 be al') sg - bth a b (sa be al) (ca0 be al) (arc1 be al) sg)) by ring.
    eapply Rle_trans; [apply Rabs_triang|]. rewrite Rabs_Ropp. apply Rplus_le_compat; assumption. }
  assert (U : qx be al sg * qx be al sg + qy al sg * qy al sg <= 1) by (pose proof (q_unit be al sg) as QU; pose proof (Rle_0_sqr (qz be al sg)) as QQ; unfold Rsqr in QQ; lra).
  pose proof (rot_dist a b th th' _ _ (qz be al sg) _ _ (qz be al' sg) m _ Hab M0 U TS TH) as RD. rewrite <- EQ, <- EH in RD.
  eapply Rle_trans; [apply (edist_triangle _ (h sg))|].
  assert (LD : Rabs (ln sg - d) <= e1 + a * (202 / 10000 * k) * Rabs sg).
  { replace (ln sg - d) with (blen a b (ca0 be al) (arc1 be al) sg - d + (ln sg - blen a b (ca0 be al) (arc1 be al) sg)) by ring. eapply Rle_trans; [apply Rabs_triang|]. apply Rplus_le_compat; assumption. }
  assert (a * (202 / 10000 * k) * Rabs sg + a * (11 / 1000 * k * Rabs sg) <= a * (3 / 10 * m)).
  { replace (a * (202 / 10000 * k) * Rabs sg + a * (11 / 1000 * k * Rabs sg)) with (a * (312 / 10000 * (k * Rabs sg))) by field. apply Rmult_le_compat_l; lra. }
  rewrite !Rmult_plus_distr_l in RD. lra.
Qed.
(** ** The series of the last turn and the geodesic *)
Section G.
Context (b1 b2 y : R) (N : iss b1 b2 y <> 0).
Notation al := (iaz1 b1 b2 y).
Lemma cos_3 x : cos (3 * x) = cos x * cos x * cos x - 3 * cos x * (1 - cos x * cos x).
Proof. replace (3 * x) with (2 * x + x) by ring. rewrite cos_plus, cos_2a_cos, sin_2a. pose proof (sc x) as S. replace (2 * sin x * cos x * sin x) with (2 * cos x * (sin x * sin x)) by ring. replace (sin x * sin x) with (1 - cos x * cos x) by lra. ring. Qed.
Lemma cos_2 x : cos (2 * x) = 2 * (cos x * cos x) - 1.
Proof. rewrite cos_2a_cos. ring. Qed.
Lemma rlam_dlon a b L : Rrlam ((a - b) / a) b1 b2 L y = L + sa b1 al * ((a - b) / a * rlser a b b1 al (isg b1 b2 y)).
Proof.
  unfold Rrlam, rlser. cbv zeta. rewrite <- g_iq, g_sa by exact N. unfold rax, rser. cbn iota beta. set (f := (a - b) / a). rewrite !poly4. destruct (Req_bool_spec (iq b1 b2 y) 0) as [Z|Z].
  - rewrite Z. field.
  - rewrite g_icm by assumption. rewrite !Rmult_1_l, cos_2, cos_3. ring.
Qed.
Lemma rdist_len a b : 0 < b <= a -> let v := (1 - sa b1 al * sa b1 al) * ((a * a - b * b) / (b * b)) in
  Rabs (b * rser b1 al (Rb0 v) (Rb2 v) (Rb4 v) (Rb6 v) (isg b1 b2 y) - rd_at a b b1 b2 y) <= b * (20 / 65536 * v ^ 4).
Proof.
  intros Hab v. unfold rd_at, Rrdist. assert (V : (a * a - b * b) / (b * b) * iq b1 b2 y = v) by (unfold v; rewrite g_iq by exact N; ring). cbv zeta. rewrite V.
  assert (P4 : 0 <= v ^ 4) by (replace (v ^ 4) with ((v * v) * (v * v)) by ring; apply Rle_0_sqr). destruct (Req_bool_spec (iq b1 b2 y) 0) as [Z|Z].
  - assert (V0 : v = 0) by (rewrite <- V, Z; ring). rewrite V0. unfold rser, Rb0, Rb2, Rb4, Rb6. match goal with |- Rabs ?w <= _ => replace w with 0 by field end. rewrite Rabs_R0. cbn [pow]. lra.
  - pose proof (g_icm b1 b2 y N Z) as IC. set (c8 := ric8 b1 b2 y). rewrite IC. unfold rser. rewrite !Rmult_1_l, cos_2, cos_3. set (c := cos (2 * arc1 b1 al + isg b1 b2 y)). 
    match goal with |- Rabs ?w <= _ => replace w with (b * (5 / 65536 * (v ^ 4 * (sin (4 * isg b1 b2 y) * c8)))) by (unfold Rb8; field) end.
    rewrite Rabs_mult, (Rabs_right b) by lra. apply Rmult_le_compat_l; [lra|]. rewrite !Rabs_mult, (Rabs_right (v ^ 4)), (Rabs_right (5 / 65536)) by lra.
    assert (C8 : Rabs c8 <= 4).
    { unfold c8, ric8. cbv zeta. rewrite IC. fold c. set (s := sin (2 * isg b1 b2 y)). assert (A : 0 <= c * c <= 1) by (pose proof (COS_bound (2 * arc1 b1 al + isg b1 b2 y)); fold c in H; nra). assert (B : 0 <= s * s <= 1) by (pose proof (SIN_bound (2 * isg b1 b2 y)); fold s in H; nra).
      apply Rabs_le. set (u := c * c) in *. set (w := s * s) in *. replace (6 * u * (s * s)) with (6 * u * w) by reflexivity. split; nra. }
    destruct (trig1 (4 * isg b1 b2 y)) as [_ S4]. pose proof (Rabs_pos c8). pose proof (Rabs_pos (sin (4 * isg b1 b2 y))). assert (Rabs (sin (4 * isg b1 b2 y)) * Rabs c8 <= 1 * 4) by (apply Rmult_le_compat; assumption).
    assert (v ^ 4 * (Rabs (sin (4 * isg b1 b2 y)) * Rabs c8) <= v ^ 4 * 4) by (apply Rmult_le_compat_l; lra). lra.
Qed.
Lemma az_turn z d : Rabs (z - y) <= d -> 2 - 2 * cos (Ratan2 (ew b2 y) (ns b1 b2 z) - al) <= 2 * d / iss b1 b2 y * (2 * d / iss b1 b2 y).
Proof.
  intros H. pose proof (dir_change (ns b1 b2 y) (ew b2 y) (ns b1 b2 z) (ew b2 y)) as K. fold al in K.
  assert (HY : Rhypot (ns b1 b2 y) (ew b2 y) = iss b1 b2 y) by (unfold Rhypot, iss; f_equal; ring). rewrite HY in K. set (i := iss b1 b2 y) in *. assert (I : 0 < i) by (pose proof (iss_ge b1 b2 y) as G; fold i in G; lra).
  assert (D : Rabs (ns b1 b2 z - ns b1 b2 y) <= d).
  { unfold ns. replace (_ - _) with (sin b1 * (cos b2 * (cos y - cos z))) by ring. apply prod_le; [apply trig1|]. apply prod_le; [apply trig1|]. rewrite Rabs_minus_sym.
    eapply Rle_trans; [apply (lipschitz cos (fun x => - sin x) 1)|rewrite Rmult_1_l; exact H]; [intros x; auto_derive; [easy|ring]|intros x; rewrite Rabs_Ropp; apply trig1]. }
  assert (D0 : 0 <= d) by (eapply Rle_trans; [apply Rabs_pos|exact H]). rewrite <- (Rabs_right d) in D by lra. apply Rsqr_le_abs_1 in D. unfold Rsqr in D.
  apply (Rmult_le_reg_l (i * i)); [nra|]. replace (i * i * (2 * d / i * (2 * d / i))) with (4 * (d * d)) by (field; lra). lra.
Qed.
End G.
Lemma raz_all b1 b2 p1 p2 L x y st s : - (PI / 2) < b1 < PI / 2 -> - (PI / 2) < b2 < PI / 2 -> iss b1 b2 x <> 0 -> ristate b1 b2 x y st -> (0 < sin x * sin y \/ L = 0 /\ x = 0 /\ y = 0) ->
  (p1 < p2 -> b1 < b2) -> (p2 < p1 -> b2 < b1) -> (p1 = p2 -> b1 = b2) ->
  rapp_inverse_azimuths (Fin b1) (Fin b2) (Fin p1) (Fin p2) st (Fin s) =
  let z := if Rlt_bool s 10000 then x else y in (Fin (Ratan2 (ew b2 y) (ns b1 b2 z)), Fin (Ratan2 (cos b1 * sin y) (- sin b1 * cos b2 + cos b1 * sin b2 * cos z))).
Proof.
  intros R1 R2 HS S [SXY|(_ & X0 & Y0)] LT GT EQ; [apply raz_fin; try assumption; apply cos_gt_0; lra|]. subst x y. cbv zeta.
  replace (if Rlt_bool s 10000 then 0 else 0) with 0 by (destruct (Rlt_bool _ _); reflexivity). unfold rapp_inverse_azimuths. rewrite (proj1 S). cbv zeta. xr. rewrite Req_bool_t by reflexivity.
  unfold ew, ns. rewrite sin_0, cos_0, !Rmult_0_r, !Rmult_1_r. replace (- sin b1 * cos b2 + cos b1 * sin b2) with (sin (b2 - b1)) by (rewrite sin_minus; ring). replace (cos b1 * sin b2 - sin b1 * cos b2) with (sin (b2 - b1)) by (rewrite sin_minus; ring).
  assert (NB : b1 <> b2).
  { intros <-. apply HS. unfold iss, ew, ns. rewrite sin_0, cos_0. replace (_ + _) with 0 by ring. apply sqrt_0. }
  destruct (Rlt_bool_spec p1 p2) as [T|T].
  - specialize (LT T). rewrite (Ratan2_0_pos (sin (b2 - b1))) by (left; apply sin_gt_0; lra). reflexivity.
  - assert (b2 < b1) by (destruct T as [T|T]; [apply GT; exact T|exfalso; apply NB, EQ; lra]). rewrite (Ratan2_unique 0 (sin (b2 - b1)) (- sin (b2 - b1)) PI); [reflexivity| | | |].
    + pose proof (sin_lt_0_var (b2 - b1)). lra.
    + rewrite cos_PI. ring.
    + rewrite sin_PI. ring.
    + pose proof PI_RGT_0. lra.
Qed.
Lemma rinv_total a b be al sg d : 0 < b <= a -> 99 * a <= 100 * b -> 0 <= d ->
  let v := (1 - sa be al * sa be al) * ((a * a - b * b) / (b * b)) in let f := (a - b) / a in
  let e1 := b * (v ^ 4 / 13000 + v ^ 5 / 20 * Rabs sg + 20 / 65536 * v ^ 4 + 8 * / 10 ^ 15) in let e2 := f ^ 5 / 3 * Rabs sg + 2 * / 10 ^ 15 in
  Rabs (blen a b (ca0 be al) (arc1 be al) sg - d) <= e1 -> e1 + a * e2 + a * (13 / 10 * (10 * / 10 ^ 15)) <= rapp_inverse_error a b d.
Proof.
  intros Hab Hf D0 v f e1 e2 H. pose proof (v_bound a b be al Hab Hf) as Bv. fold v in Bv. pose proof (f_bound a b Hab Hf) as Bf. fold f in Bf. pose proof (arc_bound a b be al sg Hab) as AB.
  set (x := Rabs sg) in *. assert (X0 : 0 <= x) by apply Rabs_pos.
  assert (VF : v <= 2031 / 1000 * f).
  { apply (Rle_trans _ ((a * a - b * b) / (b * b))); [unfold v; pose proof (q01 be al); pose proof (ep2_bound a b Hab Hf); nra|].
    replace ((a * a - b * b) / (b * b)) with (f * ((a / b) * ((a + b) / b))) by (unfold f; field; lra).
    assert (AB1 : a / b <= 100 / 99) by (apply (Rmult_le_reg_r b); [lra|]; replace (a / b * b) with a by (field; lra); lra).
    assert (AB0 : 0 <= a / b) by (apply Rdiv_le_0_compat; lra). replace ((a + b) / b) with (a / b + 1) by (field; lra). set (r := a / b) in *. assert (r * (r + 1) <= 2031 / 1000) by nra. rewrite Rmult_comm. apply Rmult_le_compat_r; lra. }
  assert (V4 : 0 <= v ^ 4 <= 17016 / 1000 * f ^ 4).
  { split; [apply pow_le; lra|]. eapply Rle_trans; [apply pow_incr; split; [apply Bv|exact VF]|]. rewrite Rpow_mult_distr. apply Rmult_le_compat_r; [apply pow_le; lra|]. cbn [pow]. lra. }
  assert (F4 : 0 <= f ^ 4 <= / 100000000).
  { split; [apply pow_le; lra|]. replace (/ 100000000) with ((/ 100) ^ 4) by (cbn [pow]; lra). apply pow_incr. lra. }
  assert (F5 : f ^ 5 = f * f ^ 4) by ring. assert (F5' : 0 <= f ^ 5 <= f ^ 4 / 100) by (rewrite F5; nra).
  assert (V5 : 0 <= v ^ 5 <= 3457 / 100 * f ^ 5).
  { split; [apply pow_le; lra|]. eapply Rle_trans; [apply pow_incr; split; [apply Bv|exact VF]|]. rewrite Rpow_mult_distr. apply Rmult_le_compat_r; [apply pow_le; lra|]. cbn [pow]. lra. }
  assert (T15 : 0 < / 10 ^ 15) by (apply Rinv_0_lt_compat, pow_lt; lra).
  assert (LL : b * x <= d + e1).
  { eapply Rle_trans; [exact AB|]. replace (blen _ _ _ _ sg) with (d + (blen a b (ca0 be al) (arc1 be al) sg - d)) by ring. eapply Rle_trans; [apply Rabs_triang|]. rewrite (Rabs_right d) by lra. lra. }
  unfold rapp_inverse_error. fold f. replace (3 / 10 ^ 14) with (30 * / 10 ^ 15) by field.
  unfold e1 in *. unfold e2. clear AB H e1 e2. set (g4 := f ^ 4) in *. set (g5 := f ^ 5) in *. set (v4 := v ^ 4) in *. set (v5 := v ^ 5) in *. clearbody g4 g5 v4 v5.
  clearbody x. set (e := / 10 ^ 15) in *. assert (E : e <= / 1000) by (unfold e; apply Rinv_le_contravar; [lra|]; cbn [pow]; lra). clearbody e.
  assert (BX0 : 0 <= b * x) by (apply Rmult_le_pos; lra).
  assert (BX : b * x <= 1001 / 1000 * d + b * (8 / 1000 * g4 + 9 * e)).
  { assert (b * (v5 / 20 * x) <= / 10000 * (b * x)) by (replace (b * (v5 / 20 * x)) with (v5 / 20 * (b * x)) by ring; apply Rmult_le_compat_r; [exact BX0|lra]).
    assert (b * v4 <= b * (17016 / 1000 * g4)) by (apply Rmult_le_compat_l; lra). assert (0 <= b * g4) by (apply Rmult_le_pos; lra). assert (0 <= b * e) by (apply Rmult_le_pos; lra). lra. }
  assert (AX : a * x <= 1012 / 1000 * d + a * (9 / 1000 * g4 + 10 * e)).
  { apply (Rle_trans _ (100 / 99 * (b * x))); [assert (0 <= x * (100 * b - 99 * a)) by (apply Rmult_le_pos; lra); lra|].
    assert (b * (8 / 1000 * g4 + 9 * e) <= a * (8 / 1000 * g4 + 9 * e)) by (apply Rmult_le_compat_r; lra). assert (0 <= a * g4) by (apply Rmult_le_pos; lra). assert (0 <= a * e) by (apply Rmult_le_pos; lra). lra. }
  assert (BA1 : b * (v4 / 13000 + v5 / 20 * x + 20 / 65536 * v4 + 8 * e) <= a * (651 / 100000 * g4 + 17285 / 10000 * g5 * x + 8 * e)).
  { assert (0 <= v5 / 20 * x) by (apply Rmult_le_pos; lra). assert (v5 / 20 * x <= 17285 / 10000 * g5 * x) by (apply Rmult_le_compat_r; lra). apply Rmult_le_compat; lra. }
  assert (GX : g5 * (a * x) <= g5 * (1012 / 1000 * d + a * (9 / 1000 * g4 + 10 * e))) by (apply Rmult_le_compat_l; lra).
  assert (AE : 0 <= a * (9 / 1000 * g4 + 10 * e)) by (apply Rmult_le_pos; lra).
  assert (G5 : g5 <= / 1000000) by lra.
  assert (g5 * (a * (9 / 1000 * g4 + 10 * e)) <= / 1000000 * (a * (9 / 1000 * g4 + 10 * e))) by (apply Rmult_le_compat_r; lra).
  assert (0 <= g5 * d) by (apply Rmult_le_pos; lra). assert (0 <= a * g4) by (apply Rmult_le_pos; lra). assert (0 <= a * e) by (apply Rmult_le_pos; lra). lra.
Qed.
Lemma rinv_accuracy E a b l1 p1 l2 p2 : shape E a b -> 99 * a <= 100 * b -> - (PI / 2) < p1 < PI / 2 -> - (PI / 2) < p2 < PI / 2 ->
  position l1 p1 <> position l2 p2 -> - (17 / 20) <= pdot (position l1 p1) (position l2 p2) -> ~ same_angle (l2 - l1) PI -> exists al1 al2 s,
  rapp_inverse E (Fin l1, Fin p1) (Fin l2, Fin p2) = Ok (mkGeodesic (Fin l1, Fin p1) (Fin al1) (Fin l2, Fin p2) (Fin al2) (Fin s)) /\
  0 < s /\ - PI < al1 <= PI /\ - PI < al2 <= PI /\ ends_within a b l1 p1 al1 s l2 p2 (rapp_inverse_error a b s) /\
  (10000 <= s -> geodesic_within a b l1 p1 al1 s l2 p2 al2 (rapp_inverse_error a b s)).
Proof.
  intros HE Hf H1 H2 HN HP HO. assert (Hab : 0 < b <= a) by apply HE. pose proof (rinv_fin E a b HE l1 p1 l2 p2 H1 H2) as RF.
  set (L := Rnorm (l2 - l1)) in *. set (b1 := vbe a b p1) in *. set (b2 := vbe a b p2) in *. set (f := (a - b) / a) in *. set (ep := (a * a - b * b) / (b * b)).
  destruct (Rnorm_spec (l2 - l1)) as [NR NS]. fold L in NR, NS.
  assert (R1 : - (PI / 2) < b1 < PI / 2) by (unfold b1, vbe; apply atan_bound'). assert (R2 : - (PI / 2) < b2 < PI / 2) by (unfold b2, vbe; apply atan_bound').
  assert (LT : p1 < p2 -> b1 < b2) by (intros T; apply (vbe_lt E a b HE p1 p2 H1 H2 T)). assert (GT : p2 < p1 -> b2 < b1) by (intros T; apply (vbe_lt E a b HE p2 p1 H2 H1 T)). assert (EQ : p1 = p2 -> b1 = b2) by (intros T; unfold b1, b2; now rewrite T).
  assert (HB : b1 = b2 -> L <> 0).
  { intros EB Z. apply HN. assert (EP : p1 = p2) by (destruct (Rtotal_order p1 p2) as [T|[T|T]]; [specialize (LT T); lra|exact T|specialize (GT T); lra]).
    rewrite EP. apply position_same. replace l1 with (0 + l1) by ring. replace l2 with ((l2 - l1) + l1) by ring. apply same_angle_add; [|apply same_angle_refl]. rewrite <- Z. exact NS. }
  assert (HI : - (886 / 1000) <= ics b1 b2 L).
  { pose proof (ics_near b1 b2 p1 p2 L (vbe_near a b p1 Hab H1 Hf) (vbe_near a b p2 Hab H2 Hf)) as D. apply Rabs_le_inv in D. unfold L in D at 2 4. rewrite ics_dot in D. lra. }
  assert (LR : - PI < L < PI) by (split; [apply NR|]; destruct NR as [_ [K|K]]; [exact K|]; exfalso; apply HO; rewrite <- K; apply same_angle_sym; exact NS).
  destruct (rloop_done a b b1 b2 L Hab Hf R1 R2 LR HB HI) as (x & y & ER & NX & NY & EY & DY & DL & DD & DP & CI & SXY). rewrite ER in RF. destruct RF as (st & ST & ->). cbv zeta.
  fold (rd_at a b b1 b2 x). set (s := rd_at a b b1 b2 x) in *. rewrite (raz_all b1 b2 p1 p2 L x y st s R1 R2 NX ST SXY LT GT EQ). cbv zeta. set (z := if Rlt_bool s 10000 then x else y).
  assert (T15 : 0 < / 10 ^ 15) by (apply Rinv_0_lt_compat, pow_lt; lra). assert (T5 : 5 / 10 ^ 15 = 5 * / 10 ^ 15) by reflexivity. rewrite T5 in DY.
  assert (DZ : Rabs (z - y) <= 5 * / 10 ^ 15) by (unfold z; destruct (Rlt_bool _ _); [rewrite Rabs_minus_sym; lra|rewrite Rminus_eq_0, Rabs_R0; lra]).
  cbn iota beta. rewrite !azimuth_new_fin, !Rnorm_id by apply Ratan2_bound. set (al' := Ratan2 (ew b2 y) (ns b1 b2 z)). set (al2 := Ratan2 _ (_ + _)). exists al', al2, s. split; [reflexivity|].
  split; [exact DP|]. split; [apply Ratan2_bound|]. split; [apply Ratan2_bound|].
  set (al := iaz1 b1 b2 y). set (sg := isg b1 b2 y). pose proof (cos_vbe_pos a b p2) as CB2. fold b2 in CB2.
  set (v := (1 - sa b1 al * sa b1 al) * ep).
  assert (LEN : Rabs (blen a b (ca0 b1 al) (arc1 b1 al) sg - s) <= b * (v ^ 4 / 13000 + v ^ 5 / 20 * Rabs sg + 20 / 65536 * v ^ 4 + 8 * / 10 ^ 15)).
  { pose proof (rlen a b b1 al Hab Hf sg) as K. pose proof (rdist_len b1 b2 y NY a b Hab) as Q. cbv zeta in Q. fold al sg ep v in Q, K.
    replace (_ - s) with (blen a b (ca0 b1 al) (arc1 b1 al) sg - b * rser b1 al (Rb0 v) (Rb2 v) (Rb4 v) (Rb6 v) sg + (b * rser b1 al (Rb0 v) (Rb2 v) (Rb4 v) (Rb6 v) sg - rd_at a b b1 b2 y) + (rd_at a b b1 b2 y - s)) by ring.
    eapply Rle_trans; [apply Rabs_triang|]. pose proof (Rabs_triang (blen a b (ca0 b1 al) (arc1 b1 al) sg - b * rser b1 al (Rb0 v) (Rb2 v) (Rb4 v) (Rb6 v) sg) (b * rser b1 al (Rb0 v) (Rb2 v) (Rb4 v) (Rb6 v) sg - rd_at a b b1 b2 y)) as TR.
    rewrite (Rmult_plus_distr_l b (_ + _ + _)), (Rmult_plus_distr_l b (_ + _)). lra. }
  assert (LON : Rabs (y - L - bth a b (sa b1 al) (ca0 b1 al) (arc1 b1 al) sg) <= f ^ 5 / 3 * Rabs sg + 2 * / 10 ^ 15).
  { pose proof (rlon a b b1 al Hab Hf sg) as K. fold f in K. pose proof (rlam_dlon b1 b2 y NY a b L) as Q. fold f al sg in Q, DL, EY.
    replace (y - L - _) with (sa b1 al * (f * rlser a b b1 al sg) - bth a b (sa b1 al) (ca0 b1 al) (arc1 b1 al) sg + (Rrlam f b1 b2 L x - Rrlam f b1 b2 L y)) by (rewrite Q, <- EY; ring).
    eapply Rle_trans; [apply Rabs_triang|]. apply Rplus_le_compat; [exact K|]. rewrite Rabs_minus_sym. exact DL. }
  assert (VL : vlat a b b1 al sg = p2) by (apply vlat_end; [exact Hab|exact H2|apply g_qz|apply g_end_cos; fold b2; lra]).
  assert (SA : same_angle l2 (l1 + end_lon b1 al sg - (y - L))).
  { replace l2 with (l1 + y - y + (l2 - l1)) by ring. replace (l1 + end_lon b1 al sg - (y - L)) with (l1 + end_lon b1 al sg - y + L) by ring.
    apply same_angle_add; [|apply same_angle_sym; exact NS]. unfold Rminus. apply same_angle_add; [|apply same_angle_refl]. apply same_angle_add; [apply same_angle_refl|]. apply same_angle_sym. apply g_end_lon; assumption. }
  pose proof (rinv_total a b b1 al sg s Hab Hf ltac:(lra) LEN) as TOT. fold ep v f in TOT. cbv zeta in TOT.
  split.
  - rewrite <- VL. assert (IY : 0 < iss b1 b2 y) by (pose proof (iss_ge b1 b2 y); lra). destruct (isg_spec b1 b2 y) as [SS CS]. fold sg in SS, CS.
    pose proof (arc_ratio b1 b2 y NY CI) as AR. fold sg in AR. pose proof (isg_bound b1 b2 y) as G0. fold sg in G0.
    eapply ends_weaken; [exact TOT|]. apply (ends_turn a b p1 al al' l1 sg s (y - L) _ _ l2 (2 * (5 * / 10 ^ 15) / iss b1 b2 y) (10 * / 10 ^ 15) Hab Hf H1); clear TOT.
    + apply Rdiv_le_0_compat; lra.
    + apply az_turn; assumption.
    + split; [lra|]. rewrite SS. apply (Rmult_le_reg_r (/ iss b1 b2 y)); [apply Rinv_0_lt_compat; exact IY|]. replace (9 * iss b1 b2 y * / iss b1 b2 y) with 9 by (field; lra). unfold Rdiv in AR. lra.
    + rewrite SS. right. field. lra.
    + exact LEN.
    + exact LON.
    + exact SA.
  - intros SL. assert (ZY : z = y) by (unfold z; rewrite Rlt_bool_f by exact SL; reflexivity).
    assert (A1 : al' = al) by (unfold al'; rewrite ZY; reflexivity). assert (A2 : al2 = iaz2 b1 b2 y) by (unfold al2; rewrite ZY; reflexivity). rewrite A1, A2, <- VL.
    eapply within_weaken; [exact Hab| |apply (within a b p1 al l1 sg s (y - L) _ _ l2 _ Hab H1 LEN LON SA)].
    + assert (0 <= a * (13 / 10 * (10 * / 10 ^ 15))) by (apply Rmult_le_pos; lra). lra.
    + fold b1. unfold al, sg. rewrite g_end_az by assumption. apply same_angle_refl.
Qed.
