(** Exact arithmetic: UTM. *)
From Coq Require Import String Reals Lra Lia ZArith Bool Psatz List.
From Flocq Require Import Core.Raux.
From Verif.Num Require Import FOps RFun XR XRLemmas.
From Verif.Model Require Import Fp Quantities Cs Ellipsoid Geodesics Projections Crs.
From Verif.Spec Require Import Angles Axes Shape Maps Krueger.
From Verif.Proofs Require Import AnglesX AnglesX2 AxesX EllX EllEx ProjX MercX TMX.
Import ListNotations.
Local Open Scope R_scope.

Lemma utm_lon0_fin z : utm_lon0 z = Fin (Rwrap ((6 * IZR z - 180) * (PI / 180))).
Proof.
  unfold utm_lon0, UTM_ZONE_1_WEST_LIMIT_DEG, UTM_ZONE_WIDTH_DEG. xr. rewrite !xdiv_fin by lra. xr.
  rewrite angle_new_deg, lon_new_fin. do 2 f_equal. field.
Qed.
Lemma utm_lon0_zone z : (1 <= z <= 60)%Z -> utm_lon0 z = Fin ((6 * IZR z - 180) * (PI / 180)).
Proof.
  intros [H1 H2]. rewrite utm_lon0_fin. f_equal. apply IZR_le in H1, H2. pose proof PI_pos.
  destruct (Rwrap_spec ((6 * IZR z - 180) * (PI / 180))) as (_ & _ & I). apply I. nra.
Qed.
Lemma utm_k0 : UTM_K0 = Fin 0.9996. Proof. reflexivity. Qed.
Lemma utm_fe : UTM_FE = Fin 500000. Proof. unfold UTM_FE. now rewrite length_new_M. Qed.
Lemma utm_fn : UTM_FN_SOUTH = Fin 10000000. Proof. unfold UTM_FN_SOUTH. now rewrite length_new_M. Qed.
Lemma utm_params E z : (1 <= z <= 60)%Z ->
  applied_to (SUTMNorth z) E = applied_to (STransverseMercator (Fin ((6 * IZR z - 180) * (PI / 180))) (Fin 0) (Fin 0.9996) (Fin 500000) (Fin 0)) E /\
  applied_to (SUTMSouth z) E = applied_to (STransverseMercator (Fin ((6 * IZR z - 180) * (PI / 180))) (Fin 0) (Fin 0.9996) (Fin 500000) (Fin 10000000)) E.
Proof.
  intros H. cbn [applied_to]. unfold tm_utm_north, tm_utm_south. now rewrite (utm_lon0_zone z H), utm_k0, utm_fe, utm_fn.
Qed.
Lemma utm_params_any E z : exists l, - PI <= l <= PI /\ same_angle l ((6 * IZR z - 180) * (PI / 180)) /\
  applied_to (SUTMNorth z) E = applied_to (STransverseMercator (Fin l) (Fin 0) (Fin 0.9996) (Fin 500000) (Fin 0)) E /\
  applied_to (SUTMSouth z) E = applied_to (STransverseMercator (Fin l) (Fin 0) (Fin 0.9996) (Fin 500000) (Fin 10000000)) E.
Proof.
  exists (Rwrap ((6 * IZR z - 180) * (PI / 180))). destruct (Rwrap_spec ((6 * IZR z - 180) * (PI / 180))) as (B & S & _).
  split; [exact B|]. split; [exact S|]. cbn [applied_to]. unfold tm_utm_north, tm_utm_south. now rewrite utm_lon0_fin, utm_k0, utm_fe, utm_fn.
Qed.

(** the coefficients are positive for small flattenings *)
Lemma sinh_pos x : 0 < x -> 0 < sinh x.
Proof. intros H. unfold sinh. assert (exp (- x) < exp x) by (apply exp_increasing; lra). lra. Qed.
Lemma hs_nonneg n : 0 <= n < 3 / 10 -> let '(h1, h2, h3, h4) := hs n in 0 <= h1 /\ 0 <= h2 /\ 0 <= h3 /\ 0 <= h4.
Proof.
  intros H. unfold hs, Series.polynomial. cbn. repeat split.
  - match goal with |- 0 <= ?x => replace x with (n * (/ 2 - 2 / 3 * n + n * n * (5 / 16 + n * (41 / 180)))) by (unfold Series.polynomial; cbn; field) end. apply Rmult_le_pos; [lra|].
    assert (0 <= n * n * (5 / 16 + n * (41 / 180))) by (apply Rmult_le_pos; nra). lra.
  - match goal with |- 0 <= ?x => replace x with (n * n * (13 / 48 - 3 / 5 * n + n * n * (557 / 1440))) by (unfold Series.polynomial; cbn; field) end. apply Rmult_le_pos; nra.
  - match goal with |- 0 <= ?x => replace x with (n * n * n * (61 / 240 - 103 / 140 * n)) by (unfold Series.polynomial; cbn; field) end. apply Rmult_le_pos; [|lra]. repeat apply Rmult_le_pos; lra.
  - match goal with |- 0 <= ?x => replace x with (n * n * n * n * (49561 / 161280)) by field end. repeat apply Rmult_le_pos; lra.
Qed.
Lemma cos_series_pos h y : 0 < y -> (let '(h1, h2, h3, h4) := h in 0 <= h1 /\ 0 <= h2 /\ 0 <= h3 /\ 0 <= h4) -> 0 <= cos_series h 0 y.
Proof.
  intros Y. destruct h as [[[h1 h2] h3] h4]. intros (P1 & P2 & P3 & P4). unfold cos_series. rewrite !Rmult_0_r, cos_0, !Rmult_1_l.
  pose proof (sinh_pos (2 * y) ltac:(lra)). pose proof (sinh_pos (4 * y) ltac:(lra)).
  pose proof (sinh_pos (6 * y) ltac:(lra)). pose proof (sinh_pos (8 * y) ltac:(lra)).
  repeat apply Rplus_le_le_0_compat; apply Rmult_le_pos; lra.
Qed.
Lemma Ratanh_pos x : 0 < x < 1 -> 0 < Ratanh x.
Proof.
  intros H. unfold Ratanh. apply Rmult_lt_0_compat; [lra|]. rewrite <- ln_1. apply ln_increasing; [lra|].
  apply (Rmult_lt_reg_r (1 - x)); [lra|]. replace ((1 + x) / (1 - x) * (1 - x)) with (1 + x) by (field; lra). lra.
Qed.
(** on the equator, east of the central meridian the easting is above the false easting *)
Lemma tm_equator_east E a b lon0 k0 fe fn d h : shape E a b -> a < 3 / 2 * b -> 0 < k0 -> 0 < d < PI / 2 -> exists x y,
  0 < x /\ tm_proj (tm_new E (Fin lon0) (Fin 0) (Fin k0) (Fin fe) (Fin fn)) (llh3 (lon0 - d) 0 h) = Ok (enh (fe - x, y, h)).
Proof.
  intros HE Hn Hk Hd. pose proof PI_pos as HP. assert (L0 : latitude 0) by (unfold latitude; lra).
  assert (Hab : 0 < b <= a) by apply HE.
  assert (D : Rnorm (lon0 - d - lon0) = - d) by (replace (lon0 - d - lon0) with (- d) by ring; apply Rnorm_id; lra).
  assert (C : 0 < cos d) by (apply cos_gt_0; lra).
  assert (U0 : -1 < cos (beta_e (the_e a b) 0) * sin d < 1) by (apply (u_ok E a b HE); auto; right; lra).
  rewrite beta_e_0, cos_0, Rmult_1_l in U0.
  pose proof (tm_proj_fin E a b HE lon0 0 k0 fe fn L0 (lon0 - d) 0 h L0) as K. cbv zeta in K. rewrite D, beta_e_0 in K.
  rewrite cos_0, sin_neg, !Rmult_1_l in K. specialize (K ltac:(lra)).
  assert (Sd : 0 < sin d) by (apply sin_gt_0; lra).
  assert (E0 : eta0 0 (- d) = - eta0 0 d) by (apply eta0_opp_d; rewrite cos_0, Rmult_1_l; lra).
  assert (Ep : 0 < eta0 0 d) by (unfold eta0; rewrite cos_0, Rmult_1_l; apply Ratanh_pos; lra).
  assert (X0 : xi0 0 (- d) = 0) by (unfold xi0; rewrite sin_0, Rmult_0_l; apply asin_0).
  rewrite E0, X0, cos_series_opp_y in K.
  exists (k0 * tB a b * (eta0 0 d + cos_series (hs (tn a b)) 0 (eta0 0 d))). eexists. split; [|rewrite K; match goal with |- Ok (enh (?u, ?v, _)) = _ => replace u with (fe - k0 * tB a b * (eta0 0 d + cos_series (hs (tn a b)) 0 (eta0 0 d))) by ring end; reflexivity].
  pose proof (tB_pos E a b HE). apply Rmult_lt_0_compat; [now apply Rmult_lt_0_compat|].
  assert (0 <= cos_series (hs (tn a b)) 0 (eta0 0 d)); [|lra]. apply cos_series_pos; [easy|]. apply hs_nonneg.
  split; [apply (tn_bound E a b HE)|]. unfold tn. apply (Rmult_lt_reg_r (a + b)); [lra|].
  replace ((a - b) / (a + b) * (a + b)) with (a - b) by (field; lra). lra.
Qed.
Lemma utm_standard_refuted E a b z : shape E a b -> a < 3 / 2 * b -> (1 <= z <= 60)%Z ->
  exists x y, proj (applied_to (SUTMNorth z) E) (llh3 ((6 * IZR z - 183) * (PI / 180)) 0 0) = Ok (enh (x, y, 0)) /\ x < 500000.
Proof.
  intros HE Hn Hz. destruct (utm_params E z Hz) as [-> _]. pose proof PI_pos as HP.
  destruct (tm_equator_east E a b ((6 * IZR z - 180) * (PI / 180)) 0.9996 500000 0 (3 * (PI / 180)) 0 HE Hn) as (x & y & Px & K); [lra|lra|].
  exists (500000 - x), y. split; [|lra]. cbn [applied_to proj]. rewrite <- K.
  replace ((6 * IZR z - 183) * (PI / 180)) with ((6 * IZR z - 180) * (PI / 180) - 3 * (PI / 180)) by ring. reflexivity.
Qed.
