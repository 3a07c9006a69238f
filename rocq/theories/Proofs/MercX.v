(** Exact arithmetic: Mercator on the ellipsoid. *)
From Coq Require Import String Reals Lra Lia ZArith Bool Psatz List.
From Coquelicot Require Import Coquelicot.
From Flocq Require Import Core.Raux.
From Verif.Num Require Import FOps RFun XR XRLemmas.
From Verif.Model Require Import Fp Quantities Cs Ellipsoid Geodesics Projections Crs.
From Verif.Spec Require Import Angles Series Axes Shape Maps.
From Verif.Proofs Require Import AnglesX MathX AxesX EllX DatumX EllEx ProjX.
Import ListNotations.
Local Open Scope R_scope.

(** The isometric latitude of an ellipsoid of eccentricity [e]. *)
Definition isom_e (e p : R) : R := isom p - e * Ratanh (e * sin p).

Lemma esin_bound e p : 0 <= e < 1 -> -1 < e * sin p < 1.
Proof. intros H. pose proof (SIN_bound p). nra. Qed.
Lemma Ratanh_odd x : -1 < x < 1 -> Ratanh (- x) = - Ratanh x.
Proof.
  intros H. unfold Ratanh. replace ((1 + - x) / (1 - - x)) with (/ ((1 + x) / (1 - x))) by (field; lra).
  rewrite ln_Rinv; [ring|]. apply Rdiv_lt_0_compat; lra.
Qed.
Lemma Ratanh_0 : Ratanh 0 = 0.
Proof. unfold Ratanh. replace ((1 + 0) / (1 - 0)) with 1 by field. rewrite ln_1. ring. Qed.
Lemma Ratanh_deriv x : -1 < x < 1 -> is_derive Ratanh x (/ (1 - x * x)).
Proof.
  intros H. unfold Ratanh. assert (0 < (1 + x) / (1 - x)) by (apply Rdiv_lt_0_compat; lra).
  auto_derive. { unfold Rdiv, Rminus in *. repeat split; try lra; easy. } field. repeat split; nra.
Qed.
Lemma isom_e_odd e p : 0 <= e < 1 -> nonpolar p -> isom_e e (- p) = - isom_e e p.
Proof.
  intros He Hp. unfold isom_e. rewrite isom_odd by exact Hp. rewrite sin_neg.
  replace (e * - sin p) with (- (e * sin p)) by ring. rewrite Ratanh_odd by now apply esin_bound. ring.
Qed.
Lemma isom_e_0 e : isom_e e 0 = 0.
Proof. unfold isom_e. rewrite isom_0, sin_0, Rmult_0_r, Ratanh_0. ring. Qed.
Lemma isom_e_deriv e p : 0 <= e < 1 -> nonpolar p ->
  is_derive (isom_e e) p ((1 - e * e) / ((1 - e * e * (sin p * sin p)) * cos p)).
Proof.
  intros He Hp. pose proof (esin_bound e p He) as B.
  assert (C : 0 < cos p) by (unfold nonpolar in Hp; apply cos_gt_0; lra).
  unfold isom_e. assert (D1 : is_derive isom p (/ cos p)) by (apply is_derive_Reals; now apply isom_deriv).
  auto_derive.
  - repeat split; [now exists (/ cos p)|]. eexists. now apply Ratanh_deriv.
  - rewrite (is_derive_unique (fun x : R => isom x) _ _ D1), (is_derive_unique (fun x : R => Ratanh x) _ _ (Ratanh_deriv _ B)).
    pose proof (sin2_cos2 p) as Q. unfold Rsqr in Q.
    assert (0 < 1 - e * e * (sin p * sin p)) by nra.
    field_simplify; [|nra|nra]. apply (f_equal (fun u => u / _)).
    replace (sin p ^ 2) with (1 - cos p ^ 2) by (cbn; lra). ring.
Qed.
Lemma isom_e_pow e p : 0 <= e < 1 -> nonpolar p ->
  ln (tan (p / 2 + PI / 4) * Rpower ((1 - e * sin p) / (1 + e * sin p)) (e / 2)) = isom_e e p.
Proof.
  intros He Hp. pose proof (esin_bound e p He) as B. pose proof (tan_quarter_pos p Hp).
  assert (0 < (1 - e * sin p) / (1 + e * sin p)) by (apply Rdiv_lt_0_compat; lra).
  rewrite ln_mult by (auto; apply exp_pos). unfold Rpower. rewrite ln_exp. unfold isom_e, isom, Ratanh.
  replace ((1 + e * sin p) / (1 - e * sin p)) with (/ ((1 - e * sin p) / (1 + e * sin p))) by (field; lra).
  rewrite ln_Rinv by easy. lra.
Qed.

Section Merc.
Context (E : Ellipsoid XR) (a b : R) (HE : shape E a b) (lon0 lat0 k0 fe fn : R).
Let P := merc_new E (Fin lon0) (Fin lat0) (Fin k0) (Fin fe) (Fin fn).
Let Hab : 0 < b <= a. Proof. apply HE. Qed.
Let Ha : e_a E = Fin a. Proof. apply HE. Qed.
Definition the_e : R := sqrt ((a * a - b * b) / (a * a)).
Lemma the_e_sq : the_e * the_e = (a * a - b * b) / (a * a).
Proof. unfold the_e. apply sqrt_sqrt. apply (e2_bound a b Hab). Qed.
Lemma the_e_bound : 0 <= the_e < 1.
Proof.
  split; [apply sqrt_pos|]. rewrite <- sqrt_1. apply sqrt_lt_1_alt. apply (e2_bound a b Hab).
Qed.
Lemma merc_proj_fin l p h : nonpolar p ->
  merc_proj P (llh3 l p h) = Ok (enh (fe + k0 * a * Rnorm (l - lon0), fn + k0 * a * isom_e the_e p, h)).
Proof.
  intros H. assert (H' := H). unfold nonpolar in H'. unfold merc_proj, P, merc_new, llh3.
  cbn [m_a m_e m_lon0 m_k0 m_fe m_fn lon lat height].
  rewrite Ha, lon_sub_fin. change (fofZ 2) with (Fin 2). rewrite half_lat by lra.
  rewrite (ecc_fin E a b HE). fold the_e. pose proof the_e_bound as B. pose proof (esin_bound _ p B) as B'.
  unfold arc_length, length_scale. xr. pose proof (cos_quarter_pos p H). rewrite xtan_fin by lra.
  rewrite !xdiv_fin by lra. rewrite xpowf_fin by (apply Rdiv_lt_0_compat; lra). xr.
  rewrite xln_fin. 2:{ apply Rmult_lt_0_compat; [now apply tan_quarter_pos|apply exp_pos]. }
  rewrite isom_e_pow by easy. xr. f_equal. unfold enh. f_equal; f_equal; ring.
Qed.
Lemma merc_gell p : (1 - the_e * the_e) / ((1 - the_e * the_e * (sin p * sin p)) * cos p) =
  b * b / (gell a b p * gell a b p * cos p).
Proof.
  rewrite the_e_sq, (gell_sq a b Hab). pose proof (sin2_cos2 p) as Q. unfold Rsqr in Q.
  destruct (Req_dec (cos p) 0) as [Z|Z].
  { rewrite Z. rewrite !Rmult_0_r. unfold Rdiv. rewrite Rinv_0. ring. }
  pose proof (gell_arg a b Hab p). assert (0 < b * b) by nra. assert (0 < a * a) by nra.
  replace (1 - (a * a - b * b) / (a * a) * (sin p * sin p)) with
    ((a * a * (cos p * cos p) + b * b * (sin p * sin p)) / (a * a)).
  2:{ replace (cos p * cos p) with (1 - sin p * sin p) by lra. field. lra. }
  field. repeat split; lra.
Qed.
(** the meridian *)
Definition mer_x (p : R) : R := a * a * cos p / gell a b p.
Definition mer_z (p : R) : R := b * b * sin p / gell a b p.
Lemma gell_pos p : 0 < gell a b p.
Proof. pose proof (gell_bound a b Hab p). lra. Qed.
Lemma mer_meridian : meridian a b mer_x mer_z.
Proof.
  intros p. pose proof (gell_pos p) as G. pose proof (gell_sq a b Hab p) as Q.
  split.
  - unfold on_ellipsoid, mer_x, mer_z.
    apply (Rmult_eq_reg_r (gell a b p * gell a b p)); [|nra].
    replace (((a * a * cos p / gell a b p * (a * a * cos p / gell a b p) + 0 * 0) / (a * a) +
      b * b * sin p / gell a b p * (b * b * sin p / gell a b p) / (b * b)) * (gell a b p * gell a b p))
      with (a * a * (cos p * cos p) + b * b * (sin p * sin p)) by (field; lra). lra.
  - exists (/ gell a b p). split; [now apply Rinv_0_lt_compat|]. unfold normal. rewrite sin_0, cos_0. cbv beta iota.
    unfold mer_x, mer_z. repeat split; field; lra.
Qed.
Lemma gell_deriv p : is_derive (gell a b) p ((b * b - a * a) * sin p * cos p / gell a b p).
Proof.
  pose proof (gell_arg a b Hab p) as A. assert (0 < b * b) by nra. pose proof (gell_pos p) as G.
  unfold gell. auto_derive. { lra. }
  unfold gell in G. field. lra.
Qed.
Lemma mer_x_deriv p : is_derive mer_x p (- (a * a * (b * b) * sin p / (gell a b p * gell a b p * gell a b p))).
Proof.
  pose proof (gell_pos p) as G. pose proof (gell_sq a b Hab p) as Q. pose proof (sin2_cos2 p) as R1. unfold Rsqr in R1.
  unfold mer_x. auto_derive. { repeat split; [eexists; apply gell_deriv|lra]. }
  rewrite (is_derive_unique (fun x : R => gell a b x) _ _ (gell_deriv p)).
  field_simplify_eq; [|lra].
  replace (gell a b p ^ 2) with (a * a * (cos p * cos p) + b * b * (sin p * sin p)) by (cbn; lra).
  replace (- a ^ 2 * sin p * b ^ 2) with (- a ^ 2 * sin p * b ^ 2 * (sin p * sin p + cos p * cos p)) by (rewrite R1; ring). ring.
Qed.
Lemma mer_z_deriv p : is_derive mer_z p (a * a * (b * b) * cos p / (gell a b p * gell a b p * gell a b p)).
Proof.
  pose proof (gell_pos p) as G. pose proof (gell_sq a b Hab p) as Q. pose proof (sin2_cos2 p) as R1. unfold Rsqr in R1.
  unfold mer_z. auto_derive. { repeat split; [eexists; apply gell_deriv|lra]. }
  rewrite (is_derive_unique (fun x : R => gell a b x) _ _ (gell_deriv p)).
  field_simplify_eq; [|lra].
  replace (gell a b p ^ 2) with (a * a * (cos p * cos p) + b * b * (sin p * sin p)) by (cbn; lra).
  match goal with |- _ = ?r => replace r with (r * (sin p * sin p + cos p * cos p)) by (rewrite R1; ring) end. ring.
Qed.
End Merc.

Section Merc2.
Context (E : Ellipsoid XR) (a b : R) (HE : shape E a b) (lon0 lat0 k0 fe fn : R).
Let P := merc_new E (Fin lon0) (Fin lat0) (Fin k0) (Fin fe) (Fin fn).
Let Hab : 0 < b <= a. Proof. apply HE. Qed.
Let ee := the_e a b.
Let north p := fn + k0 * a * isom_e ee p.

Lemma north_deriv p : nonpolar p -> is_derive north p (k0 * a * (b * b / (gell a b p * gell a b p * cos p))).
Proof.
  intros H. pose proof (isom_e_deriv ee p (the_e_bound E a b HE) H) as D.
  unfold ee in D at 2 3 4 5. rewrite (merc_gell E a b HE) in D. unfold north. auto_derive; [exact (ex_intro _ _ D)|].
  rewrite (is_derive_unique (fun x : R => isom_e ee x) _ _ D). ring.
Qed.
Lemma merc_conformal : conformal_cylindrical a b lon0 fe fn (k0 * a) (merc_proj P).
Proof.
  exists (mer_x a b), (mer_z a b), north. split; [apply (mer_meridian E a b HE)|].
  split; [unfold north; rewrite isom_e_0; ring|]. split.
  { intros l p h H. eexists. split; [apply (Rnorm_lon_from lon0 l)|]. now apply (merc_proj_fin E a b HE). }
  intros p H. do 3 eexists. assert (C : 0 < cos p) by (unfold nonpolar in H; apply cos_gt_0; lra).
  pose proof (gell_pos E a b HE p) as G.
  split. { unfold mer_x. apply Rdiv_lt_0_compat; [|lra]. repeat apply Rmult_lt_0_compat; lra. }
  split; [apply is_derive_Reals, (mer_x_deriv E a b HE)|]. split; [apply is_derive_Reals, (mer_z_deriv E a b HE)|].
  split; [apply is_derive_Reals, north_deriv; easy|].
  pose proof (sin2_cos2 p) as Q. unfold Rsqr in Q. set (g := gell a b p) in *.
  assert (0 < g * g * g) by (repeat apply Rmult_lt_0_compat; lra).
  assert (0 < a * a) by nra. assert (0 < b * b) by nra.
  replace (sqrt _) with (a * a * (b * b) / (g * g * g)).
  - unfold mer_x. fold g. field. lra.
  - symmetry. apply sqrt_lem_1.
    + assert (0 <= (a * a * (b * b) / (g * g * g)) * (a * a * (b * b) / (g * g * g)) * (sin p * sin p + cos p * cos p)) by (rewrite Q; nra).
      eapply Rle_trans; [exact H3|]. right. field. lra.
    + left. apply Rdiv_lt_0_compat; [nra|easy].
    + transitivity ((a * a * (b * b) / (g * g * g)) * (a * a * (b * b) / (g * g * g)) * (sin p * sin p + cos p * cos p)); [rewrite Q; ring|]. field. lra.
Qed.
Lemma merc_sym l p h : nonpolar p -> exists x y,
  merc_proj P (llh3 l p h) = Ok (enh (x, fn + y, h)) /\ merc_proj P (llh3 l (- p) h) = Ok (enh (x, fn - y, h)).
Proof.
  intros H. do 2 eexists. split; [now apply (merc_proj_fin E a b HE)|].
  assert (nonpolar (- p)) by (unfold nonpolar in *; lra).
  unfold P. rewrite (merc_proj_fin E a b HE) by easy. rewrite isom_e_odd by (auto; apply (the_e_bound E a b HE)).
  do 4 f_equal. ring.
Qed.
Lemma merc_incr p q : 0 < k0 -> nonpolar p -> nonpolar q -> p < q -> forall l h, exists x y y',
  merc_proj P (llh3 l p h) = Ok (enh (x, y, h)) /\ merc_proj P (llh3 l q h) = Ok (enh (x, y', h)) /\ y < y'.
Proof.
  intros K Hp Hq L l h. do 3 eexists. split; [now apply (merc_proj_fin E a b HE)|]. split; [now apply (merc_proj_fin E a b HE)|].
  apply (incr_function_le north p q (fun p => k0 * a * (b * b / (gell a b p * gell a b p * cos p)))); cbn; try lra.
  - intros x H1 H2. apply north_deriv. unfold nonpolar in *. lra.
  - intros x H1 H2. assert (0 < cos x) by (unfold nonpolar in *; apply cos_gt_0; lra).
    pose proof (gell_pos E a b HE x). repeat first [apply Rdiv_lt_0_compat|apply Rmult_lt_0_compat]; lra.
Qed.
(** inverse on the sphere *)
Lemma merc_coeffs_sphere : b = a -> m_c0 P = Fin 0 /\ m_c1 P = Fin 0 /\ m_c2 P = Fin 0 /\ m_c3 P = Fin 0.
Proof.
  intros S. unfold P, merc_new. cbn [m_c0 m_c1 m_c2 m_c3]. rewrite (e_sq_fin E a b HE), S.
  replace ((a * a - a * a) / (a * a)) with 0 by (field; lra).
  unfold fast_eval_at. cbn [rev app fold_left]. xr. rewrite !xdiv_fin by lra. xr.
  repeat split; f_equal; ring.
Qed.
Lemma merc_unproj_sphere : b = a -> k0 <> 0 -> forall x y h,
  merc_unproj P (enh (x, y, h)) =
  Ok (llh3 (Rwrap (lon0 + (x - fe) / (k0 * a))) (PI / 2 - 2 * atan (exp (- ((y - fn) / (k0 * a))))) h).
Proof.
  intros S K x y h. destruct (merc_coeffs_sphere S) as (C0 & C1 & C2 & C3). unfold merc_unproj. rewrite C0, C1, C2, C3.
  unfold P, merc_new, enh. cbn [m_a m_lon0 m_k0 m_fe m_fn easting northing eheight].
  replace (e_a E) with (Fin a) by (symmetry; apply HE).
  unfold arc_div, length_scale. rewrite ?angle_new_RAD. assert (k0 * a <> 0) by (apply Rmult_integral_contrapositive; lra).
  xr. rewrite !xdiv_fin by easy. rewrite lon_add_fin. cbn [xatan xexp]. xr.
  replace ((fn - y) / (k0 * a)) with (- ((y - fn) / (k0 * a))) by (field; lra).
  set (t := PI / 2 - 2 * atan (exp (- ((y - fn) / (k0 * a))))).
  match goal with |- context[lat_new (Fin ?e)] => replace e with t by ring end.
  rewrite lat_new_id; [reflexivity|]. pose proof (isom_lat_range (- ((y - fn) / (k0 * a)))). unfold t; lra.
Qed.
Lemma the_e_0 : b = a -> the_e a b = 0.
Proof. intros ->. unfold the_e. replace ((a * a - a * a) / (a * a)) with 0 by (field; lra). apply sqrt_0. Qed.
Lemma merc_sphere_inverse : b = a -> k0 <> 0 -> forall l p h, nonpolar p -> exists e l',
  merc_proj P (llh3 l p h) = Ok (enh e) /\ merc_unproj P (enh e) = Ok (llh3 l' p h) /\ same_lon l' l.
Proof.
  intros S K l p h H. eexists _, _. split; [now apply (merc_proj_fin E a b HE)|]. rewrite merc_unproj_sphere by easy.
  split; [|apply (back_lon lon0 l)]. assert (k0 * a <> 0) by (apply Rmult_integral_contrapositive; lra).
  assert (I : isom_e (the_e a b) p = isom p) by (rewrite the_e_0 by easy; unfold isom_e; ring). rewrite I.
  do 2 f_equal. 1: f_equal; f_equal; field; lra.
  replace ((fn + k0 * a * isom p - fn) / (k0 * a)) with (isom p) by (field; lra). now apply isom_inv.
Qed.
Lemma merc_sphere_inverse' : b = a -> 0 < k0 -> forall x y h, Rabs (x - fe) < PI * (k0 * a) -> exists l p,
  merc_unproj P (enh (x, y, h)) = Ok (llh3 l p h) /\ nonpolar p /\ merc_proj P (llh3 l p h) = Ok (enh (x, y, h)).
Proof.
  intros S K x y h H. do 2 eexists. split; [apply merc_unproj_sphere; lra|]. assert (KA : 0 < k0 * a) by (apply Rmult_lt_0_compat; lra).
  split. { apply isom_lat_range. }
  unfold P. rewrite (merc_proj_fin E a b HE) by apply isom_lat_range. rewrite the_e_0 by easy. unfold isom_e. rewrite isom_of, there_lon.
  - do 4 f_equal; field; lra.
  - apply Rabs_def2 in H. split; apply (Rmult_lt_reg_r (k0 * a)); try lra; replace ((x - fe) / (k0 * a) * (k0 * a)) with (x - fe) by (field; lra); lra.
Qed.
End Merc2.

Lemma meridian_unique E a b : shape E a b -> forall p x z, surface_point a b p 0 (x, 0, z) -> x = mer_x a b p /\ z = mer_z a b p.
Proof.
  intros HE p x z H. pose proof (mer_meridian E a b HE p) as H'.
  assert (G : geodetic_point a b p 0 0 (x, 0, z)).
  { exists x, 0, z. split; [exact H|]. unfold normal. cbv beta iota. (f_equal; [f_equal|]); ring. }
  assert (G' : geodetic_point a b p 0 0 (mer_x a b p, 0, mer_z a b p)).
  { exists (mer_x a b p), 0, (mer_z a b p). split; [exact H'|]. unfold normal. cbv beta iota. (f_equal; [f_equal|]); ring. }
  pose proof (geodetic_point_unique a b p 0 0 _ _ (proj1 HE) G G') as Q. now injection Q.
Qed.
Lemma merc_2sp E a b lon0 lat0 fe fn : shape E a b -> nonpolar lat0 ->
  exists k0, 0 < k0 /\ applied_to (SMercator2SP (Fin lon0) (Fin lat0) (Fin fe) (Fin fn)) E =
    PMercator (merc_new E (Fin lon0) (Fin lat0) (Fin k0) (Fin fe) (Fin fn)) /\
  scale_at a b (k0 * a) lat0 1.
Proof.
  intros HE H. pose proof (proj1 HE) as Hab. assert (C : 0 < cos lat0) by (unfold nonpolar in H; apply cos_gt_0; lra).
  pose proof (gell_pos E a b HE lat0) as G. exists (mer_x a b lat0 / a).
  assert (X : 0 < mer_x a b lat0). { unfold mer_x. apply Rdiv_lt_0_compat; [|lra]. repeat apply Rmult_lt_0_compat; lra. }
  split; [apply Rdiv_lt_0_compat; lra|]. split.
  - cbn [applied_to]. unfold merc_new_2_sp. rewrite (e_sq_fin E a b HE). do 2 f_equal.
    unfold lat_abs. xr.
    assert (E1 : cos (Rabs lat0) = cos lat0) by (unfold Rabs; destruct Rcase_abs; [apply cos_neg|easy]).
    assert (E2 : sin (Rabs lat0) * sin (Rabs lat0) = sin lat0 * sin lat0) by (unfold Rabs; destruct Rcase_abs; [rewrite sin_neg; ring|easy]).
    set (e2 := (a * a - b * b) / (a * a)).
    replace (1 - e2 * sin (Rabs lat0) * sin (Rabs lat0)) with (1 - e2 * (sin lat0 * sin lat0)) by (rewrite <- E2; ring).
    pose proof (w_pos a b Hab lat0) as W. rewrite E1. 
    replace (1 - e2 * (sin lat0 * sin lat0)) with (gell a b lat0 * gell a b lat0 / (a * a)).
    2:{ rewrite (gell_sq a b Hab). unfold e2. pose proof (sin2_cos2 lat0) as Q. unfold Rsqr in Q. replace (cos lat0 * cos lat0) with (1 - sin lat0 * sin lat0) by lra. field. lra. }
    replace (gell a b lat0 * gell a b lat0 / (a * a)) with ((gell a b lat0 / a) * (gell a b lat0 / a)) by (field; lra).
    assert (0 < gell a b lat0 / a) by (apply Rdiv_lt_0_compat; lra).
    rewrite xsqrt_fin by nra. rewrite sqrt_square by lra. rewrite xdiv_fin by lra. f_equal. unfold mer_x. field. lra.
  - exists (mer_x a b lat0), (mer_z a b lat0). split; [apply (mer_meridian E a b HE)|]. split; [easy|]. field. lra.
Qed.
Lemma merc_1sp E a b k0 : shape E a b -> scale_at a b (k0 * a) 0 k0.
Proof.
  intros HE. pose proof (proj1 HE) as Hab. assert (X : mer_x a b 0 = a).
  { unfold mer_x, gell. rewrite cos_0, sin_0. replace (a * a * (1 * 1) + b * b * (0 * 0)) with (a * a) by ring. rewrite sqrt_square by lra. field. lra. }
  exists (mer_x a b 0), (mer_z a b 0). split; [apply (mer_meridian E a b HE)|]. rewrite X. split; [lra|]. field; lra.
Qed.
