(** Exact arithmetic: the inverse of the transverse Mercator projection. *)
From Coq Require Import String Reals Lra Lia ZArith Bool Psatz List.
From Coquelicot Require Import Coquelicot.
From Flocq Require Import Core.Raux.
From Verif.Num Require Import FOps RFun XR XRLemmas.
From Verif.Model Require Import Fp Quantities Cs Ellipsoid Geodesics Projections Crs.
From Verif.Spec Require Import Angles Series Axes Shape Maps Krueger.
From Verif.Proofs Require Import AnglesX MathX AxesX EllX DatumX EllEx ProjX MercX TransG TMX.
Import ListNotations.
Local Open Scope R_scope.

(** ** Derivatives *)
Lemma cosh_deriv x : is_derive cosh x (sinh x).
Proof. apply is_derive_Reals. apply derivable_pt_lim_cosh. Qed.
Lemma sinh_deriv x : is_derive sinh x (cosh x).
Proof. apply is_derive_Reals. apply derivable_pt_lim_sinh. Qed.
Lemma tanh_deriv x : is_derive tanh x (1 - tanh x * tanh x).
Proof.
  pose proof (cosh_pos x) as C. pose proof (cosh_sq x) as Q.
  apply (is_derive_ext (fun x => sinh x / cosh x)); [reflexivity|].
  evar (l : R). replace (1 - tanh x * tanh x) with l.
  - apply (is_derive_div sinh cosh); [apply sinh_deriv|apply cosh_deriv|lra].
  - unfold l, tanh. cbn. unfold mult; cbn. field. lra.
Qed.
Lemma gd_deriv x : is_derive gd x (/ cosh x).
Proof.
  pose proof (cosh_pos x) as C. pose proof (cosh_sq x) as Q. unfold gd.
  evar (l : R). replace (/ cosh x) with l.
  - apply (is_derive_comp atan sinh); [|apply sinh_deriv]. apply is_derive_Reals. apply derivable_pt_lim_atan.
  - unfold l. cbn. unfold scal. cbn. unfold mult. cbn. replace (1 + sinh x * (sinh x * 1)) with (cosh x * cosh x) by (rewrite Q; ring). field. lra.
Qed.
Lemma gd_lipschitz x y : Rabs (gd x - gd y) <= Rabs (x - y).
Proof.
  destruct (MVT_gen gd y x (fun t => / cosh t)) as (c & _ & H).
  - intros t _. apply gd_deriv.
  - intros t _. apply derivable_continuous_pt. exists (/ cosh t). apply is_derive_Reals. apply gd_deriv.
  - rewrite H, Rabs_mult. pose proof (cosh_ge_1 c). rewrite (Rabs_pos_eq (/ cosh c)) by (left; apply Rinv_0_lt_compat; lra).
    assert (/ cosh c <= 1) by (rewrite <- Rinv_1; apply Rinv_le_contravar; lra). pose proof (Rabs_pos (x - y)). nra.
Qed.

(** ** The iteration for the isometric latitude *)
Section Loop.
Context (e : R) (He : 0 <= e < 1) (Q : R).
Definition g (q : R) : R := Q + e * Ratanh (e * tanh q).
Lemma et_bound q : -1 < e * tanh q < 1.
Proof. pose proof (tanh_bound q). nra. Qed.
Lemma g_fin q : tm_iter_fn (Fin e) (Fin Q) (Fin q) = Fin (g q).
Proof. unfold tm_iter_fn. xr. cbn [xtanh xlift]. xr. rewrite xatanh_fin by apply et_bound. xr. reflexivity. Qed.
Definition g' (q : R) : R := e * e * (1 - tanh q * tanh q) / (1 - e * tanh q * (e * tanh q)).
Lemma g_deriv (q : R) : is_derive g q (g' q).
Proof.
  pose proof (et_bound q) as B.
  assert (D1 : is_derive (fun q : R => tanh q) q (1 - tanh q * tanh q)) by apply tanh_deriv.
  assert (D2 : is_derive Ratanh (e * tanh q) (/ (1 - e * tanh q * (e * tanh q)))) by now apply Ratanh_deriv.
  unfold g. auto_derive.
  - split; [|split; [|easy]]; [exists (/ (1 - e * tanh q * (e * tanh q))); exact D2|exists (1 - tanh q * tanh q); exact D1].
  - rewrite (is_derive_unique (fun x : R => Ratanh x) _ _ D2), (is_derive_unique (fun x : R => tanh x) _ _ D1). unfold g'. field.
    assert (e * tanh q * (e * tanh q) < 1) by nra. nra.
Qed.
Lemma g'_bound q : 0 <= g' q <= e * e.
Proof.
  unfold g'. pose proof (tanh_bound q) as B. set (t := tanh q) in *. assert (T : 0 <= t * t < 1) by nra.
  assert (EE : 0 <= e * e < 1) by nra.
  assert (D : 0 < 1 - e * t * (e * t)) by nra.
  split.
  - apply Rmult_le_pos; [nra|]. left. now apply Rinv_0_lt_compat.
  - apply (Rmult_le_reg_r (1 - e * t * (e * t))); [easy|]. replace (e * e * (1 - t * t) / _ * _) with (e * e * (1 - t * t)) by (field; lra).
    assert (0 <= e * e * (t * t) * (1 - e * e)) by (apply Rmult_le_pos; nra). nra.
Qed.
Lemma g_contract x y : Rabs (g x - g y) <= e * e * Rabs (x - y).
Proof.
  destruct (MVT_gen g y x g') as (c & _ & H).
  - intros t _. apply g_deriv.
  - intros t _. apply derivable_continuous_pt. exists (g' t). apply is_derive_Reals. apply g_deriv.
  - rewrite H, Rabs_mult. pose proof (g'_bound c). rewrite (Rabs_pos_eq (g' c)) by lra. pose proof (Rabs_pos (x - y)). nra.
Qed.
Lemma g_fixpoint : exists q, g q = q.
Proof.
  assert (C : Ranalysis1.continuity (fun q => q - g q)).
  { intros x. apply derivable_continuous_pt. exists (1 - g' x). apply is_derive_Reals.
    refine (is_derive_minus (fun q : R => q) g x 1 (g' x) _ _); [exact (is_derive_id x)|apply g_deriv]. }
  assert (e * e < 1) by nra. assert (1 - e * e > 0) by lra.
  pose (r := (Rabs (Q - g Q) + 1) / (1 - e * e)).
  assert (Hr : 0 < r) by (apply Rdiv_lt_0_compat; [pose proof (Rabs_pos (Q - g Q)); lra|lra]).
  assert (Er : r * (1 - e * e) = Rabs (Q - g Q) + 1) by (unfold r; field; lra).
  pose proof (Rle_abs (Q - g Q)) as A1. pose proof (Rle_abs (- (Q - g Q))) as A2. rewrite Rabs_Ropp in A2.
  pose proof (g_contract (Q + r) Q) as G1. pose proof (g_contract (Q - r) Q) as G2.
  replace (Q + r - Q) with r in G1 by ring. replace (Q - r - Q) with (- r) in G2 by ring. rewrite Rabs_Ropp in G2.
  rewrite (Rabs_pos_eq r) in G1, G2 by lra.
  pose proof (Rle_abs (g (Q + r) - g Q)) as B1. pose proof (Rle_abs (- (g (Q - r) - g Q))) as B2. rewrite Rabs_Ropp in B2.
  destruct (IVT (fun q => q - g q) (Q - r) (Q + r) C) as (q & _ & Hq); try lra.
  exists q. lra.
Qed.
Fixpoint it (k : nat) (q : R) : R := match k with O => q | S k => it k (g q) end.
Lemma it_S k q : it (S k) q = g (it k q).
Proof. revert q; induction k as [|k IH]; intros q; [reflexivity|]. cbn [it]. rewrite <- IH. reflexivity. Qed.
Lemma it_step k q : Rabs (g (it k q) - it k q) <= (e * e) ^ k * Rabs (g q - q).
Proof.
  induction k as [|k IH]; [cbn; lra|]. rewrite !it_S. eapply Rle_trans; [apply g_contract|]. cbn [pow]. rewrite (Rmult_assoc (e * e)).
  apply Rmult_le_compat_l; [nra|]. exact IH.
Qed.
Definition tol : R := Rlit 1 12.
Lemma tol_val : tol = / 10 ^ 12. Proof. unfold tol, Rlit. cbn. lra. Qed.
Lemma small_step q : exists k, Rabs (g (it k q) - it k q) < tol.
Proof.
  set (w := Rabs (g q - q)). assert (0 <= w) by apply Rabs_pos. assert (Ht : 0 < tol) by (rewrite tol_val; apply Rinv_0_lt_compat; lra).
  assert (Ew : 0 <= e * e < 1) by nra.
  destruct (pow_lt_1_zero (e * e) ltac:(rewrite Rabs_pos_eq; lra) (tol / (w + 1)) ltac:(apply Rdiv_lt_0_compat; lra)) as [N HN].
  exists N. eapply Rle_lt_trans; [apply it_step|]. fold w. specialize (HN N (Nat.le_refl N)).
  rewrite Rabs_pos_eq in HN by (apply pow_le; lra).
  apply Rlt_le_trans with (tol / (w + 1) * (w + 1)); [|right; field; lra].
  assert (0 <= (e * e) ^ N) by (apply pow_le; lra). nra.
Qed.
Lemma loop_it k q : Rabs (g (it k q) - it k q) < tol -> exists fuel j, Rabs (g (it j q) - it j q) < tol /\
  tm_loop fuel (Fin e) (Fin Q) (Fin q) = Ret (Fin (g (it j q))).
Proof.
  revert q; induction k as [|k IH]; intros q H.
  - exists 1%nat, O. split; [easy|]. cbn [tm_loop it] in *. rewrite g_fin. xr. rewrite Rlt_bool_t by exact H. reflexivity.
  - destruct (Rlt_le_dec (Rabs (g q - q)) tol) as [L|L].
    + exists 1%nat, O. split; [easy|]. cbn [tm_loop it] in *. rewrite g_fin. xr. rewrite Rlt_bool_t by exact L. reflexivity.
    + cbn [it] in H. destruct (IH _ H) as (fuel & j & Hj & EL). exists (S fuel), (S j). cbn [it]. split; [easy|].
      cbn [tm_loop]. rewrite g_fin. xr. rewrite Rlt_bool_f by exact L. exact EL.
Qed.
Lemma loop_ends q qs : g qs = qs -> exists N r, (forall fuel, (N <= fuel)%nat -> tm_loop fuel (Fin e) (Fin Q) (Fin q) = Ret (Fin r)) /\
  Rabs (r - qs) <= e * e / (1 - e * e) * tol.
Proof.
  intros Hs. destruct (small_step q) as [k Hk]. destruct (loop_it k q Hk) as (fuel & j & Hj & EL).
  exists fuel, (g (it j q)). split.
  - intros f Hf. replace f with (fuel + (f - fuel))%nat by lia. now apply tm_loop_more.
  - set (x := it j q) in *. assert (e * e < 1) by nra. pose proof (g_contract x qs) as G. rewrite Hs in G.
    assert (T : Rabs (x - qs) <= Rabs (g x - x) + Rabs (g x - qs)).
    { replace (x - qs) with (- (g x - x) + (g x - qs)) by ring. eapply Rle_trans; [apply Rabs_triang|]. rewrite Rabs_Ropp. lra. }
    assert (0 <= e * e) by nra. apply (Rmult_le_reg_r (1 - e * e)); [lra|].
    replace (e * e / (1 - e * e) * tol * (1 - e * e)) with (e * e * tol) by (field; lra). nra.
Qed.
(** the fixed point is the isometric latitude of the exact answer *)
Lemma fix_lat qs : g qs = qs -> isom_e e (gd qs) = Q.
Proof. intros H. unfold isom_e. rewrite isom_gd, sin_gd. unfold g in H. lra. Qed.
End Loop.
Lemma loop_sphere fuel Q q : tm_loop (S fuel) (Fin 0) (Fin Q) (Fin Q) = Ret (Fin Q) /\ tm_iter_fn (Fin 0) (Fin Q) (Fin q) = Fin Q.
Proof.
  assert (Gq : forall q, g 0 Q q = Q) by (intros; unfold g; ring).
  split; [|rewrite g_fin by lra; now rewrite Gq]. cbn [tm_loop]. rewrite g_fin by lra. rewrite Gq. xr.
  replace (Q - Q) with 0 by ring. rewrite Rabs_R0. rewrite Rlt_bool_t; [reflexivity|].
  change (0 < tol). rewrite tol_val. apply Rinv_0_lt_compat. lra.
Qed.

(** ** The sphere in transverse coordinates *)
Definition back_beta (x y : R) : R := asin (sin x / cosh y).
Lemma back_arg x y : -1 <= sin x / cosh y <= 1.
Proof.
  pose proof (cosh_ge_1 y) as C. pose proof (SIN_bound x) as S.
  split; apply (Rmult_le_reg_r (cosh y)); try lra; replace (sin x / cosh y * cosh y) with (sin x) by (field; lra); lra.
Qed.
Definition off_pole (x y : R) : Prop := ~ (y = 0 /\ cos x = 0).
Lemma cosh_1_inv y : cosh y = 1 -> y = 0.
Proof.
  intros H. assert (S : sinh y = 0) by (pose proof (cosh_sq y); nra). rewrite <- (arcsinh_sinh y), S. apply arcsinh_0.
Qed.
Lemma back_arg_lt x y : off_pole x y -> -1 < sin x / cosh y < 1.
Proof.
  intros H. pose proof (cosh_ge_1 y) as C. pose proof (SIN_bound x) as S.
  assert (L : -cosh y < sin x < cosh y).
  { destruct (Req_dec (cosh y) 1) as [C1|C1]; [|lra]. assert (Y := cosh_1_inv y C1).
    assert (cos x <> 0) by (intros Z; apply H; now split). pose proof (sin2_cos2 x) as Q. unfold Rsqr in Q. 
    assert (0 < cos x * cos x) by nra. rewrite C1. nra. }
  split; apply (Rmult_lt_reg_r (cosh y)); try lra; replace (sin x / cosh y * cosh y) with (sin x) by (field; lra); lra.
Qed.
Lemma back_beta_np x y : off_pole x y -> nonpolar (back_beta x y).
Proof.
  intros H. pose proof (back_arg_lt x y H) as B. unfold nonpolar, back_beta. now apply asin_bound_lt.
Qed.
Lemma sin_back x y : sin (back_beta x y) = sin x / cosh y.
Proof. unfold back_beta. apply sin_asin. apply back_arg. Qed.
Lemma cos_back x y : off_pole x y -> 0 < cos (back_beta x y) /\ cos (back_beta x y) * cos (back_beta x y) = 1 - (sin x / cosh y) * (sin x / cosh y).
Proof.
  intros H. pose proof (back_beta_np x y H) as N. unfold nonpolar in N. split; [apply cos_gt_0; lra|].
  rewrite <- sin_back. pose proof (sin2_cos2 (back_beta x y)) as Q. unfold Rsqr in Q. lra.
Qed.
Lemma back_d_arg x y : off_pole x y -> -1 <= tanh y / cos (back_beta x y) <= 1.
Proof.
  intros H. destruct (cos_back x y H) as [P Q]. set (c := cos (back_beta x y)) in *.
  assert (T : tanh y * tanh y <= c * c).
  { rewrite Q. pose proof (cosh_tanh y) as K. pose proof (cosh_pos y) as C. pose proof (SIN_bound x) as S. 
    apply (Rmult_le_reg_r (cosh y * cosh y)); [nra|].
    replace ((1 - sin x / cosh y * (sin x / cosh y)) * (cosh y * cosh y)) with (cosh y * cosh y - sin x * sin x) by (field; lra). nra. }
  split; apply (Rmult_le_reg_r c); auto; replace (tanh y / c * c) with (tanh y) by (field; lra); nra.
Qed.
Definition back_d (x y : R) : R := asin (tanh y / cos (back_beta x y)).
Lemma eta0_back x y : off_pole x y -> eta0 (back_beta x y) (back_d x y) = y.
Proof.
  intros H. destruct (cos_back x y H) as [P Q]. unfold eta0, back_d. rewrite sin_asin by now apply back_d_arg.
  replace (cos (back_beta x y) * (tanh y / cos (back_beta x y))) with (tanh y) by (field; lra). apply Ratanh_tanh.
Qed.
Lemma xi0_back x y : off_pole x y -> latitude x -> xi0 (back_beta x y) (back_d x y) = x.
Proof.
  intros H L. unfold xi0. rewrite eta0_back, sin_back by easy. pose proof (cosh_pos y).
  replace (sin x / cosh y * cosh y) with (sin x) by (field; lra). apply asin_sin. exact L.
Qed.
(** and the other way *)
Lemma back_beta_xi be d : latitude be -> -1 < cos be * sin d < 1 -> back_beta (xi0 be d) (eta0 be d) = be.
Proof.
  intros L U. unfold back_beta, xi0. rewrite sin_asin by now apply xi0_arg. pose proof (cosh_pos (eta0 be d)).
  replace (sin be * cosh (eta0 be d) / cosh (eta0 be d)) with (sin be) by (field; lra). apply asin_sin. exact L.
Qed.
Lemma back_d_eta be d : nonpolar be -> - (PI / 2) < d < PI / 2 -> -1 < cos be * sin d < 1 -> back_d (xi0 be d) (eta0 be d) = d.
Proof.
  intros L D U. unfold back_d. rewrite back_beta_xi by (auto; unfold nonpolar, latitude in *; lra). unfold eta0.
  rewrite tanh_Ratanh by easy. assert (0 < cos be) by (unfold nonpolar in L; apply cos_gt_0; lra).
  replace (cos be * sin d / cos be) with (sin d) by (field; lra). apply asin_sin. lra.
Qed.

Section Inv.
Context (E : Ellipsoid XR) (a b : R) (HE : shape E a b) (lon0 lat0 k0 fe fn : R) (Hlat0 : latitude lat0) (Hk : k0 <> 0).
Let Hab : 0 < b <= a. Proof. apply HE. Qed.
Let ee := the_e a b.
Let He : 0 <= ee < 1. Proof. apply (the_e_bound E a b HE). Qed.
Let P := tm_new E (Fin lon0) (Fin lat0) (Fin k0) (Fin fe) (Fin fn).
Let B := tB a b.
Let n := tn a b.
Let M0 := tm0 a b lat0.
Let HB : 0 < B. Proof. exact (tB_pos E a b HE). Qed.

Definition norm_x (y : R) : R := (y - fn + k0 * tm0 a b lat0) / (k0 * tB a b).
Definition norm_y (x : R) : R := (x - fe) / (k0 * tB a b).
Definition opp4 (h : R * R * R * R) : R * R * R * R := let '(h1, h2, h3, h4) := h in (- h1, - h2, - h3, - h4).
Lemma unproj_head fuel x y h :
  let xi := norm_x y - sin_series (hps n) (norm_x y) (norm_y x) in
  let eta := norm_y x - cos_series (hps n) (norm_x y) (norm_y x) in
  off_pole xi eta ->
  let Q := isom (back_beta xi eta) in
  tm_unproj fuel P (enh (x, y, h)) =
  (let* Q_pp := tm_loop fuel (Fin ee) (Fin Q) (Fin (g ee Q Q)) in
   Ret (Ok (mkLLH (Fin (Rwrap (lon0 + back_d xi eta))) (lat_new (angle_new (fatan (fsinh Q_pp)) RAD)) (Fin h)))).
Proof.
  intros xi eta NP Q. unfold P. rewrite (tm_new_fin E a b HE lon0 lat0 k0 fe fn Hlat0). unfold tm_unproj, enh.
  cbn [tm_e tm_lon0 tm_k0 tm_fe tm_fn tm_B tm_h tm_M0 tm_h_p easting northing eheight]. unfold length_scale. xr.
  assert (K : k0 * tB a b <> 0) by (apply Rmult_integral_contrapositive; split; [easy|]; unfold B in HB; lra).
  rewrite !xdiv_fin by easy. fold (norm_y x). fold (norm_x y). rewrite tm_xi_fin, tm_eta_fin. xr. fold n. fold xi. fold eta.
  cbn [xcosh]. pose proof (cosh_pos eta). rewrite xdiv_fin by lra. rewrite xasin_fin by apply back_arg. fold (back_beta xi eta).
  destruct (cos_back xi eta NP) as [PC _]. rewrite xtan_fin by lra. cbn [xlift]. rewrite isom_arcsinh by now apply back_beta_np. fold Q.
  fold ee. rewrite g_fin by easy. cbn [xtanh]. xr. rewrite xdiv_fin by lra. rewrite xasin_fin by now apply back_d_arg. fold (back_d xi eta).
  rewrite angle_new_RAD, lon_add_fin. reflexivity.
Qed.
Lemma lat_of q : lat_new (angle_new (fatan (fsinh (Fin q))) RAD) = Fin (gd q).
Proof.
  cbn [fsinh fatan XRops xlift xatan]. rewrite angle_new_RAD. rewrite lat_new_id; [reflexivity|].
  pose proof (gd_nonpolar q). unfold nonpolar, gd in *. lra.
Qed.
Lemma unproj_ends x y h :
  let xi := norm_x y - sin_series (hps n) (norm_x y) (norm_y x) in
  let eta := norm_y x - cos_series (hps n) (norm_x y) (norm_y x) in
  off_pole xi eta -> exists N l p q,
  (forall fuel, (N <= fuel)%nat -> tm_unproj fuel P (enh (x, y, h)) = Ret (Ok (llh3 l p h))) /\
  nonpolar p /\ nonpolar q /\ Rabs (p - q) <= ee * ee / (1 - ee * ee) * tol /\
  l = Rwrap (lon0 + back_d xi eta) /\ beta_e ee q = back_beta xi eta.
Proof.
  intros xi eta NP. set (Q := isom (back_beta xi eta)). destruct (g_fixpoint ee He Q) as [qs Hs].
  destruct (loop_ends ee He Q (g ee Q Q) qs Hs) as (N & r & HN & Hr).
  exists N, (Rwrap (lon0 + back_d xi eta)), (gd r), (gd qs). split.
  { intros fuel F. rewrite unproj_head by exact NP. fold xi eta Q. rewrite HN by easy. cbn [obind]. rewrite lat_of. reflexivity. }
  split; [apply gd_nonpolar|]. split; [apply gd_nonpolar|]. split; [eapply Rle_trans; [apply gd_lipschitz|exact Hr]|]. split; [easy|].
  rewrite beta_e_np by apply gd_nonpolar. rewrite (fix_lat ee Q qs Hs). unfold Q. apply gd_isom. now apply back_beta_np.
Qed.

Lemma kr_hs h x y : krueger h (x, y) = (x + sin_series h x y, y + cos_series h x y).
Proof. destruct h as [[[h1 h2] h3] h4]. reflexivity. Qed.
Lemma kr_direct_hs m : kr_direct m = hs m.
Proof. unfold kr_direct, hs, polynomial. cbn. f_equal; [f_equal; [f_equal|]|]; field. Qed.
Lemma kr_reverse_hps m : kr_reverse m = opp4 (hps m).
Proof. unfold kr_reverse, hps, opp4, polynomial. cbn. f_equal; [f_equal; [f_equal|]|]; field. Qed.
Lemma kr_rev x y m : krueger (kr_reverse m) (x, y) = (x - sin_series (hps m) x y, y - cos_series (hps m) x y).
Proof. rewrite kr_reverse_hps. destruct (hps m) as [[[h1 h2] h3] h4]. unfold krueger, opp4, sin_series, cos_series. f_equal; ring. Qed.
Lemma kr_radius_B : kr_radius a (third_flattening a b) = B.
Proof. unfold kr_radius, B, tB, rectify, tn, third_flattening, polynomial. cbn. field. lra. Qed.
Lemma e2_the_e : eccentricity_squared a b = ee * ee.
Proof. unfold ee, the_e, eccentricity_squared. rewrite sqrt_def; [easy|]. pose proof (e2_bound a b Hab). lra. Qed.

Lemma unproj_terminates_near x y h :
  let m := third_flattening a b in let r := kr_radius a m in
  let '(xi, eta) := krueger (kr_reverse m) ((y - fn + k0 * M0) / (k0 * r), (x - fe) / (k0 * r)) in
  ~ (eta = 0 /\ cos xi = 0) ->
  exists N l p, - PI <= l <= PI /\ nonpolar p /\
  (forall fuel, (N <= fuel)%nat -> tm_unproj fuel P (enh (x, y, h)) = Ret (Ok (llh3 l p h))) /\
  (latitude xi -> exists q, Rabs (p - q) <= eccentricity_squared a b / (1 - eccentricity_squared a b) * / 10 ^ 12 /\
     let '(xi', eta') := krueger (kr_direct m) (xi, eta) in
     tm_proj P (llh3 l q h) = Ok (enh (fe + k0 * r * eta', fn + k0 * (r * xi' - M0), h))).
Proof.
  intros m r. unfold r, m. rewrite kr_radius_B. rewrite kr_rev.
  change (third_flattening a b) with n. unfold B, M0. change ((y - fn + k0 * tm0 a b lat0) / (k0 * tB a b)) with (norm_x y).
  change ((x - fe) / (k0 * tB a b)) with (norm_y x).
  set (xi := norm_x y - _). set (eta := norm_y x - _). intros NP.
  destruct (unproj_ends x y h NP) as (N & l & p & q & HN & Pp & Pq & Hpq & Hl & Hq). fold xi eta in Hl, Hq.
  exists N, l, p. split; [rewrite Hl; apply Rwrap_spec|]. split; [easy|]. split; [exact HN|]. intros L.
  exists q. rewrite e2_the_e, <- tol_val. split; [exact Hpq|].
  rewrite kr_direct_hs, kr_hs. assert (Lq : latitude q) by (unfold nonpolar, latitude in *; lra).
  assert (D : Rnorm (l - lon0) = back_d xi eta).
  { rewrite Hl. apply there_lon. pose proof PI_pos. unfold back_d. pose proof (asin_bound (tanh eta / cos (back_beta xi eta))). lra. }
  assert (U : -1 < cos (beta_e ee q) * sin (Rnorm (l - lon0)) < 1).
  { rewrite D, Hq. destruct (cos_back xi eta NP) as [PC _]. unfold back_d. rewrite sin_asin by now apply back_d_arg.
    replace (cos (back_beta xi eta) * (tanh eta / cos (back_beta xi eta))) with (tanh eta) by (field; lra). apply tanh_bound. }
  unfold P. rewrite (tm_proj_fin E a b HE lon0 lat0 k0 fe fn Hlat0 l q h Lq U). fold ee. rewrite D, Hq, eta0_back, xi0_back by easy. reflexivity.
Qed.
Lemma tm0_0 : lat0 = 0 -> M0 = 0.
Proof. intros Z. unfold M0, tm0, mu. rewrite Z, beta_e_0, sin_series_0. ring. Qed.
End Inv.

(** ** The sphere *)
Section Sphere.
Context (E : Ellipsoid XR) (a : R) (HE : shape E a a) (lon0 lat0 k0 fe fn : R) (Hlat0 : latitude lat0) (Hk : k0 <> 0).
Let Ha : 0 < a. Proof. destruct HE; lra. Qed.
Let P := tm_new E (Fin lon0) (Fin lat0) (Fin k0) (Fin fe) (Fin fn).
Lemma sph_e : the_e a a = 0.
Proof. unfold the_e. replace ((a * a - a * a) / (a * a)) with 0 by (field; lra). apply sqrt_0. Qed.
Lemma sph_n : tn a a = 0.
Proof. unfold tn. field. lra. Qed.
Lemma sph_B : tB a a = a.
Proof. unfold tB. rewrite sph_n. unfold rectify, polynomial. cbn. field. Qed.
Lemma sph_hs x y : sin_series (hs 0) x y = 0 /\ cos_series (hs 0) x y = 0 /\ sin_series (hps 0) x y = 0 /\ cos_series (hps 0) x y = 0.
Proof. unfold hs, hps, sin_series, cos_series, polynomial. cbn. repeat split; ring. Qed.
Lemma sph_beta p : latitude p -> beta_e 0 p = p.
Proof.
  intros H. destruct (latitude_cases p H) as [N|N].
  - rewrite beta_e_np by easy. unfold isom_e. rewrite Rmult_0_l, Rminus_0_r. now apply gd_isom.
  - apply beta_e_pole. pose proof PI_pos. destruct N as [-> | ->]; [|rewrite Rabs_Ropp]; apply Rabs_pos_eq; lra.
Qed.
Lemma sph_tm0 : tm0 a a lat0 = a * lat0.
Proof.
  unfold tm0, mu. rewrite sph_B, sph_e, sph_n, sph_beta by easy. destruct (sph_hs lat0 0) as [-> _]. ring.
Qed.
Lemma sph_unproj fuel x y h : let xi := (y - fn) / (k0 * a) + lat0 in let eta := (x - fe) / (k0 * a) in
  off_pole xi eta ->
  tm_unproj (S fuel) P (enh (x, y, h)) = Ret (Ok (llh3 (Rwrap (lon0 + back_d xi eta)) (back_beta xi eta) h)).
Proof.
  intros xi eta NP.
  assert (Ex : norm_x a a lat0 k0 fn y = xi) by (unfold norm_x, xi; rewrite sph_tm0, sph_B; field; lra).
  assert (Ey : norm_y a a k0 fe x = eta) by (unfold norm_y, eta; rewrite sph_B; field; lra).
  pose proof (unproj_head E a a HE lon0 lat0 k0 fe fn Hlat0 Hk (S fuel) x y h) as H. cbv zeta in H.
  rewrite sph_n, sph_e, Ex, Ey in H. destruct (sph_hs xi eta) as (_ & _ & S1 & S2). rewrite S1, S2 in H. rewrite !Rminus_0_r in H.
  fold P in H. rewrite (H NP). set (Q := isom (back_beta xi eta)). replace (g 0 Q Q) with Q by (unfold g; ring).
  destruct (loop_sphere fuel Q Q) as [-> _]. cbn [obind]. rewrite lat_of. unfold llh3. do 4 f_equal.
  unfold Q. rewrite gd_isom; [easy|].
  now apply back_beta_np.
Qed.
Lemma sph_proj l p h : latitude p -> let d := Rnorm (l - lon0) in -1 < cos p * sin d < 1 ->
  tm_proj P (llh3 l p h) = Ok (enh (fe + k0 * a * eta0 p d, fn + k0 * a * (xi0 p d - lat0), h)).
Proof.
  intros Hp d U. unfold P. rewrite (tm_proj_fin E a a HE lon0 lat0 k0 fe fn Hlat0 l p h Hp); rewrite sph_e, sph_beta by easy; [|exact U].
  fold d. rewrite sph_n, sph_B, sph_tm0. destruct (sph_hs (xi0 p d) (eta0 p d)) as (-> & -> & _). do 4 f_equal; ring.
Qed.
Lemma sph_inverse l p h : nonpolar p -> cos (l - lon0) > 0 -> exists x y l', tm_proj P (llh3 l p h) = Ok (enh (x, y, h)) /\
  (forall fuel, (1 <= fuel)%nat -> tm_unproj fuel P (enh (x, y, h)) = Ret (Ok (llh3 l' p h))) /\ same_lon l' l.
Proof.
  intros Hp C. set (d := Rnorm (l - lon0)).
  assert (Cd : cos d = cos (l - lon0)).
  { destruct (Rnorm_spec (l - lon0)) as [_ [k K]]. fold d in K. replace d with ((l - lon0) + IZR k * (2 * PI)) by lra. apply cos_period_Z. }
  assert (Hd : - (PI / 2) < d < PI / 2).
  { destruct (Rnorm_spec (l - lon0)) as [Bd _]. fold d in Bd. split; apply Rnot_le_lt; intros L.
    - assert (cos d <= 0); [|lra]. rewrite <- cos_neg. apply cos_le_0; lra.
    - assert (cos d <= 0); [|lra]. apply cos_le_0; lra. }
  assert (Lp : latitude p) by (unfold nonpolar, latitude in *; lra).
  assert (U : -1 < cos p * sin d < 1).
  { pose proof (u_ok E a a HE p d Lp) as H. rewrite sph_e, sph_beta in H by easy. apply H. right. lra. }
  assert (NP : off_pole (xi0 p d) (eta0 p d)).
  { intros [Z1 Z2]. pose proof (back_beta_xi p d Lp U) as K. unfold back_beta in K. rewrite Z1, cosh_0 in K. unfold Rdiv in K. rewrite Rinv_1, Rmult_1_r in K.
    pose proof (f_equal sin K) as SS. rewrite sin_asin in SS by apply SIN_bound.
    pose proof (sin2_cos2 (xi0 p d)) as T1. pose proof (sin2_cos2 p) as T2. unfold Rsqr in *. rewrite SS, Z2 in T1.
    assert (0 < cos p) by (unfold nonpolar in Hp; apply cos_gt_0; lra). nra. }
  do 3 eexists. split; [apply sph_proj; easy|]. fold d. split.
  - intros fuel F. destruct fuel as [|fuel]; [lia|]. rewrite sph_unproj.
    + replace ((fn + k0 * a * (xi0 p d - lat0) - fn) / (k0 * a) + lat0) with (xi0 p d) by (field; lra).
      replace ((fe + k0 * a * eta0 p d - fe) / (k0 * a)) with (eta0 p d) by (field; lra).
      rewrite back_beta_xi, back_d_eta by easy. reflexivity.
    + replace ((fn + k0 * a * (xi0 p d - lat0) - fn) / (k0 * a) + lat0) with (xi0 p d) by (field; lra).
      replace ((fe + k0 * a * eta0 p d - fe) / (k0 * a)) with (eta0 p d) by (field; lra). exact NP.
  - apply back_lon.
Qed.
Lemma sph_inverse' x y h : nonpolar ((y - fn) / (k0 * a) + lat0) -> exists l p,
  (forall fuel, (1 <= fuel)%nat -> tm_unproj fuel P (enh (x, y, h)) = Ret (Ok (llh3 l p h))) /\
  tm_proj P (llh3 l p h) = Ok (enh (x, y, h)).
Proof.
  intros H. set (xi := (y - fn) / (k0 * a) + lat0) in *. set (eta := (x - fe) / (k0 * a)).
  assert (NP : off_pole xi eta). { intros [_ Z]. assert (0 < cos xi) by (unfold nonpolar in H; apply cos_gt_0; lra). lra. }
  do 2 eexists. split. { intros fuel F. destruct fuel as [|fuel]; [lia|]. apply sph_unproj. exact NP. } fold xi eta.
  pose proof (back_beta_np xi eta NP) as BN.
  assert (D : Rnorm (Rwrap (lon0 + back_d xi eta) - lon0) = back_d xi eta).
  { apply there_lon. pose proof PI_pos. unfold back_d. pose proof (asin_bound (tanh eta / cos (back_beta xi eta))). lra. }
  assert (U : -1 < cos (back_beta xi eta) * sin (back_d xi eta) < 1).
  { destruct (cos_back xi eta NP) as [PC _]. unfold back_d. rewrite sin_asin by now apply back_d_arg.
    replace (cos (back_beta xi eta) * (tanh eta / cos (back_beta xi eta))) with (tanh eta) by (field; lra). apply tanh_bound. }
  assert (L1 : latitude (back_beta xi eta)) by (unfold nonpolar, latitude in *; lra).
  assert (L2 : latitude xi) by (unfold nonpolar, latitude in *; lra).
  rewrite (sph_proj _ _ h L1) by now rewrite D. rewrite D, eta0_back, xi0_back by easy. unfold xi, eta. do 4 f_equal; field; lra.
Qed.
End Sphere.
