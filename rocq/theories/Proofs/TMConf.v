(** Exact arithmetic: the transverse Mercator projection is conformal. *)
From Coq Require Import String Reals Lra Lia ZArith Bool Psatz List.
From Coquelicot Require Import Coquelicot.
From Flocq Require Import Core.Raux.
From Verif.Num Require Import FOps RFun XR XRLemmas.
From Verif.Model Require Import Fp Quantities Cs Ellipsoid Geodesics Projections Crs.
From Verif.Spec Require Import Angles Series Axes Shape Maps Krueger Conformal.
From Verif.Proofs Require Import AnglesX MathX AxesX EllX DatumX EllEx ProjX MercX TransG TMX TMInv.
Import ListNotations.
Local Open Scope R_scope.

(** ** Transverse coordinates of the sphere *)
Definition te (q d : R) : R := Ratanh (sin d / cosh q).
Definition tx (q d : R) : R := atan (sinh q / cos d).
Definition tW (q d : R) : R := sinh q * sinh q + cos d * cos d.
Lemma sc2 x : sin x * sin x = 1 - cos x * cos x.
Proof. pose proof (sin2_cos2 x) as H. unfold Rsqr in H. lra. Qed.
Lemma tW_pos q d : 0 < cos d -> 0 < tW q d.
Proof. intros H. unfold tW. nra. Qed.
Lemma te_arg q d : 0 < cos d -> -1 < sin d / cosh q < 1.
Proof.
  intros H. pose proof (cosh_ge_1 q). pose proof (sc2 d). assert (-1 < sin d < 1) by nra.
  split; apply (Rmult_lt_reg_r (cosh q)); try lra; replace (sin d / cosh q * cosh q) with (sin d) by (field; lra); lra.
Qed.
Lemma te_arg2 q d : 0 < cos d -> 1 - sin d / cosh q * (sin d / cosh q) = tW q d / (cosh q * cosh q).
Proof. intros H. pose proof (cosh_ge_1 q). unfold tW. replace (cos d * cos d) with (1 - sin d * sin d) by (pose proof (sc2 d); lra). replace (sinh q * sinh q) with (cosh q * cosh q - 1) by (rewrite cosh_sq; ring). field. lra. Qed.
Lemma eta0_te q d : eta0 (gd q) d = te q d.
Proof. unfold eta0, te. rewrite cos_gd. f_equal. unfold Rdiv. ring. Qed.
Lemma cosh_te q d : 0 < cos d -> cosh (te q d) * cosh (te q d) = cosh q * cosh q / tW q d.
Proof.
  intros H. pose proof (cosh_tanh (te q d)) as C. unfold te in C at 3 4. rewrite tanh_Ratanh in C by now apply te_arg. rewrite te_arg2 in C by exact H.
  pose proof (tW_pos q d H). pose proof (cosh_ge_1 q). apply (Rmult_eq_reg_r (tW q d / (cosh q * cosh q))); [rewrite C; field; lra|]. apply Rgt_not_eq, Rdiv_lt_0_compat; nra.
Qed.
Lemma sin_tx q d : 0 < cos d -> sin (tx q d) = sinh q / sqrt (tW q d) /\ cos (tx q d) = cos d / sqrt (tW q d).
Proof.
  intros H. unfold tx. rewrite sin_atan, cos_atan. pose proof (tW_pos q d H) as W. assert (S := sqrt_lt_R0 _ W).
  replace (sqrt (1 + sinh q / cos d * (sinh q / cos d))) with (sqrt (tW q d) / cos d). { split; field; lra. }
  symmetry. apply sqrt_lem_1; [pose proof (Rle_0_sqr (sinh q / cos d)) as K; unfold Rsqr in K; lra|left; now apply Rdiv_lt_0_compat|].
  replace (sqrt (tW q d) / cos d * (sqrt (tW q d) / cos d)) with (sqrt (tW q d) * sqrt (tW q d) / (cos d * cos d)) by (field; lra). rewrite sqrt_sqrt by lra. unfold tW. field. lra.
Qed.
Lemma xi0_tx q d : 0 < cos d -> xi0 (gd q) d = tx q d.
Proof.
  intros H. unfold xi0. rewrite eta0_te, sin_gd. destruct (sin_tx q d H) as [S _]. pose proof (tW_pos q d H) as W. assert (S' := sqrt_lt_R0 _ W). pose proof (cosh_ge_1 q) as C1.
  assert (C : cosh (te q d) = cosh q / sqrt (tW q d)).
  { pose proof (cosh_te q d H) as C. pose proof (cosh_pos (te q d)). assert (0 < cosh q / sqrt (tW q d)) by (apply Rdiv_lt_0_compat; lra).
    apply Rsqr_inj; [lra|lra|]. unfold Rsqr. rewrite C. replace (cosh q / sqrt (tW q d) * (cosh q / sqrt (tW q d))) with (cosh q * cosh q / (sqrt (tW q d) * sqrt (tW q d))) by (field; lra). now rewrite sqrt_sqrt by lra. }
  rewrite C. unfold tanh. replace (sinh q / cosh q * (cosh q / sqrt (tW q d))) with (sinh q / sqrt (tW q d)) by (field; lra). rewrite <- S. apply asin_sin. pose proof (atan_bound (sinh q / cos d)). unfold tx. lra.
Qed.
Lemma te_dd q d : 0 < cos d -> is_derive (te q) d (cosh q * cos d / tW q d).
Proof.
  intros H. pose proof (Ratanh_deriv _ (te_arg q d H)) as D. rewrite te_arg2 in D by exact H. pose proof (tW_pos q d H). pose proof (cosh_ge_1 q). unfold te.
  eapply is_derive_ext; [intros; reflexivity|]. replace (cosh q * cos d / tW q d) with (scal (cos d / cosh q) (/ (tW q d / (cosh q * cosh q)))) by (change (cos d / cosh q * / (tW q d / (cosh q * cosh q)) = cosh q * cos d / tW q d :> R); field; lra).
  apply (is_derive_comp Ratanh (fun d => sin d / cosh q)); [exact D|]. auto_derive; [trivial|]. unfold Rdiv. ring.
Qed.
Lemma te_dq q d : 0 < cos d -> is_derive (fun q => te q d) q (- (sinh q * sin d / tW q d)).
Proof.
  intros H. pose proof (Ratanh_deriv _ (te_arg q d H)) as D. rewrite te_arg2 in D by exact H. pose proof (tW_pos q d H). pose proof (cosh_ge_1 q). unfold te.
  replace (- (sinh q * sin d / tW q d)) with (scal (- (sin d * sinh q / (cosh q * cosh q))) (/ (tW q d / (cosh q * cosh q)))) by (change (- (sin d * sinh q / (cosh q * cosh q)) * / (tW q d / (cosh q * cosh q)) = - (sinh q * sin d / tW q d) :> R); field; lra).
  apply (is_derive_comp Ratanh (fun q => sin d / cosh q)); [exact D|]. auto_derive; [lra|]. field. lra.
Qed.
Lemma tx_dd q d : 0 < cos d -> is_derive (tx q) d (sinh q * sin d / tW q d).
Proof. intros H. pose proof (tW_pos q d H). unfold tx. auto_derive; [lra|]. unfold tW in *. field. repeat split; try lra.  Qed.
Lemma tx_dq q d : 0 < cos d -> is_derive (fun q => tx q d) q (cosh q * cos d / tW q d).
Proof. intros H. pose proof (tW_pos q d H). unfold tx. auto_derive; [lra|]. unfold tW in *. field. repeat split; try lra.  Qed.

(** ** Krueger's series *)
Definition jr (h : R * R * R * R) (x y : R) : R := let '(h1, h2, h3, h4) := h in
  1 + 2 * h1 * cos (2 * x) * cosh (2 * y) + 4 * h2 * cos (4 * x) * cosh (4 * y) + 6 * h3 * cos (6 * x) * cosh (6 * y) + 8 * h4 * cos (8 * x) * cosh (8 * y).
Definition ji (h : R * R * R * R) (x y : R) : R := let '(h1, h2, h3, h4) := h in
  2 * h1 * sin (2 * x) * sinh (2 * y) + 4 * h2 * sin (4 * x) * sinh (4 * y) + 6 * h3 * sin (6 * x) * sinh (6 * y) + 8 * h4 * sin (8 * x) * sinh (8 * y).
Lemma series_dx h (f g : R -> R) t f' g' : is_derive f t f' -> is_derive g t g' ->
  is_derive (fun t => f t + sin_series h (f t) (g t)) t (jr h (f t) (g t) * f' + ji h (f t) (g t) * g').
Proof.
  intros Df Dg. destruct h as [[[h1 h2] h3] h4]. unfold sin_series, jr, ji. unfold cosh, sinh. auto_derive; [repeat split; solve [now exists f'|now exists g'|trivial]|].
  rewrite (is_derive_unique (fun x : R => f x) _ _ Df), (is_derive_unique (fun x : R => g x) _ _ Dg). rewrite ?Ropp_mult_distr_r. field.
Qed.
Lemma series_dy h (f g : R -> R) t f' g' : is_derive f t f' -> is_derive g t g' ->
  is_derive (fun t => g t + cos_series h (f t) (g t)) t (jr h (f t) (g t) * g' - ji h (f t) (g t) * f').
Proof.
  intros Df Dg. destruct h as [[[h1 h2] h3] h4]. unfold cos_series, jr, ji. unfold cosh, sinh. auto_derive; [repeat split; solve [now exists f'|now exists g'|trivial]|].
  rewrite (is_derive_unique (fun x : R => f x) _ _ Df), (is_derive_unique (fun x : R => g x) _ _ Dg). rewrite ?Ropp_mult_distr_r. field.
Qed.

(** ** The projection *)
Lemma hyp_scale k x y : 0 <= k -> Rhypot (k * x) (k * y) = k * Rhypot x y.
Proof. intros H. apply Rhypot_unique; [apply Rmult_le_pos; [exact H|apply Rhypot_ge_0]|]. pose proof (Rhypot_sq x y) as S. replace (k * Rhypot x y * (k * Rhypot x y)) with (k * k * (Rhypot x y * Rhypot x y)) by ring. rewrite S. ring. Qed.
Section Conf.
Context (E : Ellipsoid XR) (a b : R) (HE : shape E a b) (lon0 lat0 k0 fe fn : R) (Hlat0 : latitude lat0) (Hk : 0 < k0).
Let Hab : 0 < b <= a. Proof. apply HE. Qed.
Let ee := the_e a b.
Let He : 0 <= ee < 1. Proof. apply (the_e_bound E a b HE). Qed.
Let n := tn a b.
Let B := tB a b.
Let P := tm_new E (Fin lon0) (Fin lat0) (Fin k0) (Fin fe) (Fin fn).
Definition cq (p : R) : R := isom_e ee p.
Definition ceast (l p : R) : R := fe + k0 * B * (te (cq p) (l - lon0) + cos_series (hs n) (tx (cq p) (l - lon0)) (te (cq p) (l - lon0))).
Definition cnorth (l p : R) : R := fn + k0 * (B * (tx (cq p) (l - lon0) + sin_series (hs n) (tx (cq p) (l - lon0)) (te (cq p) (l - lon0))) - tm0 a b lat0).
Lemma cq_dp p : nonpolar p -> is_derive cq p (b * b / (gell a b p * gell a b p * cos p)).
Proof. intros H. pose proof (isom_e_deriv ee p He H) as D. unfold ee in D at 2 3 4 5. rewrite (merc_gell E a b HE) in D. exact D. Qed.
Lemma cproj l p h : nonpolar p -> 0 < cos (l - lon0) -> tm_proj P (llh3 l p h) = Ok (enh (ceast l p, cnorth l p, h)).
Proof.
  intros Hp Hc. assert (Hl : latitude p) by (unfold nonpolar, latitude in *; lra). destruct (Rnorm_spec (l - lon0)) as [_ SA].
  assert (CN : cos (Rnorm (l - lon0)) = cos (l - lon0)) by (apply same_angle_cos; exact SA). assert (SN : sin (Rnorm (l - lon0)) = sin (l - lon0)) by (apply same_angle_sin; exact SA).
  unfold P. rewrite (tm_proj_fin E a b HE lon0 lat0 k0 fe fn Hlat0 l p h Hl).
  2: { apply (u_ok E a b HE p _ Hl). right. rewrite CN. lra. }
  rewrite beta_e_np by exact Hp. fold ee. fold (cq p). rewrite eta0_te, xi0_tx by (rewrite CN; exact Hc). unfold te, tx. rewrite CN, SN. fold (te (cq p) (l - lon0)). fold (tx (cq p) (l - lon0)). reflexivity.
Qed.
Definition sU (l p : R) : R := let q := cq p in let d := l - lon0 in
  jr (hs n) (tx q d) (te q d) * (cosh q * cos d / tW q d) - ji (hs n) (tx q d) (te q d) * (sinh q * sin d / tW q d).
Definition sV (l p : R) : R := let q := cq p in let d := l - lon0 in
  jr (hs n) (tx q d) (te q d) * (sinh q * sin d / tW q d) + ji (hs n) (tx q d) (te q d) * (cosh q * cos d / tW q d).
Definition cscale (l p : R) : R := k0 * B * Rhypot (sU l p) (sV l p) / mer_x a b p.
Definition cturn (l p : R) : R := Ratan2 (sV l p) (sU l p).
Lemma shift_dd (f : R -> R) l v : is_derive f (l - lon0) v -> is_derive (fun l => f (l - lon0)) l v.
Proof. intros D. replace v with (scal 1 v) by (change (1 * v = v :> R); ring). apply (is_derive_comp f (fun l => l - lon0)); [exact D|]. auto_derive; [trivial|ring]. Qed.
Lemma aff_d (f : R -> R) t u v w : is_derive f t u -> is_derive (fun t => v + w * f t) t (w * u).
Proof. intros D. auto_derive; [now exists u|]. rewrite (is_derive_unique (fun x : R => f x) _ _ D). ring. Qed.
Lemma ceast_dl l p : 0 < cos (l - lon0) -> is_derive (fun l => ceast l p) l (k0 * B * sU l p).
Proof.
  intros Hc. apply (aff_d (fun l => te (cq p) (l - lon0) + cos_series (hs n) (tx (cq p) (l - lon0)) (te (cq p) (l - lon0)))).
  apply (series_dy (hs n) (fun l => tx (cq p) (l - lon0)) (fun l => te (cq p) (l - lon0))); apply (shift_dd (fun d => _ (cq p) d)); [now apply tx_dd|now apply te_dd].
Qed.
Lemma cnorth_dl l p : 0 < cos (l - lon0) -> is_derive (fun l => cnorth l p) l (k0 * B * sV l p).
Proof.
  intros Hc. apply (is_derive_ext (fun l => fn - k0 * tm0 a b lat0 + k0 * B * (tx (cq p) (l - lon0) + sin_series (hs n) (tx (cq p) (l - lon0)) (te (cq p) (l - lon0))))); [intros t; unfold cnorth; match goal with |- ?u = ?v => change (u = v :> R) end; ring|].
  apply (aff_d (fun l => tx (cq p) (l - lon0) + sin_series (hs n) (tx (cq p) (l - lon0)) (te (cq p) (l - lon0)))).
  apply (series_dx (hs n) (fun l => tx (cq p) (l - lon0)) (fun l => te (cq p) (l - lon0))); apply (shift_dd (fun d => _ (cq p) d)); [now apply tx_dd|now apply te_dd].
Qed.
Lemma comp_q (f : R -> R) p v : nonpolar p -> is_derive f (cq p) v -> is_derive (fun p => f (cq p)) p (b * b / (gell a b p * gell a b p * cos p) * v).
Proof. intros H D. apply (is_derive_comp f cq); [exact D|now apply cq_dp]. Qed.
Lemma ceast_dp l p : nonpolar p -> 0 < cos (l - lon0) -> is_derive (fun p => ceast l p) p (- (k0 * B * (b * b / (gell a b p * gell a b p * cos p)) * sV l p)).
Proof.
  intros Hp Hc. replace (- (k0 * B * (b * b / (gell a b p * gell a b p * cos p)) * sV l p)) with (k0 * B * (b * b / (gell a b p * gell a b p * cos p) * (jr (hs n) (tx (cq p) (l - lon0)) (te (cq p) (l - lon0)) * - (sinh (cq p) * sin (l - lon0) / tW (cq p) (l - lon0)) - ji (hs n) (tx (cq p) (l - lon0)) (te (cq p) (l - lon0)) * (cosh (cq p) * cos (l - lon0) / tW (cq p) (l - lon0))))) by (unfold sV; ring).
  apply (aff_d (fun p => te (cq p) (l - lon0) + cos_series (hs n) (tx (cq p) (l - lon0)) (te (cq p) (l - lon0)))).
  apply (comp_q (fun q => te q (l - lon0) + cos_series (hs n) (tx q (l - lon0)) (te q (l - lon0))) p); [exact Hp|].
  apply (series_dy (hs n) (fun q => tx q (l - lon0)) (fun q => te q (l - lon0))); [now apply tx_dq|now apply te_dq].
Qed.
Lemma cnorth_dp l p : nonpolar p -> 0 < cos (l - lon0) -> is_derive (fun p => cnorth l p) p (k0 * B * (b * b / (gell a b p * gell a b p * cos p)) * sU l p).
Proof.
  intros Hp Hc. replace (k0 * B * (b * b / (gell a b p * gell a b p * cos p)) * sU l p) with (k0 * B * (b * b / (gell a b p * gell a b p * cos p) * (jr (hs n) (tx (cq p) (l - lon0)) (te (cq p) (l - lon0)) * (cosh (cq p) * cos (l - lon0) / tW (cq p) (l - lon0)) + ji (hs n) (tx (cq p) (l - lon0)) (te (cq p) (l - lon0)) * - (sinh (cq p) * sin (l - lon0) / tW (cq p) (l - lon0))))) by (unfold sU; ring).
  apply (is_derive_ext (fun p => fn - k0 * tm0 a b lat0 + k0 * B * (tx (cq p) (l - lon0) + sin_series (hs n) (tx (cq p) (l - lon0)) (te (cq p) (l - lon0))))); [intros t; unfold cnorth; match goal with |- ?u = ?v => change (u = v :> R) end; ring|].
  apply (aff_d (fun p => tx (cq p) (l - lon0) + sin_series (hs n) (tx (cq p) (l - lon0)) (te (cq p) (l - lon0)))).
  apply (comp_q (fun q => tx q (l - lon0) + sin_series (hs n) (tx q (l - lon0)) (te q (l - lon0))) p); [exact Hp|].
  apply (series_dx (hs n) (fun q => tx q (l - lon0)) (fun q => te q (l - lon0))); [now apply tx_dq|now apply te_dq].
Qed.
Lemma mer_speed p : sqrt (- (a * a * (b * b) * sin p / (gell a b p * gell a b p * gell a b p)) * - (a * a * (b * b) * sin p / (gell a b p * gell a b p * gell a b p)) + a * a * (b * b) * cos p / (gell a b p * gell a b p * gell a b p) * (a * a * (b * b) * cos p / (gell a b p * gell a b p * gell a b p))) = a * a * (b * b) / (gell a b p * gell a b p * gell a b p).
Proof.
  pose proof (gell_pos E a b HE p) as G. set (g := gell a b p) in *. assert (0 < g * g * g) by (repeat apply Rmult_lt_0_compat; lra). assert (0 < a * a) by nra. assert (0 < b * b) by nra.
  assert (K : 0 < a * a * (b * b) / (g * g * g)) by (apply Rdiv_lt_0_compat; [nra|lra]).
  apply sqrt_lem_1; [|lra|].
  - match goal with |- 0 <= ?u * ?u + ?v * ?v => pose proof (Rle_0_sqr u) as K1; pose proof (Rle_0_sqr v) as K2; unfold Rsqr in K1, K2; lra end.
  - pose proof (sc2 p) as Q. transitivity ((a * a * (b * b) / (g * g * g)) * (a * a * (b * b) / (g * g * g)) * (sin p * sin p + cos p * cos p)); [rewrite Q; ring|]. field. lra.
Qed.
Lemma mer_x_pos p : nonpolar p -> 0 < mer_x a b p.
Proof. intros H. unfold mer_x. pose proof (gell_pos E a b HE p). assert (0 < cos p) by (unfold nonpolar in H; apply cos_gt_0; lra). apply Rdiv_lt_0_compat; [|lra]. repeat apply Rmult_lt_0_compat; lra. Qed.
Lemma cconf l p : nonpolar p -> 0 < cos (l - lon0) -> conformal_at (mer_x a b) (mer_z a b) ceast cnorth l p (cscale l p) (cturn l p).
Proof.
  intros Hp Hc. pose proof (mer_x_pos p Hp) as X. destruct (Ratan2_spec (sV l p) (sU l p)) as [C S]. fold (cturn l p) in C, S. pose proof (gell_pos E a b HE p) as G.
  assert (C0 : 0 < cos p) by (unfold nonpolar in Hp; apply cos_gt_0; lra).
  do 2 eexists. split; [apply is_derive_Reals, (mer_x_deriv E a b HE)|]. split; [apply is_derive_Reals, (mer_z_deriv E a b HE)|]. rewrite mer_speed. cbv zeta. set (g := gell a b p) in *.
  assert (0 < g * g * g) by (repeat apply Rmult_lt_0_compat; lra). assert (0 < a * a) by nra. assert (0 < b * b) by nra.
  split; [exact X|]. split; [apply Rdiv_lt_0_compat; [nra|lra]|].
  assert (K1 : cscale l p * mer_x a b p = k0 * B * Rhypot (sU l p) (sV l p)) by (unfold cscale; field; lra).
  assert (K2 : cscale l p * (a * a * (b * b) / (g * g * g)) = k0 * B * (b * b / (g * g * cos p)) * Rhypot (sU l p) (sV l p)) by (unfold cscale, mer_x; fold g; field; lra).
  rewrite K1, K2, !(Rmult_assoc _ (Rhypot _ _)), C, S. repeat split; apply is_derive_Reals; [now apply ceast_dl|now apply cnorth_dl|now apply ceast_dp|now apply cnorth_dp].
Qed.
End Conf.
