(** Exact arithmetic: transverse Mercator there and back. *)
From Coq Require Import String Reals Lra Lia ZArith QArith Qreals Bool Psatz List.
From Coquelicot Require Import Coquelicot.
From Flocq Require Import Core.Raux.
From Verif.Num Require Import FOps RFun XR XRLemmas TMod TModL TModC.
From Verif.Model Require Import Fp Quantities Complex Cs Ellipsoid Geodesics Projections Crs Geometry.
From Verif.Spec Require Import Angles Axes Shape Frames Sphere Maps Krueger.
From Verif.Proofs Require Import MathX AnglesX AxesX EllX MercX MercInv TMX TMInv TMConf TMScale CSin TMRound.
From Verif.Proofs Require GeoAcc.
Import ListNotations.
Local Open Scope R_scope.

(** ** The conformal sphere *)
Lemma edist_sq p q : edist p q * edist p q = let '(x1, y1, z1) := p in let '(x2, y2, z2) := q in (x1 - x2) * (x1 - x2) + (y1 - y2) * (y1 - y2) + (z1 - z2) * (z1 - z2).
Proof. destruct p as [[x1 y1] z1], q as [[x2 y2] z2]. unfold edist. apply sqrt_sqrt. pose proof (Rle_0_sqr (x1 - x2)). pose proof (Rle_0_sqr (y1 - y2)). pose proof (Rle_0_sqr (z1 - z2)). unfold Rsqr in *. lra. Qed.
(** the square of the distance between two points of the sphere, [c] the cosine of the difference in longitude *)
Definition ch2 (p q c : R) : R := 2 * (1 - cos (p - q)) + 2 * (cos p * cos q * (1 - c)).
Lemma edist_ch2 l l' p q : edist (position l p) (position l' q) * edist (position l p) (position l' q) = ch2 p q (cos (l - l')).
Proof.
  rewrite edist_sq. unfold position, ch2. rewrite !cos_minus. pose proof (sin2_cos2 p) as A. pose proof (sin2_cos2 q) as B. pose proof (sin2_cos2 l) as C. pose proof (sin2_cos2 l') as D. unfold Rsqr in *.
  transitivity (cos p * cos p * (sin l * sin l + cos l * cos l) + sin p * sin p + (cos q * cos q * (sin l' * sin l' + cos l' * cos l') + sin q * sin q) - 2 * (cos p * cos q * (cos l * cos l' + sin l * sin l') + sin p * sin q)); [ring|]. rewrite C, D. lra.
Qed.
Definition ball (x y : R) : R3 := (cos x / cosh y, tanh y, sin x / cosh y).
Definition ball' (x y : R) : R3 := (Rabs (cos x) / cosh y, tanh y, sin x / cosh y).
Lemma ball_dist x0 y0 x1 y1 : edist (ball x0 y0) (ball x1 y1) * edist (ball x0 y0) (ball x1 y1) = 2 * (cosh (y1 - y0) - cos (x1 - x0)) / (cosh y0 * cosh y1).
Proof.
  rewrite edist_sq. unfold ball, tanh. rewrite cosh_minus, cos_minus. pose proof (cosh_pos y0). pose proof (cosh_pos y1). pose proof (cosh_sq y0) as A. pose proof (cosh_sq y1) as B. pose proof (sin2_cos2 x0) as C. pose proof (sin2_cos2 x1) as D. unfold Rsqr in *.
  apply (Rmult_eq_reg_r (cosh y0 * cosh y0 * (cosh y1 * cosh y1))); [|apply Rgt_not_eq; apply Rmult_lt_0_compat; apply Rmult_lt_0_compat; assumption].
  transitivity ((cosh y1 * cosh y1) * (sin x0 * sin x0 + cos x0 * cos x0 + sinh y0 * sinh y0) + cosh y0 * cosh y0 * (sin x1 * sin x1 + cos x1 * cos x1 + sinh y1 * sinh y1) - 2 * (cosh y0 * cosh y1) * (cos x1 * cos x0 + sin x1 * sin x0 + sinh y1 * sinh y0)).
  { field. split; lra. }
  rewrite C, D, <- A, <- B. field. split; lra.
Qed.
Lemma cosh_low t : Rabs t <= / 100 -> cosh t - 1 <= 10001 / 20000 * (t * t).
Proof.
  intros H. replace (cosh t) with (cosh (Rabs t)) by (unfold Rabs; destruct Rcase_abs; [apply cosh_opp|reflexivity]). replace (t * t) with (Rabs t * Rabs t) by (rewrite <- Rabs_mult; apply Rabs_right; nra).
  pose proof (Rabs_pos t) as P. set (u := Rabs t) in *. destruct (hyp_taylor u ltac:(lra)) as [_ [_ U]].
  assert (S : 0 <= u * u <= / 10000) by nra. set (w := u * u) in *. replace (u ^ 2) with w in U by (unfold w; ring). replace (u ^ 4) with (w * w) in U by (unfold w; ring). replace (u ^ 6) with (w * w * w) in U by (unfold w; ring). replace (u ^ 8) with (w * w * w * w) in U by (unfold w; ring).
  assert (A : w * w <= / 10000 * w) by nra. assert (A0 : 0 <= w * w) by nra. assert (B : w * w * w <= / 10000 * (w * w)) by nra. assert (C : w * w * w * w <= / 10000 * (w * w * w)) by nra. lra.
Qed.
Lemma cos_low t : 1 - cos t <= t * t / 2.
Proof.
  destruct (Req_dec t 0) as [->|N]; [rewrite cos_0; lra|].
  replace t with (2 * (t / 2)) at 1 by field. rewrite cos_2a_sin. pose proof (GeoAcc.sin_le_x_abs (t / 2)) as S. assert (sin (t / 2) * sin (t / 2) <= t / 2 * (t / 2)); [|lra].
  rewrite <- (Rabs_right (sin (t / 2) * sin (t / 2))), <- (Rabs_right (t / 2 * (t / 2))) by nra. rewrite !Rabs_mult. pose proof (Rabs_pos (sin (t / 2))). apply Rmult_le_compat; lra.
Qed.

Lemma ball_near x0 y0 x1 y1 r : 0 <= cos x0 -> 0 <= r <= / 100 -> (x1 - x0) * (x1 - x0) + (y1 - y0) * (y1 - y0) <= r * r ->
  edist (ball x0 y0) (ball' x1 y1) * edist (ball x0 y0) (ball' x1 y1) <= 10001 / 10000 * (r * r).
Proof.
  intros C R1 H. assert (A : edist (ball x0 y0) (ball' x1 y1) * edist (ball x0 y0) (ball' x1 y1) <= edist (ball x0 y0) (ball x1 y1) * edist (ball x0 y0) (ball x1 y1)).
  { rewrite !edist_sq. unfold ball, ball'. apply Rplus_le_compat_r, Rplus_le_compat_r. pose proof (cosh_pos y0) as P0. pose proof (cosh_pos y1) as P1. set (u := cos x0 / cosh y0).
    assert (U : 0 <= u) by (apply Rmult_le_pos; [exact C|left; now apply Rinv_0_lt_compat]). unfold Rabs. destruct (Rcase_abs (cos x1)) as [N|N]; [|lra].
    replace (- cos x1 / cosh y1) with (- (cos x1 / cosh y1)) by (unfold Rdiv; ring). assert (V : cos x1 / cosh y1 <= 0) by (unfold Rdiv; assert (0 < / cosh y1) by (now apply Rinv_0_lt_compat); nra). set (v := cos x1 / cosh y1) in *. assert (u * v <= 0) by nra. replace ((u - - v) * (u - - v)) with ((u - v) * (u - v) + 4 * (u * v)) by ring. lra. }
  eapply Rle_trans; [exact A|]. rewrite ball_dist. assert (Y : Rabs (y1 - y0) <= / 100). { set (t := y1 - y0) in *. assert (r * r <= / 100 * / 100) by nra. assert (0 <= (x1 - x0) * (x1 - x0)) by apply Rle_0_sqr. apply Rabs_le. split; nra. }
  pose proof (cosh_low _ Y) as L1. pose proof (cos_low (x1 - x0)) as L2. pose proof (cosh_ge_1 y0). pose proof (cosh_ge_1 y1). assert (1 <= cosh y0 * cosh y1) by nra.
  pose proof (cosh_ge_1 (y1 - y0)). pose proof (COS_bound (x1 - x0)).
  apply (Rmult_le_reg_r (cosh y0 * cosh y1)); [lra|]. unfold Rdiv. rewrite Rmult_assoc, Rinv_l, Rmult_1_r by lra. nra.
Qed.
Lemma back_position x y : off_pole x y -> position (back_d x y) (back_beta x y) = ball' x y.
Proof.
  intros H. destruct (cos_back x y H) as [P Q]. pose proof (back_d_arg x y H) as A. pose proof (cosh_pos y) as C. pose proof (cosh_tanh y) as T. pose proof (sin2_cos2 x) as X. unfold Rsqr in X.
  assert (S : sin (back_d x y) = tanh y / cos (back_beta x y)) by (unfold back_d; now apply sin_asin).
  assert (D : 0 <= cos (back_d x y)). { unfold back_d. pose proof (asin_bound (tanh y / cos (back_beta x y))). apply cos_ge_0; lra. }
  pose proof (sin2_cos2 (back_d x y)) as SC. unfold Rsqr in SC.
  unfold position, ball'. rewrite sin_back. f_equal. f_equal.
  - set (be := cos (back_beta x y)) in *. set (cd := cos (back_d x y)) in *.
    assert (E : be * cd * (be * cd) = Rabs (cos x) / cosh y * (Rabs (cos x) / cosh y)).
    { replace (Rabs (cos x) / cosh y * (Rabs (cos x) / cosh y)) with (Rabs (cos x) * Rabs (cos x) / (cosh y * cosh y)) by (field; lra). rewrite <- Rabs_mult, Rabs_right by (apply Rle_ge, Rle_0_sqr).
      replace (be * cd * (be * cd)) with (be * be * (cd * cd)) by ring. replace (cd * cd) with (1 - sin (back_d x y) * sin (back_d x y)) by lra. rewrite S.
      transitivity (be * be - tanh y * tanh y); [field; lra|]. rewrite Q. unfold tanh. pose proof (cosh_sq y) as CS.
      replace (cos x * cos x) with (cosh y * cosh y - sin x * sin x - sinh y * sinh y) by lra. field. lra. }
    assert (0 <= be * cd) by (apply Rmult_le_pos; lra). assert (0 <= Rabs (cos x) / cosh y) by (apply Rmult_le_pos; [apply Rabs_pos|left; now apply Rinv_0_lt_compat]).
    set (u := be * cd) in *. set (v := Rabs (cos x) / cosh y) in *. apply Rsqr_inj; assumption.
  - rewrite S. field. lra.
Qed.
Lemma there_position q d : 0 < cos d -> position d (gd q) = ball (tx q d) (te q d).
Proof.
  intros H. destruct (sin_tx q d H) as [S C]. pose proof (cosh_te q d H) as T. pose proof (tW_pos q d H) as W. pose proof (cosh_pos q) as Q. pose proof (sqrt_lt_R0 _ W) as SW. pose proof (sqrt_sqrt (tW q d) ltac:(lra)) as SS.
  assert (CT : cosh (te q d) = cosh q / sqrt (tW q d)).
  { apply Rsqr_inj; [left; apply cosh_pos|left; now apply Rdiv_lt_0_compat|]. unfold Rsqr. rewrite T. set (w := sqrt (tW q d)) in *. rewrite <- SS. field. lra. }
  unfold position, ball. rewrite S, C, CT, cos_gd, sin_gd. unfold te. rewrite tanh_Ratanh by now apply te_arg. unfold tanh. f_equal; [f_equal|]; field; lra.
Qed.

(** ** From the conformal sphere to the ellipsoid *)
Lemma cos_near t : Rabs t <= PI -> 2 * (1 - cos t) <= / 10000 -> t * t <= 10002 / 10000 * (2 * (1 - cos t)).
Proof.
  intros H C. replace (cos t) with (cos (Rabs t)) in * by (unfold Rabs; destruct Rcase_abs; [apply cos_neg|reflexivity]). replace (t * t) with (Rabs t * Rabs t) by (rewrite <- Rabs_mult; apply Rabs_right, Rle_ge, Rle_0_sqr).
  pose proof (Rabs_pos t) as P. set (u := Rabs t) in *. pose proof PI2_1 as PB.
  assert (Q : forall v, 0 <= v <= 1 -> v * v / 2 - v * v * (v * v) / 24 <= 1 - cos v).
  { intros v V. pose proof (cos_bound v 0 ltac:(lra) ltac:(lra)) as [_ B]. unfold cos_approx, cos_term in B. cbn [sum_f_R0 Nat.mul Nat.add fact INR pow] in B. lra. }
  destruct (Rle_dec u (/ 40)) as [U|U].
  - pose proof (Q u ltac:(lra)) as B. assert (u * u <= / 1600) by nra. set (w := u * u) in *. assert (0 <= w) by (unfold w; apply Rle_0_sqr). nra.
  - exfalso. assert (cos u <= cos (/ 40)) by (apply cos_decr_1; lra). pose proof (Q (/ 40) ltac:(lra)). lra.
Qed.
Lemma cosh_abs x y : Rabs x <= Rabs y -> cosh x <= cosh y.
Proof.
  assert (K : forall x y, 0 <= x <= y -> cosh x <= cosh y).
  { intros u v H. replace v with ((v + u) / 2 + (v - u) / 2) by field. replace u with ((v + u) / 2 - (v - u) / 2) at 1 by field. rewrite cosh_add, cosh_minus. pose proof (sinh_ge ((v + u) / 2) ltac:(lra)). pose proof (sinh_ge ((v - u) / 2) ltac:(lra)).
    assert (0 <= sinh ((v + u) / 2) * sinh ((v - u) / 2)) by (apply Rmult_le_pos; lra). lra. }
  intros H. pose proof (Rabs_pos x). pose proof (K (Rabs x) (Rabs y) ltac:(lra)) as G. replace (cosh (Rabs x)) with (cosh x) in G by (unfold Rabs; destruct Rcase_abs; [symmetry; apply cosh_opp|reflexivity]). replace (cosh (Rabs y)) with (cosh y) in G by (unfold Rabs; destruct Rcase_abs; [symmetry; apply cosh_opp|reflexivity]). exact G.
Qed.
(** ** Poles are reached from poles only *)
Lemma sinh_lin y : sinh y * sinh y <= y * y * (cosh y * cosh y).
Proof.
  destruct (MVT_gen sinh 0 y cosh) as (c & Hc & Q).
  - intros x _. apply sinh_deriv.
  - intros x _. apply derivable_continuous_pt. exists (cosh x). apply is_derive_Reals, sinh_deriv.
  - rewrite sinh_0', !Rminus_0_r in Q. rewrite Q. pose proof (cosh_ge_1 c). assert (L : cosh c <= cosh y) by (apply cosh_abs; unfold Rabs; destruct (Rcase_abs c), (Rcase_abs y); destruct (Rle_dec 0 y); [rewrite Rmin_left, Rmax_right in Hc by lra|rewrite Rmin_right, Rmax_left in Hc by lra|rewrite Rmin_left, Rmax_right in Hc by lra|rewrite Rmin_right, Rmax_left in Hc by lra|rewrite Rmin_left, Rmax_right in Hc by lra|rewrite Rmin_right, Rmax_left in Hc by lra|rewrite Rmin_left, Rmax_right in Hc by lra|rewrite Rmin_right, Rmax_left in Hc by lra]; lra).
    replace (cosh c * y * (cosh c * y)) with (y * y * (cosh c * cosh c)) by ring. apply Rmult_le_compat_l; [apply Rle_0_sqr|]. nra.
Qed.
Lemma csin_lin w : Cmod (csin w) <= Cmod w * cosh (snd w).
Proof.
  pose proof (Cmod_ge_0 w) as M. pose proof (cosh_ge_1 (snd w)) as G. apply cmod_le; [nra|]. replace (Cmod w * cosh (snd w) * (Cmod w * cosh (snd w))) with (Cmod w * Cmod w * (cosh (snd w) * cosh (snd w))) by ring. rewrite cmod_sq.
  destruct w as [x y]. unfold csin. cbn [fst snd] in *. pose proof (sinh_lin y) as S. pose proof (cosh_sq y) as CS. pose proof (sin2_cos2 x) as Q. unfold Rsqr in Q.
  assert (X : sin x * sin x <= x * x). { pose proof (GeoAcc.sin_le_x_abs x) as A. rewrite <- (Rabs_right (sin x * sin x)), <- (Rabs_right (x * x)) by (apply Rle_ge, Rle_0_sqr). rewrite !Rabs_mult. pose proof (Rabs_pos (sin x)). apply Rmult_le_compat; lra. }
  replace (sin x * cosh y * (sin x * cosh y) + cos x * sinh y * (cos x * sinh y)) with (sin x * sin x * (cosh y * cosh y) + cos x * cos x * (sinh y * sinh y)) by ring. rewrite Rmult_plus_distr_r.
  assert (C1 : cos x * cos x <= 1) by (assert (0 <= sin x * sin x) by apply Rle_0_sqr; lra). assert (S0 : 0 <= sinh y * sinh y) by apply Rle_0_sqr.
  apply Rplus_le_compat; [apply Rmult_le_compat_r; [nra|exact X]|]. nra.
Qed.
Definition goodh (n : R) (h : R * R * R * R) : Prop := forall z, cosh (2 * snd z) <= 4 -> exists g, Cmod g <= 55 / 100 * n /\ kz h z = (z + csin (2 * z) * g)%C.
Lemma good_direct n : 0 <= n <= / 190 -> goodh n (kr_direct n).
Proof.
  intros Hn z Hz. assert (HC : Cmod (ccos (2 * z)%C) <= Q2R (Qmake 4 1)). { eapply Rle_trans; [apply ccos_mod|]. rewrite two_c. unfold Q2R. cbn [Qnum Qden]. lra. }
  eexists. split; [exact (g_small d1 d2 d3 d4 (D1 n) (D2 n) (D3 n) (D4 n) n (Qmake 4 1) four_d Hn (ed1 n) (ed2 n) (ed3 n) (ed4 n) z HC)|]. exact (kz_first (D1 n) (D2 n) (D3 n) (D4 n) z).
Qed.
Lemma good_reverse n : 0 <= n <= / 190 -> goodh n (kr_reverse n).
Proof.
  intros Hn z Hz. assert (HC : Cmod (ccos (2 * z)%C) <= Q2R (Qmake 4 1)). { eapply Rle_trans; [apply ccos_mod|]. rewrite two_c. unfold Q2R. cbn [Qnum Qden]. lra. }
  eexists. split; [exact (g_small (ng r1) (ng r2) (ng r3) (ng r4) (- RV1 n) (- RV2 n) (- RV3 n) (- RV4 n) n (Qmake 4 1) four_r Hn (ev_ng _ _ _ (er1 n)) (ev_ng _ _ _ (er2 n)) (ev_ng _ _ _ (er3 n)) (ev_ng _ _ _ (er4 n)) z HC)|]. exact (kz_first (- RV1 n) (- RV2 n) (- RV3 n) (- RV4 n) z).
Qed.
Lemma only_pole n h (z : C) x : 0 <= n <= / 190 -> goodh n h -> cosh (2 * snd z) <= 4 -> cos x = 0 -> kz h z = (x, 0) -> z = (x, 0).
Proof.
  intros Hn G Hz Hx H. destruct (G z Hz) as (g & G1 & G2). rewrite G2 in H. set (P := (x, 0) : C) in *. set (u := (z - P)%C).
  assert (S : csin (2 * z)%C = (ccos (2 * P) * csin (2 * u))%C).
  { replace (2 * z)%C with (2 * P + 2 * u)%C by (unfold u; ring). rewrite csin_plus. replace (csin (2 * P)%C) with (RtoC 0); [ring|]. unfold P, csin, RtoC, Cmult. cbn [fst snd]. replace (2 * x - 0 * 0) with (2 * x) by ring. replace (2 * 0 + 0 * x) with 0 by ring. rewrite cosh_0, sinh_0', sin_2a, Hx. f_equal; ring. }
  assert (CP : Cmod (ccos (2 * P)%C) <= 1). { eapply Rle_trans; [apply ccos_mod|]. rewrite two_c. cbn [snd P]. rewrite Rmult_0_r, cosh_0. lra. }
  assert (SU : snd (2 * u)%C = 2 * snd z) by (rewrite two_c; unfold u, P, Cminus, Cplus, Copp; cbn [fst snd]; ring).
  pose proof (csin_lin (2 * u)%C) as L. rewrite SU, Cmod_mult, Cmod_R, (Rabs_right 2) in L by lra.
  assert (U : Cmod u = Cmod (csin (2 * z)%C) * Cmod g). { rewrite <- Cmod_mult, <- (Cmod_opp (csin (2 * z) * g)%C). f_equal. unfold u. rewrite <- H. ring. }
  rewrite S, Cmod_mult in U. pose proof (Cmod_ge_0 u) as U0. pose proof (Cmod_ge_0 g) as g0. pose proof (Cmod_ge_0 (ccos (2 * P)%C)) as c0. pose proof (Cmod_ge_0 (csin (2 * u)%C)) as s0.
  set (cu := Cmod u) in *. set (cg := Cmod g) in *. set (cc := Cmod (ccos (2 * P)%C)) in *. set (cs := Cmod (csin (2 * u)%C)) in *. pose proof (cosh_ge_1 (2 * snd z)) as CG.
  assert (cs <= 8 * cu) by nra. assert (cc * cs <= 8 * cu) by nra. assert (Z : cu = 0) by nra. apply Cmod_eq_0 in Z. unfold u in Z.
  replace z with (z - P + P)%C by ring. rewrite Z. ring.
Qed.
Lemma cosh_shift u v : Rabs v <= / 10 -> cosh (u + v) <= 125 / 100 * cosh u.
Proof.
  intros H. rewrite cosh_add. pose proof (cosh_pos u) as C. pose proof (cosh_sq u) as CU.
  assert (S : - cosh u <= sinh u <= cosh u) by (split; nra). destruct (hyp_taylor (Rabs v) ltac:(pose proof (Rabs_pos v); lra)) as [[_ A] [_ B]]. pose proof (Rabs_pos v) as V0.
  replace (cosh (Rabs v)) with (cosh v) in B by (unfold Rabs; destruct Rcase_abs; [symmetry; apply cosh_opp|reflexivity]).
  assert (SV : sinh (Rabs v) = Rabs (sinh v)). { unfold Rabs at 1. destruct (Rcase_abs v) as [N|N]; [pose proof (sinh_ge (- v) ltac:(lra)) as K; rewrite sinh_opp in *; rewrite Rabs_left1; lra|pose proof (sinh_ge v ltac:(lra)); rewrite Rabs_right; lra]. }
  rewrite SV in A. set (w := Rabs v) in *. assert (w ^ 2 <= (/ 10) ^ 2) by (apply pow_incr; lra). assert (w ^ 3 <= (/ 10) ^ 3) by (apply pow_incr; lra). assert (w ^ 4 <= (/ 10) ^ 4) by (apply pow_incr; lra). assert (w ^ 5 <= (/ 10) ^ 5) by (apply pow_incr; lra).
  assert (w ^ 6 <= (/ 10) ^ 6) by (apply pow_incr; lra). assert (w ^ 7 <= (/ 10) ^ 7) by (apply pow_incr; lra). assert (w ^ 8 <= (/ 10) ^ 8) by (apply pow_incr; lra).
  assert (A' : Rabs (sinh v) <= 102 / 1000) by lra. assert (B' : cosh v <= 1006 / 1000) by lra.
  assert (X : sinh u * sinh v <= cosh u * (102 / 1000)). { eapply Rle_trans; [apply Rle_abs|]. rewrite Rabs_mult. apply Rmult_le_compat; [apply Rabs_pos|apply Rabs_pos|apply Rabs_le; lra|exact A']. }
  nra.
Qed.
Section Ell.
Context (E : Ellipsoid XR) (a b : R) (HE : shape E a b) (Hf : 99 * a <= 100 * b).
Let Hab : 0 < b <= a. Proof. apply HE. Qed.
Let ee := the_e a b.
Let He : 0 <= ee < 1. Proof. apply (the_e_bound E a b HE). Qed.
Lemma e2_small : 0 <= ee * ee <= 199 / 10000.
Proof.
  split; [nra|]. unfold ee. rewrite (the_e_sq E a b HE). apply (Rmult_le_reg_r (a * a)); [nra|]. unfold Rdiv at 1. rewrite Rmult_assoc, Rinv_l, Rmult_1_r by nra. nra.
Qed.
Lemma conf_cos p : nonpolar p -> 0 < cos p <= cos (gd (cq a b p)).
Proof.
  intros H. pose proof (np_cos p H) as C. split; [exact C|]. rewrite cos_gd. pose proof e2_small. pose proof (isom_e_le ee He ltac:(lra) p H) as L. apply cosh_abs in L. rewrite (cosh_isom p H) in L. pose proof (cosh_pos (cq a b p)).
  rewrite <- (Rinv_inv (cos p)). apply Rinv_le_contravar; [assumption|exact L].
Qed.
Definition cbeta' (p : R) : R := (1 - ee * ee) / ((1 - ee * ee * (sin p * sin p)) * cos p) * / cosh (cq a b p).
Lemma cbeta_d p : nonpolar p -> is_derive (fun p => gd (cq a b p)) p (cbeta' p).
Proof.
  intros H. unfold cbeta'. apply (is_derive_comp gd (cq a b)); [apply gd_deriv|]. now apply isom_e_deriv.
Qed.
Lemma cbeta'_low p : nonpolar p -> 1 - ee * ee <= cbeta' p.
Proof.
  intros H. unfold cbeta'. destruct (conf_cos p H) as [C1 C2]. rewrite cos_gd in C2. pose proof e2_small as B. pose proof (SIN_bound p) as S. assert (S2 : 0 <= sin p * sin p <= 1) by nra.
  set (w := ee * ee) in *. set (s2 := sin p * sin p) in *. set (k := / cosh (cq a b p)) in *. assert (W : 0 < 1 - w * s2 <= 1) by nra.
  apply (Rmult_le_reg_r ((1 - w * s2) * cos p)); [apply Rmult_lt_0_compat; lra|].
  replace ((1 - w) / ((1 - w * s2) * cos p) * k * ((1 - w * s2) * cos p)) with ((1 - w) * k) by (field; lra). apply Rmult_le_compat_l; [lra|]. nra.
Qed.
Lemma conf_lip p q : nonpolar p -> nonpolar q -> (1 - ee * ee) * Rabs (p - q) <= Rabs (gd (cq a b p) - gd (cq a b q)).
Proof.
  intros Hp Hq. destruct (MVT_gen (fun p => gd (cq a b p)) q p cbeta') as (c & Hc & Q).
  - intros x Hx. apply cbeta_d. unfold nonpolar in *. destruct (Rle_dec q p); [rewrite Rmin_left, Rmax_right in Hx by lra|rewrite Rmin_right, Rmax_left in Hx by lra]; lra.
  - intros x Hx. apply derivable_continuous_pt. exists (cbeta' x). apply is_derive_Reals, cbeta_d. unfold nonpolar in *. destruct (Rle_dec q p); [rewrite Rmin_left, Rmax_right in Hx by lra|rewrite Rmin_right, Rmax_left in Hx by lra]; lra.
  - assert (N : nonpolar c) by (unfold nonpolar in *; destruct (Rle_dec q p); [rewrite Rmin_left, Rmax_right in Hc by lra|rewrite Rmin_right, Rmax_left in Hc by lra]; lra).
    pose proof (cbeta'_low c N). pose proof e2_small. rewrite Q, Rabs_mult, (Rabs_right (cbeta' c)) by lra. apply Rmult_le_compat_r; [apply Rabs_pos|assumption].
Qed.
(** the distance on the unit sphere of latitudes is hardly more than that on the conformal sphere *)
Lemma ch2_conf p q c r : nonpolar p -> nonpolar q -> -1 <= c <= 1 -> 0 <= r <= / 100 -> ch2 (gd (cq a b p)) (gd (cq a b q)) c <= r * r -> ch2 p q c <= 10414 / 10000 * (r * r).
Proof.
  intros Hp Hq Hc Hr H. unfold ch2 in *. destruct (conf_cos p Hp) as [A1 A2]. destruct (conf_cos q Hq) as [B1 B2]. pose proof (conf_lip p q Hp Hq) as L. pose proof e2_small as E2.
  pose proof (gd_nonpolar (cq a b p)) as G1. pose proof (gd_nonpolar (cq a b q)) as G2. unfold nonpolar in G1, G2. set (be := gd (cq a b p)) in *. set (ga := gd (cq a b q)) in *.
  assert (X : cos p * cos q * (1 - c) <= cos be * cos ga * (1 - c)) by (apply Rmult_le_compat_r; [lra|]; apply Rmult_le_compat; lra).
  assert (X0 : 0 <= cos be * cos ga * (1 - c)) by (apply Rmult_le_pos; [apply Rmult_le_pos; lra|lra]).
  pose proof (COS_bound (be - ga)) as CB. assert (RR : r * r <= / 10000) by nra.
  assert (D : (be - ga) * (be - ga) <= 10002 / 10000 * (2 * (1 - cos (be - ga)))) by (apply cos_near; [apply Rabs_le; lra|lra]).
  pose proof (cos_low (p - q)) as CL. assert (PQ : (p - q) * (p - q) <= 10411 / 10000 * ((be - ga) * (be - ga))).
  { replace ((p - q) * (p - q)) with (Rabs (p - q) * Rabs (p - q)) by (rewrite <- Rabs_mult; apply Rabs_right, Rle_ge, Rle_0_sqr). replace ((be - ga) * (be - ga)) with (Rabs (be - ga) * Rabs (be - ga)) by (rewrite <- Rabs_mult; apply Rabs_right, Rle_ge, Rle_0_sqr).
    pose proof (Rabs_pos (p - q)). set (u := Rabs (p - q)) in *. set (v := Rabs (be - ga)) in *. assert (9801 / 10000 * u <= v) by nra. nra. }
  lra.
Qed.
End Ell.
