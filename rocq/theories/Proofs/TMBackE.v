(** Exact arithmetic: how transverse Mercator back depends on the map coordinates. *)
From Coq Require Import Reals Lra Lia ZArith QArith Qreals Bool Psatz.
From Coquelicot Require Import Coquelicot.
From Flocq Require Import Core.Raux.
From Verif.Num Require Import FOps RFun XR XRLemmas TMod.
From Verif.Model Require Import Fp Quantities Cs Ellipsoid Projections.
From Verif.Spec Require Import Angles Series Axes Shape Frames Sphere Maps Krueger Reach.
From Verif.Proofs Require VincInv GeoAcc.
From Verif.Proofs Require Import MathX AnglesX AxesX EllX MercX MercInv TMX TMInv TMConf TMScale CSin TMRound TMBack TMTrip MapF.
Local Open Scope R_scope.

Lemma series_lip h x y x' y' : small4 h -> cosh (2 * y) <= 4 -> cosh (2 * y') <= 4 ->
  Rabs (x' + sin_series h x' y' - (x + sin_series h x y)) <= 21 / 20 * Rabs (x' - x) + / 20 * Rabs (y' - y) /\
  Rabs (y' + cos_series h x' y' - (y + cos_series h x y)) <= 21 / 20 * Rabs (y' - y) + / 20 * Rabs (x' - x).
Proof.
  intros S K K'. set (f := fun t => x + t * (x' - x)). set (k := fun t => y + t * (y' - y)).
  assert (Df : forall t, is_derive f t (x' - x)) by (intros t; unfold f; auto_derive; [trivial|ring]). assert (Dk : forall t, is_derive k t (y' - y)) by (intros t; unfold k; auto_derive; [trivial|ring]).
  assert (KT : forall t, 0 <= t <= 1 -> cosh (2 * k t) <= 4).
  { intros t T. unfold k. destruct (Rle_dec (Rabs y) (Rabs y')) as [L|L].
    - eapply Rle_trans; [apply (cosh_abs _ (2 * y'))|exact K']. rewrite !Rabs_mult. apply Rmult_le_compat_l; [apply Rabs_pos|]. replace (y + t * (y' - y)) with ((1 - t) * y + t * y') by ring. eapply Rle_trans; [apply Rabs_triang|]. rewrite !Rabs_mult, (Rabs_right (1 - t)), (Rabs_right t) by lra. assert ((1 - t) * Rabs y <= (1 - t) * Rabs y') by (apply Rmult_le_compat_l; lra). lra.
    - eapply Rle_trans; [apply (cosh_abs _ (2 * y))|exact K]. rewrite !Rabs_mult. apply Rmult_le_compat_l; [apply Rabs_pos|]. replace (y + t * (y' - y)) with ((1 - t) * y + t * y') by ring. eapply Rle_trans; [apply Rabs_triang|]. rewrite !Rabs_mult, (Rabs_right (1 - t)), (Rabs_right t) by lra. assert (t * Rabs y' <= t * Rabs y) by (apply Rmult_le_compat_l; lra). lra. }
  assert (J : forall t, 0 <= t <= 1 -> Rabs (jr h (f t) (k t)) <= 21 / 20 /\ Rabs (ji h (f t) (k t)) <= / 20).
  { intros t T. destruct (j_small h (f t) (k t) S (KT t T)) as [J1 J2]. split; [|exact J2]. apply Rabs_le_inv in J1. apply Rabs_le. lra. }
  assert (F : forall u v g m, Rabs u <= g -> Rabs (u * (v - m)) <= g * Rabs (v - m)) by (intros u v g m U; rewrite Rabs_mult; apply Rmult_le_compat_r; [apply Rabs_pos|exact U]).
  assert (E0 : f 0 = x) by (unfold f; ring). assert (E1 : f 1 = x') by (unfold f; ring). assert (G0 : k 0 = y) by (unfold k; ring). assert (G1 : k 1 = y') by (unfold k; ring). split.
  - destruct (MVT_gen (fun t => f t + sin_series h (f t) (k t)) 0 1 (fun t => jr h (f t) (k t) * (x' - x) + ji h (f t) (k t) * (y' - y))) as (c & C & E).
    + intros t _. apply series_dx; [apply Df|apply Dk].
    + intros t _. apply derivable_continuous_pt. eexists. apply is_derive_Reals, series_dx; [apply Df|apply Dk].
    + rewrite Rmin_left, Rmax_right in C by lra. rewrite E0, E1, G0, G1 in E. rewrite E. destruct (J c C) as [J1 J2]. rewrite Rminus_0_r, Rmult_1_r. eapply Rle_trans; [apply Rabs_triang|]. apply Rplus_le_compat; apply F; assumption.
  - destruct (MVT_gen (fun t => k t + cos_series h (f t) (k t)) 0 1 (fun t => jr h (f t) (k t) * (y' - y) - ji h (f t) (k t) * (x' - x))) as (c & C & E).
    + intros t _. apply series_dy; [apply Df|apply Dk].
    + intros t _. apply derivable_continuous_pt. eexists. apply is_derive_Reals, series_dy; [apply Df|apply Dk].
    + rewrite Rmin_left, Rmax_right in C by lra. rewrite E0, E1, G0, G1 in E. rewrite E. destruct (J c C) as [J1 J2]. rewrite Rminus_0_r, Rmult_1_r. eapply Rle_trans; [apply Rabs_triang|]. rewrite Rabs_Ropp. apply Rplus_le_compat; apply F; assumption.
Qed.
Lemma small_reverse n : 0 <= n <= / 190 -> small4 (kr_reverse n).
Proof.
  intros H. rewrite kr_reverse_hps. destruct (small_h n H) as [_ Q]. destruct (hps n) as [[[h1 h2] h3] h4]. unfold small4, opp4 in *. rewrite !Rabs_Ropp. exact Q.
Qed.
Lemma cmod_two (x y u : R) : Rabs x <= u -> Rabs y <= u -> Cmod (x, y) <= 3 / 2 * u.
Proof.
  intros X Y. pose proof (Rabs_pos x). apply cmod_le; [lra|]. cbn [fst snd]. assert (A : forall t, Rabs t <= u -> t * t <= u * u) by (intros t T; rewrite <- (Rabs_right (t * t)) by (apply Rle_ge, Rle_0_sqr); rewrite Rabs_mult; pose proof (Rabs_pos t); apply Rmult_le_compat; assumption). pose proof (A x X). pose proof (A y Y). nra.
Qed.
Lemma edist_comp p q : let '(x1, y1, z1) := p in let '(x2, y2, z2) := q in Rabs (y1 - y2) <= edist p q /\ Rabs (z1 - z2) <= edist p q.
Proof.
  destruct p as [[x1 y1] z1], q as [[x2 y2] z2]. pose proof (edist_sq (x1, y1, z1) (x2, y2, z2)) as E. cbn beta iota in E. pose proof (edist_ge_0 (x1, y1, z1) (x2, y2, z2)) as P. pose proof (Rle_0_sqr (x1 - x2)) as A. pose proof (Rle_0_sqr (y1 - y2)) as B. pose proof (Rle_0_sqr (z1 - z2)) as C. unfold Rsqr in *.
  split; (apply sq_le; [exact P|]; rewrite E, <- Rabs_mult, Rabs_right by (apply Rle_ge, Rle_0_sqr); lra).
Qed.
Lemma pos_near l p l' p' : edist (position l p) (position l' p') <= Rabs (p - p') + Rabs (cos p) * Rabs (l - l').
Proof.
  pose proof (edist_triangle (position l p) (position l' p) (position l' p')) as T.
  assert (A : edist (position l p) (position l' p) <= Rabs (cos p) * Rabs (l - l')).
  { apply sq_le; [apply Rmult_le_pos; apply Rabs_pos|]. rewrite edist_ch2. unfold ch2. replace (p - p) with 0 by ring. rewrite cos_0. pose proof (cos_low (l - l')) as C. replace (Rabs (cos p) * Rabs (l - l') * (Rabs (cos p) * Rabs (l - l'))) with (Rabs (cos p * cos p) * Rabs ((l - l') * (l - l'))) by (rewrite !Rabs_mult; ring). rewrite !Rabs_right by (apply Rle_ge, Rle_0_sqr). pose proof (Rle_0_sqr (cos p)) as Q. unfold Rsqr in Q. nra. }
  assert (F : edist (position l' p) (position l' p') <= Rabs (p - p')).
  { apply sq_le; [apply Rabs_pos|]. rewrite edist_ch2. unfold ch2. replace (l' - l') with 0 by ring. rewrite cos_0. pose proof (cos_low (p - p')). rewrite <- Rabs_mult, Rabs_right by (apply Rle_ge, Rle_0_sqr). lra. }
  lra.
Qed.
(** Where the computation goes: the sine of the conformal latitude and the arguments after it. *)
Lemma back_range g d x y r : 0 <= r <= / 100000 -> Rabs (sin g) <= 99459 / 100000 -> 0 < cos g -> Rabs (sin d) <= 70711 / 100000 ->
  Rabs (cos g * sin d - tanh y) <= r -> Rabs (sin g - sin x / cosh y) <= r ->
  off_pole x y /\ Rabs (sin x / cosh y) <= 9947 / 10000 /\ 1027 / 10000 <= cos (back_beta x y) /\ Rabs (tanh y / cos (back_beta x y)) <= 71 / 100.
Proof.
  intros R0 S C D T1 T2. set (s := sin x / cosh y) in *. assert (SB : Rabs s <= 9946 / 10000) by (apply Rabs_le_inv in S, T2; apply Rabs_le; lra).
  assert (OP : off_pole x y). { intros [Y X]. assert (Q : s * s = 1). { unfold s. rewrite Y, cosh_0. pose proof (sin2_cos2 x) as Q. unfold Rsqr in Q. rewrite X in Q. transitivity (sin x * sin x); [field|lra]. } apply Rabs_le_inv in SB. nra. }
  destruct (cos_back x y OP) as [P Q]. fold s in Q. set (c := cos (back_beta x y)) in *. assert (SQ : s * s <= 9946 / 10000 * (9946 / 10000)) by (apply Rabs_le_inv in SB; nra). assert (C1 : 1027 / 10000 <= c) by nra.
  split; [exact OP|]. split; [lra|]. split; [exact C1|].
  pose proof (sin2_cos2 g) as G. unfold Rsqr in G. assert (GS : sin g * sin g <= 99459 / 100000 * (99459 / 100000)) by (apply Rabs_le_inv in S; nra). assert (C2 : 1038 / 10000 <= cos g) by nra.
  assert (CD : cos g - c <= r * 10). { assert (X : (cos g - c) * (cos g + c) <= 2 * r). { replace ((cos g - c) * (cos g + c)) with ((s - sin g) * (s + sin g)) by (transitivity (cos g * cos g - c * c); [rewrite Q; replace (cos g * cos g) with (1 - sin g * sin g) by lra; ring|ring]). apply Rabs_le_inv in S, SB, T2. assert (A1 : Rabs (s - sin g) <= r) by (apply Rabs_le; lra). assert (A2 : Rabs (s + sin g) <= 2) by (apply Rabs_le; lra). eapply Rle_trans; [apply Rle_abs|]. rewrite Rabs_mult. replace (2 * r) with (r * 2) by ring. apply Rmult_le_compat; auto using Rabs_pos. } nra. }
  unfold Rdiv. rewrite Rabs_mult, (Rabs_right (/ c)) by (apply Rle_ge; left; apply Rinv_0_lt_compat; lra). apply (Rmult_le_reg_r c); [lra|]. rewrite Rmult_assoc, Rinv_l, Rmult_1_r by lra.
  assert (TB : Rabs (tanh y) <= cos g * (70711 / 100000) + r). { replace (tanh y) with (cos g * sin d - (cos g * sin d - tanh y)) by ring. eapply Rle_trans; [apply Rabs_triang|]. rewrite Rabs_Ropp. apply Rplus_le_compat; [|exact T1]. rewrite Rabs_mult, (Rabs_right (cos g)) by lra. apply Rmult_le_compat_l; lra. }
  lra.
Qed.
Section E.
Context (a b : R) (AB : 0 < b <= a) (Hf : 99 * a <= 100 * b) (LON0 : R).
Let E := xell a b.
Let HE : shape E a b := xell_shape a b AB.
Let n := tn a b.
Let ee := the_e a b.
Let He : 0 <= ee < 1. Proof. apply (the_e_bound E a b HE). Qed.
Let Hn : 0 <= n <= / 190. Proof. exact (tn_small E a b HE Hf). Qed.
(** the map coordinates, normalised, moved by at most [T]; the inverse series read off with an error at most [dl] *)
Lemma back_stable c w k l p wx wy T zx zy dl : reach c w k -> 0 < cos (l - LON0) -> c <= cos (l - LON0) * cos (l - LON0) ->
  let z := zet a b LON0 l p in let v := kz (kr_direct n) z in
  0 <= T <= / 1000000 -> 0 <= dl <= / 1000000 -> Rabs (wx - fst v) <= T -> Rabs (wy - snd v) <= T -> cosh (2 * snd v) <= 4 -> cosh (2 * wy) <= 4 ->
  Rabs (zx - (wx - sin_series (hps n) wx wy)) <= dl -> Rabs (zy - (wy - cos_series (hps n) wx wy)) <= dl ->
  exists r, 0 <= r <= / 10000000 /\ 1021 / 1000 * r <= k * n ^ 5 /\
    edist (position (l - LON0) (gd (cq a b p))) (ball' zx zy) <= 10001 / 10000 * (r + 3 / 2 * (11 / 10 * T + dl)).
Proof.
  intros RE C0 C2 z v HT HD WX WY CV CW ZX ZY. destruct (reach_tier c w k RE) as (K & kk & TI & C1 & KK & KB). destruct (tier_3 K kk TI) as [K3 _].
  assert (ZK : cosh (2 * snd z) <= Q2R K) by (eapply Rle_trans; [apply (zet_width a b LON0 l p c); assumption|exact KK]).
  pose proof (undo_direct n Hn K kk TI z ZK) as U. exists (Q2R kk * n ^ 5 * Q2R K). set (r := Q2R kk * n ^ 5 * Q2R K) in *.
  assert (RB : 0 <= r <= / 10000000). { assert (N0 : 0 <= n ^ 5) by (apply pow_le; lra). assert (N5 : n ^ 5 <= (/ 190) ^ 5) by (apply pow_incr; lra). unfold r. clear - TI N0 N5. destruct TI; unfold Q2R; cbn [Qnum Qden]; lra. }
  split; [exact RB|]. split. { unfold r. replace (1021 / 1000 * (Q2R kk * n ^ 5 * Q2R K)) with (1021 / 1000 * (Q2R kk * Q2R K) * n ^ 5) by ring. apply Rmult_le_compat_r; [apply pow_le; lra|exact KB]. }
  fold v in U. set (z1 := kz (kr_reverse n) v) in *. set (w1 := kz (kr_reverse n) ((wx, wy) : C)).
  assert (W1 : w1 = (wx - sin_series (hps n) wx wy, wy - cos_series (hps n) wx wy)) by (unfold w1; rewrite kz_krueger; apply kr_rev).
  assert (W2 : fst w1 = wx + sin_series (kr_reverse n) wx wy /\ snd w1 = wy + cos_series (kr_reverse n) wx wy) by (unfold w1; rewrite kz_krueger, kr_hs; split; reflexivity).
  assert (Z2 : fst z1 = fst v + sin_series (kr_reverse n) (fst v) (snd v) /\ snd z1 = snd v + cos_series (kr_reverse n) (fst v) (snd v)) by (unfold z1; rewrite (surjective_pairing v), kz_krueger, kr_hs; split; reflexivity).
  destruct (series_lip (kr_reverse n) (fst v) (snd v) wx wy (small_reverse n Hn) CV CW) as [LX LY]. destruct W2 as [W3 W4]. destruct Z2 as [Z3 Z4]. rewrite <- W3, <- Z3 in LX. rewrite <- W4, <- Z4 in LY. rewrite W1 in LX, LY. cbn [fst snd] in LX, LY.
  assert (DX : Rabs (zx - fst z1) <= 11 / 10 * T + dl) by (apply Rabs_le; apply Rabs_le_inv in LX, ZX; lra). assert (DY : Rabs (zy - snd z1) <= 11 / 10 * T + dl) by (apply Rabs_le; apply Rabs_le_inv in LY, ZY; lra).
  pose proof (cmod_two _ _ _ DX DY) as CM. set (rho := r + 3 / 2 * (11 / 10 * T + dl)).
  assert (U2 : Cmod (zx - fst z, zy - snd z) <= rho).
  { set (z2 := (zx - fst z1, zy - snd z1) : C) in *. replace ((zx - fst z, zy - snd z) : C) with (z2 + (z1 - z))%C by (apply injective_projections; unfold z2, Cminus, Cplus, Copp; cbn [fst snd]; ring). eapply Rle_trans; [apply Cmod_triangle|]. unfold rho. lra. }
  apply mod_sq_le in U2. cbn [fst snd] in U2. assert (RR : 0 <= rho <= / 100) by (unfold rho; lra).
  assert (TX : 0 < cos (fst z)). { unfold z, zet. cbn [fst]. destruct (sin_tx (cq a b p) (l - LON0) C0) as [_ Q]. rewrite Q. apply Rdiv_lt_0_compat; [exact C0|]. apply sqrt_lt_R0, tW_pos, C0. }
  pose proof (ball_near (fst z) (snd z) zx zy rho ltac:(lra) RR U2) as BN. replace (ball (fst z) (snd z)) with (position (l - LON0) (gd (cq a b p))) in BN by (apply (there_position (cq a b p) (l - LON0) C0)).
  apply sq_le; [lra|]. assert (0 <= rho * rho) by apply Rle_0_sqr. lra.
Qed.
(** what is found, from the points on the conformal sphere *)
Lemma back_final l p dF QF qs lF pF s t u m : nonpolar p -> edist (position (l - LON0) (gd (cq a b p))) (position dF (gd QF)) <= s -> 0 <= s <= / 100 ->
  g ee QF qs = qs -> Rabs (pF - gd qs) <= t -> Rabs (lF - (LON0 + dF + IZR m * (2 * PI))) <= u ->
  edist (position l p) (position lF pF) <= 10205 / 10000 * s + t + u.
Proof.
  intros Np ES HS G PF LF. assert (FQ : cq a b (gd qs) = QF) by (unfold cq; fold ee; apply (fix_lat ee QF qs G)). rewrite <- FQ in ES.
  assert (S2 : edist (position (l - LON0) (gd (cq a b p))) (position dF (gd (cq a b (gd qs)))) * edist (position (l - LON0) (gd (cq a b p))) (position dF (gd (cq a b (gd qs)))) <= s * s) by (apply Rmult_le_compat; [apply edist_ge_0|apply edist_ge_0|exact ES|exact ES]).
  rewrite edist_ch2 in S2. pose proof (ch2_conf E a b HE Hf p (gd qs) (cos (l - LON0 - dF)) s Np (gd_nonpolar qs) (COS_bound _) ltac:(lra) S2) as F.
  set (l' := LON0 + dF + IZR m * (2 * PI)) in *. assert (CC : cos (l - LON0 - dF) = cos (l - l')). { unfold l'. replace (l - (LON0 + dF + IZR m * (2 * PI))) with (l - LON0 - dF + IZR (- m) * (2 * PI)) by (rewrite opp_IZR; ring). symmetry. apply cos_period_Z. }
  rewrite CC, <- (edist_ch2 l l' p (gd qs)) in F. assert (F1 : edist (position l p) (position l' (gd qs)) <= 10205 / 10000 * s). { apply sq_le; [lra|]. assert (0 <= s * s) by apply Rle_0_sqr. lra. }
  pose proof (pos_near l' (gd qs) lF pF) as PN. pose proof (edist_triangle (position l p) (position l' (gd qs)) (position lF pF)) as TR. rewrite (Rabs_minus_sym (gd qs)), (Rabs_minus_sym l') in PN.
  assert (CB : Rabs (cos (gd qs)) <= 1) by (apply Rabs_le, COS_bound). pose proof (Rabs_pos (lF - l')). pose proof (Rabs_pos (cos (gd qs))). nra.
Qed.
End E.
