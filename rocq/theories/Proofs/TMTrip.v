(** Exact arithmetic: transverse Mercator there and back, on the ellipsoid and on the map. *)
From Coq Require Import String Reals Lra Lia ZArith QArith Qreals Bool Psatz List.
From Coquelicot Require Import Coquelicot.
From Flocq Require Import Core.Raux.
From Verif.Num Require Import FOps RFun XR XRLemmas TMod TModL TModC.
From Verif.Model Require Import Fp Quantities Complex Cs Ellipsoid Geodesics Projections Crs Geometry.
From Verif.Spec Require Import Angles Series Axes Shape Frames Sphere Maps Krueger Reach.
From Verif.Proofs Require GeoAcc VincInv.
From Verif.Proofs Require Import MathX AnglesX AxesX EllX MercX MercInv TMX TMInv TMConf TMScale CSin TMRound TMBack.
Import ListNotations.
Local Open Scope R_scope.

Lemma reach_tier c w k : reach c w k -> exists K kk, tier K kk /\ 0 < c <= 1 /\ 2 * / c - 1 <= Q2R K /\ 1021 / 1000 * (Q2R kk * Q2R K) <= k.
Proof.
  intros [].
  - exists (Qmake 3 1), (Qmake 810 1). split; [constructor|]. unfold Q2R. cbn [Qnum Qden]. lra.
  - exists (Qmake 5 3), (Qmake 105 1). split; [constructor|]. unfold Q2R. cbn [Qnum Qden]. lra.
  - exists (Qmake 51 50), (Qmake 25 1). split; [constructor|]. unfold Q2R. cbn [Qnum Qden]. lra.
Qed.
Lemma tier_size K k n : tier K k -> 0 <= n <= / 190 -> 0 <= Q2R k * n ^ 5 * Q2R K <= / 10000.
Proof.
  intros T Hn. assert (N0 : 0 <= n ^ 5) by (apply pow_le; lra). assert (N5 : n ^ 5 <= (/ 190) ^ 5) by (apply pow_incr; lra). destruct T; unfold Q2R; cbn [Qnum Qden]; lra.
Qed.
Lemma sq_le u v : 0 <= v -> u * u <= v * v -> u <= v.
Proof. intros V H. apply Rnot_lt_le. intros L. nra. Qed.
Lemma mod_sq_le (z : C) r : Cmod z <= r -> fst z * fst z + snd z * snd z <= r * r.
Proof. intros H. rewrite <- cmod_sq. pose proof (Cmod_ge_0 z). nra. Qed.

(** ** Sizes *)
Definition small4 (h : R * R * R * R) : Prop := let '(h1, h2, h3, h4) := h in Rabs h1 <= / 300 /\ Rabs h2 <= / 100000 /\ Rabs h3 <= / 1000000 /\ Rabs h4 <= / 1000000000.
Lemma small_h n : 0 <= n <= / 190 -> small4 (hs n) /\ small4 (hps n).
Proof.
  intros N. assert (N2 : 0 <= n * n <= / 36100) by nra. assert (N3 : 0 <= n * n * n <= / 6859000) by nra. assert (N4 : 0 <= n * n * (n * n) <= / 1000000000) by nra.
  unfold small4, hs, hps, polynomial. cbn [Rsum length nth pow]. repeat split; apply Rabs_le; lra || nra.
Qed.
Lemma cosh_mult y : cosh (2 * y) <= 4 -> 1 <= cosh (4 * y) <= 31 /\ 1 <= cosh (6 * y) <= 244 /\ 1 <= cosh (8 * y) <= 1921.
Proof.
  intros K. assert (D2 : forall t, cosh (2 * t) = 2 * (cosh t * cosh t) - 1). { intros t. rewrite cosh_2. pose proof (cosh_sq t). lra. }
  pose proof (cosh_ge_1 (2 * y)) as K1. assert (K4 : cosh (4 * y) <= 31) by (replace (4 * y) with (2 * (2 * y)) by ring; rewrite D2; nra).
  assert (K6 : cosh (6 * y) <= 244). { replace (6 * y) with (2 * y + 2 * (2 * y)) by ring. rewrite cosh_add, (D2 (2 * y)). assert (S2 : sinh (2 * (2 * y)) = 2 * (sinh (2 * y) * cosh (2 * y))) by (replace (2 * (2 * y)) with (2 * y + 2 * y) by ring; rewrite sinh_add; ring). rewrite S2. pose proof (cosh_sq (2 * y)) as Q. set (c := cosh (2 * y)) in *. set (s := sinh (2 * y)) in *.
    replace (s * (2 * (s * c))) with (2 * c * (s * s)) by ring. replace (s * s) with (c * c - 1) by lra. assert (C16 : c * c <= 16) by nra. assert (c * (c * c) <= c * 16) by (apply Rmult_le_compat_l; lra). lra. }
  assert (K8 : cosh (8 * y) <= 1921) by (replace (8 * y) with (2 * (4 * y)) by ring; rewrite D2; pose proof (cosh_ge_1 (4 * y)); nra).
  repeat split; assumption || apply cosh_ge_1.
Qed.
Lemma prod_le h c k m M q : Rabs h <= m -> Rabs c <= q -> Rabs k <= M -> 0 <= q -> Rabs (h * c * k) <= m * q * M.
Proof. intros A B C Q. rewrite !Rabs_mult. pose proof (Rabs_pos h). pose proof (Rabs_pos c). pose proof (Rabs_pos k). apply Rmult_le_compat; [apply Rmult_le_pos; assumption|assumption|apply Rmult_le_compat; assumption|assumption]. Qed.
Lemma sinh_cosh y : Rabs (sinh y) <= cosh y.
Proof. pose proof (cosh_pos y). pose proof (cosh_sq y). apply Rabs_le. split; nra. Qed.
Lemma j_small h x y : small4 h -> cosh (2 * y) <= 4 -> Rabs (jr h x y - 1) <= / 20 /\ Rabs (ji h x y) <= / 20.
Proof.
  destruct h as [[[h1 h2] h3] h4]. intros (M1 & M2 & M3 & M4) K. destruct (cosh_mult y K) as (K4 & K6 & K8). pose proof (cosh_ge_1 (2 * y)) as K2.
  assert (AC : forall t, Rabs (cos t) <= 1) by (intros t; apply Rabs_le, COS_bound). assert (AS : forall t, Rabs (sin t) <= 1) by (intros t; apply Rabs_le, SIN_bound).
  assert (AK : forall t M, cosh t <= M -> Rabs (cosh t) <= M) by (intros t M L; rewrite Rabs_right; [exact L|apply Rle_ge; left; apply cosh_pos]).
  assert (AH : forall t M, cosh t <= M -> Rabs (sinh t) <= M) by (intros t M L; pose proof (sinh_cosh t); lra).
  unfold jr, ji. split.
  - pose proof (prod_le h1 (cos (2 * x)) (cosh (2 * y)) _ 4 1 M1 (AC _) (AK _ _ K) ltac:(lra)) as P1. pose proof (prod_le h2 (cos (4 * x)) (cosh (4 * y)) _ 31 1 M2 (AC _) (AK _ _ (proj2 K4)) ltac:(lra)) as P2.
    pose proof (prod_le h3 (cos (6 * x)) (cosh (6 * y)) _ 244 1 M3 (AC _) (AK _ _ (proj2 K6)) ltac:(lra)) as P3. pose proof (prod_le h4 (cos (8 * x)) (cosh (8 * y)) _ 1921 1 M4 (AC _) (AK _ _ (proj2 K8)) ltac:(lra)) as P4.
    apply Rabs_le_inv in P1, P2, P3, P4. apply Rabs_le. lra.
  - pose proof (prod_le h1 (sin (2 * x)) (sinh (2 * y)) _ 4 1 M1 (AS _) (AH _ _ K) ltac:(lra)) as P1. pose proof (prod_le h2 (sin (4 * x)) (sinh (4 * y)) _ 31 1 M2 (AS _) (AH _ _ (proj2 K4)) ltac:(lra)) as P2.
    pose proof (prod_le h3 (sin (6 * x)) (sinh (6 * y)) _ 244 1 M3 (AS _) (AH _ _ (proj2 K6)) ltac:(lra)) as P3. pose proof (prod_le h4 (sin (8 * x)) (sinh (8 * y)) _ 1921 1 M4 (AS _) (AH _ _ (proj2 K8)) ltac:(lra)) as P4.
    apply Rabs_le_inv in P1, P2, P3, P4. apply Rabs_le. lra.
Qed.
Lemma sin_end (k : nat) x t : (x = PI / 2 - t \/ x = - (PI / 2) + t) -> 0 <= t -> Rabs (sin (2 * INR k * x)) <= 2 * INR k * t.
Proof.
  intros H T. assert (0 <= INR k) by apply pos_INR. assert (Z : Rabs (sin (2 * INR k * x)) = Rabs (sin (2 * INR k * t))).
  { assert (SI : sin (INR k * PI) = 0) by (rewrite INR_IZR_INZ; apply sin_eq_0_1; eexists; reflexivity). assert (CI : cos (INR k * PI) * cos (INR k * PI) = 1) by (pose proof (sin2_cos2 (INR k * PI)) as Q; unfold Rsqr in Q; rewrite SI in Q; lra).
    assert (CA : Rabs (cos (INR k * PI)) = 1). { rewrite <- (Rabs_Rabsolu (cos (INR k * PI))). assert (Q : Rabs (cos (INR k * PI)) * Rabs (cos (INR k * PI)) = 1) by (rewrite <- Rabs_mult, CI; apply Rabs_R1). pose proof (Rabs_pos (cos (INR k * PI))). rewrite Rabs_right by lra. nra. }
    destruct H as [-> | ->].
    - replace (2 * INR k * (PI / 2 - t)) with (INR k * PI - 2 * INR k * t) by field. rewrite sin_minus, SI, Rmult_0_l, Rminus_0_l, Rabs_Ropp, Rabs_mult, CA. ring.
    - replace (2 * INR k * (- (PI / 2) + t)) with (- (INR k * PI - 2 * INR k * t)) by field. rewrite sin_neg, Rabs_Ropp, sin_minus, SI, Rmult_0_l, Rminus_0_l, Rabs_Ropp, Rabs_mult, CA. ring. }
  rewrite Z. eapply Rle_trans; [apply GeoAcc.sin_le_x_abs|]. rewrite Rabs_right; [lra|]. apply Rle_ge, Rmult_le_pos; lra.
Qed.
Lemma sin_series_end h x y t : small4 h -> cosh (2 * y) <= 4 -> (x = PI / 2 - t \/ x = - (PI / 2) + t) -> 0 <= t -> Rabs (sin_series h x y) <= / 20 * t.
Proof.
  destruct h as [[[h1 h2] h3] h4]. intros (M1 & M2 & M3 & M4) K Hx T. destruct (cosh_mult y K) as (K4 & K6 & K8).
  assert (AK : forall t M, cosh t <= M -> Rabs (cosh t) <= M) by (intros s M L; rewrite Rabs_right; [exact L|apply Rle_ge; left; apply cosh_pos]).
  pose proof (sin_end 1 x t Hx T) as S1. pose proof (sin_end 2 x t Hx T) as S2. pose proof (sin_end 3 x t Hx T) as S3. pose proof (sin_end 4 x t Hx T) as S4. cbn [INR] in S1, S2, S3, S4.
  replace (2 * 1) with 2 in S1 by ring. replace (2 * (1 + 1)) with 4 in S2 by ring. replace (2 * (1 + 1 + 1)) with 6 in S3 by ring. replace (2 * (1 + 1 + 1 + 1)) with 8 in S4 by ring.
  unfold sin_series. rewrite <- !Rmult_assoc.
  pose proof (prod_le _ _ _ _ _ _ M1 S1 (AK _ _ K) ltac:(lra)) as P1. pose proof (prod_le _ _ _ _ _ _ M2 S2 (AK _ _ (proj2 K4)) ltac:(lra)) as P2.
  pose proof (prod_le _ _ _ _ _ _ M3 S3 (AK _ _ (proj2 K6)) ltac:(lra)) as P3. pose proof (prod_le _ _ _ _ _ _ M4 S4 (AK _ _ (proj2 K8)) ltac:(lra)) as P4.
  apply Rabs_le_inv in P1, P2, P3, P4. apply Rabs_le. lra.
Qed.
Lemma cosh_double x c : cosh x <= c -> cosh (2 * x) <= 2 * (c * c) - 1.
Proof. intros H. rewrite cosh_2. pose proof (cosh_sq x). pose proof (cosh_ge_1 x). nra. Qed.
Lemma reach_width c w k : reach c w k -> 0 < w /\ forall K kk, 2 * / c - 1 <= Q2R K -> 1021 / 1000 * (Q2R kk * Q2R K) <= k -> cosh (2 * w) <= Q2R K.
Proof.
  assert (S : forall x, 0 <= x <= / 10 -> cosh x <= 1 + x ^ 2 / 2 + x ^ 4 / 24 + x ^ 6 / 720 + x ^ 8 / 32000) by (intros x Hx; destruct (hyp_taylor x Hx) as [_ [_ H]]; lra).
  intros []; (split; [lra|]); intros K kk H _.
  - pose proof (S (17 / 320) ltac:(lra)) as A. assert (A1 : cosh (17 / 320) <= 10014117 / 10000000) by lra. apply cosh_double in A1. replace (2 * (17 / 320)) with (17 / 160) in A1 by field.
    assert (A2 : cosh (17 / 160) <= 1005651 / 1000000) by lra. apply cosh_double in A2. replace (2 * (17 / 160)) with (17 / 80) in A2 by field.
    assert (A3 : cosh (17 / 80) <= 102267 / 100000) by lra. apply cosh_double in A3. replace (2 * (17 / 80)) with (17 / 40) in A3 by field.
    assert (A4 : cosh (17 / 40) <= 10918 / 10000) by lra. apply cosh_double in A4. replace (2 * (17 / 40)) with (17 / 20) in A4 by field.
    assert (A5 : cosh (17 / 20) <= 1385 / 1000) by lra. apply cosh_double in A5. lra.
  - pose proof (S (/ 16) ltac:(lra)) as A. assert (A1 : cosh (/ 16) <= 100196 / 100000) by lra. apply cosh_double in A1. replace (2 * / 16) with (/ 8) in A1 by field.
    assert (A2 : cosh (/ 8) <= 10079 / 10000) by lra. apply cosh_double in A2. replace (2 * / 8) with (/ 4) in A2 by field.
    assert (A3 : cosh (/ 4) <= 1032 / 1000) by lra. apply cosh_double in A3. replace (2 * / 4) with (/ 2) in A3 by field.
    assert (A4 : cosh (/ 2) <= 1131 / 1000) by lra. apply cosh_double in A4. lra.
  - pose proof (S (/ 11) ltac:(lra)) as A. assert (A1 : cosh (/ 11) <= 10042 / 10000) by lra. apply cosh_double in A1. lra.
Qed.

Section Trip.
Context (E : Ellipsoid XR) (a b : R) (HE : shape E a b) (Hf : 99 * a <= 100 * b) (lon0 lat0 k0 fe fn : R) (Hlat0 : latitude lat0) (Hk : 0 < k0).
Let Hab : 0 < b <= a. Proof. apply HE. Qed.
Let ee := the_e a b.
Let He : 0 <= ee < 1. Proof. apply (the_e_bound E a b HE). Qed.
Let n := tn a b.
Let B := tB a b.
Let HB : 0 < B. Proof. exact (tB_pos E a b HE). Qed.
Let Hn : 0 <= n <= / 190. Proof. exact (tn_small E a b HE Hf). Qed.
Let P := tm_new E (Fin lon0) (Fin lat0) (Fin k0) (Fin fe) (Fin fn).

Definition zet (l p : R) : C := (tx (cq a b p) (l - lon0), te (cq a b p) (l - lon0)).
Lemma zet_width l p c : 0 < c <= 1 -> 0 < cos (l - lon0) -> c <= cos (l - lon0) * cos (l - lon0) -> cosh (2 * snd (zet l p)) <= 2 * / c - 1.
Proof.
  intros C D H. unfold zet. cbn [snd]. rewrite cosh_2. pose proof (cosh_sq (te (cq a b p) (l - lon0))) as A. rewrite (cosh_te (cq a b p) (l - lon0) D) in A. pose proof (tW_pos (cq a b p) (l - lon0) D) as W. set (t := te _ _) in *. set (q := cq a b p) in *. 
  pose proof (cosh_sq q) as Q. assert (X : cosh q * cosh q / tW q (l - lon0) <= / c); [|lra].
  apply (Rmult_le_reg_r (tW q (l - lon0))); [exact W|]. unfold Rdiv. rewrite Rmult_assoc, Rinv_l, Rmult_1_r by lra. apply (Rmult_le_reg_l c); [lra|]. replace (c * (/ c * tW q (l - lon0))) with (tW q (l - lon0)) by (field; lra). unfold tW. rewrite Q. pose proof (Rle_0_sqr (sinh q)) as S. unfold Rsqr in S. nra.
Qed.
Lemma norm_there l p : norm_x a b lat0 k0 fn (cnorth a b lon0 lat0 k0 fn l p) = fst (kz (kr_direct n) (zet l p)) /\ norm_y a b k0 fe (ceast a b lon0 k0 fe l p) = snd (kz (kr_direct n) (zet l p)).
Proof.
  rewrite kz_krueger. unfold zet. rewrite kr_hs, kr_direct_hs. cbn [fst snd]. unfold norm_x, norm_y, cnorth, ceast. fold n. fold B. split; field; lra.
Qed.
Lemma rev_at x y : let w := (norm_x a b lat0 k0 fn y, norm_y a b k0 fe x) : C in
  norm_x a b lat0 k0 fn y - sin_series (hps n) (norm_x a b lat0 k0 fn y) (norm_y a b k0 fe x) = fst (kz (kr_reverse n) w) /\
  norm_y a b k0 fe x - cos_series (hps n) (norm_x a b lat0 k0 fn y) (norm_y a b k0 fe x) = snd (kz (kr_reverse n) w).
Proof. cbn zeta. rewrite kz_krueger, kr_rev. split; reflexivity. Qed.
Lemma near_mod (z g : C) : cosh (2 * snd z) <= 3 -> Cmod g <= 55 / 100 * n -> Rabs (2 * snd (csin (2 * z) * g)%C) <= / 10.
Proof.
  intros Hz G. assert (S : Cmod (csin (2 * z)%C) <= 3) by (eapply Rle_trans; [apply csin_mod|]; now rewrite two_c). rewrite Rabs_mult, (Rabs_right 2) by lra.
  assert (M : Rabs (snd (csin (2 * z) * g)%C) <= Cmod (csin (2 * z) * g)%C).
  { set (v := (csin (2 * z) * g)%C). pose proof (cmod_sq v) as Q. pose proof (Cmod_ge_0 v). apply sq_le; [assumption|]. rewrite Q, <- Rabs_mult, Rabs_right by (apply Rle_ge, Rle_0_sqr). pose proof (Rle_0_sqr (fst v)) as F. unfold Rsqr in F. lra. }
  rewrite Cmod_mult in M. pose proof (Cmod_ge_0 g). pose proof (Cmod_ge_0 (csin (2 * z)%C)). nra.
Qed.
Lemma trip_position c w k l p h : reach c w k -> nonpolar p -> 0 < cos (l - lon0) -> c <= cos (l - lon0) * cos (l - lon0) ->
  exists x y N l' p', tm_proj P (llh3 l p h) = Ok (enh (x, y, h)) /\ - PI <= l' <= PI /\ nonpolar p' /\
  (forall fuel, (N <= fuel)%nat -> tm_unproj fuel P (enh (x, y, h)) = Ret (Ok (llh3 l' p' h))) /\
  edist (position l p) (position l' p') <= k * n ^ 5 + ee * ee / (1 - ee * ee) * / 10 ^ 12.
Proof.
  intros RE Np C0 C2. destruct (reach_tier c w k RE) as (K & kk & T & C1 & KK & KB). destruct (tier_3 K kk T) as [K3 _].
  set (z := zet l p). assert (ZK : cosh (2 * snd z) <= Q2R K) by (eapply Rle_trans; [apply (zet_width l p c); assumption|exact KK]).
  pose proof (undo_direct n Hn K kk T z ZK) as U. pose proof (tier_size K kk n T Hn) as RB. set (r := Q2R kk * n ^ 5 * Q2R K) in *.
  set (x := ceast a b lon0 k0 fe l p). set (y := cnorth a b lon0 lat0 k0 fn l p). destruct (norm_there l p) as [NX NY]. fold x in NY. fold y in NX. fold z in NX, NY. set (v := kz (kr_direct n) z) in *.
  destruct (rev_at x y) as [RX RY]. rewrite NX, NY in RX, RY. rewrite <- (surjective_pairing v) in RX, RY. set (z1 := kz (kr_reverse n) v) in *.
  assert (TX : 0 < cos (fst z)). { unfold z, zet. cbn [fst]. destruct (sin_tx (cq a b p) (l - lon0) C0) as [_ Q]. rewrite Q. apply Rdiv_lt_0_compat; [exact C0|]. apply sqrt_lt_R0, tW_pos, C0. }
  assert (OP : off_pole (fst z1) (snd z1)).
  { intros [Z1 Z2]. assert (EZ : kz (kr_reverse n) v = (fst z1, 0)) by (rewrite <- Z1; apply surjective_pairing).
    destruct (good_direct n Hn z ltac:(lra)) as (g & G1 & G2). fold v in G2.
    assert (VV : cosh (2 * snd v) <= 4). { rewrite G2. replace (2 * snd (z + csin (2 * z) * g)%C) with (2 * snd z + 2 * snd (csin (2 * z) * g)%C) by (unfold Cplus; cbn [snd]; ring). eapply Rle_trans; [apply cosh_shift, near_mod; [lra|exact G1]|]. lra. }
    pose proof (only_pole n (kr_reverse n) v (fst z1) Hn (good_reverse n Hn) VV Z2 EZ) as V. pose proof (only_pole n (kr_direct n) z (fst z1) Hn (good_direct n Hn) ltac:(lra) Z2 V) as Z. rewrite Z in TX. cbn [fst] in TX. lra. }
  assert (OP' : off_pole (norm_x a b lat0 k0 fn y - sin_series (hps n) (norm_x a b lat0 k0 fn y) (norm_y a b k0 fe x)) (norm_y a b k0 fe x - cos_series (hps n) (norm_x a b lat0 k0 fn y) (norm_y a b k0 fe x))) by (rewrite NX, NY, RX, RY; exact OP).
  destruct (unproj_ends E a b HE lon0 lat0 k0 fe fn Hlat0 ltac:(lra) x y h OP') as (N & l' & p' & q & HN & Pp & Pq & Hpq & Hl & Hq).
  cbv zeta in Hl, Hq. fold n in Hl, Hq. rewrite NX, NY, RX, RY in Hl, Hq. fold ee in Hpq, Hq.
  exists x, y, N, l', p'. split; [exact (cproj E a b HE lon0 lat0 k0 fe fn Hlat0 l p h Np C0)|]. split; [rewrite Hl; apply Rwrap_spec|]. split; [exact Pp|]. split; [exact HN|].
  (* the conformal sphere *)
  pose proof (mod_sq_le _ _ U) as U2. replace (fst (z1 - z)%C) with (fst z1 - fst z) in U2 by (unfold Cminus, Cplus, Copp; cbn [fst]; ring). replace (snd (z1 - z)%C) with (snd z1 - snd z) in U2 by (unfold Cminus, Cplus, Copp; cbn [snd]; ring).
  pose proof (ball_near (fst z) (snd z) (fst z1) (snd z1) r ltac:(lra) ltac:(lra) U2) as BN.
  rewrite <- (back_position _ _ OP) in BN. rewrite <- Hq, beta_e_np in BN by exact Pq. change (isom_e ee q) with (cq a b q) in BN.
  replace (ball (fst z) (snd z)) with (position (l - lon0) (gd (cq a b p))) in BN by (apply (there_position (cq a b p) (l - lon0) C0)).
  rewrite edist_ch2 in BN.
  assert (CC : cos (l - l') = cos (l - lon0 - back_d (fst z1) (snd z1))).
  { rewrite Hl. destruct (Rwrap_spec (lon0 + back_d (fst z1) (snd z1))) as (_ & SA & _). replace (l - lon0 - back_d (fst z1) (snd z1)) with (l - (lon0 + back_d (fst z1) (snd z1))) by ring.
    rewrite !cos_minus, (same_angle_cos _ _ SA), (same_angle_sin _ _ SA). reflexivity. }
  rewrite <- CC in BN. pose proof (COS_bound (l - l')) as CB.
  assert (BN' : ch2 (gd (cq a b p)) (gd (cq a b q)) (cos (l - l')) <= 10001 / 10000 * r * (10001 / 10000 * r)) by (assert (0 <= r * r) by apply Rle_0_sqr; lra).
  pose proof (ch2_conf E a b HE Hf p q (cos (l - l')) (10001 / 10000 * r) Np Pq CB ltac:(lra) BN') as F.
  rewrite <- (edist_ch2 l l' p q) in F.
  assert (F1 : edist (position l p) (position l' q) <= 1021 / 1000 * r). { apply sq_le; [lra|]. assert (0 <= r * r) by apply Rle_0_sqr. lra. }
  assert (F2 : edist (position l' q) (position l' p') <= Rabs (p' - q)).
  { apply sq_le; [apply Rabs_pos|]. rewrite edist_ch2. unfold ch2. replace (l' - l') with 0 by ring. rewrite cos_0. pose proof (cos_low (q - p')). rewrite <- Rabs_mult, Rabs_right by (apply Rle_ge, Rle_0_sqr). lra. }
  pose proof (edist_triangle (position l p) (position l' q) (position l' p')) as TR. rewrite tol_val in Hpq.
  assert (F3 : 1021 / 1000 * r <= k * n ^ 5). { unfold r. replace (1021 / 1000 * (Q2R kk * n ^ 5 * Q2R K)) with (1021 / 1000 * (Q2R kk * Q2R K) * n ^ 5) by ring. apply Rmult_le_compat_r; [apply pow_le; lra|exact KB]. }
  lra.
Qed.
(** ** On the map *)
Lemma conf_ratio t : nonpolar t -> 0 < (1 - ee * ee) / ((1 - ee * ee * (sin t * sin t)) * cos t) <= 20 / 19 * cosh (cq a b t).
Proof.
  intros H. pose proof (np_cos t H) as C. pose proof (e2_small E a b HE Hf) as B2. fold ee in B2. pose proof (cosh_cq E a b HE t H) as CQ'. fold ee in CQ'.
  assert (U : 0 <= Rabs (sin t) <= 1) by (split; [apply Rabs_pos|apply Rabs_le, SIN_bound]). destruct (point_main ee n (Rabs (sin t)) ltac:(lra) Hn (ee_n E a b HE) U) as [PD _]. set (D := pD ee (Rabs (sin t))) in *.
  pose proof (SIN_bound t) as S. assert (S2 : 0 <= sin t * sin t <= 1) by nra. set (w := ee * ee) in *. set (s2 := sin t * sin t) in *. assert (W : 1 - w <= 1 - w * s2 <= 1) by nra.
  assert (WC : 0 < (1 - w * s2) * cos t) by (apply Rmult_lt_0_compat; lra). split; [apply Rdiv_lt_0_compat; lra|].
  apply (Rmult_le_reg_r ((1 - w * s2) * cos t)); [exact WC|]. replace ((1 - w) / ((1 - w * s2) * cos t) * ((1 - w * s2) * cos t)) with (1 - w) by (field; lra). rewrite CQ'.
  replace (20 / 19 * (D / cos t) * ((1 - w * s2) * cos t)) with (20 / 19 * D * (1 - w * s2)) by (field; lra). nra.
Qed.
Lemma conf_lip_up p q : nonpolar p -> nonpolar q -> Rabs (gd (cq a b p) - gd (cq a b q)) <= 20 / 19 * Rabs (p - q).
Proof.
  intros Hp Hq. assert (IN : forall x, Rmin q p <= x <= Rmax q p -> nonpolar x) by (intros x Hx; unfold nonpolar in *; destruct (Rle_dec q p); [rewrite Rmin_left, Rmax_right in Hx by lra|rewrite Rmin_right, Rmax_left in Hx by lra]; lra).
  destruct (MVT_gen (fun p => gd (cq a b p)) q p (cbeta' a b)) as (c & Hc & Q).
  - intros x Hx. apply (cbeta_d E a b HE), IN. lra.
  - intros x Hx. apply derivable_continuous_pt. exists (cbeta' a b x). apply is_derive_Reals, (cbeta_d E a b HE), IN. exact Hx.
  - specialize (IN c Hc). destruct (conf_ratio c IN) as [R1 R2]. rewrite Q, Rabs_mult. apply Rmult_le_compat_r; [apply Rabs_pos|]. unfold cbeta'. fold ee. pose proof (cosh_pos (cq a b c)) as CP. assert (IP : 0 < / cosh (cq a b c)) by (now apply Rinv_0_lt_compat). set (u := (1 - ee * ee) / _) in *.
    rewrite Rabs_right by (apply Rle_ge, Rmult_le_pos; lra). apply (Rmult_le_reg_r (cosh (cq a b c))); [exact CP|]. rewrite Rmult_assoc, Rinv_l by lra. lra.
Qed.
Lemma wide_near l p q : 0 < cos (l - lon0) -> nonpolar p -> nonpolar q -> Rabs (p - q) <= / 1000 -> cosh (2 * snd (zet l q)) <= 375 / 100 -> cosh (2 * snd (zet l p)) <= 4.
Proof.
  intros D Hp Hq PQ K. pose proof (conf_lip_up p q Hp Hq) as L. unfold zet in *. cbn [snd] in *. rewrite cosh_2 in *.
  assert (Q : forall t, cosh (te (cq a b t) (l - lon0)) * cosh (te (cq a b t) (l - lon0)) * (1 - sin (l - lon0) * sin (l - lon0) * (cos (gd (cq a b t)) * cos (gd (cq a b t)))) = 1).
  { intros t. pose proof (tW_pos (cq a b t) (l - lon0) D) as W. pose proof (cosh_pos (cq a b t)) as CP. rewrite cosh_te by exact D. rewrite cos_gd. apply (Rmult_eq_reg_r (tW (cq a b t) (l - lon0))); [|lra]. transitivity (cosh (cq a b t) * cosh (cq a b t) - sin (l - lon0) * sin (l - lon0)); [field; lra|]. rewrite (sc2 (l - lon0)), (cosh_sq (cq a b t)). unfold tW. ring. }
  pose proof (Q p) as Qp. pose proof (Q q) as Qq. pose proof (cosh_sq (te (cq a b p) (l - lon0))) as Sp. pose proof (cosh_sq (te (cq a b q) (l - lon0))) as Sq. pose proof (SIN_bound (l - lon0)) as SB.
  assert (S2 : 0 <= sin (l - lon0) * sin (l - lon0) <= 1) by nra. set (s2 := sin (l - lon0) * sin (l - lon0)) in *. set (be := gd (cq a b p)) in *. set (ga := gd (cq a b q)) in *. clear Q.
  assert (CC : Rabs (cos be * cos be - cos ga * cos ga) <= / 400).
  { replace (cos be * cos be - cos ga * cos ga) with ((cos be + cos ga) * (cos be - cos ga)) by ring. rewrite Rabs_mult. pose proof (COS_bound be). pose proof (COS_bound ga). assert (A1 : Rabs (cos be + cos ga) <= 2) by (apply Rabs_le; lra). pose proof (VincInv.sin_lip (PI / 2 - be) (PI / 2 - ga)) as SL. rewrite !sin_shift in SL.
    replace (PI / 2 - be - (PI / 2 - ga)) with (- (be - ga)) in SL by ring. rewrite Rabs_Ropp in SL. pose proof (Rabs_pos (cos be + cos ga)). pose proof (Rabs_pos (cos be - cos ga)). nra. }
  apply Rabs_le_inv in CC. set (cp := cos be * cos be) in *. set (cg := cos ga * cos ga) in *. set (hp := cosh (te (cq a b p) (l - lon0)) * cosh (te (cq a b p) (l - lon0))) in *. set (hq := cosh (te (cq a b q) (l - lon0)) * cosh (te (cq a b q) (l - lon0))) in *.
  assert (HQ : hq <= 2375 / 1000) by lra. assert (X : 421 / 1000 <= 1 - s2 * cg). { assert (0 < hq) by (unfold hq; pose proof (cosh_pos (te (cq a b q) (l - lon0))); apply Rmult_lt_0_compat; assumption). nra. }
  assert (Y : 4 / 10 <= 1 - s2 * cp) by nra. assert (0 < hp) by (unfold hp; pose proof (cosh_pos (te (cq a b p) (l - lon0))); apply Rmult_lt_0_compat; assumption). assert (hp <= 25 / 10) by nra. lra.
Qed.
Lemma speed_bound l t : nonpolar t -> 0 < cos (l - lon0) -> cosh (2 * snd (zet l t)) <= 4 ->
  let m := b * b / (gell a b t * gell a b t * cos t) in Rabs (m * sU a b lon0 l t) <= 2 /\ Rabs (m * sV a b lon0 l t) <= 2.
Proof.
  intros Ht D K m. assert (M : m = (1 - ee * ee) / ((1 - ee * ee * (sin t * sin t)) * cos t)) by (unfold m, ee; symmetry; apply (merc_gell E a b HE)).
  destruct (conf_ratio t Ht) as [M0 M1]. rewrite <- M in M0, M1. clearbody m. unfold zet in K. cbn [snd] in K. destruct (j_small (hs n) (tx (cq a b t) (l - lon0)) (te (cq a b t) (l - lon0)) (proj1 (small_h n Hn)) K) as [J1 J2].
  rewrite cosh_2 in K. pose proof (cosh_sq (te (cq a b t) (l - lon0))) as S. pose proof (cosh_te (cq a b t) (l - lon0) D) as T. pose proof (tW_pos (cq a b t) (l - lon0) D) as W. unfold sU, sV. fold n. cbv zeta.
  set (q := cq a b t) in *. set (d := l - lon0) in *. set (u := jr (hs n) _ _) in *. set (v := ji (hs n) _ _) in *. set (A := cosh q * cos d / tW q d). set (V := sinh q * sin d / tW q d).
  assert (AV : A * A + V * V = / tW q d). { unfold A, V. apply (Rmult_eq_reg_r (tW q d * tW q d)); [|nra]. transitivity (cosh q * cosh q * (cos d * cos d) + sinh q * sinh q * (sin d * sin d)); [field; lra|]. rewrite (cosh_sq q), (sc2 d). replace (/ tW q d * (tW q d * tW q d)) with (tW q d) by (field; lra). unfold tW. ring. }
  assert (X : m * A * (m * A) + m * V * (m * V) <= 25 / 9).
  { replace (m * A * (m * A) + m * V * (m * V)) with (m * m * (A * A + V * V)) by ring. rewrite AV. pose proof (cosh_pos q). assert (MM : m * m <= 400 / 361 * (cosh q * cosh q)) by nra.
    apply Rle_trans with (400 / 361 * (cosh q * cosh q) * / tW q d); [apply Rmult_le_compat_r; [left; now apply Rinv_0_lt_compat|exact MM]|]. replace (400 / 361 * (cosh q * cosh q) * / tW q d) with (400 / 361 * (cosh q * cosh q / tW q d)) by (unfold Rdiv; ring). rewrite <- T. lra. }
  assert (MA : Rabs (m * A) <= 5 / 3). { apply sq_le; [lra|]. rewrite <- Rabs_mult, Rabs_right by (apply Rle_ge, Rle_0_sqr). pose proof (Rle_0_sqr (m * V)) as Z. unfold Rsqr in Z. lra. }
  assert (MV : Rabs (m * V) <= 5 / 3). { apply sq_le; [lra|]. rewrite <- Rabs_mult, Rabs_right by (apply Rle_ge, Rle_0_sqr). pose proof (Rle_0_sqr (m * A)) as Z. unfold Rsqr in Z. lra. }
  assert (U1 : Rabs u <= 105 / 100) by (apply Rabs_le_inv in J1; apply Rabs_le; lra).
  assert (F : forall x y g k, Rabs x <= g -> Rabs y <= k -> Rabs (x * y) <= g * k) by (intros x y g k Hx Hy; rewrite Rabs_mult; pose proof (Rabs_pos x); pose proof (Rabs_pos y); apply Rmult_le_compat; assumption).
  pose proof (F _ _ _ _ U1 MA) as F1. pose proof (F _ _ _ _ U1 MV) as F2. pose proof (F _ _ _ _ J2 MA) as F3. pose proof (F _ _ _ _ J2 MV) as F4. apply Rabs_le_inv in F1, F2, F3, F4.
  split; apply Rabs_le.
  - replace (m * (u * A - v * V)) with (u * (m * A) - v * (m * V)) by ring. lra.
  - replace (m * (u * V + v * A)) with (u * (m * V) + v * (m * A)) by ring. lra.
Qed.
Lemma map_lip l p q : 0 < cos (l - lon0) -> nonpolar p -> nonpolar q -> Rabs (p - q) <= / 1000 -> cosh (2 * snd (zet l q)) <= 375 / 100 ->
  Rabs (ceast a b lon0 k0 fe l p - ceast a b lon0 k0 fe l q) <= 2 * (k0 * B) * Rabs (p - q) /\ Rabs (cnorth a b lon0 lat0 k0 fn l p - cnorth a b lon0 lat0 k0 fn l q) <= 2 * (k0 * B) * Rabs (p - q).
Proof.
  intros D Hp Hq PQ K. assert (KB : 0 < k0 * B) by (now apply Rmult_lt_0_compat).
  assert (IN : forall x, Rmin q p <= x <= Rmax q p -> nonpolar x /\ cosh (2 * snd (zet l x)) <= 4).
  { intros x Hx. assert (N : nonpolar x /\ Rabs (x - q) <= Rabs (p - q)) by (unfold nonpolar in *; unfold Rabs; destruct (Rle_dec q p); [rewrite Rmin_left, Rmax_right in Hx by lra|rewrite Rmin_right, Rmax_left in Hx by lra]; destruct (Rcase_abs (x - q)), (Rcase_abs (p - q)); lra). destruct N as [N1 N2]. split; [exact N1|]. apply (wide_near l x q D N1 Hq); lra. }
  split.
  - destruct (MVT_gen (fun p => ceast a b lon0 k0 fe l p) q p (fun p => - (k0 * B * (b * b / (gell a b p * gell a b p * cos p)) * sV a b lon0 l p))) as (c & Hc & Q).
    + intros x Hx. apply (ceast_dp E a b HE lon0 k0 fe); [apply IN; lra|exact D].
    + intros x Hx. apply derivable_continuous_pt. eexists. apply is_derive_Reals. apply (ceast_dp E a b HE lon0 k0 fe); [apply IN; exact Hx|exact D].
    + destruct (IN c Hc) as [I1 I2]. destruct (speed_bound l c I1 D I2) as [_ S]. rewrite Q, Rabs_mult. apply Rmult_le_compat_r; [apply Rabs_pos|]. rewrite Rabs_Ropp, Rmult_assoc, Rabs_mult, (Rabs_right (k0 * B)) by lra. rewrite (Rmult_comm 2). apply Rmult_le_compat_l; [lra|exact S].
  - destruct (MVT_gen (fun p => cnorth a b lon0 lat0 k0 fn l p) q p (fun p => k0 * B * (b * b / (gell a b p * gell a b p * cos p)) * sU a b lon0 l p)) as (c & Hc & Q).
    + intros x Hx. apply (cnorth_dp E a b HE lon0 lat0 k0 fn); [apply IN; lra|exact D].
    + intros x Hx. apply derivable_continuous_pt. eexists. apply is_derive_Reals. apply (cnorth_dp E a b HE lon0 lat0 k0 fn); [apply IN; exact Hx|exact D].
    + destruct (IN c Hc) as [I1 I2]. destruct (speed_bound l c I1 D I2) as [S _]. rewrite Q, Rabs_mult. apply Rmult_le_compat_r; [apply Rabs_pos|]. rewrite Rmult_assoc, Rabs_mult, (Rabs_right (k0 * B)) by lra. rewrite (Rmult_comm 2). apply Rmult_le_compat_l; [lra|exact S].
Qed.
Lemma zet_back l q z1 : off_pole (fst z1) (snd z1) -> latitude (fst z1) -> nonpolar q -> beta_e ee q = back_beta (fst z1) (snd z1) -> 0 < cos (fst z1) -> same_angle l (lon0 + back_d (fst z1) (snd z1)) ->
  0 < cos (l - lon0) /\ zet l q = z1.
Proof.
  intros OP L Nq Hq C Hl. set (d := back_d (fst z1) (snd z1)) in *. assert (SA : same_angle (l - lon0) d) by (destruct Hl as [j Hj]; exists j; lra).
  pose proof (back_position _ _ OP) as BP. fold d in BP. unfold position, ball' in BP. injection BP. intros _ _ E1. destruct (cos_back _ _ OP) as [PC _]. pose proof (cosh_pos (snd z1)) as CH.
  assert (CD : 0 < cos d). { assert (0 < cos (back_beta (fst z1) (snd z1)) * cos d). { rewrite E1. apply Rdiv_lt_0_compat; [apply Rabs_pos_lt; lra|exact CH]. } nra. }
  assert (CL : cos (l - lon0) = cos d) by (now apply same_angle_cos). assert (SL : sin (l - lon0) = sin d) by (now apply same_angle_sin). split; [lra|].
  rewrite beta_e_np in Hq by exact Nq. change (isom_e ee q) with (cq a b q) in Hq. unfold zet. rewrite (surjective_pairing z1) at 1. f_equal.
  - transitivity (tx (cq a b q) d); [unfold tx; now rewrite CL|]. rewrite <- xi0_tx by exact CD. rewrite Hq. unfold d. now apply xi0_back.
  - transitivity (te (cq a b q) d); [unfold te; now rewrite SL|]. rewrite <- eta0_te. rewrite Hq. unfold d. now apply eta0_back.
Qed.
Lemma trip_map c w k x y h : reach c w k -> Rabs (norm_y a b k0 fe x) <= w -> - (PI / 2) < norm_x a b lat0 k0 fn y < PI / 2 ->
  exists N l p x' y', - PI <= l <= PI /\ nonpolar p /\
  (forall fuel, (N <= fuel)%nat -> tm_unproj fuel P (enh (x, y, h)) = Ret (Ok (llh3 l p h))) /\
  tm_proj P (llh3 l p h) = Ok (enh (x', y', h)) /\ edist (x, y, h) (x', y', h) <= (k * n ^ 5 + 3 * (ee * ee / (1 - ee * ee) * / 10 ^ 12)) * (k0 * B).
Proof.
  intros RE WX WY. destruct (reach_tier c w k RE) as (K & kk & T & C1 & KK & KB). destruct (tier_3 K kk T) as [K3 _]. destruct (reach_width c w k RE) as [W0 W1]. specialize (W1 K kk KK KB).
  destruct (rev_at x y) as [RX RY]. set (xi := norm_x a b lat0 k0 fn y) in *. set (eta := norm_y a b k0 fe x) in *. set (z := (xi, eta) : C) in *. set (z1 := kz (kr_reverse n) z) in *.
  assert (ZK : cosh (2 * snd z) <= Q2R K). { eapply Rle_trans; [|exact W1]. apply cosh_abs. cbn [snd z]. rewrite !Rabs_mult, (Rabs_right w) by lra. apply Rmult_le_compat_l; [apply Rabs_pos|exact WX]. }
  pose proof (undo_reverse n Hn K kk T z ZK) as U. fold z1 in U. pose proof (tier_size K kk n T Hn) as RB. set (r := Q2R kk * n ^ 5 * Q2R K) in *. cbn [snd z] in ZK.
  assert (X1 : - (PI / 2) < fst z1 < PI / 2).
  { rewrite <- RX. pose proof (sin_series_end (hps n) xi eta (PI / 2 - xi) (proj2 (small_h n Hn)) ltac:(lra) ltac:(left; ring) ltac:(lra)) as S1. pose proof (sin_series_end (hps n) xi eta (PI / 2 + xi) (proj2 (small_h n Hn)) ltac:(lra) ltac:(right; ring) ltac:(lra)) as S2. apply Rabs_le_inv in S1, S2. lra. }
  assert (CX : 0 < cos (fst z1)) by (apply cos_gt_0; lra). assert (OP : off_pole (fst z1) (snd z1)) by (intros [_ Z]; lra).
  assert (OP' : off_pole (xi - sin_series (hps n) xi eta) (eta - cos_series (hps n) xi eta)) by (rewrite RX, RY; exact OP).
  destruct (unproj_ends E a b HE lon0 lat0 k0 fe fn Hlat0 ltac:(lra) x y h OP') as (N & l & p & q & HN & Pp & Pq & Hpq & Hl & Hq). cbv zeta in Hl, Hq. fold n in Hl, Hq. fold xi eta in Hl, Hq. rewrite RX, RY in Hl, Hq. fold ee in Hpq, Hq. rewrite tol_val in Hpq.
  destruct (Rwrap_spec (lon0 + back_d (fst z1) (snd z1))) as (LB & SA & _). rewrite <- Hl in LB, SA.
  destruct (zet_back l q z1 OP ltac:(unfold latitude; lra) Pq Hq CX SA) as [CL ZB].
  destruct (good_reverse n Hn z ltac:(cbn [snd z]; lra)) as (g & G1 & G2). fold z1 in G2.
  assert (Z1 : cosh (2 * snd (zet l q)) <= 375 / 100).
  { rewrite ZB, G2. replace (2 * snd (z + csin (2 * z) * g)%C) with (2 * snd z + 2 * snd (csin (2 * z) * g)%C) by (unfold Cplus; cbn [snd]; ring). eapply Rle_trans; [apply cosh_shift, near_mod; [cbn [snd z]; lra|exact G1]|]. cbn [snd z]. lra. }
  pose proof (e2_small E a b HE Hf) as E2. fold ee in E2. set (ep := ee * ee / (1 - ee * ee) * / 10 ^ 12) in *.
  assert (EP : 0 <= ep <= / 1000). { unfold ep. assert (X : 0 <= ee * ee / (1 - ee * ee) <= 1). { split; [apply Rmult_le_pos; [lra|left; apply Rinv_0_lt_compat; lra]|]. apply (Rmult_le_reg_r (1 - ee * ee)); [lra|]. unfold Rdiv. rewrite Rmult_assoc, Rinv_l by lra. lra. } split; [apply Rmult_le_pos; lra|]. assert (/ 10 ^ 12 <= / 1000) by lra. assert (0 < / 10 ^ 12) by lra. nra. }
  destruct (map_lip l p q CL Pp Pq ltac:(lra) Z1) as [ME MN].
  exists N, l, p, (ceast a b lon0 k0 fe l p), (cnorth a b lon0 lat0 k0 fn l p). split; [exact LB|]. split; [exact Pp|]. split; [exact HN|]. split; [exact (cproj E a b HE lon0 lat0 k0 fe fn Hlat0 l p h Pp CL)|].
  destruct (norm_there l q) as [NX NY]. rewrite ZB in NX, NY. set (v := kz (kr_direct n) z1) in *. set (xq := ceast a b lon0 k0 fe l q) in *. set (yq := cnorth a b lon0 lat0 k0 fn l q) in *.
  assert (KBp : 0 < k0 * B) by (now apply Rmult_lt_0_compat).
  assert (DX : xq - x = k0 * B * (snd v - snd z)). { rewrite <- NY. cbn [snd z]. unfold eta, norm_y. fold B. field. lra. }
  assert (DY : yq - y = k0 * B * (fst v - fst z)). { rewrite <- NX. cbn [fst z]. unfold xi, norm_x. fold B. field. lra. }
  pose proof (mod_sq_le _ _ U) as U2. replace (fst (v - z)%C) with (fst v - fst z) in U2 by (unfold Cminus, Cplus, Copp; cbn [fst]; ring). replace (snd (v - z)%C) with (snd v - snd z) in U2 by (unfold Cminus, Cplus, Copp; cbn [snd]; ring).
  assert (F1 : edist (x, y, h) (xq, yq, h) <= k0 * B * r).
  { apply sq_le; [apply Rmult_le_pos; lra|]. rewrite edist_sq. replace (x - xq) with (- (xq - x)) by ring. replace (y - yq) with (- (yq - y)) by ring. rewrite DX, DY.
    replace (_ + _ + _) with (k0 * B * (k0 * B) * ((fst v - fst z) * (fst v - fst z) + (snd v - snd z) * (snd v - snd z))) by ring. replace (k0 * B * r * (k0 * B * r)) with (k0 * B * (k0 * B) * (r * r)) by ring. apply Rmult_le_compat_l; [apply Rle_0_sqr|exact U2]. }
  assert (F2 : edist (xq, yq, h) (ceast a b lon0 k0 fe l p, cnorth a b lon0 lat0 k0 fn l p, h) <= 3 * (k0 * B) * ep).
  { set (t := 2 * (k0 * B) * Rabs (p - q)) in *. assert (T0 : 0 <= t) by (unfold t; apply Rmult_le_pos; [lra|apply Rabs_pos]). assert (T1 : t <= 2 * (k0 * B) * ep) by (unfold t; apply Rmult_le_compat_l; lra).
    apply Rle_trans with (3 / 2 * t); [|lra]. apply sq_le; [lra|]. rewrite edist_sq. apply Rabs_le_inv in ME, MN. set (dx := ceast a b lon0 k0 fe l p - xq) in *. set (dy := cnorth a b lon0 lat0 k0 fn l p - yq) in *.
    replace (xq - ceast a b lon0 k0 fe l p) with (- dx) by (unfold dx; ring). replace (yq - cnorth a b lon0 lat0 k0 fn l p) with (- dy) by (unfold dy; ring). replace (h - h) with 0 by ring. assert (dx * dx <= t * t) by nra. assert (dy * dy <= t * t) by nra. assert (0 <= t * t) by nra. lra. }
  pose proof (edist_triangle (x, y, h) (xq, yq, h) (ceast a b lon0 k0 fe l p, cnorth a b lon0 lat0 k0 fn l p, h)) as TR.
  assert (F3 : r <= k * n ^ 5). { assert (r <= 1021 / 1000 * r) by lra. eapply Rle_trans; [eassumption|]. unfold r. replace (1021 / 1000 * (Q2R kk * n ^ 5 * Q2R K)) with (1021 / 1000 * (Q2R kk * Q2R K) * n ^ 5) by ring. apply Rmult_le_compat_r; [apply pow_le; lra|exact KB]. }
  assert (F4 : k0 * B * r <= k0 * B * (k * n ^ 5)) by (apply Rmult_le_compat_l; lra). lra.
Qed.
End Trip.
