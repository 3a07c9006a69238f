(** Binary64: the transverse Mercator map, forward. *)
From Coq Require Import ZArith Reals QArith Qreals Lra Lia Bool Psatz List.
From Flocq Require Import Core IEEE754.BinarySingleNaN.
From Verif.Num Require Import FOps RFun XR XRLemmas F64 F64Lemmas PIBounds Near.
From Verif.Model Require Import Fp Quantities Cs Ellipsoid Geodesics Projections.
From Verif.Spec Require Import Angles Axes Shape Maps Series Accurate Binary64 Maps64.
From Verif.Proofs Require Import AnglesX AnglesF EllX MathX ProjX MercX MercInv TMX TMInv TMConf NearX NearL LlhF LlhInvG TransB CtorF NearT MapF MercF MercG NearH TMNear.
Import ListNotations.
Local Open Scope R_scope.

Lemma Ratanh_small x : Rabs x <= 142 / 1000 -> Rabs (Ratanh x) <= 15 / 100.
Proof.
  intros H. pose proof (Ratanh_lip 0 x (/ 5) ltac:(lra) ltac:(rewrite Rabs_R0; lra) ltac:(lra)) as L. assert (Z : Ratanh 0 = 0) by (unfold Ratanh; replace ((1 + 0) / (1 - 0)) with 1 by field; rewrite ln_1; field). rewrite Z, !Rminus_0_r in L. pose proof (Rabs_pos x). eapply Rle_trans; [exact L|]. replace (/ (1 - / 5 * / 5)) with (25 / 24) by field. lra.
Qed.
Lemma q_3_15 : Q2R (Qmake 3 (10 ^ 15)) = 3 / 10 ^ 15.
Proof. qmk. Qed.
Lemma q_36_15 : Q2R (Qmake 36 (10 ^ 15)) = 36 / 10 ^ 15.
Proof. qmk. Qed.
Lemma q_8_15 : Q2R (Qmake 8 (10 ^ 15)) = 8 / 10 ^ 15.
Proof. qmk. Qed.
Lemma q_95_15 : Q2R (Qmake 95 (10 ^ 15)) = 95 / 10 ^ 15.
Proof. qmk. Qed.
(** How the errors of the latitude and of the first ordinate act on the first abscissa. *)
Lemma x0_err B Y b1 y1 wf c : 0 < c -> sin B * cosh Y * (sin B * cosh Y) + c * c = 1 -> 1 / 137 <= c * (1 / 10) -> cosh Y <= 14143 / 10000 ->
  Rabs (cos B * cosh Y) <= 14143 / 10000 * c -> Rabs (sin B * sinh Y) <= c -> Rabs (b1 - B) <= 8 / 10 ^ 15 -> Rabs (y1 - Y) <= 36 / 10 ^ 15 -> Rabs (wf - sin b1 * cosh y1) <= 3 / 10 ^ 15 ->
  Rabs (asin wf - asin (sin B * cosh Y)) <= 95 / 10 ^ 15 /\ Rabs wf <= 1.
Proof.
  intros C0 C1 C2 TC K1 K2 EB EY EW. pose proof (cosh_ge_1 Y) as CT. set (w := sin B * cosh Y) in *. assert (C1' : c <= 1) by (clear - C0 C1; nra). assert (CC : 5 / 1000 <= c * c) by (clear - C2 C0; nra).
  assert (SB := sin_step B (b1 - B)). replace (B + (b1 - B)) with b1 in SB by ring. assert (SY := cosh_step Y (y1 - Y) ltac:(clear - EY; lra)). replace (Y + (y1 - Y)) with y1 in SY by ring.
  assert (D1 : (b1 - B) * (b1 - B) / 2 <= / 10 ^ 28) by (clear - EB; apply Rabs_le_inv in EB; nra).
  assert (D2 : cosh Y * ((y1 - Y) * (y1 - Y)) <= 3 / 10 ^ 27). { assert (G : (y1 - Y) * (y1 - Y) <= 2 / 10 ^ 27) by (clear - EY; apply Rabs_le_inv in EY; nra). assert (cosh Y * ((y1 - Y) * (y1 - Y)) <= 14143 / 10000 * (2 / 10 ^ 27)) by (apply Rmult_le_compat; [lra|apply Rle_0_sqr|exact TC|exact G]). lra. }
  assert (CY : Rabs (cosh y1 - cosh Y) <= / 10 ^ 12). { pose proof (cosh_shift Y (y1 - Y) ltac:(lra)) as CS. replace (Y + (y1 - Y)) with y1 in CS by ring. pose proof (Rabs_pos (y1 - Y)). assert (102 / 100 * Rabs (y1 - Y) * cosh Y <= 102 / 100 * (36 / 10 ^ 15) * (14143 / 10000)) by (apply Rmult_le_compat; lra). lra. }
  assert (E2 : Rabs (sin b1 * cosh y1 - w) <= c * (49 / 10 ^ 15)).
  { replace (sin b1 * cosh y1 - w) with ((sin b1 - sin B) * (cosh Y + (cosh y1 - cosh Y)) + sin B * (cosh y1 - cosh Y)) by (unfold w; ring).
    eapply Rle_trans; [apply Rabs_triang|]. rewrite Rabs_mult, (Rabs_mult (sin B)). assert (U0 : 0 <= Rabs (sin b1 - sin B)) by apply Rabs_pos. assert (V0 : 0 <= Rabs (cosh y1 - cosh Y)) by apply Rabs_pos.
    assert (G1 : Rabs (cosh Y + (cosh y1 - cosh Y)) <= 10001 / 10000 * cosh Y). { eapply Rle_trans; [apply Rabs_triang|]. rewrite (Rabs_right (cosh Y)) by lra. lra. }
    assert (SG : Rabs (sin B) <= 1) by (apply Rabs_le, SIN_bound). pose proof (Rabs_pos (sin B)) as SG0. pose proof (Rabs_pos (cos B)) as CG0. pose proof (Rabs_pos (sinh Y)) as SH0. rewrite Rabs_mult in K1, K2. rewrite (Rabs_right (cosh Y)) in K1 by lra.
    assert (DB0 : 0 <= Rabs (b1 - B)) by apply Rabs_pos. assert (DY0 : 0 <= Rabs (y1 - Y)) by apply Rabs_pos.
    assert (G2 : Rabs (sin b1 - sin B) * Rabs (cosh Y + (cosh y1 - cosh Y)) <= (Rabs (cos B) * Rabs (b1 - B) + / 10 ^ 28) * (10001 / 10000 * cosh Y)) by (apply Rmult_le_compat; [exact U0|apply Rabs_pos|clear - SB D1; lra|exact G1]).
    assert (G3 : Rabs (cos B) * cosh Y * Rabs (b1 - B) <= 14143 / 10000 * c * (8 / 10 ^ 15)) by (apply Rmult_le_compat; [apply Rmult_le_pos; lra|lra|exact K1|exact EB]).
    assert (G4 : Rabs (sin B) * Rabs (cosh y1 - cosh Y) <= Rabs (sin B) * (102 / 100 * Rabs (y1 - Y) * Rabs (sinh Y) + 3 / 10 ^ 27)) by (apply Rmult_le_compat_l; [lra|clear - SY D2; lra]).
    assert (G5 : Rabs (sin B) * Rabs (sinh Y) * Rabs (y1 - Y) <= c * (36 / 10 ^ 15)) by (apply Rmult_le_compat; [apply Rmult_le_pos; lra|lra|exact K2|exact EY]).
    assert (G6 : Rabs (sin B) * (3 / 10 ^ 27) <= 1 * (3 / 10 ^ 27)) by (apply Rmult_le_compat_r; lra).
    revert G2 G3 G4 G5 G6 TC C2 CT. clear. generalize (Rabs (sin b1 - sin B) * Rabs (cosh Y + (cosh y1 - cosh Y))) (Rabs (sin B) * Rabs (cosh y1 - cosh Y)). generalize (Rabs (cos B)) (Rabs (b1 - B)) (Rabs (sin B)) (Rabs (sinh Y)) (Rabs (y1 - Y)) (cosh Y). intros kc db ks kh dy kk u v G2 G3 G4 G5 G6 TC C2 CT.
    replace ((kc * db + / 10 ^ 28) * (10001 / 10000 * kk)) with (10001 / 10000 * (kc * kk * db) + 10001 / 10000 * / 10 ^ 28 * kk) in G2 by ring. replace (ks * (102 / 100 * dy * kh + 3 / 10 ^ 27)) with (102 / 100 * (ks * kh * dy) + ks * (3 / 10 ^ 27)) in G4 by ring. lra. }
  assert (E3 : Rabs (wf - w) <= c * (49 / 10 ^ 15) + 3 / 10 ^ 15). { replace (wf - w) with ((wf - sin b1 * cosh y1) + (sin b1 * cosh y1 - w)) by ring. eapply Rle_trans; [apply Rabs_triang|]. lra. }
  assert (E4 : Rabs (wf - w) <= c * c / 1000) by (clear - E3 CC C1'; lra). split.
  - pose proof (asin_local w wf c C0 C1 E4) as L. eapply Rle_trans; [exact L|]. apply Rle_trans with (1002 / 1000 / c * (c * (49 / 10 ^ 15) + 3 / 10 ^ 15)); [apply Rmult_le_compat_l; [left; apply Rdiv_lt_0_compat; lra|exact E3]|]. replace (1002 / 1000 / c * (c * (49 / 10 ^ 15) + 3 / 10 ^ 15)) with (1002 / 1000 * (49 / 10 ^ 15) + 1002 / 1000 * (3 / 10 ^ 15) * / c) by (field; lra). assert (/ c <= 137 / 10) by (apply (Rmult_le_reg_r c); [exact C0|]; rewrite Rinv_l by lra; lra). lra.
  - replace wf with (w + (wf - w)) by ring. eapply Rle_trans; [apply Rabs_triang|]. assert (Rabs w <= 998 / 1000); [|clear - H E4 C1' CC C0; nra]. destruct (Rle_or_lt (Rabs w) (998 / 1000)) as [LL|LL]; [exact LL|exfalso]. assert (Rabs w * Rabs w = w * w) by (rewrite <- Rabs_mult; apply Rabs_right, Rle_ge, Rle_0_sqr). clear - LL H C1 CC. nra.
Qed.
Section F.
Context (lm : libm) (AC : accurate lm).
Local Notation O := (F64ops lm).
Ltac fin_near H := apply near_abs in H; nnorm H.
(** The sums of the series. *)
Section S.
Context (h : f64 * f64 * f64 * f64) (H : R * R * R * R) (NH : near4 h H) (x y : f64) (X Y : R) (NX : near x X (Qmake (-16) 10) (Qmake 16 10) 0 (Qmake 15 (10 ^ 14))) (NY : near y Y (-1) 1 0 (Qmake 5 (10 ^ 14))) (HY : cosh (2 * Y) <= 32 / 10).
Lemma near_xi_sum : near (tm_xi_sum (ops := O) h x y) (sin_series H X Y) (Qmake (-1) 100) (Qmake 1 100) 0 (Qmake 6 (10 ^ 15)).
Proof.
  destruct h as [[[h1 h2] h3] h4]. destruct H as [[[H1 H2] H3] H4]. destruct NH as (N1 & N2 & N3 & N4). destruct (cosh_many Y HY) as (C4 & C6 & C8).
  unfold tm_xi_sum, fsum, sin_series. cbn [fold_left fadd fmul F64ops fofZ fsin fcosh]. nZ 0%Z ZO. nZ 2%Z Z2. nZ 4%Z Z4. nZ 6%Z Z6. nZ 8%Z Z8. nmul Z2 NX A2. nmul Z4 NX A4. nmul Z6 NX A6. nmul Z8 NX A8. nmul Z2 NY B2. nmul Z4 NY B4. nmul Z6 NY B6. nmul Z8 NY B8.
  pose proof (near_sin lm AC _ _ _ _ _ _ A2 ltac:(vm_compute; reflexivity)) as S2. nnorm S2. pose proof (near_sin lm AC _ _ _ _ _ _ A4 ltac:(vm_compute; reflexivity)) as S4. nnorm S4. pose proof (near_sin lm AC _ _ _ _ _ _ A6 ltac:(vm_compute; reflexivity)) as S6. nnorm S6. pose proof (near_sin lm AC _ _ _ _ _ _ A8 ltac:(vm_compute; reflexivity)) as S8. nnorm S8.
  pose proof (near_cosh lm AC _ _ _ _ _ _ (Qmake 32 10) B2 ltac:(vm_compute; reflexivity) ltac:(replace (Q2R (Qmake 32 10)) with (32 / 10) by qr; lra)) as K2. nnorm K2.
  pose proof (near_cosh lm AC _ _ _ _ _ _ (Qmake 195 10) B4 ltac:(vm_compute; reflexivity) ltac:(replace (Q2R (Qmake 195 10)) with (195 / 10) by qr; lra)) as K4. nnorm K4.
  pose proof (near_cosh lm AC _ _ _ _ _ _ 122 B6 ltac:(vm_compute; reflexivity) ltac:(replace (Q2R 122) with 122 by qr; lra)) as K6. nnorm K6.
  pose proof (near_cosh lm AC _ _ _ _ _ _ 760 B8 ltac:(vm_compute; reflexivity) ltac:(replace (Q2R 760) with 760 by qr; lra)) as K8. nnorm K8.
  nmul N1 S2 P2. nmul P2 K2 Q2. nmul N2 S4 P4. nmul P4 K4 Q4. nmul N3 S6 P6. nmul P6 K6 Q6. nmul N4 S8 P8. nmul P8 K8 Q8. nadd ZO Q2 T2. nadd T2 Q4 T4. nadd T4 Q6 T6. nadd T6 Q8 T8. fin_near T8.
  match type of T8 with near _ ?T _ _ _ _ => replace (_ + _ + _ + _) with T by ring end.
  refine (near_weak _ _ _ _ _ _ _ _ _ _ T8 _ _ _); [|vm_compute; reflexivity|vm_compute; reflexivity].
  refine (near_in_q _ _ _ _ _ (proj1 (proj2 T8)) _ _); vm_compute; reflexivity.
Qed.
Lemma near_eta_sum : near (tm_eta_sum (ops := O) h x y) (cos_series H X Y) (Qmake (-1) 100) (Qmake 1 100) 0 (Qmake 6 (10 ^ 15)).
Proof.
  destruct h as [[[h1 h2] h3] h4]. destruct H as [[[H1 H2] H3] H4]. destruct NH as (N1 & N2 & N3 & N4). destruct (cosh_many Y HY) as (C4 & C6 & C8).
  unfold tm_eta_sum, fsum, cos_series. cbn [fold_left fadd fmul F64ops fofZ fcos fsinh]. nZ 0%Z ZO. nZ 2%Z Z2. nZ 4%Z Z4. nZ 6%Z Z6. nZ 8%Z Z8. nmul Z2 NX A2. nmul Z4 NX A4. nmul Z6 NX A6. nmul Z8 NX A8. nmul Z2 NY B2. nmul Z4 NY B4. nmul Z6 NY B6. nmul Z8 NY B8.
  pose proof (near_cos lm AC _ _ _ _ _ _ A2 ltac:(vm_compute; reflexivity)) as S2. nnorm S2. pose proof (near_cos lm AC _ _ _ _ _ _ A4 ltac:(vm_compute; reflexivity)) as S4. nnorm S4. pose proof (near_cos lm AC _ _ _ _ _ _ A6 ltac:(vm_compute; reflexivity)) as S6. nnorm S6. pose proof (near_cos lm AC _ _ _ _ _ _ A8 ltac:(vm_compute; reflexivity)) as S8. nnorm S8.
  pose proof (near_sinh lm AC _ _ _ _ _ _ (Qmake 32 10) B2 ltac:(vm_compute; reflexivity) ltac:(replace (Q2R (Qmake 32 10)) with (32 / 10) by qr; lra)) as K2. nnorm K2.
  pose proof (near_sinh lm AC _ _ _ _ _ _ (Qmake 195 10) B4 ltac:(vm_compute; reflexivity) ltac:(replace (Q2R (Qmake 195 10)) with (195 / 10) by qr; lra)) as K4. nnorm K4.
  pose proof (near_sinh lm AC _ _ _ _ _ _ 122 B6 ltac:(vm_compute; reflexivity) ltac:(replace (Q2R 122) with 122 by qr; lra)) as K6. nnorm K6.
  pose proof (near_sinh lm AC _ _ _ _ _ _ 760 B8 ltac:(vm_compute; reflexivity) ltac:(replace (Q2R 760) with 760 by qr; lra)) as K8. nnorm K8.
  nmul N1 S2 P2. nmul P2 K2 Q2. nmul N2 S4 P4. nmul P4 K4 Q4. nmul N3 S6 P6. nmul P6 K6 Q6. nmul N4 S8 P8. nmul P8 K8 Q8. nadd ZO Q2 T2. nadd T2 Q4 T4. nadd T4 Q6 T6. nadd T6 Q8 T8. fin_near T8.
  match type of T8 with near _ ?T _ _ _ _ => replace (_ + _ + _ + _) with T by ring end.
  refine (near_weak _ _ _ _ _ _ _ _ _ _ T8 _ _ _); [|vm_compute; reflexivity|vm_compute; reflexivity].
  refine (near_in_q _ _ _ _ _ (proj1 (proj2 T8)) _ _); vm_compute; reflexivity.
Qed.
End S.
Section E.
Context (E : Ellipsoid f64) (a b : R) (HE : earth64 E a b).
Lemma e_fact : 0 <= the_e a b < 1 /\ 0 <= the_e a b * the_e a b <= / 50.
Proof. destruct (e_range E a b HE) as [AB ER]. pose proof (e_E2 E a b HE) as EE. pose proof (E2_b lm E a b HE) as EB. split; [lra|]. rewrite EE. exact EB. Qed.
Section P.
Context (p : f64) (Fp : is_finite p = true) (Bp : Rabs (B2R p) <= 84 * PI / 180).
Let e := the_e a b.
Let q := isom_e e (B2R p).
Lemma near_Q : near (tm_Q (ops := O) (ecc (ops := O) E) p) q (-3) 3 0 (Qmake 6 (10 ^ 15)).
Proof.
  pose proof (near_ecc lm E a b HE) as NE. pose proof PI_64_bounds as PB. pose proof (np_84 _ Bp) as NP. pose proof Bp as Bp'. apply Rabs_le_inv in Bp'. pose proof (near_exact p (-2) 2 Fp ltac:(split; unfold Q2R; cbn; lra)) as N0. pose proof (tan_84 _ Bp) as TP. apply Rabs_le_inv in TP. pose proof (isom_84 _ Bp) as I3. apply Rabs_le_inv in I3.
  assert (FT : four_ulp (lm_tan lm p) (tan (B2R p))). { apply (ac_tan lm AC); [exact Fp|]. rewrite (proj1 PI_2_64_val). unfold m_pi. apply Rabs_le. lra. }
  pose proof (near_four_abs _ _ _ 0 (-10) 10 FT ltac:(rewrite Rminus_diag_eq, Rabs_R0, q0 by reflexivity; lra) ltac:(replace (Q2R (-10)) with (-10) by qr; replace (Q2R 10) with 10 by qr; lra)) as NT. nnorm NT.
  pose proof (near_asinh lm AC _ _ _ _ _ _ (-3) 3 NT ltac:(vm_compute; reflexivity) ltac:(rewrite (isom_arcsinh _ NP); replace (Q2R (-3)) with (-3) by qr; replace (Q2R 3) with 3 by qr; lra)) as NA. nnorm NA.
  pose proof (near_sin lm AC _ _ _ _ _ _ N0 ltac:(vm_compute; reflexivity)) as NS. nnorm NS. nmul NE NS N1. destruct (e_range E a b HE) as [AB ER]. fold e in ER, N1.
  assert (ES : Rabs (e * sin (B2R p)) <= 142 / 1000). { rewrite Rabs_mult, (Rabs_right e) by lra. assert (Rabs (sin (B2R p)) <= 1) by (apply Rabs_le, SIN_bound). pose proof (Rabs_pos (sin (B2R p))). nra. }
  pose proof (Ratanh_small _ ES) as RS. apply Rabs_le_inv in RS.
  pose proof (near_atanh lm AC _ _ _ _ _ _ (Qmake 2 10) (Qmake 105 100) (Qmake (-15) 100) (Qmake 15 100) N1 ltac:(vm_compute; reflexivity) ltac:(replace (Q2R (Qmake (-15) 100)) with (- (15 / 100)) by qr; replace (Q2R (Qmake 15 100)) with (15 / 100) by qr; exact RS)) as N2. nnorm N2.
  nmul NE N2 N3. nsub NA N3 N4. fin_near N4. fold e in N4. rewrite (isom_e_at e _ NP) in N4. fold q in N4. unfold tm_Q. cbn [fsub fmul F64ops fasinh ftan fatanh fsin].
  refine (near_weak _ _ _ _ _ _ _ _ _ _ N4 _ _ _); [|vm_compute; reflexivity|vm_compute; reflexivity]. destruct e_fact as [Q1 Q2]. pose proof (q_3 e Q1 Q2 _ Bp) as Q3. fold q in Q3. apply Rabs_le_inv in Q3. replace (Q2R (-3)) with (-3) by qr. replace (Q2R 3) with 3 by qr. exact Q3.
Qed.
Lemma near_beta : near (tm_beta (ops := O) (tm_Q (ops := O) (ecc (ops := O) E) p)) (gd q) (Qmake (-158) 100) (Qmake 158 100) 0 (Qmake 8 (10 ^ 15)).
Proof.
  pose proof (near_gd lm AC _ _ _ _ _ _ near_Q ltac:(vm_compute; reflexivity)) as N. fin_near N. refine (near_weak _ _ _ _ _ _ _ _ _ _ N (proj1 (proj2 N)) _ _); vm_compute; reflexivity.
Qed.
Section D.
Context (s : f64) (d : R) (NS : near s (sin d) (-1) 1 0 (Qmake 65 (10 ^ 16))) (Hd : / 2 <= cos d * cos d) (Hc : 0 < cos d).
Let be := tm_beta (ops := O) (tm_Q (ops := O) (ecc (ops := O) E) p).
Let y0 := lm_atanh lm (Bmult mode_NE (lm_cos lm be) s).
Lemma near_y0 : near y0 (te q d) (-1) 1 0 (Qmake 36 (10 ^ 15)).
Proof.
  pose proof near_beta as NB. fold be in NB. pose proof (near_cos lm AC _ _ _ _ _ _ NB ltac:(vm_compute; reflexivity)) as NC. nnorm NC. nmul NC NS N1. destruct e_fact as [Q1 Q2]. pose proof (te_arg7 e Q2 (B2R p) d Hd Hc) as A7. fold q in A7. apply Rabs_le_inv in A7.
  apply (near_range _ _ _ _ _ _ (Qmake (-7072) 10000) (Qmake 7072 10000)) in N1; [|replace (Q2R (Qmake (-7072) 10000)) with (- (7072 / 10000)) by qr; replace (Q2R (Qmake 7072 10000)) with (7072 / 10000) by qr; exact A7].
  assert (TE : Ratanh (cos (gd q) * sin d) = te q d) by exact (eta0_te q d). pose proof (te_1 e Q2 (B2R p) d Hd Hc) as T1. fold q in T1. apply Rabs_le_inv in T1.
  pose proof (near_atanh lm AC _ _ _ _ _ _ (Qmake 7073 10000) (Qmake 20015 10000) (-1) 1 N1 ltac:(vm_compute; reflexivity) ltac:(rewrite TE; replace (Q2R (-1)) with (-1) by qr; rewrite q1; lra)) as N2. fin_near N2. rewrite TE in N2. fold y0 in N2.
  refine (near_weak _ _ _ _ _ _ _ _ _ _ N2 (proj1 (proj2 N2)) _ _); vm_compute; reflexivity.
Qed.
Lemma tx_parts : exists c, 0 < c /\ sin (tx q d) * sin (tx q d) + c * c = 1 /\ 1 / 137 <= c * (1 / 10) /\ sin (tx q d) = sin (gd q) * cosh (te q d) /\ asin (sin (gd q) * cosh (te q d)) = tx q d /\
  Rabs (cos (gd q) * cosh (te q d)) <= 14143 / 10000 * c /\ Rabs (sin (gd q) * sinh (te q d)) <= c.
Proof.
  destruct e_fact as [Q1 Q2]. destruct (sin_tx q d Hc) as [S1 C1]. pose proof (tW_pos q d Hc) as W. assert (SW := sqrt_lt_R0 _ W). assert (SS : sqrt (tW q d) * sqrt (tW q d) = tW q d) by (apply sqrt_sqrt; lra).
  pose proof (xi0_tx q d Hc) as X. unfold xi0 in X. rewrite eta0_te in X.
  assert (SX : sin (gd q) * cosh (te q d) = sin (tx q d)). { rewrite <- X, sin_asin; [reflexivity|]. rewrite <- eta0_te. apply xi0_arg. rewrite cos_gd. pose proof (te_arg q d Hc) as A. unfold Rdiv in A. rewrite Rmult_comm. exact A. }
  exists (cos (tx q d)). assert (C0 : 0 < cos (tx q d)) by (rewrite C1; apply Rdiv_lt_0_compat; lra). pose proof (sin2_cos2 (tx q d)) as SC. unfold Rsqr in SC. split; [exact C0|]. split; [exact SC|].
  pose proof (tx_sin e Q1 Q2 (B2R p) d Bp Hd Hc) as TS. fold q in TS. rewrite SX in TS.
  split. { assert (sin (tx q d) * sin (tx q d) <= 99729 / 100000 * (99729 / 100000)) by (apply Rabs_le_inv in TS; nra). nra. }
  split; [now symmetry|]. split; [exact X|]. pose proof (cosh_te q d Hc) as T. pose proof (cosh_ge_1 (te q d)) as CT. pose proof (cosh_ge_1 q) as CQ. set (w := sqrt (tW q d)) in *.
  assert (TC : cosh (te q d) = cosh q / w). { assert (CP : 0 <= cosh q / w) by (left; apply Rdiv_lt_0_compat; lra). apply Rsqr_inj; [lra|exact CP|]. unfold Rsqr. rewrite T. rewrite <- SS. field. lra. }
  assert (IW : 0 < / w) by now apply Rinv_0_lt_compat.
  split.
  - rewrite cos_gd, TC, C1. replace (/ cosh q * (cosh q / w)) with (/ w) by (field; lra). rewrite Rabs_right by lra. assert (1 <= 14143 / 10000 * cos d) by nra. replace (14143 / 10000 * (cos d / w)) with (14143 / 10000 * cos d * / w) by (field; lra). rewrite <- (Rmult_1_l (/ w)) at 1. apply Rmult_le_compat_r; lra.
  - pose proof (cosh_sq (te q d)) as CS. rewrite T in CS. assert (S2 : sinh (te q d) * sinh (te q d) = (sin d / w) * (sin d / w)). { replace (sinh (te q d) * sinh (te q d)) with (cosh q * cosh q / tW q d - 1) by lra. rewrite <- SS. replace (sin d / w * (sin d / w)) with (sin d * sin d / (w * w)) by (field; lra). rewrite sc2. pose proof (cosh_sq q) as CQ2. replace (cosh q * cosh q / (w * w) - 1) with ((cosh q * cosh q - w * w) / (w * w)) by (field; lra). f_equal. rewrite SS. unfold tW. lra. }
    assert (SA : Rabs (sinh (te q d)) <= cos d / w). { apply Rsqr_incr_0_var; [|left; apply Rdiv_lt_0_compat; lra]. unfold Rsqr. rewrite <- Rabs_mult, Rabs_right by (apply Rle_ge, Rle_0_sqr). rewrite S2. replace (sin d / w * (sin d / w)) with (sin d * sin d * (/ w * / w)) by (field; lra). replace (cos d / w * (cos d / w)) with (cos d * cos d * (/ w * / w)) by (field; lra). apply Rmult_le_compat_r; [apply Rmult_le_pos; lra|]. rewrite sc2. lra. }
    rewrite C1, Rabs_mult. assert (Rabs (sin (gd q)) <= 1) by (apply Rabs_le, SIN_bound). pose proof (Rabs_pos (sin (gd q))). pose proof (Rabs_pos (sinh (te q d))). nra.
Qed.
Lemma near_x0 : near (lm_asin lm (Bmult mode_NE (lm_sin lm be) (lm_cosh lm y0))) (tx q d) (Qmake (-16) 10) (Qmake 16 10) 0 (Qmake 1 (10 ^ 13)).
Proof.
  pose proof near_beta as NB. fold be in NB. pose proof near_y0 as NY. destruct e_fact as [Q1 Q2]. pose proof (te_cosh e Q2 (B2R p) d Hd Hc) as TC. fold q in TC. destruct tx_parts as (c & C0 & C1 & C2 & SX & TX & K1 & K2).
  pose proof (near_err _ _ _ _ _ _ NB) as EB. pose proof (near_err _ _ _ _ _ _ NY) as EY. set (b1 := B2R be) in *. set (y1 := B2R y0) in *.
  assert (EB' : Rabs (b1 - gd q) <= 8 / 10 ^ 15). { eapply Rle_trans; [exact EB|]. rewrite <- q_8_15. apply qle. vm_compute. reflexivity. }
  assert (EY' : Rabs (y1 - te q d) <= 36 / 10 ^ 15). { eapply Rle_trans; [exact EY|]. rewrite <- q_36_15. apply qle. vm_compute. reflexivity. }
  clear EB EY. pose proof (cosh_ge_1 (te q d)) as CT.
  assert (Fb : is_finite be = true) by exact (proj1 NB). assert (Fy : is_finite y0 = true) by exact (proj1 NY). pose proof (proj1 (proj2 NB)) as GB. pose proof (te_1 e Q2 (B2R p) d Hd Hc) as T1. fold q in T1. apply Rabs_le_inv in T1. replace (Q2R (Qmake (-158) 100)) with (- (158 / 100)) in GB by qr. replace (Q2R (Qmake 158 100)) with (158 / 100) in GB by qr.
  assert (CY : cosh y1 <= 1415 / 1000). { pose proof (cosh_shift (te q d) (y1 - te q d) ltac:(lra)) as CS. replace (te q d + (y1 - te q d)) with y1 in CS by ring. pose proof (Rabs_pos (y1 - te q d)). assert (102 / 100 * Rabs (y1 - te q d) * cosh (te q d) <= 102 / 100 * (36 / 10 ^ 15) * (14143 / 10000)) by (apply Rmult_le_compat; lra). apply Rabs_le_inv in CS. lra. }
  assert (NSb := near_exact be (-2) 2 Fb ltac:(fold b1; apply Rabs_le_inv in EB'; split; qr)). fold b1 in NSb. pose proof (near_sin lm AC _ _ _ _ _ _ NSb ltac:(vm_compute; reflexivity)) as NI. nnorm NI.
  assert (NSy := near_exact y0 (-2) 2 Fy ltac:(fold y1; apply Rabs_le_inv in EY'; split; qr)). fold y1 in NSy. pose proof (near_cosh lm AC _ _ _ _ _ _ (Qmake 1415 1000) NSy ltac:(vm_compute; reflexivity) ltac:(replace (Q2R (Qmake 1415 1000)) with (1415 / 1000) by qr; exact CY)) as NC. nnorm NC.
  nmul NI NC N1. pose proof (near_err _ _ _ _ _ _ N1) as E1. pose proof (proj1 N1) as F1. revert F1 E1. generalize (Bmult mode_NE (lm_sin lm be) (lm_cosh lm y0)). intros wf F1 E1.
  assert (E1' : Rabs (B2R wf - sin b1 * cosh y1) <= 3 / 10 ^ 15). { eapply Rle_trans; [exact E1|]. rewrite <- q_3_15. apply qle. vm_compute. reflexivity. } clear E1.
  rewrite SX in C1. destruct (x0_err _ _ _ _ _ c C0 C1 C2 TC K1 K2 EB' EY' E1') as [L WB].
  pose proof (atan_bound (sinh q / cos d)) as AB. pose proof PI_64_bounds as PB. rewrite TX in L.
  pose proof (near_four_abs _ _ (tx q d) (Qmake 95 (10 ^ 15)) (Qmake (-16) 10) (Qmake 16 10) (ac_asin lm AC wf F1 WB) ltac:(rewrite q_95_15; exact L) ltac:(unfold tx; replace (Q2R (Qmake (-16) 10)) with (- (16 / 10)) by qr; replace (Q2R (Qmake 16 10)) with (16 / 10) by qr; lra)) as NF. fin_near NF.
  refine (near_weak _ _ _ _ _ _ _ _ _ _ NF (proj1 (proj2 NF)) _ _); vm_compute; reflexivity.
Qed.
Let x0 := lm_asin lm (Bmult mode_NE (lm_sin lm be) (lm_cosh lm y0)).
Let h := tm_h_of (ops := O) (en (ops := O) E).
Lemma te_2 : cosh (2 * te q d) <= 32 / 10.
Proof.
  destruct e_fact as [Q1 Q2]. pose proof (te_cosh e Q2 (B2R p) d Hd Hc) as TC. fold q in TC. rewrite cosh_2x. pose proof (cosh_ge_1 (te q d)). nra.
Qed.
Lemma near_eta : near (Bplus mode_NE y0 (tm_eta_sum (ops := O) h x0 y0)) (te q d + cos_series (hs (tn a b)) (tx q d) (te q d)) (-2) 2 0 (Qmake 43 (10 ^ 15)).
Proof.
  pose proof near_y0 as NY. pose proof near_x0 as NX. fold x0 in NX. pose proof (near_weak _ _ _ _ _ _ _ _ 0 (Qmake 5 (10 ^ 14)) NY (proj1 (proj2 NY)) ltac:(vm_compute; reflexivity) ltac:(vm_compute; reflexivity)) as NY5. pose proof (near_weak _ _ _ _ _ _ _ _ 0 (Qmake 15 (10 ^ 14)) NX (proj1 (proj2 NX)) ltac:(vm_compute; reflexivity) ltac:(vm_compute; reflexivity)) as NX5. pose proof (near_eta_sum h (hs (tn a b)) (near_hs lm E a b HE) x0 y0 _ _ NX5 NY5 te_2) as NS'. nadd NY NS' N1. fin_near N1.
  refine (near_weak _ _ _ _ _ _ _ _ _ _ N1 _ _ _); [|vm_compute; reflexivity|vm_compute; reflexivity]. refine (near_in_q _ _ _ _ _ (proj1 (proj2 N1)) _ _); vm_compute; reflexivity.
Qed.
Lemma near_xi' : near (Bplus mode_NE x0 (tm_xi_sum (ops := O) h x0 y0)) (tx q d + sin_series (hs (tn a b)) (tx q d) (te q d)) (-2) 2 0 (Qmake 107 (10 ^ 15)).
Proof.
  pose proof near_y0 as NY. pose proof near_x0 as NX. fold x0 in NX. pose proof (near_weak _ _ _ _ _ _ _ _ 0 (Qmake 5 (10 ^ 14)) NY (proj1 (proj2 NY)) ltac:(vm_compute; reflexivity) ltac:(vm_compute; reflexivity)) as NY5. pose proof (near_weak _ _ _ _ _ _ _ _ 0 (Qmake 15 (10 ^ 14)) NX (proj1 (proj2 NX)) ltac:(vm_compute; reflexivity) ltac:(vm_compute; reflexivity)) as NX5. pose proof (near_xi_sum h (hs (tn a b)) (near_hs lm E a b HE) x0 y0 _ _ NX5 NY5 te_2) as NS'. nadd NX NS' N1. fin_near N1.
  refine (near_weak _ _ _ _ _ _ _ _ _ _ N1 _ _ _); [|vm_compute; reflexivity|vm_compute; reflexivity]. refine (near_in_q _ _ _ _ _ (proj1 (proj2 N1)) _ _); vm_compute; reflexivity.
Qed.
End D.
End P.
End E.
End F.
