(** Binary64: the transverse Mercator map. *)
From Coq Require Import ZArith Reals QArith Qreals Lra Lia Bool Psatz List.
From Flocq Require Import Core IEEE754.BinarySingleNaN.
From Verif.Num Require Import FOps RFun XR XRLemmas F64 F64Lemmas PIBounds Near.
From Verif.Model Require Import Fp Quantities Cs Ellipsoid Geodesics Projections.
From Verif.Spec Require Import Angles Axes Shape Maps Series Accurate Binary64 Maps64.
From Verif.Proofs Require Import AnglesX AnglesF EllX MathX ProjX MercX MercInv TMX TMInv TMConf NearX NearL LlhF LlhInvG TransB CtorF NearT MapF MercF MercG NearH.
Import ListNotations.
Local Open Scope R_scope.

(** ** Exact bounds *)
Lemma tan_84 p : Rabs p <= 84 * PI / 180 -> Rabs (tan p) <= 957 / 100.
Proof.
  assert (PB := PI_64_bounds).
  assert (K : forall q, 0 <= q <= 84 * PI / 180 -> 0 <= tan q <= 957 / 100).
  { intros q Q. set (r := PI / 2 - q). assert (R0 : PI / 30 <= r <= PI / 2) by (unfold r; lra). assert (SR : 1045 / 10000 <= sin r).
    { apply Rle_trans with (sin (PI / 30)); [|apply sin_incr_1; lra]. destruct (SIN (PI / 30)) as [L _]; [lra|lra|]. unfold sin_lb, sin_approx, sin_term in L. cbn in L. set (z := PI / 30) in *. assert (Z1 : 10471 / 100000 <= z <= 10473 / 100000) by (unfold z; lra). assert (Z2 : 0 <= z * z <= 11 / 1000) by nra. assert (Z3 : 0 <= z * (z * z) <= 1149 / 1000000) by nra. assert (Z4 : 0 <= z * z * (z * (z * z)) <= 11 / 1000 * (1149 / 1000000)) by (split; [apply Rmult_le_pos; lra|apply Rmult_le_compat; lra]). assert (Z6 : 0 <= z * z * (z * z) <= 11 / 1000 * (11 / 1000)) by (split; [apply Rmult_le_pos; lra|apply Rmult_le_compat; lra]). assert (Z5 : z * (z * z) * (z * z * (z * z)) <= 1149 / 1000000 * (11 / 1000 * (11 / 1000))) by (apply Rmult_le_compat; lra). lra. }
    assert (CR : 0 <= cos r <= 1) by (split; [apply cos_ge_0; lra|apply COS_bound]). assert (TQ : tan q = cos r / sin r) by (unfold tan, r; rewrite cos_shift, sin_shift; reflexivity). rewrite TQ.
    split; [apply Rmult_le_pos; [lra|left; apply Rinv_0_lt_compat; lra]|]. apply (Rmult_le_reg_r (sin r)); [lra|]. unfold Rdiv. rewrite Rmult_assoc, Rinv_l by lra. lra. }
  intros H. apply Rabs_le_inv in H. destruct (Rle_or_lt 0 p) as [P|P].
  - rewrite Rabs_right; [apply K; lra|]. apply Rle_ge, K. lra.
  - pose proof (K (- p) ltac:(lra)) as L. rewrite tan_neg in L. rewrite Rabs_left1; lra.
Qed.
Lemma exp_1 : 268 / 100 <= exp 1.
Proof.
  assert (D : forall x u v, u <= exp x -> 0 <= u -> v <= u * u -> v <= exp (2 * x)). { intros x u v X U V. replace (2 * x) with (x + x) by ring. rewrite exp_plus. apply Rle_trans with (u * u); [exact V|]. apply Rmult_le_compat; lra. }
  pose proof (exp_ineq1_le (/ 64)) as E0. pose proof (D (/ 64) (65 / 64) (10314 / 10000) ltac:(lra) ltac:(lra) ltac:(lra)) as E1. pose proof (D _ _ (10637 / 10000) E1 ltac:(lra) ltac:(lra)) as E2. pose proof (D _ _ (11314 / 10000) E2 ltac:(lra) ltac:(lra)) as E3. pose proof (D _ _ (128 / 100) E3 ltac:(lra) ltac:(lra)) as E4. pose proof (D _ _ (1638 / 1000) E4 ltac:(lra) ltac:(lra)) as E5. pose proof (D _ _ (268 / 100) E5 ltac:(lra) ltac:(lra)) as E6.
  replace (2 * (2 * (2 * (2 * (2 * (2 * / 64)))))) with 1 in E6 by field. exact E6.
Qed.
Lemma sinh_3 : 958 / 100 <= sinh 3.
Proof.
  pose proof exp_1 as E6. assert (E7 : 1923 / 100 <= exp 3). { replace 3 with (1 + 1 + 1) by lra. rewrite !exp_plus. set (w := exp 1) in *. assert (268 / 100 * (268 / 100) <= w * w) by (apply Rmult_le_compat; lra). assert (268 / 100 * (268 / 100) * (268 / 100) <= w * w * w) by (apply Rmult_le_compat; lra). lra. }
  unfold sinh. rewrite exp_Ropp. assert (/ exp 3 <= / (1923 / 100)) by (apply Rinv_le_contravar; lra). lra.
Qed.
Lemma sinh_incr x y : x <= y -> sinh x <= sinh y.
Proof. intros [H|<-]; [|lra]. assert (exp x < exp y) by now apply exp_increasing. assert (exp (- y) < exp (- x)) by (apply exp_increasing; lra). unfold sinh. lra. Qed.
Lemma sinh_abs x : Rabs (sinh x) = sinh (Rabs x).
Proof.
  assert (Z : sinh 0 = 0) by (unfold sinh; rewrite Ropp_0; lra). unfold Rabs at 2. destruct (Rcase_abs x) as [H|H].
  - rewrite Rabs_left1; [unfold sinh; rewrite Ropp_involutive; field|]. rewrite <- Z. apply sinh_incr. lra.
  - rewrite Rabs_right; [reflexivity|]. rewrite <- Z. apply Rle_ge, sinh_incr. lra.
Qed.
Lemma isom_84 p : Rabs p <= 84 * PI / 180 -> Rabs (isom p) <= 3.
Proof.
  intros H. assert (NP : nonpolar p) by (apply Rabs_le_inv in H; pose proof PI_RGT_0; unfold nonpolar; lra). rewrite <- (isom_arcsinh p NP). pose proof (tan_84 p H) as T. pose proof sinh_3 as S3. destruct (Rle_or_lt (Rabs (arcsinh (tan p))) 3) as [L|L]; [exact L|exfalso].
  rewrite <- (sinh_arcsinh (tan p)), sinh_abs in T. pose proof (sinh_incr 3 (Rabs (arcsinh (tan p)))). lra.
Qed.
Section Q.
Context (e : R) (He : 0 <= e < 1) (HE2 : 0 <= e * e <= / 50) (p d : R) (Hp : Rabs p <= 84 * PI / 180) (Hd : / 2 <= cos d * cos d) (Hc : 0 < cos d).
Let q := isom_e e p.
Lemma np_84 : nonpolar p. Proof. pose proof PI_RGT_0. apply Rabs_le_inv in Hp. unfold nonpolar. lra. Qed.
Lemma q_le : Rabs q <= Rabs (isom p).
Proof. exact (isom_e_le e He HE2 p np_84). Qed.
Lemma q_3 : Rabs q <= 3.
Proof. eapply Rle_trans; [exact q_le|apply isom_84, Hp]. Qed.
Lemma sinh_q : Rabs (sinh q) <= 957 / 100.
Proof.
  apply Rle_trans with (Rabs (tan p)); [|apply tan_84, Hp]. rewrite sinh_abs, <- (sinh_arcsinh (tan p)), sinh_abs. apply sinh_incr. rewrite (isom_arcsinh p np_84). exact q_le.
Qed.
Lemma te_cosh : cosh (te q d) <= 14143 / 10000.
Proof.
  pose proof (cosh_te q d Hc) as T. pose proof (cosh_sq q) as C. pose proof (tW_pos q d Hc) as W. assert (L : cosh (te q d) * cosh (te q d) <= 2). { rewrite T. apply (Rmult_le_reg_r (tW q d)); [exact W|]. unfold Rdiv. rewrite Rmult_assoc, Rinv_l by lra. unfold tW in *. nra. }
  pose proof (cosh_ge_1 (te q d)). nra.
Qed.
Lemma tx_sin : Rabs (sin (gd q) * cosh (te q d)) <= 99729 / 100000.
Proof.
  pose proof (xi0_tx q d Hc) as X. unfold xi0 in X. rewrite eta0_te in X.
  assert (SX : sin (gd q) * cosh (te q d) = sin (tx q d)). { rewrite <- X, sin_asin; [reflexivity|]. rewrite <- eta0_te. apply xi0_arg. rewrite cos_gd. pose proof (te_arg q d Hc) as A. unfold Rdiv in A. rewrite Rmult_comm. exact A. }
  rewrite SX. destruct (sin_tx q d Hc) as [S1 _]. rewrite S1. pose proof (tW_pos q d Hc) as W. assert (SW := sqrt_lt_R0 _ W). assert (SS : sqrt (tW q d) * sqrt (tW q d) = tW q d) by (apply sqrt_sqrt; lra). set (w := sqrt (tW q d)) in *. pose proof sinh_q as Q. pose proof (Rabs_pos (sinh q)) as P. assert (QQ : Rabs (sinh q) * Rabs (sinh q) = sinh q * sinh q) by (rewrite <- Rabs_mult; apply Rabs_right; nra).
  unfold Rdiv. rewrite Rabs_mult, Rabs_inv, (Rabs_right w) by lra. apply (Rmult_le_reg_r w); [exact SW|]. rewrite Rmult_assoc, Rinv_l, Rmult_1_r by lra. unfold tW in SS. set (h := Rabs (sinh q)) in *.
  assert (H2 : h * h <= 9158490 / 100000) by nra. destruct (Rle_or_lt h (99729 / 100000 * w)) as [L|L]; [exact L|exfalso]. assert (99729 / 100000 * w * (99729 / 100000 * w) < h * h) by (apply Rmult_le_0_lt_compat; nra). nra.
Qed.
Lemma te_arg7 : Rabs (cos (gd q) * sin d) <= 7072 / 10000.
Proof.
  rewrite cos_gd, Rabs_mult. pose proof (cosh_ge_1 q) as C. assert (I1 : 0 < / cosh q <= 1) by (split; [apply Rinv_0_lt_compat; lra|apply Rle_trans with (/ 1); [apply Rinv_le_contravar; lra|lra]]). rewrite (Rabs_right (/ cosh q)) by lra. pose proof (sc2 d) as S2. assert (Rabs (sin d) <= 7072 / 10000). { destruct (Rle_or_lt (Rabs (sin d)) (7072 / 10000)) as [L|L]; [exact L|exfalso]. assert (Rabs (sin d) * Rabs (sin d) = sin d * sin d) by (rewrite <- Rabs_mult; apply Rabs_right; nra). nra. }
  pose proof (Rabs_pos (sin d)). nra.
Qed.
Lemma te_1 : Rabs (te q d) <= 1.
Proof.
  pose proof te_cosh as C. set (y := te q d) in *. destruct (Rle_or_lt (Rabs y) 1) as [L|L]; [exact L|exfalso]. assert (CY : cosh y = cosh (Rabs y)) by (unfold Rabs; destruct Rcase_abs; [unfold cosh; rewrite Ropp_involutive; field|reflexivity]). rewrite CY in C. set (z := Rabs y) in *.
  assert (K : sinh 1 <= sinh z) by (apply sinh_incr; lra). assert (K2 : 11 / 10 <= sinh 1). { pose proof exp_1 as E. unfold sinh. rewrite exp_Ropp. assert (/ exp 1 <= / (268 / 100)) by (apply Rinv_le_contravar; lra). lra. }
  pose proof (cosh_sq z) as S. pose proof (cosh_ge_1 z). nra.
Qed.
End Q.
Lemma cosh_2x x : cosh (2 * x) = 2 * (cosh x * cosh x) - 1.
Proof. pose proof (cosh_sq x). replace (2 * x) with (x + x) by ring. rewrite cosh_add. lra. Qed.
Lemma cosh_many y : cosh (2 * y) <= 32 / 10 -> cosh (4 * y) <= 195 / 10 /\ cosh (6 * y) <= 122 /\ cosh (8 * y) <= 760.
Proof.
  intros H. pose proof (cosh_ge_1 (2 * y)) as C0. set (c := cosh (2 * y)) in *. assert (C2 : c * c <= 1024 / 100) by nra.
  assert (C4 : cosh (4 * y) = 2 * (c * c) - 1) by (replace (4 * y) with (2 * (2 * y)) by ring; apply cosh_2x).
  assert (C6 : cosh (6 * y) = 4 * (c * c) * c - 3 * c). { replace (6 * y) with (2 * (2 * y) + 2 * y) by ring. rewrite cosh_add, cosh_2x. fold c. replace (2 * (2 * y)) with (2 * y + 2 * y) by ring. rewrite sinh_add. fold c. pose proof (cosh_sq (2 * y)) as S. fold c in S. replace ((sinh (2 * y) * c + c * sinh (2 * y)) * sinh (2 * y)) with (2 * c * (sinh (2 * y) * sinh (2 * y))) by ring. replace (sinh (2 * y) * sinh (2 * y)) with (c * c - 1) by lra. ring. }
  assert (C8 : cosh (8 * y) = 2 * (cosh (4 * y) * cosh (4 * y)) - 1) by (replace (8 * y) with (2 * (4 * y)) by ring; apply cosh_2x).
  pose proof (cosh_ge_1 (4 * y)). assert (cosh (4 * y) <= 195 / 10) by lra. split; [assumption|]. split; [rewrite C6; nra|rewrite C8; nra].
Qed.

(** ** Binary64 *)
Section F.
Context (lm : libm) (AC : accurate lm).
Local Notation O := (F64ops lm).
Ltac fin_near H := apply near_abs in H; nnorm H.
(** The coefficients. *)
Definition near4 (h : f64 * f64 * f64 * f64) (H : R * R * R * R) : Prop :=
  let '(h1, h2, h3, h4) := h in let '(H1, H2, H3, H4) := H in
  near h1 H1 0 (Qmake 26 (10 ^ 4)) 0 (Qmake 4 (10 ^ 18)) /\ near h2 H2 0 (Qmake 7 (10 ^ 6)) 0 (Qmake 1 (10 ^ 19)) /\
  near h3 H3 0 (Qmake 4 (10 ^ 8)) 0 (Qmake 1 (10 ^ 20)) /\ near h4 H4 0 (Qmake 25 (10 ^ 11)) 0 (Qmake 1 (10 ^ 20)).
Section E.
Context (E : Ellipsoid f64) (a b : R) (HE : earth64 E a b).
Lemma tn_b : 0 <= tn a b <= 503 / 100000.
Proof. destruct HE as (_ & _ & _ & B1 & B2 & B3 & B4). unfold tn. split; [apply Rmult_le_pos; [lra|left; apply Rinv_0_lt_compat; lra]|]. apply (Rmult_le_reg_r (a + b)); [lra|]. unfold Rdiv at 1. rewrite Rmult_assoc, Rinv_l by lra. lra. Qed.
Lemma near_n : near (en (ops := O) E) (tn a b) 0 (Qmake 503 100000) (Qmake 5 (2 ^ 53)) (Qmake 1 (2 ^ 80)).
Proof.
  destruct (near_axes E a b HE) as [NA NB]. pose proof tn_b as TB. unfold en. cbn [fsub fadd fdiv F64ops].
  nsub NA NB N1. nadd NA NB N2.
  apply (near_range _ _ _ _ _ _ 0 64001) in N1; [|destruct HE as (_ & _ & _ & B1 & B2 & B3 & B4); rewrite q0; replace (Q2R 64001) with 64001 by qr; lra].
  ndiv N1 N2 N3. apply (near_range _ _ _ _ _ _ 0 (Qmake 503 100000)) in N3; [|rewrite q0; replace (Q2R (Qmake 503 100000)) with (503 / 100000) by qr; exact TB]. fold (tn a b) in N3.
  refine (near_weak _ _ _ _ _ _ _ _ _ _ N3 (proj1 (proj2 N3)) _ _); vm_compute; reflexivity.
Qed.
Ltac h_end K P := match type of K with near _ ?T _ _ _ _ => replace T with P in K by (repeat rewrite polynomial_cons; change (polynomial nil) with (fun _ : R => 0); cbv beta; field) end;
  refine (near_weak _ _ _ _ _ _ _ _ _ _ K _ _ _); [|vm_compute; reflexivity|vm_compute; reflexivity]; repeat rewrite polynomial_cons; change (polynomial nil) with (fun _ : R => 0); cbv beta; rewrite q0; match goal with |- _ <= _ <= Q2R ?q => let v := eval vm_compute in (Qnum q) in let w := eval vm_compute in (Zpos (Qden q)) in replace (Q2R q) with (IZR v / IZR w) by (unfold Q2R; cbn; lra) end; lra.
Lemma near_hs : near4 (tm_h_of (ops := O) (en (ops := O) E)) (hs (tn a b)).
Proof.
  pose proof near_n as NN. pose proof tn_b as TB. unfold tm_h_of, hs, near4, fast_eval_at. cbn [rev app fold_left fneg fdiv F64ops ffma fofZ flit]. unfold f64_lit. revert NN. generalize (en (ops := O) E). intros n NN. set (x := tn a b) in *. clearbody x. change (10 ^ 1)%Z with 10%Z.
  nZ 0%Z ZO. nZ 2%Z Z2. nZ 3%Z Z3. nZ 5%Z Z5. nZ 10%Z Z10. nZ 16%Z Z16. nZ 41%Z Z41. nZ 180%Z Z180. nZ 13%Z Z13. nZ 48%Z Z48. nZ 557%Z Z557. nZ 1440%Z Z1440. nZ 61%Z Z61. nZ 240%Z Z240. nZ 103%Z Z103. nZ 140%Z Z140. nZ 49561%Z ZA. nZ 161280%Z ZB.
  assert (P2 : 0 <= x * x <= 254 / 10 ^ 7) by nra. assert (P3 : 0 <= x * x * x <= 128 / 10 ^ 9) by nra. assert (P4 : 0 <= x * x * x * x <= 65 / 10 ^ 11) by nra. assert (L2 : x * x <= 503 / 100000 * x) by nra. assert (L3 : x * x * x <= 503 / 100000 * (x * x)) by nra. assert (L4 : x * x * x * x <= 503 / 100000 * (x * x * x)) by nra.
  apply near_opp in Z2. apply near_opp in Z103. pose proof Z3 as Z3'. apply near_opp in Z3'.
  split; [|split; [|split]].
  - ndiv Z5 Z10 D1. ndiv Z2 Z3 D2. ndiv Z5 Z16 D3. ndiv Z41 Z180 D4. nfma ZO NN D4 H4. nfma H4 NN D3 H3. nfma H3 NN D2 H2. nfma H2 NN D1 H1. nfma H1 NN ZO K. fin_near K. h_end K (polynomial [0; / 2; - 2 / 3; 5 / 16; 41 / 180] x).
  - ndiv Z13 Z48 D2. ndiv Z3' Z5 D3. ndiv Z557 Z1440 D4. nfma ZO NN D4 H4. nfma H4 NN D3 H3. nfma H3 NN D2 H2. nfma H2 NN ZO H1. nfma H1 NN ZO K. fin_near K. h_end K (polynomial [0; 0; 13 / 48; - 3 / 5; 557 / 1440] x).
  - ndiv Z61 Z240 D3. ndiv Z103 Z140 D4. nfma ZO NN D4 H4. nfma H4 NN D3 H3. nfma H3 NN ZO H2. nfma H2 NN ZO H1. nfma H1 NN ZO K. fin_near K. h_end K (polynomial [0; 0; 0; 61 / 240; - 103 / 140] x).
  - ndiv ZA ZB D4. nfma ZO NN D4 H4. nfma H4 NN ZO H3. nfma H3 NN ZO H2. nfma H2 NN ZO H1. nfma H1 NN ZO K. fin_near K. h_end K (polynomial [0; 0; 0; 0; 49561 / 161280] x).
Qed.
Lemma near_hps : near4 (tm_h_p_of (ops := O) (en (ops := O) E)) (hps (tn a b)).
Proof.
  pose proof near_n as NN. pose proof tn_b as TB. unfold tm_h_p_of, hps, near4, fast_eval_at. cbn [rev app fold_left fneg fdiv F64ops ffma fofZ flit]. unfold f64_lit. revert NN. generalize (en (ops := O) E). intros n NN. set (x := tn a b) in *. clearbody x. change (10 ^ 1)%Z with 10%Z.
  nZ 0%Z ZO. nZ 1%Z Z1. nZ 2%Z Z2. nZ 3%Z Z3. nZ 5%Z Z5. nZ 10%Z Z10. nZ 37%Z Z37. nZ 96%Z Z96. nZ 360%Z Z360. nZ 48%Z Z48. nZ 15%Z Z15. nZ 437%Z Z437. nZ 1440%Z Z1440. nZ 17%Z Z17. nZ 480%Z Z480. nZ 840%Z Z840. nZ 4397%Z ZA. nZ 161280%Z ZB.
  assert (P2 : 0 <= x * x <= 254 / 10 ^ 7) by nra. assert (P3 : 0 <= x * x * x <= 128 / 10 ^ 9) by nra. assert (P4 : 0 <= x * x * x * x <= 65 / 10 ^ 11) by nra. assert (L2 : x * x <= 503 / 100000 * x) by nra. assert (L3 : x * x * x <= 503 / 100000 * (x * x)) by nra. assert (L4 : x * x * x * x <= 503 / 100000 * (x * x * x)) by nra.
  apply near_opp in Z2. pose proof Z1 as Z1'. apply near_opp in Z1'. apply near_opp in Z437. pose proof Z37 as Z37'. apply near_opp in Z37'.
  split; [|split; [|split]].
  - ndiv Z5 Z10 D1. ndiv Z2 Z3 D2. ndiv Z37 Z96 D3. ndiv Z1' Z360 D4. nfma ZO NN D4 H4. nfma H4 NN D3 H3. nfma H3 NN D2 H2. nfma H2 NN D1 H1. nfma H1 NN ZO K. fin_near K. h_end K (polynomial [0; / 2; - 2 / 3; 37 / 96; - 1 / 360] x).
  - ndiv Z1 Z48 D2. ndiv Z1 Z15 D3. ndiv Z437 Z1440 D4. nfma ZO NN D4 H4. nfma H4 NN D3 H3. nfma H3 NN D2 H2. nfma H2 NN ZO H1. nfma H1 NN ZO K. fin_near K. h_end K (polynomial [0; 0; / 48; / 15; - 437 / 1440] x).
  - ndiv Z17 Z480 D3. ndiv Z37' Z840 D4. nfma ZO NN D4 H4. nfma H4 NN D3 H3. nfma H3 NN ZO H2. nfma H2 NN ZO H1. nfma H1 NN ZO K. fin_near K. h_end K (polynomial [0; 0; 0; 17 / 480; - 37 / 840] x).
  - ndiv ZA ZB D4. nfma ZO NN D4 H4. nfma H4 NN ZO H3. nfma H3 NN ZO H2. nfma H2 NN ZO H1. nfma H1 NN ZO K. fin_near K. h_end K (polynomial [0; 0; 0; 0; 4397 / 161280] x).
Qed.
Lemma near_B : near (tm_B_of (ops := O) (e_a E) (en (ops := O) E)) (tB a b) 6200000 6420000 (Qmake 10 (2 ^ 53)) (Qmake 1 (2 ^ 60)).
Proof.
  pose proof near_n as NN. pose proof tn_b as TB. destruct (near_axes E a b HE) as [NA _]. assert (AB : 6300000 <= a <= 6400000) by (destruct HE as (_ & _ & _ & B1 & B2 & B3 & B4); lra). unfold tm_B_of, tB, rectify, fast_eval_at, length_scale. cbn [rev app fold_left fneg fdiv fmul fadd F64ops ffma fofZ flit]. unfold f64_lit. revert NN. generalize (en (ops := O) E). intros n NN. set (x := tn a b) in *. clearbody x. change (10 ^ 2)%Z with 100%Z.
  nZ 0%Z ZO. nZ 1%Z Z1. nZ 25%Z Z25. nZ 100%Z Z100. nZ 64%Z Z64. ndiv Z25 Z100 D2. ndiv Z1 Z64 D4. nfma ZO NN D4 H4. nfma H4 NN ZO H3. nfma H3 NN D2 H2. nfma H2 NN ZO H1. nfma H1 NN Z1 H0. nadd Z1 NN N8. ndiv NA N8 N9. nrel H0. nmul H0 N9 K. nrel K.
  match type of K with near _ ?T _ _ _ _ => replace T with (a / (1 + x) * polynomial [1; 0; / 4; 0; / 64] x) in K by (repeat rewrite polynomial_cons; change (polynomial nil) with (fun _ : R => 0); cbv beta; field; lra) end.
  refine (near_weak _ _ _ _ _ _ _ _ _ _ K _ _ _); [|vm_compute; reflexivity|vm_compute; reflexivity]. pose proof (proj1 (proj2 K)) as B. match type of B with Q2R ?u <= _ <= Q2R ?v => assert (Q2R 6200000 <= Q2R u) by (apply qle; vm_compute; reflexivity); assert (Q2R v <= Q2R 6420000) by (apply qle; vm_compute; reflexivity) end. lra.
Qed.
End E.
End F.
