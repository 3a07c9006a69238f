(** Binary64: parameters, radii and auxiliary latitudes of ellipsoids. *)
From Coq Require Import ZArith Reals QArith Qreals Lra Lia Bool Psatz List.
From Flocq Require Import Core IEEE754.BinarySingleNaN.
From Verif.Num Require Import FOps RFun XR XRLemmas F64 F64Lemmas PIBounds Near.
From Verif.Model Require Import Fp Quantities Cs Ellipsoid Geodesics Projections.
From Verif.Spec Require Import Angles Axes Shape Maps Accurate Binary64 Maps64 Ellipsoid64.
From Verif.Proofs Require Import AnglesX AnglesF EllX ProjX MercX MercInv NearX NearL LlhF LlhInvG TransB CtorF NearT MapF MercF TMX TMNear MathF Lines64A.
Import ListNotations.
Local Open Scope R_scope.
Ltac qr := unfold Q2R; cbn; lra.
Ltac fin_near H := apply near_abs in H; nnorm H.

Lemma off_near x X lo hi d e E : near x X lo hi d e -> Q2R (e + d * mag lo hi) <= E -> off64 x X E.
Proof. intros N H. split; [apply N|]. pose proof (near_err _ _ _ _ _ _ N). lra. Qed.
Lemma q_u (k : Z) : Q2R (Qmake k (2 ^ 53)) = IZR k * / 2 ^ 53.
Proof. rewrite q2r_make. unfold Rdiv. f_equal. f_equal. now rewrite pow_IZR. Qed.
Ltac offu N k := apply (off_near _ _ _ _ _ _ _ N); match type of N with near _ _ ?lo ?hi ?d ?e => apply Rle_trans with (Q2R (Qmake k (2 ^ 53))); [apply qle; vm_compute; reflexivity|rewrite q_u] end.

Section E.
Context (lm : libm) (E : Ellipsoid f64) (a b : R) (HE : earth64 E a b).
Local Notation O := (F64ops lm).

Lemma ax : 0 < b /\ b < a /\ 0 < a. Proof. destruct HE as (_ & _ & _ & B1 & B2 & B3 & B4). lra. Qed.
Lemma f_range : 0 <= (a - b) / a <= / 100.
Proof. destruct HE as (_ & _ & _ & B1 & B2 & B3 & B4). split; [apply Rmult_le_pos; [lra|left; apply Rinv_0_lt_compat; lra]|]. apply (Rmult_le_reg_r a); [lra|]. replace ((a - b) / a * a) with (a - b) by (field; lra). lra. Qed.
Lemma near_f : flat64 E a b -> near (ef (ops := O) E) ((a - b) / a) 0 (Qmake 1 100) 0 (Qmake 5 (2 ^ 53)).
Proof.
  intros (FI & I1 & FL). pose proof f_range as FR. pose proof u_pos as U. assert (U2 : / 2 ^ 51 = 4 * / 2 ^ 53) by (replace (2 ^ 53) with (4 * 2 ^ 51) by (change (2 ^ 53) with (2 * (2 * 2 ^ 51)); ring); field). rewrite U2 in FL. set (u := / 2 ^ 53) in *.
  unfold ef. change (fofZ (FOps := O) 1) with (f64_ofZ 1). cbn [fdiv F64ops]. destruct one_val as [O1 O2]. assert (IP : 0 < / B2R (e_invf E) < 1) by (split; [apply Rinv_0_lt_compat; lra|rewrite <- Rinv_1; apply Rinv_lt_contravar; lra]).
  assert (ID : B2R (f64_ofZ 1) / B2R (e_invf E) = / B2R (e_invf E)) by (rewrite O1; unfold Rdiv; ring).
  destruct (f64_div (f64_ofZ 1) (e_invf E) O2) as [V F]; [lra| |].
  { rewrite ID, Rabs_pos_eq by lra. apply Rle_trans with 1; [lra|]. change 1 with (bpow radix2 0). apply bpow_le. lia. }
  pose proof (rnd_error (B2R (f64_ofZ 1) / B2R (e_invf E))) as R. rewrite <- V, ID, u_val, (Rabs_pos_eq (/ B2R (e_invf E))) in R by lra. fold u in R.
  assert (ET : bpow radix2 (-1075) <= u / 100). { apply Rle_trans with (bpow radix2 (-60)); [apply bpow_le; lia|]. unfold u. rewrite <- u_val. change (bpow radix2 (-60)) with (bpow radix2 (-53 + -7)). rewrite bpow_plus. change (bpow radix2 (-7)) with (/ 128). pose proof (bpow_gt_0 radix2 (-53)). lra. }
  assert (UB : u * / B2R (e_invf E) <= u * (1 / 50)). { apply Rmult_le_compat_l; [lra|]. apply Rabs_le_inv in FL. assert (u <= / 1000). { unfold u. apply Rinv_le_contravar; [lra|cbn; lra]. } lra. }
  split; [exact F|]. rewrite q0, q_u. fold u. replace (Q2R (Qmake 1 100)) with (/ 100) by qr. split; [lra|]. split; [lra|]. split; [lra|]. apply Rabs_le_inv in R, FL. apply Rabs_le. lra.
Qed.
Lemma near_omf : flat64 E a b -> near (Bminus mode_NE (f64_ofZ 1) (ef (ops := O) E)) (b / a) (Qmake 99 100) 1 (Qmake 7 (2 ^ 53)) 0.
Proof.
  intros FL. pose proof (near_f FL) as N. nZ 1%Z N1. nsub N1 N N2. pose proof f_range as FR. pose proof ax as AX. nrel N2. apply (near_eq _ _ (b / a)) in N2; [|field; lra].
  refine (near_weak _ _ _ _ _ _ _ _ _ _ N2 _ _ _); [|vm_compute; reflexivity|vm_compute; reflexivity]. rewrite q1. replace (Q2R (Qmake 99 100)) with (99 / 100) by qr. replace ((a - b) / a) with (1 - b / a) in FR by (field; lra). lra.
Qed.
Lemma near_ome : near (Bminus mode_NE (f64_ofZ 1) (e_sq (ops := O) E)) (b * b / (a * a)) (Qmake 98 100) 1 (Qmake 3 (2 ^ 53)) 0.
Proof.
  pose proof (near_e2 lm E a b HE) as N. nZ 1%Z N1. nsub N1 N N2. pose proof ax as AX. nrel N2. apply (near_eq _ _ (b * b / (a * a))) in N2; [|field; lra].
  refine (near_weak _ _ _ _ _ _ _ _ _ _ N2 _ _ _); [|vm_compute; reflexivity|vm_compute; reflexivity]. rewrite q1. replace (Q2R (Qmake 98 100)) with (98 / 100) by qr. pose proof f_range as FR. replace ((a - b) / a) with (1 - b / a) in FR by (field; lra). replace (b * b / (a * a)) with (b / a * (b / a)) by (field; lra). set (k := b / a) in *.
  assert (99 / 100 * (99 / 100) <= k * k) by (apply Rmult_le_compat; lra). assert (k * k <= 1 * 1) by (apply Rmult_le_compat; lra). lra.
Qed.

(** ** The parameters *)
Lemma ep_range : 0 <= (a * a - b * b) / (b * b) <= 204 / 10000.
Proof.
  destruct HE as (_ & _ & _ & B1 & B2 & B3 & B4). assert (BB : 0 < b * b) by (apply Rmult_lt_0_compat; lra). assert (AB : b * b <= a * a) by (apply Rmult_le_compat; lra). split; [apply Rmult_le_pos; [lra|left; now apply Rinv_0_lt_compat]|].
  apply (Rmult_le_reg_r (b * b)); [exact BB|]. replace ((a * a - b * b) / (b * b) * (b * b)) with (a * a - b * b) by (field; lra). assert (99 * a * (99 * a) <= 100 * b * (100 * b)) by (apply Rmult_le_compat; lra). lra.
Qed.
Lemma near_ep2 : near (e_prime_sq (ops := O) E) ((a * a - b * b) / (b * b)) 0 (Qmake 204 10000) 0 (Qmake 3 (2 ^ 53)) /\ 0 <= B2R (e_prime_sq (ops := O) E).
Proof.
  destruct (near_axes E a b HE) as [NA NB]. pose proof ep_range as ER. destruct HE as ((F1 & V1) & (F2 & V2) & _ & B1 & B2 & B3 & B4). unfold e_prime_sq, a_sq, b_sq. cbn [fsub fmul fdiv F64ops].
  nmul NA NA N1. nmul NB NB N2. nsub N1 N2 N3. assert (BB : 0 < b * b) by (apply Rmult_lt_0_compat; lra). assert (AB : b * b <= a * a) by (apply Rmult_le_compat; lra).
  assert (D : Q2R 0 <= a * a - b * b <= Q2R 840000000000). { rewrite q0. replace (Q2R 840000000000) with 840000000000 by qr. split; [lra|]. assert (a * a <= 6400000 * 6400000) by (apply Rmult_le_compat; lra). apply (Rmult_le_reg_r (/ (b * b))); [now apply Rinv_0_lt_compat|]. apply Rle_trans with (204 / 10000); [exact (proj2 ER)|]. apply (Rmult_le_reg_r (b * b)); [exact BB|]. rewrite Rmult_assoc, Rinv_l by lra. assert (b * b <= 6400000 * 6400000) by (apply Rmult_le_compat; lra). lra. }
  apply (near_range _ _ _ _ _ _ _ _ N3) in D. ndiv D N2 N4. split.
  - fin_near N4. refine (near_weak _ _ _ _ _ _ _ _ _ _ N4 _ _ _); [|vm_compute; reflexivity|vm_compute; reflexivity]. rewrite q0. replace (Q2R (Qmake 204 10000)) with (204 / 10000) by qr. exact ER.
  - assert (M1 : Rabs (B2R (e_a E) * B2R (e_a E)) <= bpow radix2 1023). { rewrite V1, Rabs_pos_eq by lra. apply Rle_trans with (bpow radix2 60); [|apply bpow_le; lia]. apply Rle_trans with (6400000 * 6400000); [apply Rmult_le_compat; lra|cbn; lra]. }
    assert (M2 : Rabs (B2R (e_b E) * B2R (e_b E)) <= bpow radix2 1023). { rewrite V2, Rabs_pos_eq by lra. apply Rle_trans with (bpow radix2 60); [|apply bpow_le; lia]. apply Rle_trans with (6400000 * 6400000); [apply Rmult_le_compat; lra|cbn; lra]. }
    destruct (f64_mult _ _ F1 F1 M1) as [E1 G1]. destruct (f64_mult _ _ F2 F2 M2) as [E2 G2].
    assert (MO : B2R (Bmult mode_NE (e_b E) (e_b E)) <= B2R (Bmult mode_NE (e_a E) (e_a E))) by (rewrite E1, E2, V1, V2; apply round_le; [apply FLT_exp_valid; reflexivity|apply valid_rnd_N|exact AB]).
    apply div_sgn; [exact (proj1 N4)| |apply (near_pos _ _ _ _ _ _ N2); vm_compute; reflexivity].
    destruct (f64_minus _ _ G1 G2) as [E3 G3]. { pose proof (near_err _ _ _ _ _ _ N1) as K1. pose proof (near_err _ _ _ _ _ _ N2) as K2. apply Rle_trans with (Q2R (2 ^ 60)); [|replace (Q2R (2 ^ 60)) with (bpow radix2 60) by qr; apply bpow_le; lia].
      assert (Q1 : forall lo hi d e, Qle_bool (e + d * mag lo hi) 1000000 = true -> Q2R (e + d * mag lo hi) <= 1000000) by (intros lo hi d e C; apply qle in C; replace (Q2R 1000000) with 1000000 in C by qr; exact C).
      assert (J1 : Rabs (B2R (Bmult mode_NE (e_a E) (e_a E)) - a * a) <= 1000000) by (eapply Rle_trans; [exact K1|apply Q1; vm_compute; reflexivity]). assert (J2 : Rabs (B2R (Bmult mode_NE (e_b E) (e_b E)) - b * b) <= 1000000) by (eapply Rle_trans; [exact K2|apply Q1; vm_compute; reflexivity]). clear K1 K2. replace (Q2R (2 ^ 60)) with 1152921504606846976 by qr. apply Rabs_le_inv in J1, J2. assert (a * a <= 6400000 * 6400000) by (apply Rmult_le_compat; lra). apply Rabs_le. lra. }
    rewrite E3. apply rnd_pos. lra.
Qed.
Lemma params64 : flat64 E a b ->
  off64 (ef (ops := O) E) ((a - b) / a) (5 * / 2 ^ 53) /\ off64 (en (ops := O) E) ((a - b) / (a + b)) (/ 2 ^ 53) /\ off64 (e_sq (ops := O) E) ((a * a - b * b) / (a * a)) (/ 2 ^ 53) /\
  off64 (ecc (ops := O) E) (sqrt ((a * a - b * b) / (a * a))) (/ 2 ^ 53) /\ off64 (e_prime_sq (ops := O) E) ((a * a - b * b) / (b * b)) (3 * / 2 ^ 53) /\
  is_finite (e_prime (ops := O) E) = true /\ 0 <= B2R (e_prime (ops := O) E) /\ Rabs (B2R (e_prime (ops := O) E) * B2R (e_prime (ops := O) E) - (a * a - b * b) / (b * b)) <= 4 * / 2 ^ 53.
Proof.
  intros FL. pose proof u_pos as U. pose proof (near_f FL) as N1. pose proof (near_n lm E a b HE) as N2. pose proof (near_e2 lm E a b HE) as N3. pose proof (near_ecc lm E a b HE) as N4. destruct near_ep2 as [N5 P5].
  split; [offu N1 5%Z; lra|]. split; [unfold TMX.tn in N2; offu N2 1%Z; lra|]. split; [replace (a * a - b * b) with ((a - b) * (a + b)) by ring; offu N3 1%Z; lra|]. split; [unfold the_e in N4; offu N4 1%Z; lra|]. split; [offu N5 3%Z; lra|].
  pose proof ep_range as ER. unfold e_prime. cbn [fsqrt F64ops]. set (x := e_prime_sq (ops := O) E) in *. pose proof (near_err _ _ _ _ _ _ N5) as D5. assert (D5' : Rabs (B2R x - (a * a - b * b) / (b * b)) <= 3 * / 2 ^ 53). { apply (Rle_trans _ _ _ D5). rewrite <- (q_u 3). apply qle. vm_compute. reflexivity. }
  destruct (f64_sqrt x (proj1 N5) P5) as [V F]. split; [exact F|]. change (Bsqrt mode_NE x) with (Bsqrt mode_NE x) in *. rewrite V. split; [apply rnd_pos, sqrt_pos|]. set (u := / 2 ^ 53) in *.
  assert (US : u <= / 1000) by (unfold u; apply Rinv_le_contravar; [lra|cbn; lra]). apply Rabs_le_inv in D5'. assert (X1 : B2R x <= 3 / 100) by lra. pose proof (sqrt_pos (B2R x)) as S0. pose proof (sqrt_sqrt _ P5) as SS. set (s := sqrt (B2R x)) in *.
  assert (S1 : s <= 18 / 100). { unfold s. rewrite <- (sqrt_square (18 / 100)) by lra. apply sqrt_le_1_alt. lra. }
  pose proof (rnd_error s) as R. rewrite u_val, (Rabs_pos_eq s) in R by exact S0. fold u in R. assert (ET : bpow radix2 (-1075) <= u / 100). { apply Rle_trans with (bpow radix2 (-60)); [apply bpow_le; lia|]. unfold u. rewrite <- u_val. change (bpow radix2 (-60)) with (bpow radix2 (-53 + -7)). rewrite bpow_plus. change (bpow radix2 (-7)) with (/ 128). pose proof (bpow_gt_0 radix2 (-53)). lra. }
  set (r := rnd s) in *. assert (UB : u * s <= u * (18 / 100)) by (apply Rmult_le_compat_l; lra). assert (RD : Rabs (r - s) <= u * (2 / 10)) by lra.
  assert (RS : Rabs (r * r - s * s) <= u * (2 / 10) * (1)). { replace (r * r - s * s) with ((r - s) * (r + s)) by ring. rewrite Rabs_mult. apply Rmult_le_compat; try apply Rabs_pos; [exact RD|]. apply Rabs_le_inv in RD. apply Rabs_le. lra. }
  rewrite SS in RS. apply Rabs_le_inv in RS. apply Rabs_le. lra.
Qed.
End E.

(** ** The radii of curvature *)
Section R.
Context (lm : libm) (AC : accurate lm) (E : Ellipsoid f64) (a b : R) (HE : earth64 E a b).
Local Notation O := (F64ops lm).

Lemma lit15 : is_finite (flit (FOps := O) 15 1) = true /\ B2R (flit (FOps := O) 15 1) = 3 / 2.
Proof. destruct (B2R_const (flit (FOps := O) 15 1) false 6755399441055744 (-52) ltac:(vm_compute; reflexivity)) as [V F]. split; [exact F|]. rewrite V. unfold F2R. cbn. lra. Qed.
Lemma near_pow15 x X lo hi d e (r glo ghi : Q) : near x X lo hi d e -> Qle_bool (Qmake 1 2) lo && Qle_bool hi 2 = true -> Qle_bool tiny lo && Qle_bool (d + e / lo) r && Qle_bool r (Qmake 1 1000) = true -> Q2R glo <= Rpower X (3 / 2) <= Q2R ghi ->
  near (lm_powf lm x (flit (FOps := O) 15 1)) (Rpower X (3 / 2)) glo ghi (rup (ulp4 + (1 + ulp4) * (Qmake 16 10 * r))) tiny.
Proof.
  intros H C0 C1 G. destruct lit15 as [F15 V15]. assert (C1' : Qle_bool tiny lo && Qle_bool (d + e / lo) r && Qle_bool r (Qmake 1 100) = true). { apply andb_prop in C1. destruct C1 as [K1 K2]. rewrite K1. cbn. apply Qle_bool_iff. apply Qle_bool_iff in K2. apply (Qle_trans _ _ _ K2). discriminate. }
  destruct (near_ratio _ _ _ _ _ _ _ H C1') as (X0 & R0 & t & T & V). apply andb_prop in C1. destruct C1 as [_ C1]. apply qle in C1. replace (Q2R (Qmake 1 1000)) with (/ 1000) in C1 by qr. apply andb_prop in C0. destruct C0 as [C0 C0']. apply qle in C0, C0'. replace (Q2R (Qmake 1 2)) with (/ 2) in C0 by qr. replace (Q2R 2) with 2 in C0' by qr.
  assert (T' := T). apply Rabs_le_inv in T'. assert (XB : / 2 <= X <= 2) by (destruct H as (_ & B & _); lra). pose proof (ln_half X XB) as LX. pose proof (ln_1p t ltac:(lra)) as LT. set (lam := ln (1 + t)) in *. assert (LE : ln (B2R x) = ln X + lam) by (rewrite V; apply ln_mult; lra).
  pose proof (Rabs_pos lam) as P3. pose proof (Rabs_pos (ln X)) as P5. pose proof (Rabs_pos t) as P6.
  assert (QE : Q2R (Qmake 16 10 * r) = 16 / 10 * Q2R r) by (rewrite Q2R_mult; replace (Q2R (Qmake 16 10)) with (16 / 10) by qr; reflexivity).
  apply (near_four_rel _ (Rpower (B2R x) (3 / 2))); [| | |exact G].
  - rewrite <- V15. apply (ac_powf lm AC); [apply H|exact F15|]. split; [rewrite V; apply Rmult_lt_0_compat; lra|]. rewrite V15, LE, Rabs_mult, (Rabs_pos_eq (3 / 2)) by lra. pose proof (Rabs_triang (ln X) lam). lra.
  - unfold Rpower. rewrite LE. replace (3 / 2 * (ln X + lam)) with (3 / 2 * ln X + 3 / 2 * lam) by ring. rewrite exp_plus. replace (exp (3 / 2 * ln X) * exp (3 / 2 * lam) - exp (3 / 2 * ln X)) with ((exp (3 / 2 * lam) - 1) * exp (3 / 2 * ln X)) by ring. rewrite Rabs_mult. apply Rmult_le_compat_r; [apply Rabs_pos|].
    assert (L3 : Rabs (3 / 2 * lam) = 3 / 2 * Rabs lam) by (rewrite Rabs_mult, (Rabs_pos_eq (3 / 2)) by lra; reflexivity). eapply Rle_trans; [apply exp_1m; lra|]. rewrite QE, L3. lra.
  - rewrite QE. lra.
Qed.
Lemma pow15 g : 0 < g -> Rpower (g * g) (3 / 2) = g ^ 3.
Proof. intros H. unfold Rpower. rewrite ln_mult by assumption. replace (3 / 2 * (ln g + ln g)) with (ln g + ln g + ln g) by field. rewrite !exp_plus, exp_ln by assumption. ring. Qed.

Section P.
Context (p : f64) (Fp : is_finite p = true) (Bp : Rabs (B2R p) <= 2).
Let g := gell a b (B2R p).
Lemma g_b : b <= g <= a. Proof. pose proof (ax E a b HE). apply gell_bound. lra. Qed.
Lemma near_w2 : near (Bminus mode_NE (f64_ofZ 1) (Bmult mode_NE (e_sq (ops := O) E) (Bmult mode_NE (lm_sin lm p) (lm_sin lm p)))) (g / a * (g / a)) (Qmake 98 100) 1 (Qmake 4 (2 ^ 53)) 0.
Proof.
  pose proof (ax E a b HE) as AX. pose proof g_b as G. pose proof Bp as Bp'. apply Rabs_le_inv in Bp'. pose proof (near_exact p (-2) 2 Fp ltac:(split; unfold Q2R; cbn; lra)) as N1. pose proof (near_sin lm AC _ _ _ _ _ _ N1 ltac:(vm_compute; reflexivity)) as N2. nnorm N2.
  nmul N2 N2 N3. assert (S2 : 0 <= sin (B2R p) * sin (B2R p) <= 1) by (pose proof (SIN_bound (B2R p)); nra). apply (near_range _ _ _ _ _ _ 0 1) in N3; [|rewrite q0, q1; exact S2].
  pose proof (near_e2 lm E a b HE) as N4. nmul N4 N3 N5. nZ 1%Z N6. nsub N6 N5 N7. nrel N7.
  assert (X : 1 - (a - b) * (a + b) / (a * a) * (sin (B2R p) * sin (B2R p)) = g / a * (g / a)). { replace (g / a * (g / a)) with (g * g / (a * a)) by (field; lra). unfold g. rewrite (gell_sq a b ltac:(lra)). pose proof (sc1 (B2R p)) as SC. replace (cos (B2R p) * cos (B2R p)) with (1 - sin (B2R p) * sin (B2R p)) by lra. field. lra. }
  apply (near_eq _ _ _ _ _ _ _ N7) in X. refine (near_weak _ _ _ _ _ _ _ _ _ _ X _ _ _); [|vm_compute; reflexivity|vm_compute; reflexivity]. rewrite q1. replace (Q2R (Qmake 98 100)) with (98 / 100) by qr.
  assert (K : 99 / 100 <= g / a <= 1). { destruct HE as (_ & _ & _ & B1 & B2 & B3 & B4). split; apply (Rmult_le_reg_r a); try lra; replace (g / a * a) with g by (field; lra); lra. } set (k := g / a) in *. assert (99 / 100 * (99 / 100) <= k * k) by (apply Rmult_le_compat; lra). assert (k * k <= 1 * 1) by (apply Rmult_le_compat; lra). lra.
Qed.
Lemma near_pmr : near (prime_meridional_radius (ops := O) E p) (meridional_radius a b (B2R p)) 6100000 6600000 (Qmake 22 (2 ^ 53)) 0.
Proof.
  pose proof (ax E a b HE) as AX. pose proof g_b as G. assert (K : 99 / 100 <= g / a <= 1). { destruct HE as (_ & _ & _ & B1 & B2 & B3 & B4). split; apply (Rmult_le_reg_r a); try lra; replace (g / a * a) with g by (field; lra); lra. }
  pose proof near_w2 as N. assert (PW : Rpower (g / a * (g / a)) (3 / 2) = (g / a) ^ 3) by (apply pow15; lra). assert (PR : 97 / 100 <= (g / a) ^ 3 <= 1). { set (k := g / a) in *. cbn [pow]. assert (99 / 100 * (99 / 100) <= k * k) by (apply Rmult_le_compat; lra). assert (k * k <= 1 * 1) by (apply Rmult_le_compat; lra). assert (99 / 100 * (98 / 100) <= k * (k * k)) by (apply Rmult_le_compat; lra). assert (k * (k * k) <= 1 * 1) by (apply Rmult_le_compat; lra). lra. }
  pose proof (near_pow15 _ _ _ _ _ _ (Qmake 5 (2 ^ 53)) (Qmake 97 100) 1 N ltac:(vm_compute; reflexivity) ltac:(vm_compute; reflexivity) ltac:(rewrite PW, q1; replace (Q2R (Qmake 97 100)) with (97 / 100) by qr; exact PR)) as NP. nnorm NP. rewrite PW in NP.
  pose proof (near_ome lm E a b HE) as NO. destruct (near_axes E a b HE) as [NA _]. unfold prime_meridional_radius, length_scale. cbn [fsub fmul fdiv fsin fpowf fsq F64ops]. change (fofZ (FOps := O) 1) with (f64_ofZ 1).
  nmul NO NA N1. ndiv N1 NP N2. nrel N2. assert (EQ : b * b / (a * a) * a / (g / a) ^ 3 = meridional_radius a b (B2R p)). { unfold meridional_radius. fold (gell a b (B2R p)). fold g. field. split; [|lra]. lra. }
  apply (near_eq _ _ _ _ _ _ _ N2) in EQ. refine (near_weak _ _ _ _ _ _ _ _ _ _ EQ _ _ _); [|vm_compute; reflexivity|vm_compute; reflexivity].
  replace (Q2R 6100000) with 6100000 by qr. replace (Q2R 6600000) with 6600000 by qr. unfold meridional_radius. fold (gell a b (B2R p)). fold g. destruct HE as (_ & _ & _ & B1 & B2 & B3 & B4).
  replace (a * a * (b * b) / g ^ 3) with (a * (b / a * (b / a)) / (g / a) ^ 3) by (field; lra). assert (K2 : 99 / 100 <= b / a <= 1) by (split; apply (Rmult_le_reg_r a); try lra; replace (b / a * a) with b by (field; lra); lra).
  set (k := b / a) in *. set (q := (g / a) ^ 3) in *. assert (K3 : 98 / 100 <= k * k <= 1). { assert (99 / 100 * (99 / 100) <= k * k) by (apply Rmult_le_compat; lra). assert (k * k <= 1 * 1) by (apply Rmult_le_compat; lra). lra. }
  assert (A1 : a * (k * k) <= 6400000 * 1) by (apply Rmult_le_compat; lra). assert (B5 : b = a * k) by (unfold k; field; lra). assert (A2 : b * (99 / 100) <= a * (k * k)) by (rewrite B5, Rmult_assoc; apply Rmult_le_compat_l; [lra|]; apply Rmult_le_compat_l; lra).
  split; apply (Rmult_le_reg_r q); try lra; replace (a * (k * k) / q * q) with (a * (k * k)) by (field; lra); lra.
Qed.
Lemma radii64 : off64 (prime_vertical_radius (ops := O) E p) (vertical_radius a b (B2R p)) (3 / 10 ^ 9) /\ off64 (prime_meridional_radius (ops := O) E p) (meridional_radius a b (B2R p)) (17 / 10 ^ 9) /\
  off64 (conformal_sphere_radius (ops := O) E p) (sqrt (meridional_radius a b (B2R p) * vertical_radius a b (B2R p))) (11 / 10 ^ 9).
Proof.
  pose proof (near_pvr lm AC E a b HE p Fp Bp) as NV. change (a * a / gell a b (B2R p)) with (vertical_radius a b (B2R p)) in NV. pose proof near_pmr as NM. nmul NM NV N1. nsqrt N1 N2.
  assert (QB : forall (k : Z) q, Qle_bool q (Qmake k (10 ^ 9)) = true -> Q2R q <= IZR k / 10 ^ 9). { intros k q C. apply qle in C. rewrite q2r_make in C. replace (IZR (Zpos (10 ^ 9))) with (10 ^ 9) in C by (rewrite pow_IZR; reflexivity). exact C. }
  split; [apply (off_near _ _ _ _ _ _ _ NV), (QB 3%Z); vm_compute; reflexivity|]. split; [apply (off_near _ _ _ _ _ _ _ NM), (QB 17%Z); vm_compute; reflexivity|].
  unfold conformal_sphere_radius. rewrite (proj1 (proj2 (proj2 (base_unit_exact lm _)))). apply (off_near _ _ _ _ _ _ _ N2), (QB 11%Z). vm_compute. reflexivity.
Qed.
End P.
End R.
