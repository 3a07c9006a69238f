(** Inverses, quotients and polynomials of complex numbers in binary64. *)
From Coq Require Import Bool Reals Lra Lia List Arith ZArith.
From Flocq Require Import Core IEEE754.BinarySingleNaN.
From Verif.Num Require Import FOps F64 F64Lemmas RFun XRLemmas.
From Verif.Model Require Import Fp Complex.
From Verif.Spec Require Import Accurate Series Lines64 Sums64 Complex64.
From Verif.Proofs Require Import MathX NearT NearL Lines64A Poly64 Complex64P.
Import ListNotations.
Local Open Scope R_scope.

Ltac c2eq := unfold c2add, c2sub, c2mul; cbn [fst snd]; f_equal; ring.

(** ** Inverses *)
Lemma rabs_div a b : b <> 0 -> Rabs (a / b) = Rabs a / Rabs b.
Proof. intros H. unfold Rdiv. now rewrite Rabs_mult, Rabs_inv. Qed.
Lemma quot_err (u h a n N q : R) : 0 < u -> u <= / 2 ^ 10 -> 0 <= h -> 0 < N -> Rabs (n - N) <= 26 / 10 * u * N -> Rabs (q - a / n) <= u * Rabs (a / n) + h -> Rabs (q - a / N) <= 38 / 10 * u * Rabs (a / N) + h.
Proof.
  intros U U1 H N0 D E. assert (UV : / 2 ^ 10 = / 1024) by (f_equal; lra). rewrite UV in U1. clear UV.
  assert (UN : 0 <= u * N) by (apply Rmult_le_pos; lra). assert (UN1 : u * N <= / 1024 * N) by (apply Rmult_le_compat_r; lra). assert (n0 : 0 < n) by (apply Rabs_le_inv in D; lra). assert (NE : n <> 0) by lra. assert (NE2 : N <> 0) by lra.
  set (b := Rabs (a / N)) in *. assert (B0 : 0 <= b) by apply Rabs_pos. assert (UB : 0 <= u * b) by (apply Rmult_le_pos; lra).
  set (k := N / n). assert (K : n * k = N) by (unfold k; field; lra). assert (K0 : 0 < k) by (apply Rdiv_lt_0_compat; assumption).
  assert (Eab : a / n = a / N * k) by (unfold k; field; lra). rewrite Eab, Rabs_mult, (Rabs_pos_eq k) in E by lra. fold b in E.
  assert (KD : Rabs (k - 1) <= 2607 / 1000 * u * 1). { replace (k - 1) with (- ((n - N) / n)) by (unfold k; field; lra). rewrite Rabs_Ropp, rabs_div by lra. rewrite (Rabs_pos_eq n) by lra. apply Rle_trans with (26 / 10 * u * N / n); [apply Rmult_le_compat_r; [left; apply Rinv_0_lt_compat; lra|exact D]|]. apply (Rmult_le_reg_r n); [exact n0|]. replace (26 / 10 * u * N / n * n) with (26 / 10 * u * N) by (field; lra).
    apply Rabs_le_inv in D. assert (u * (N - 26 / 10 * u * N) <= u * n) by (apply Rmult_le_compat_l; lra). assert (u * (u * N) <= u * (/ 1024 * N)) by (apply Rmult_le_compat_l; lra). lra. }
  apply Rabs_le_inv in KD as KK. assert (K2 : k <= 1 + 3 / 1000) by lra. assert (UK : u * (b * k) <= u * b * (1 + 3 / 1000)) by (rewrite <- Rmult_assoc; apply Rmult_le_compat_l; assumption).
  assert (AD : Rabs (a / N * k - a / N) <= b * (2607 / 1000 * u * 1)). { replace (a / N * k - a / N) with (a / N * (k - 1)) by ring. rewrite Rabs_mult. apply Rmult_le_compat_l; assumption. }
  replace (q - a / N) with ((q - a / N * k) + (a / N * k - a / N)) by ring. pose proof (Rabs_triang (q - a / N * k) (a / N * k - a / N)). lra.
Qed.

Section C.
Variable lm : libm.
Let O : FOps f64 := F64ops lm.
Local Existing Instance O.

Lemma u_1024 : / 2 ^ 53 <= / 2 ^ 10.
Proof. apply Rinv_le_contravar; [apply pow_lt; lra|]. apply Rle_pow; [lra|lia]. Qed.

Lemma inv64c z : cfinite z -> bpow radix2 (-400) <= modulus (cval z) <= bpow radix2 400 ->
  exists i, cinv (ops := O) z = Ok i /\ cfinite i /\ modulus (cval i) * modulus (cval z) <= 1 + 4 * / 2 ^ 53 /\ modulus (c2sub (c2mul (cval z) (cval i)) (1, 0)) <= 4 * / 2 ^ 53.
Proof.
  destruct z as [a b]. unfold cfinite, cval. cbn [re im]. intros [FA FB] [M0 M]. pose proof u_pos as U. pose proof u_small as U4. pose proof u_1024 as U10. set (u := / 2 ^ 53) in *. set (h := bpow radix2 (-1075)) in *. assert (H : 0 < h) by apply bpow_gt_0.
  set (m := modulus (B2R a, B2R b)) in *. assert (m0 : 0 < m) by (pose proof (bpow_gt_0 radix2 (-400)); lra). pose proof (mod_sq (B2R a, B2R b)) as SQ. cbn [fst snd] in SQ. fold m in SQ. set (N := m * m) in *. assert (N0 : 0 < N) by (apply Rmult_lt_0_compat; assumption).
  pose proof (Rle_0_sqr (B2R a)) as QA. pose proof (Rle_0_sqr (B2R b)) as QB. unfold Rsqr in QA, QB.
  assert (NB : N <= bpow radix2 1000). { apply Rle_trans with (bpow radix2 400 * bpow radix2 400); [apply Rmult_le_compat; lra|]. rewrite <- bpow_plus. apply bpow_le. lia. }
  assert (NL : bpow radix2 (-800) <= N). { apply Rle_trans with (bpow radix2 (-400) * bpow radix2 (-400)); [rewrite <- bpow_plus; apply Rle_refl|]. apply Rmult_le_compat; try apply bpow_ge_0; assumption. }
  assert (HU : 100 * h <= u * N). { apply Rle_trans with (bpow radix2 (-53) * bpow radix2 (-800)); [|rewrite u_val; fold u; apply Rmult_le_compat_l; lra]. rewrite <- bpow_plus. apply Rle_trans with (bpow radix2 7 * h); [change (bpow radix2 7) with 128; lra|]. unfold h. rewrite <- bpow_plus. apply bpow_le. lia. }
  assert (HM : 100 * h * m <= u). { apply Rle_trans with (bpow radix2 7 * h * bpow radix2 400); [apply Rmult_le_compat; [lra|lra|change (bpow radix2 7) with 128; lra|exact M]|]. unfold h, u. rewrite <- u_val, <- !bpow_plus. apply bpow_le. lia. }
  (* the square of the modulus *)
  assert (NBB : N <= bpow radix2 1023) by (pose proof b1000; lra).
  destruct (f64_mult a a FA FA) as [E1 F1]. { rewrite Rabs_pos_eq by exact QA. lra. } destruct (f64_mult b b FB FB) as [E2 F2]. { rewrite Rabs_pos_eq by exact QB. lra. }
  pose proof (rnd_error (B2R a * B2R a)) as R1. pose proof (rnd_error (B2R b * B2R b)) as R2. rewrite u_val in R1, R2. fold u h in R1, R2. rewrite <- E1 in R1. rewrite <- E2 in R2. set (p := Bmult mode_NE a a) in *. set (q := Bmult mode_NE b b) in *.
  assert (U1 : forall t, 0 <= t -> u * t <= / 4 * t) by (intros t T; apply Rmult_le_compat_r; assumption).
  destruct (f64_plus p q F1 F2) as [E3 F3]. { rewrite (Rabs_pos_eq _ QA) in R1. rewrite (Rabs_pos_eq _ QB) in R2. pose proof (U1 _ QA). pose proof (U1 _ QB). pose proof (U1 N (Rlt_le _ _ N0)). pose proof b1001 as B1. change (bpow radix2 1) with 2 in B1. apply Rabs_le_inv in R1, R2. apply Rabs_le. lra. }
  pose proof (rnd_plus_rel p q) as R3. rewrite u_val in R3. fold u in R3. rewrite <- E3 in R3. set (n := Bplus mode_NE p q) in *.
  pose proof (two_prods _ _ _ _ _ u h (Rlt_le _ _ U) U4 (Rlt_le _ _ H) R1 R2 R3) as RN. rewrite (Rabs_pos_eq (B2R a * B2R a)), (Rabs_pos_eq (B2R b * B2R b)), <- SQ, (Rabs_pos_eq N) in RN by lra.
  assert (DN : Rabs (B2R n - N) <= 26 / 10 * u * N). { assert (u * u * N <= / 4 * (u * N)) by (rewrite Rmult_assoc; apply Rmult_le_compat_r; [apply Rmult_le_pos; lra|exact U4]). lra. }
  assert (n0 : 0 < B2R n /\ N <= 2 * B2R n). { assert (UV : / 2 ^ 10 = / 1024) by (f_equal; lra). assert (u * N <= / 1024 * N) by (apply Rmult_le_compat_r; lra). apply Rabs_le_inv in DN. lra. } destruct n0 as [n0 n2].
  assert (QT : forall c : f64, is_finite c = true -> Rabs (B2R c) <= m -> is_finite (Bdiv mode_NE c n) = true /\ Rabs (B2R (Bdiv mode_NE c n) - B2R c / N) <= 38 / 10 * u * Rabs (B2R c / N) + h).
  { intros c FC LC. destruct (f64_div c n FC) as [E4 F4]; [lra| |].
    - rewrite rabs_div, (Rabs_pos_eq (B2R n)) by lra. apply (Rmult_le_reg_r (B2R n)); [exact n0|]. replace (Rabs (B2R c) / B2R n * B2R n) with (Rabs (B2R c)) by (field; lra). apply Rle_trans with (bpow radix2 400 * m * m); [apply Rle_trans with (1 * m); [lra|]; apply Rmult_le_compat_r; [lra|]; apply Rle_trans with (bpow radix2 400 * bpow radix2 (-400)); [rewrite <- bpow_plus; apply Rle_refl|]; apply Rmult_le_compat_l; [apply bpow_ge_0|exact M0]|].
      rewrite Rmult_assoc. fold N. apply Rle_trans with (bpow radix2 401 * B2R n); [change (bpow radix2 401) with (bpow radix2 (400 + 1)); rewrite bpow_plus; change (bpow radix2 1) with 2; rewrite Rmult_assoc; apply Rmult_le_compat_l; [apply bpow_ge_0|exact n2]|]. apply Rmult_le_compat_r; [lra|apply bpow_le; lia].
    - split; [exact F4|]. pose proof (rnd_error (B2R c / B2R n)) as R. rewrite u_val in R. fold u h in R. rewrite <- E4 in R. apply (quot_err u h _ _ N _ U U10 (Rlt_le _ _ H) N0 DN R). }
  pose proof (mod_fst (B2R a, B2R b)) as LA. pose proof (mod_snd (B2R a, B2R b)) as LB. cbn [fst snd] in LA, LB. fold m in LA, LB.
  destruct (QT a FA LA) as [F5 R5]. destruct (QT (Bopp b)) as [F6 R6]; [now rewrite is_finite_Bopp|rewrite B2R_Bopp, Rabs_Ropp; exact LB|]. rewrite B2R_Bopp in R6.
  unfold cinv. assert (Z : is_zero (ops := O) {| re := a; im := b |} = false).
  { unfold is_zero. cbn [re im feq O F64ops fofZ]. apply not_true_is_false. intros Z. apply andb_true_iff in Z. destruct Z as [Z1 Z2].
    rewrite (Beqb_correct _ _ a (f64_ofZ 0) FA eq_refl) in Z1. rewrite (Beqb_correct _ _ b (f64_ofZ 0) FB eq_refl) in Z2. change (B2R (f64_ofZ 0)) with 0 in Z1, Z2. destruct (Req_bool_spec (B2R a) 0) as [Y1|_]; [|discriminate]. destruct (Req_bool_spec (B2R b) 0) as [Y2|_]; [|discriminate]. rewrite Y1, Y2 in SQ. lra. }
  rewrite Z. eexists. split; [reflexivity|]. cbn [re im cdiv_f conj abs_sq fdiv fneg fmul fadd O F64ops]. fold p q. fold n.
  set (i := Bdiv mode_NE a n) in *. set (j := Bdiv mode_NE (Bopp b) n) in *. split; [split; assumption|].
  assert (DI : modulus (c2sub (B2R i, B2R j) (B2R a / N, - B2R b / N)) * m <= 4 * u).
  { assert (MI : modulus (B2R a / N, - B2R b / N) * m = 1). { change (modulus (B2R a / N, - B2R b / N) * modulus (B2R a, B2R b) = 1). rewrite <- mod_mul. replace (c2mul (B2R a / N, - B2R b / N) (B2R a, B2R b)) with (1, 0); [rewrite mod_real; apply Rabs_R1|]. unfold c2mul. cbn [fst snd]. f_equal; [|field; lra]. replace (B2R a / N * B2R a - - B2R b / N * B2R b) with ((B2R a * B2R a + B2R b * B2R b) / N) by (field; lra). rewrite <- SQ. field. lra. }
    apply Rle_trans with ((38 / 10 * u * modulus (B2R a / N, - B2R b / N) + (h + h)) * m); [apply Rmult_le_compat_r; [lra|]; unfold c2sub; cbn [fst snd]; apply mod_parts; lra|]. replace ((38 / 10 * u * modulus (B2R a / N, - B2R b / N) + (h + h)) * m) with (38 / 10 * u * (modulus (B2R a / N, - B2R b / N) * m) + 2 * (h * m)) by ring. rewrite MI. lra. }
  assert (EZ : c2sub (c2mul (B2R a, B2R b) (B2R i, B2R j)) (1, 0) = c2mul (c2sub (B2R i, B2R j) (B2R a / N, - B2R b / N)) (B2R a, B2R b)).
  { assert (EN : B2R b * B2R b = N - B2R a * B2R a) by lra. unfold c2sub, c2mul. cbn [fst snd]. f_equal; [|field; lra]. replace ((B2R i - B2R a / N) * B2R a - (B2R j - - B2R b / N) * B2R b) with (B2R a * B2R i - B2R b * B2R j - (B2R a * B2R a + B2R b * B2R b) / N) by (field; lra). rewrite EN. field. lra. }
  assert (DZ : modulus (c2sub (c2mul (B2R a, B2R b) (B2R i, B2R j)) (1, 0)) <= 4 * u) by (rewrite EZ, mod_mul; exact DI).
  split; [|exact DZ]. rewrite Rmult_comm. unfold m. rewrite <- mod_mul. apply mod_near in DZ. rewrite mod_real, Rabs_R1 in DZ. exact DZ.
Qed.

Lemma div64c z w : cfinite z -> cfinite w -> modulus (cval z) <= bpow radix2 400 -> bpow radix2 (-400) <= modulus (cval w) <= bpow radix2 400 ->
  exists q, cdiv (ops := O) z w = Ok q /\ cfinite q /\ modulus (c2sub (c2mul (cval q) (cval w)) (cval z)) <= 9 * / 2 ^ 53 * modulus (cval z) + bpow radix2 (-1072) * modulus (cval w).
Proof.
  intros FZ FW MZ MW. destruct (inv64c w FW MW) as [i [EI [FI [MI DI]]]]. pose proof u_pos as U. pose proof u_1024 as U10. unfold cdiv. rewrite EI. eexists. split; [reflexivity|]. pose proof (mod_pos (cval z)) as Z0. pose proof (mod_pos (cval w)) as W0. pose proof (mod_pos (cval i)) as I0.
  assert (UV : / 2 ^ 10 = / 1024) by (f_equal; lra). set (u := / 2 ^ 53) in *.
  assert (IB : modulus (cval i) <= bpow radix2 401). { apply (Rmult_le_reg_r (bpow radix2 (-400))); [apply bpow_gt_0|]. rewrite <- bpow_plus. change (bpow radix2 (401 + -400)) with 2. apply Rle_trans with (modulus (cval i) * modulus (cval w)); [apply Rmult_le_compat_l; lra|lra]. }
  destruct (mul64c lm z i FZ FI) as [FQ DQ]. { apply Rle_trans with (bpow radix2 400 * bpow radix2 401); [apply Rmult_le_compat; assumption|]. rewrite <- bpow_plus. apply bpow_le. lia. }
  split; [exact FQ|]. fold u in DQ. change (cmul z i) with (cmul (ops := O) z i). set (q := cmul (ops := O) z i) in *.
  replace (c2sub (c2mul (cval q) (cval w)) (cval z)) with (c2add (c2mul (c2sub (cval q) (c2mul (cval z) (cval i))) (cval w)) (c2mul (c2sub (c2mul (cval w) (cval i)) (1, 0)) (cval z))).
  - eapply Rle_trans; [apply mod_add|]. rewrite !mod_mul. set (Z := modulus (cval z)) in *. set (W := modulus (cval w)) in *. set (I := modulus (cval i)) in *.
    assert (A : modulus (c2sub (cval q) (c2mul (cval z) (cval i))) * W <= (4 * u * (Z * I) + bpow radix2 (-1072)) * W) by (apply Rmult_le_compat_r; assumption).
    assert (B : modulus (c2sub (c2mul (cval w) (cval i)) (1, 0)) * Z <= 4 * u * Z) by (apply Rmult_le_compat_r; assumption).
    assert (UZ : 0 <= u * Z) by (apply Rmult_le_pos; lra). assert (C : u * Z * (I * W) <= u * Z * (1 + 4 * u)) by (apply Rmult_le_compat_l; lra). assert (D : u * Z * u <= u * Z * / 1024) by (apply Rmult_le_compat_l; lra). lra.
  - destruct (cval q), (cval w), (cval z), (cval i). c2eq.
Qed.

(** ** Polynomials *)
Lemma cmul_step (z A P m t : C2) S G wn u h c : 0 <= u -> 0 <= h -> 1 <= wn -> 0 <= S -> 0 <= G ->
  modulus (c2sub A P) <= (wn - 1) * S + h * wn * G -> modulus P <= S -> modulus (c2sub m (c2mul z A)) <= u * (modulus z * modulus A) + h -> modulus (c2sub t (c2add m (c, 0))) <= u * modulus (c2add m (c, 0)) ->
  modulus (c2sub t (c2add (c2mul z P) (c, 0))) <= (wn * ((1 + u) * (1 + u)) - 1) * (modulus z * S + Rabs c) + h * (wn * ((1 + u) * (1 + u))) * (modulus z * G + 1).
Proof.
  intros U H W S0 G0 EA EP EM ET. pose proof (mod_pos z) as X0. set (x := modulus z) in *. pose proof (Rabs_pos c) as C0.
  assert (HG : 0 <= h * wn * G) by (apply Rmult_le_pos; [apply Rmult_le_pos; lra|exact G0]).
  assert (BA : modulus A <= wn * S + h * wn * G) by (apply mod_near in EA; lra).
  set (B := wn * S + h * wn * G) in *. assert (XA : x * modulus A <= x * B) by (apply Rmult_le_compat_l; assumption).
  assert (XD : modulus (c2mul z (c2sub A P)) <= x * ((wn - 1) * S + h * wn * G)) by (rewrite mod_mul; apply Rmult_le_compat_l; assumption).
  set (Q := x * B) in *. assert (UQ : u * (x * modulus A) <= u * Q) by (apply Rmult_le_compat_l; assumption).
  assert (M : modulus (c2add m (c, 0)) <= Q + u * Q + h + Rabs c). { pose proof (mod_add m (c, 0)) as T. rewrite mod_real in T. apply mod_near in EM. rewrite mod_mul in EM. fold x in EM. lra. }
  assert (UM : u * modulus (c2add m (c, 0)) <= u * (Q + u * Q + h + Rabs c)) by (apply Rmult_le_compat_l; assumption).
  replace (c2sub t (c2add (c2mul z P) (c, 0))) with (c2add (c2add (c2sub t (c2add m (c, 0))) (c2sub m (c2mul z A))) (c2mul z (c2sub A P))) by (destruct t, z, P, A, m; c2eq).
  pose proof (mod_add (c2add (c2sub t (c2add m (c, 0))) (c2sub m (c2mul z A))) (c2mul z (c2sub A P))) as T1. pose proof (mod_add (c2sub t (c2add m (c, 0))) (c2sub m (c2mul z A))) as T2.
  assert (W2 : 1 * ((1 + u) * (1 + u)) <= wn * ((1 + u) * (1 + u))) by (apply Rmult_le_compat_r; [apply Rmult_le_pos; lra|exact W]). pose proof (Rmult_le_pos u u U U) as UU.
  assert (UW : u * Rabs c <= (wn * ((1 + u) * (1 + u)) - 1) * Rabs c) by (apply Rmult_le_compat_r; lra).
  assert (HW : h * (1 + u) <= h * (wn * ((1 + u) * (1 + u)))) by (apply Rmult_le_compat_l; lra).
  clearbody x. unfold Q, B in *. lra.
Qed.
Lemma cpoly_ge c z : modulus (complex_polynomial c z) <= abspoly c (modulus z).
Proof.
  induction c as [|a c IH]; [unfold abspoly, polynomial, complex_polynomial; cbn [List.length Rsum map]; rewrite mod_real, Rabs_R0; lra|].
  rewrite abspoly_cons, complex_polynomial_cons, (Rabs_pos_eq _ (mod_pos z)). replace (fst (c2mul z (complex_polynomial c z)) + a, snd (c2mul z (complex_polynomial c z))) with (c2add (c2mul z (complex_polynomial c z)) (a, 0)) by (unfold c2add; cbn [fst snd]; f_equal; ring).
  eapply Rle_trans; [apply mod_add|]. rewrite mod_mul, mod_real. apply Rplus_le_compat_r. apply Rmult_le_compat_l; [apply mod_pos|exact IH].
Qed.
Lemma addf64c z (x : f64) : cfinite z -> is_finite x = true -> Rabs (fst (cval z) + B2R x) <= bpow radix2 1023 -> near_c2 (cadd_f (ops := O) z x) (c2add (cval z) (B2R x, 0)) (/ 2 ^ 53 * modulus (c2add (cval z) (B2R x, 0))).
Proof.
  destruct z as [a b]. unfold near_c2, cfinite, cval, c2add, c2sub, cadd_f. cbn [re im fst snd fadd O F64ops]. intros [FA FB] FX M. pose proof u_pos as U. destruct (f64_plus a x FA FX M) as [E1 F1]. pose proof (rnd_plus_rel a x) as R1. rewrite u_val in R1. rewrite E1.
  split; [split; assumption|]. apply mod_parts0; [lra|exact R1|]. replace (B2R b - (B2R b + 0)) with 0 by ring. rewrite Rabs_R0. apply Rmult_le_pos; [lra|apply Rabs_pos].
Qed.
Lemma poly_eval_c_cons (a : f64) c z : poly_eval_c (ops := O) (a :: c) z = cadd_f (ops := O) (cmul (ops := O) z (poly_eval_c (ops := O) c z)) a.
Proof. unfold poly_eval_c, eval_at. cbn [rev]. now rewrite fold_left_app. Qed.

Let u := / 2 ^ 51.
Let h := bpow radix2 (-1072).
Lemma u51 : 4 * / 2 ^ 53 = / 2 ^ 51.
Proof. replace (2 ^ 53) with (4 * 2 ^ 51) by (change (2 ^ 53) with (2 * (2 * 2 ^ 51)); ring). field. Qed.

Lemma horner64c z (c : list f64) : cfinite z -> Forall (fun a : f64 => is_finite a = true) c -> fits_all ((1 + u) * (1 + u)) (vals c) (modulus (cval z)) ->
  let r := poly_eval_c (ops := O) c z in let w := ((1 + u) * (1 + u)) ^ List.length c in
  cfinite r /\ modulus (c2sub (cval r) (complex_polynomial (vals c) (cval z))) <= (w - 1) * abspoly (vals c) (modulus (cval z)) + h * w * powers (vals c) (modulus (cval z)).
Proof.
  intros FZ. assert (U : 0 < u) by (apply Rinv_0_lt_compat, pow_lt; lra). assert (U4 : u <= / 4). { unfold u. apply Rinv_le_contravar; [lra|]. cbn; lra. } assert (H : 0 < h) by apply bpow_gt_0.
  assert (H4 : h <= / 4). { change (/ 4) with (bpow radix2 (-2)). apply bpow_le. lia. } assert (UE : 4 * / 2 ^ 53 = u) by exact u51. pose proof u_pos as U53.
  induction 1 as [|a c FA FC IH]; intros FIT; cbv zeta.
  { split; [split; reflexivity|]. unfold poly_eval_c, eval_at, complex_polynomial, abspoly, powers, polynomial, cval. cbn [rev fold_left vals map List.length Rsum pow czero re im fofZ O F64ops]. change (B2R (f64_ofZ 0)) with 0. replace (c2sub (0, 0) (0, 0)) with ((0, 0) : C2) by c2eq. rewrite mod_real, Rabs_R0. lra. }
  change (vals (a :: c)) with (B2R a :: vals c) in *. destruct FIT as [FIT FIT']. cbn [List.length] in *. set (X := modulus (cval z)) in *. assert (X0 : 0 <= X) by apply mod_pos. rewrite abspoly_cons, powers_cons in *. rewrite complex_polynomial_cons. specialize (IH FIT'). cbv zeta in IH. destruct IH as [FR IH].
  rewrite poly_eval_c_cons. set (A := poly_eval_c (ops := O) c z) in *. assert (EL : List.length (vals c) = List.length c) by apply map_length. rewrite EL in FIT.
  set (q := (1 + u) * (1 + u)) in *. assert (Q1 : 1 <= q). { unfold q. pose proof (Rmult_le_pos u u (Rlt_le _ _ U) (Rlt_le _ _ U)). lra. } change (q ^ S (List.length c)) with (q * q ^ List.length c) in *. rewrite (Rmult_comm q) in *.
  assert (W1 : 1 <= q ^ List.length c) by (apply pow_R1_Rle; exact Q1). set (wn := q ^ List.length c) in *.
  pose proof (abspoly_pos (vals c) X) as S0. pose proof (powers_ge (vals c) X) as G0. pose proof (cpoly_ge (vals c) (cval z)) as PS. fold X in PS.
  set (S := abspoly (vals c) X) in *. set (G := powers (vals c) X) in *. set (P := complex_polynomial (vals c) (cval z)) in *.
  assert (BA : modulus (cval A) <= wn * S + h * wn * G) by (apply mod_near in IH; lra). pose proof (mod_pos (cval A)) as A0.
  rewrite <- (Rabs_pos_eq _ A0) in BA. destruct (room X S G (B2R a) (modulus (cval A)) wn q h u BA S0 G0 W1 Q1 (Rlt_le _ _ H) H4 (Rlt_le _ _ U) U4) as [XA XC]. { rewrite <- Rplus_assoc in FIT |- *. exact FIT. } rewrite (Rabs_pos_eq _ A0) in BA.
  rewrite (Rabs_pos_eq (X * modulus (cval A))) in XA, XC by (apply Rmult_le_pos; assumption). pose proof b1001 as BB1.
  destruct (mul64c lm z A FZ FR XA) as [FM RM]. rewrite UE in RM. fold h X in RM. change (cmul (ops := F64ops lm) z A) with (cmul (ops := O) z A) in *. set (m := cmul (ops := O) z A) in *.
  destruct (addf64c m a FM FA) as [FT RT]. { pose proof (mod_fst (cval m)) as T. apply mod_near in RM. rewrite mod_mul in RM. fold X in RM. pose proof (Rabs_triang (fst (cval m)) (B2R a)). lra. }
  split; [exact FT|]. rewrite (Rabs_pos_eq X X0).
  replace (fst (c2mul (cval z) P) + B2R a, snd (c2mul (cval z) P)) with (c2add (c2mul (cval z) P) (B2R a, 0)) by (unfold c2add; cbn [fst snd]; f_equal; ring).
  apply (cmul_step (cval z) (cval A) P (cval m) _ S G wn u h (B2R a)); try lra; try assumption. apply (Rle_trans _ _ _ RT). apply Rmult_le_compat_r; [apply mod_pos|lra].
Qed.
Lemma poly64c z (c : list f64) : cfinite z -> Forall (fun a : f64 => is_finite a = true) c -> let w := (1 + / 2 ^ 51) ^ (2 * List.length c) in let m := Rmax 1 (modulus (cval z)) in
  (abspoly (vals c) m + powers (vals c) m) * w <= bpow radix2 1000 ->
  near_c2 (poly_eval_c (ops := O) c z) (complex_polynomial (vals c) (cval z)) ((w - 1) * abspoly (vals c) (modulus (cval z)) + bpow radix2 (-1072) * w * powers (vals c) (modulus (cval z))).
Proof.
  intros FZ FC w m H. assert (U : 0 < / 2 ^ 51) by (apply Rinv_0_lt_compat, pow_lt; lra). assert (EL : List.length (vals c) = List.length c) by apply map_length.
  assert (EW : w = ((1 + / 2 ^ 51) * (1 + / 2 ^ 51)) ^ List.length c). { unfold w. rewrite pow_mult. f_equal. change ((1 + / 2 ^ 51) ^ 2) with ((1 + / 2 ^ 51) * ((1 + / 2 ^ 51) * 1)). ring. }
  pose proof (Rmult_le_pos _ _ (Rlt_le _ _ U) (Rlt_le _ _ U)) as UU. assert (Q1 : 1 <= (1 + / 2 ^ 51) * (1 + / 2 ^ 51)) by lra.
  rewrite EW in H |- *. apply horner64c; [exact FZ|exact FC|]. apply fits_of; [exact Q1|]. rewrite EL, (Rabs_pos_eq _ (mod_pos (cval z))). exact H.
Qed.
End C.
