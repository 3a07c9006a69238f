(** Complex arithmetic in binary64. *)
From Coq Require Import Bool Reals Lra Lia List Arith ZArith.
From Flocq Require Import Core IEEE754.BinarySingleNaN.
From Verif.Num Require Import FOps F64 F64Lemmas RFun XRLemmas.
From Verif.Model Require Import Fp Complex.
From Verif.Spec Require Import Accurate Series Lines64 Sums64 Complex64.
From Verif.Proofs Require Import MathX NearT NearL Lines64A Poly64.
Import ListNotations.
Local Open Scope R_scope.

(** ** The modulus *)
Lemma mod_pos z : 0 <= modulus z.
Proof. apply sqrt_pos. Qed.
Lemma mod_hyp x y : modulus (x, y) = Rhypot x y.
Proof. reflexivity. Qed.
Lemma mod_sq z : modulus z * modulus z = fst z * fst z + snd z * snd z.
Proof. apply sqrt_sqrt. pose proof (Rle_0_sqr (fst z)). pose proof (Rle_0_sqr (snd z)). unfold Rsqr in *. lra. Qed.
Lemma mod_mul z w : modulus (c2mul z w) = modulus z * modulus w.
Proof.
  unfold modulus at 2 3. rewrite <- sqrt_mult_alt; [|pose proof (Rle_0_sqr (fst z)); pose proof (Rle_0_sqr (snd z)); unfold Rsqr in *; lra]. unfold modulus. f_equal. cbn [c2mul fst snd]. ring.
Qed.
Lemma mod_add z w : modulus (c2add z w) <= modulus z + modulus w.
Proof.
  destruct z as [a b], w as [c d]. pose proof (hyp_lip (a + c) (b + d) c d) as H. replace (a + c - c) with a in H by ring. replace (b + d - d) with b in H by ring. apply Rabs_le_inv in H. unfold c2add. cbn [fst snd]. rewrite !mod_hyp. lra.
Qed.
Lemma mod_fst z : Rabs (fst z) <= modulus z.
Proof. destruct z as [a b]. apply Rhypot_ge_abs_l. Qed.
Lemma mod_snd z : Rabs (snd z) <= modulus z.
Proof. destruct z as [a b]. cbn [snd]. rewrite mod_hyp, Rhypot_sym. apply Rhypot_ge_abs_l. Qed.
Lemma mod_parts a b x y d e f : 0 <= d -> 0 <= e -> 0 <= f -> Rabs a <= d * Rabs x + e -> Rabs b <= d * Rabs y + f -> modulus (a, b) <= d * modulus (x, y) + (e + f).
Proof. intros D E F A B. rewrite !mod_hyp. eapply Rle_trans; [apply (hyp_abs _ _ _ _ A B)|]. now apply hyp_add. Qed.
Lemma mod_parts0 a b x y d : 0 <= d -> Rabs a <= d * Rabs x -> Rabs b <= d * Rabs y -> modulus (a, b) <= d * modulus (x, y).
Proof. intros D A B. pose proof (mod_parts a b x y d 0 0 D (Rle_refl 0) (Rle_refl 0)) as K. rewrite !Rplus_0_r in K. now apply K. Qed.
Lemma mod_le a b x y : Rabs a <= x -> Rabs b <= y -> modulus (a, b) <= modulus (x, y).
Proof. apply hyp_abs. Qed.
Lemma mod_real x : modulus (x, 0) = Rabs x.
Proof. unfold modulus. cbn [fst snd]. rewrite Rmult_0_l, Rplus_0_r, <- sqrt_Rsqr_abs. reflexivity. Qed.
Lemma mod_near a b e : modulus (c2sub a b) <= e -> modulus a <= modulus b + e.
Proof. intros H. pose proof (mod_add (c2sub a b) b) as T. replace (c2add (c2sub a b) b) with a in T; [lra|]. destruct a, b. unfold c2add, c2sub. cbn. f_equal; ring. Qed.

(** ** Sums of products *)
Lemma cross_le a b c d : modulus (Rabs (a * c) + Rabs (b * d), Rabs (a * d) + Rabs (b * c)) <= 15 / 10 * (modulus (a, b) * modulus (c, d)).
Proof.
  rewrite !Rabs_mult. pose proof (mod_sq (a, b)) as S1. pose proof (mod_sq (c, d)) as S2. cbn [fst snd] in S1, S2. pose proof (mod_pos (a, b)) as P1. pose proof (mod_pos (c, d)) as P2.
  assert (Q : forall x, x * x = Rabs x * Rabs x) by (intros x; rewrite <- Rabs_mult, Rabs_pos_eq; [reflexivity|apply Rle_0_sqr]). rewrite (Q a), (Q b) in S1. rewrite (Q c), (Q d) in S2. clear Q.
  set (A := Rabs a) in *. set (B := Rabs b) in *. set (C := Rabs c) in *. set (D := Rabs d) in *. set (m := modulus (a, b)) in *. set (n := modulus (c, d)) in *.
  assert (AB : 2 * (A * B) <= m * m) by (pose proof (Rle_0_sqr (A - B)) as T; unfold Rsqr in T; lra). assert (CD : 2 * (C * D) <= n * n) by (pose proof (Rle_0_sqr (C - D)) as T; unfold Rsqr in T; lra).
  assert (A0 : 0 <= A * B) by (apply Rmult_le_pos; apply Rabs_pos). assert (C0 : 0 <= C * D) by (apply Rmult_le_pos; apply Rabs_pos).
  assert (M4 : 2 * (A * B) * (2 * (C * D)) <= m * m * (n * n)) by (apply Rmult_le_compat; lra).
  assert (E : (A * C + B * D) * (A * C + B * D) + (A * D + B * C) * (A * D + B * C) = m * m * (n * n) + 2 * (A * B) * (2 * (C * D))) by (rewrite S1, S2; ring).
  unfold modulus. cbn [fst snd]. rewrite E. apply Rle_trans with (sqrt (15 / 10 * (m * n) * (15 / 10 * (m * n)))); [apply sqrt_le_1_alt|right; apply sqrt_square; apply Rmult_le_pos; [lra|now apply Rmult_le_pos]].
  assert (0 <= m * m * (n * n)) by (apply Rmult_le_pos; apply Rle_0_sqr). lra.
Qed.
Lemma two_prods p q m1 m2 t u h : 0 <= u -> u <= / 4 -> 0 <= h -> Rabs (m1 - p) <= u * Rabs p + h -> Rabs (m2 - q) <= u * Rabs q + h -> Rabs (t - (m1 + m2)) <= u * Rabs (m1 + m2) ->
  Rabs (t - (p + q)) <= (2 * u + u * u) * Rabs (Rabs p + Rabs q) + 3 * h.
Proof.
  intros U U4 H A B C. pose proof (Rabs_pos p) as P0. pose proof (Rabs_pos q) as Q0. rewrite (Rabs_pos_eq (Rabs p + Rabs q)) by lra.
  assert (M : Rabs (m1 + m2) <= (1 + u) * (Rabs p + Rabs q) + 2 * h).
  { replace (m1 + m2) with ((m1 - p) + p + ((m2 - q) + q)) by ring. pose proof (Rabs_triang ((m1 - p) + p) ((m2 - q) + q)). pose proof (Rabs_triang (m1 - p) p). pose proof (Rabs_triang (m2 - q) q). lra. }
  assert (UM : u * Rabs (m1 + m2) <= u * ((1 + u) * (Rabs p + Rabs q) + 2 * h)) by (apply Rmult_le_compat_l; assumption).
  replace (t - (p + q)) with ((t - (m1 + m2)) + ((m1 - p) + (m2 - q))) by ring. pose proof (Rabs_triang (t - (m1 + m2)) ((m1 - p) + (m2 - q))). pose proof (Rabs_triang (m1 - p) (m2 - q)).
  assert (UH : u * (2 * h) <= / 4 * (2 * h)) by (apply Rmult_le_compat_r; lra). lra.
Qed.

Section C.
Variable lm : libm.
Let O : FOps f64 := F64ops lm.
Local Existing Instance O.

Lemma big a : Rabs a <= bpow radix2 1000 -> Rabs a <= bpow radix2 1023.
Proof. intros H. apply (Rle_trans _ _ _ H b1000). Qed.
Lemma big2 a b : Rabs a <= bpow radix2 1000 -> Rabs b <= bpow radix2 1000 -> Rabs (a + b) <= bpow radix2 1023 /\ Rabs (a - b) <= bpow radix2 1023.
Proof. intros A B. pose proof b1001 as K. change (bpow radix2 1) with 2 in K. pose proof (Rabs_triang a b). pose proof (Rabs_triang a (- b)) as T. rewrite Rabs_Ropp in T. unfold Rminus. lra. Qed.

Lemma sum64c z w : cfinite z -> cfinite w -> modulus (cval z) <= bpow radix2 1000 -> modulus (cval w) <= bpow radix2 1000 ->
  near_c2 (cadd (ops := O) z w) (c2add (cval z) (cval w)) (/ 2 ^ 53 * modulus (c2add (cval z) (cval w))) /\
  near_c2 (csub (ops := O) z w) (c2sub (cval z) (cval w)) (/ 2 ^ 53 * modulus (c2sub (cval z) (cval w))).
Proof.
  destruct z as [a b], w as [c d]. unfold near_c2, cfinite, cval, c2add, c2sub, cadd, csub. cbn [re im fst snd fadd fsub O F64ops]. intros [FA FB] [FC FD] MZ MW. pose proof u_pos as U.
  pose proof (Rle_trans _ _ _ (mod_fst (B2R a, B2R b)) MZ) as LA. pose proof (Rle_trans _ _ _ (mod_snd (B2R a, B2R b)) MZ) as LB. pose proof (Rle_trans _ _ _ (mod_fst (B2R c, B2R d)) MW) as LC. pose proof (Rle_trans _ _ _ (mod_snd (B2R c, B2R d)) MW) as LD. cbn [fst snd] in LA, LB, LC, LD.
  destruct (big2 _ _ LA LC) as [P1 M1]. destruct (big2 _ _ LB LD) as [P2 M2].
  destruct (f64_plus a c FA FC P1) as [E1 F1]. destruct (f64_plus b d FB FD P2) as [E2 F2]. destruct (f64_minus a c FA FC M1) as [E3 F3]. destruct (f64_minus b d FB FD M2) as [E4 F4].
  pose proof (rnd_plus_rel a c) as R1. pose proof (rnd_plus_rel b d) as R2. rewrite u_val in R1, R2. pose proof (minus_rel a c) as R3. pose proof (minus_rel b d) as R4. rewrite E1, E2, E3, E4.
  split; (split; [split; assumption|]); apply mod_parts0; try assumption; lra.
Qed.
Lemma real64c z (x : f64) : cfinite z -> is_finite x = true -> modulus (cval z) <= bpow radix2 500 -> Rabs (B2R x) <= bpow radix2 500 ->
  near_c2 (cadd_f (ops := O) z x) (c2add (cval z) (B2R x, 0)) (/ 2 ^ 53 * modulus (c2add (cval z) (B2R x, 0))) /\
  near_c2 (csub_f (ops := O) z x) (c2sub (cval z) (B2R x, 0)) (/ 2 ^ 53 * modulus (c2sub (cval z) (B2R x, 0))) /\
  near_c2 (cmul_f (ops := O) z x) (c2mul (cval z) (B2R x, 0)) (/ 2 ^ 53 * (modulus (cval z) * Rabs (B2R x)) + bpow radix2 (-1074)).
Proof.
  destruct z as [a b]. unfold near_c2, cfinite, cval, c2add, c2sub, cadd_f, csub_f, cmul_f. cbn [re im fst snd fadd fsub fmul O F64ops]. intros [FA FB] FX MZ LX. pose proof u_pos as U.
  pose proof (Rle_trans _ _ _ (mod_fst (B2R a, B2R b)) MZ) as LA. pose proof (Rle_trans _ _ _ (mod_snd (B2R a, B2R b)) MZ) as LB. cbn [fst snd] in LA, LB.
  assert (K5 : bpow radix2 500 <= bpow radix2 1000) by (apply bpow_le; lia). destruct (big2 (B2R a) (B2R x) ltac:(lra) ltac:(lra)) as [P1 M1].
  destruct (f64_plus a x FA FX P1) as [E1 F1]. destruct (f64_minus a x FA FX M1) as [E3 F3]. pose proof (rnd_plus_rel a x) as R1. rewrite u_val in R1. pose proof (minus_rel a x) as R3.
  assert (BM : forall y, Rabs y <= bpow radix2 500 -> Rabs (y * B2R x) <= bpow radix2 1023). { intros y H. apply big. rewrite Rabs_mult. apply Rle_trans with (bpow radix2 500 * bpow radix2 500); [apply Rmult_le_compat; try apply Rabs_pos; assumption|]. rewrite <- bpow_plus. apply Rle_refl. }
  destruct (f64_mult a x FA FX (BM _ LA)) as [E5 F5]. destruct (f64_mult b x FB FX (BM _ LB)) as [E6 F6].
  pose proof (rnd_error (B2R a * B2R x)) as R5. pose proof (rnd_error (B2R b * B2R x)) as R6. rewrite u_val in R5, R6. rewrite E1, E3, E5, E6.
  split; [split; [split; assumption|]|split; [split; [split; assumption|]|split; [split; assumption|]]].
  - apply mod_parts0; [lra|exact R1|]. replace (B2R b - (B2R b + 0)) with 0 by ring. rewrite Rabs_R0. apply Rmult_le_pos; [lra|apply Rabs_pos].
  - apply mod_parts0; [lra|exact R3|]. replace (B2R b - (B2R b - 0)) with 0 by ring. rewrite Rabs_R0. apply Rmult_le_pos; [lra|apply Rabs_pos].
  - assert (EC : c2mul (B2R a, B2R b) (B2R x, 0) = (B2R a * B2R x, B2R b * B2R x)) by (unfold c2mul; cbn [fst snd]; f_equal; ring). rewrite <- mod_real, <- mod_mul, EC. cbn [fst snd].
    replace (bpow radix2 (-1074)) with (bpow radix2 (-1075) + bpow radix2 (-1075)) by (replace (bpow radix2 (-1074)) with (2 * bpow radix2 (-1075)) by (change 2 with (bpow radix2 1); rewrite <- bpow_plus; reflexivity); ring).
    apply mod_parts; try apply bpow_ge_0; [lra|assumption|assumption].
Qed.

Lemma mul64c z w : cfinite z -> cfinite w -> modulus (cval z) * modulus (cval w) <= bpow radix2 1000 ->
  near_c2 (cmul (ops := O) z w) (c2mul (cval z) (cval w)) (4 * / 2 ^ 53 * (modulus (cval z) * modulus (cval w)) + bpow radix2 (-1072)).
Proof.
  destruct z as [a b], w as [c d]. unfold near_c2, cfinite, cval, cmul. cbn [re im fadd fsub fmul O F64ops]. intros [FA FB] [FC FD] M. pose proof u_pos as U. pose proof u_small as U4. set (u := / 2 ^ 53) in *. set (h := bpow radix2 (-1075)). assert (H : 0 < h) by apply bpow_gt_0.
  assert (HS : h <= 1). { change 1 with (bpow radix2 0). apply bpow_le. lia. } assert (B1 : 1 <= bpow radix2 1000). { change 1 with (bpow radix2 0). apply bpow_le. lia. }
  assert (PB : forall x y, Rabs x <= modulus (B2R a, B2R b) -> Rabs y <= modulus (B2R c, B2R d) -> Rabs (x * y) <= bpow radix2 1000). { intros x y X Y. rewrite Rabs_mult. apply (fun K => Rle_trans _ _ _ K M). apply Rmult_le_compat; try apply Rabs_pos; assumption. }
  pose proof (mod_fst (B2R a, B2R b)) as LA. pose proof (mod_snd (B2R a, B2R b)) as LB. pose proof (mod_fst (B2R c, B2R d)) as LC. pose proof (mod_snd (B2R c, B2R d)) as LD. cbn [fst snd] in LA, LB, LC, LD.
  destruct (f64_mult a c FA FC (big _ (PB _ _ LA LC))) as [E1 F1]. destruct (f64_mult b d FB FD (big _ (PB _ _ LB LD))) as [E2 F2]. destruct (f64_mult a d FA FD (big _ (PB _ _ LA LD))) as [E3 F3]. destruct (f64_mult b c FB FC (big _ (PB _ _ LB LC))) as [E4 F4].
  pose proof (rnd_error (B2R a * B2R c)) as R1. pose proof (rnd_error (B2R b * B2R d)) as R2. pose proof (rnd_error (B2R a * B2R d)) as R3. pose proof (rnd_error (B2R b * B2R c)) as R4. rewrite u_val in R1, R2, R3, R4. fold u h in R1, R2, R3, R4. rewrite <- E1 in R1. rewrite <- E2 in R2. rewrite <- E3 in R3. rewrite <- E4 in R4.
  assert (RB : forall m p, Rabs (m - p) <= u * Rabs p + h -> Rabs p <= bpow radix2 1000 -> Rabs m <= 3 * bpow radix2 1000). { intros m p R P. pose proof (Rabs_triang (m - p) p) as T. replace (m - p + p) with m in T by ring. assert (u * Rabs p <= / 4 * Rabs p) by (apply Rmult_le_compat_r; [apply Rabs_pos|exact U4]). lra. }
  assert (K6 : 3 * bpow radix2 1000 + 3 * bpow radix2 1000 <= bpow radix2 1023). { apply Rle_trans with (bpow radix2 3 * bpow radix2 1000); [change (bpow radix2 3) with 8; lra|]. rewrite <- bpow_plus. apply bpow_le. lia. }
  pose proof (RB _ _ R1 (PB _ _ LA LC)) as B11. pose proof (RB _ _ R2 (PB _ _ LB LD)) as B2. pose proof (RB _ _ R3 (PB _ _ LA LD)) as B3. pose proof (RB _ _ R4 (PB _ _ LB LC)) as B4.
  destruct (f64_minus _ _ F1 F2) as [E5 F5]. { unfold Rminus. pose proof (Rabs_triang (B2R (Bmult mode_NE a c)) (- B2R (Bmult mode_NE b d))) as T. rewrite Rabs_Ropp in T. lra. }
  destruct (f64_plus _ _ F3 F4) as [E6 F6]. { pose proof (Rabs_triang (B2R (Bmult mode_NE a d)) (B2R (Bmult mode_NE b c))). lra. }
  pose proof (minus_rel (Bmult mode_NE a c) (Bmult mode_NE b d)) as R5. pose proof (rnd_plus_rel (Bmult mode_NE a d) (Bmult mode_NE b c)) as R6. rewrite u_val in R6. fold u in R5, R6. rewrite <- E5 in R5. rewrite <- E6 in R6.
  split; [split; assumption|]. unfold c2sub, c2mul. cbn [fst snd].
  assert (R2' : Rabs (- B2R (Bmult mode_NE b d) - - (B2R b * B2R d)) <= u * Rabs (- (B2R b * B2R d)) + h) by (rewrite Rabs_Ropp; replace (- B2R (Bmult mode_NE b d) - - (B2R b * B2R d)) with (- (B2R (Bmult mode_NE b d) - B2R b * B2R d)) by ring; rewrite Rabs_Ropp; exact R2).
  pose proof (two_prods _ _ _ _ _ u h (Rlt_le _ _ U) U4 (Rlt_le _ _ H) R1 R2' R5) as X. pose proof (two_prods _ _ _ _ _ u h (Rlt_le _ _ U) U4 (Rlt_le _ _ H) R3 R4 R6) as Y. rewrite Rabs_Ropp in X.
  pose proof (Rmult_le_pos _ _ (Rlt_le _ _ U) (Rlt_le _ _ U)) as UU. eapply Rle_trans; [eapply (mod_parts _ _ _ _ (2 * u + u * u) (3 * h) (3 * h)); [lra|lra|lra|exact X|exact Y]|].
  pose proof (cross_le (B2R a) (B2R b) (B2R c) (B2R d)) as CL. replace (bpow radix2 (-1072)) with (8 * h) by (unfold h; change 8 with (bpow radix2 3); rewrite <- bpow_plus; reflexivity).
  pose proof (Rmult_le_pos _ _ (mod_pos (B2R a, B2R b)) (mod_pos (B2R c, B2R d))) as MM. set (N := modulus (B2R a, B2R b) * modulus (B2R c, B2R d)) in *.
  assert (CL2 : (2 * u + u * u) * modulus (Rabs (B2R a * B2R c) + Rabs (B2R b * B2R d), Rabs (B2R a * B2R d) + Rabs (B2R b * B2R c)) <= (2 * u + u * u) * (15 / 10 * N)) by (apply Rmult_le_compat_l; lra).
  assert (UN : u * u * N <= / 4 * (u * N)). { rewrite Rmult_assoc. apply Rmult_le_compat_r; [apply Rmult_le_pos; lra|exact U4]. } pose proof (Rmult_le_pos _ _ (Rlt_le _ _ U) MM). lra.
Qed.

Lemma abs64c : accurate lm -> forall z, cfinite z -> modulus (cval z) <= bpow radix2 500 ->
  is_finite (cabs (ops := O) z) = true /\ 0 <= B2R (cabs (ops := O) z) /\ Rabs (B2R (cabs (ops := O) z) - modulus (cval z)) <= / 2 ^ 50 * modulus (cval z) + bpow radix2 (-1000).
Proof.
  intros AC [a b] [FA FB] M. cbn [re im] in FA, FB. unfold cval in M. cbn [re im] in M. pose proof (mod_fst (B2R a, B2R b)) as LA. pose proof (mod_snd (B2R a, B2R b)) as LB. cbn [fst snd] in LA, LB.
  assert (LA' : Rabs (B2R a) <= bpow radix2 500) by lra. assert (LB' : Rabs (B2R b) <= bpow radix2 500) by lra. destruct (ac_hypot lm AC a b FA FB (Logic.conj LA' LB')) as [F R].
  split; [exact F|]. split; [exact (ac_hypot_pos lm AC a b FA FB LA' LB')|]. change (Rhypot (B2R a) (B2R b)) with (modulus (B2R a, B2R b)) in R. rewrite (Rabs_pos_eq _ (mod_pos (B2R a, B2R b))) in R. exact R.
Qed.
End C.
