(** Polynomial evaluation in binary64. *)
From Coq Require Import Bool Reals Lra Lia List Arith ZArith.
From Flocq Require Import Core IEEE754.BinarySingleNaN.
From Verif.Num Require Import FOps F64 F64Lemmas.
From Verif.Model Require Import Fp.
From Verif.Spec Require Import Series Lines64 Sums64.
From Verif.Proofs Require Import MathX NearT Lines64A.
Import ListNotations.
Local Open Scope R_scope.

Lemma poly_cons a c x : polynomial (a :: c) x = x * polynomial c x + a.
Proof. rewrite polynomial_cons. ring. Qed.

Lemma mul_step x A P S G wn u h c m t : 0 <= u -> 0 <= h -> 1 <= wn -> 0 <= S -> 0 <= G ->
  Rabs (A - P) <= (wn - 1) * S + h * wn * G -> Rabs P <= S -> Rabs (m - x * A) <= u * Rabs (x * A) + h -> Rabs (t - (m + c)) <= u * Rabs (m + c) ->
  Rabs (t - (x * P + c)) <= (wn * ((1 + u) * (1 + u)) - 1) * (Rabs x * S + Rabs c) + h * (wn * ((1 + u) * (1 + u))) * (Rabs x * G + 1).
Proof.
  intros U H W S0 G0 EA EP EM ET. pose proof (Rabs_pos x) as X0. pose proof (Rabs_pos c) as C0.
  assert (HG : 0 <= h * wn * G) by (apply Rmult_le_pos; [apply Rmult_le_pos; lra|exact G0]).
  assert (BA : Rabs A <= wn * S + h * wn * G). { pose proof (Rabs_triang (A - P) P) as T. replace (A - P + P) with A in T by ring. lra. }
  set (B := wn * S + h * wn * G) in *. assert (XA : Rabs (x * A) <= Rabs x * B) by (rewrite Rabs_mult; apply Rmult_le_compat_l; assumption).
  assert (XD : Rabs (x * (A - P)) <= Rabs x * ((wn - 1) * S + h * wn * G)) by (rewrite Rabs_mult; apply Rmult_le_compat_l; assumption).
  set (Q := Rabs x * B) in *. assert (UQ : u * Rabs (x * A) <= u * Q) by (apply Rmult_le_compat_l; assumption).
  assert (M : Rabs (m + c) <= Q + u * Q + h + Rabs c). { replace (m + c) with ((m - x * A) + x * A + c) by ring. pose proof (Rabs_triang ((m - x * A) + x * A) c). pose proof (Rabs_triang (m - x * A) (x * A)). lra. }
  assert (UM : u * Rabs (m + c) <= u * (Q + u * Q + h + Rabs c)) by (apply Rmult_le_compat_l; assumption).
  replace (t - (x * P + c)) with ((t - (m + c)) + (m - x * A) + x * (A - P)) by ring.
  pose proof (Rabs_triang ((t - (m + c)) + (m - x * A)) (x * (A - P))) as T1. pose proof (Rabs_triang (t - (m + c)) (m - x * A)) as T2.
  assert (UW : u * Rabs c <= (wn * ((1 + u) * (1 + u)) - 1) * Rabs c). { apply Rmult_le_compat_r; [exact C0|]. assert (1 * ((1 + u) * (1 + u)) <= wn * ((1 + u) * (1 + u))) by (apply Rmult_le_compat_r; [apply Rmult_le_pos; lra|exact W]). pose proof (Rmult_le_pos u u U U). lra. }
  assert (HW : h * (1 + u) <= h * (wn * ((1 + u) * (1 + u)))). { apply Rmult_le_compat_l; [exact H|]. assert (1 * ((1 + u) * (1 + u)) <= wn * ((1 + u) * (1 + u))) by (apply Rmult_le_compat_r; [apply Rmult_le_pos; lra|exact W]). pose proof (Rmult_le_pos u u U U). lra. }
  unfold Q, B in *. lra.
Qed.
Lemma fma_step x A P S G wn u h c t : 0 <= u -> 0 <= h -> 1 <= wn -> 0 <= S -> 0 <= G ->
  Rabs (A - P) <= (wn - 1) * S + h * wn * G -> Rabs P <= S -> Rabs (t - (A * x + c)) <= u * Rabs (A * x + c) + h ->
  Rabs (t - (x * P + c)) <= (wn * (1 + u) - 1) * (Rabs x * S + Rabs c) + h * (wn * (1 + u)) * (Rabs x * G + 1).
Proof.
  intros U H W S0 G0 EA EP ET. pose proof (Rabs_pos x) as X0. pose proof (Rabs_pos c) as C0.
  assert (BA : Rabs A <= wn * S + h * wn * G). { pose proof (Rabs_triang (A - P) P) as T. replace (A - P + P) with A in T by ring. lra. }
  set (B := wn * S + h * wn * G) in *. assert (XA : Rabs (A * x) <= Rabs x * B) by (rewrite Rmult_comm, Rabs_mult; apply Rmult_le_compat_l; assumption).
  assert (XD : Rabs (x * (A - P)) <= Rabs x * ((wn - 1) * S + h * wn * G)) by (rewrite Rabs_mult; apply Rmult_le_compat_l; assumption).
  set (Q := Rabs x * B) in *. assert (UM : u * Rabs (A * x + c) <= u * (Q + Rabs c)). { apply Rmult_le_compat_l; [exact U|]. pose proof (Rabs_triang (A * x) c). lra. }
  replace (t - (x * P + c)) with ((t - (A * x + c)) + x * (A - P)) by ring. pose proof (Rabs_triang (t - (A * x + c)) (x * (A - P))) as T1.
  assert (W1 : 1 * (1 + u) <= wn * (1 + u)) by (apply Rmult_le_compat_r; lra).
  assert (UW : u * Rabs c <= (wn * (1 + u) - 1) * Rabs c) by (apply Rmult_le_compat_r; lra).
  assert (HW : h * 1 <= h * (wn * (1 + u))) by (apply Rmult_le_compat_l; lra).
  unfold Q, B in *. lra.
Qed.

(** ** The two evaluations *)
Lemma abspoly_cons a c x : abspoly (a :: c) x = Rabs x * abspoly c x + Rabs a.
Proof. unfold abspoly. cbn [map]. apply poly_cons. Qed.
Lemma powers_cons a c x : powers (a :: c) x = Rabs x * powers c x + 1.
Proof. unfold powers. cbn [map]. apply poly_cons. Qed.
Lemma abspoly_ge c x : Rabs (polynomial c x) <= abspoly c x.
Proof.
  induction c as [|a c IH]; [unfold abspoly, polynomial; cbn; rewrite Rabs_R0; lra|]. rewrite abspoly_cons, poly_cons. pose proof (Rabs_triang (x * polynomial c x) a) as T. rewrite Rabs_mult in T. pose proof (Rmult_le_compat_l (Rabs x) _ _ (Rabs_pos x) IH). lra.
Qed.
Lemma powers_ge c x : 0 <= powers c x.
Proof. induction c as [|a c IH]; [unfold powers, polynomial; cbn; lra|]. rewrite powers_cons. pose proof (Rmult_le_pos _ _ (Rabs_pos x) IH). lra. Qed.
Lemma abspoly_pos c x : 0 <= abspoly c x.
Proof. pose proof (abspoly_ge c x). pose proof (Rabs_pos (polynomial c x)). lra. Qed.

Lemma room x S G c A wn q h u : Rabs A <= wn * S + h * wn * G -> 0 <= S -> 0 <= G -> 1 <= wn -> 1 <= q -> 0 <= h -> h <= / 4 -> 0 <= u -> u <= / 4 ->
  (Rabs x * S + Rabs c + (Rabs x * G + 1)) * (wn * q) <= bpow radix2 1000 ->
  Rabs (x * A) <= bpow radix2 1000 /\ Rabs (x * A) * (1 + u) + h + Rabs c <= bpow radix2 1 * bpow radix2 1000.
Proof.
  intros BA S0 G0 W Q H0 H4 U0 U4 L. pose proof (Rabs_pos x) as X0. pose proof (Rabs_pos c) as C0. pose proof (Rmult_le_pos _ _ X0 S0) as XS. pose proof (Rmult_le_pos _ _ X0 G0) as XG.
  assert (P1 : wn * 1 <= wn * q) by (apply Rmult_le_compat_l; lra). set (Y := Rabs x * S + Rabs c + (Rabs x * G + 1)) in *. assert (Y0 : 0 <= Y) by (unfold Y; lra).
  assert (L1 : Y * wn <= Y * (wn * q)) by (apply Rmult_le_compat_l; lra). assert (L2 : Y * 1 <= Y * wn) by (apply Rmult_le_compat_l; lra).
  assert (XA : Rabs (x * A) <= wn * (Rabs x * S) + h * (wn * (Rabs x * G))). { rewrite Rabs_mult. apply Rle_trans with (Rabs x * (wn * S + h * wn * G)); [apply Rmult_le_compat_l; assumption|]. lra. }
  assert (HH : h * (wn * (Rabs x * G)) <= / 4 * (wn * (Rabs x * G))) by (apply Rmult_le_compat_r; [apply Rmult_le_pos; lra|exact H4]).
  assert (WC : 0 <= wn * Rabs c) by (apply Rmult_le_pos; lra). assert (WG : 0 <= wn * (Rabs x * G)) by (apply Rmult_le_pos; lra). assert (WS : 0 <= wn * (Rabs x * S)) by (apply Rmult_le_pos; lra).
  assert (A1 : Rabs (x * A) <= bpow radix2 1000) by (unfold Y in *; lra). split; [exact A1|]. assert (UA : Rabs (x * A) * u <= Rabs (x * A) * / 4) by (apply Rmult_le_compat_l; [apply Rabs_pos|exact U4]).
  assert (C1 : 1 * Rabs c <= wn * Rabs c) by (apply Rmult_le_compat_r; lra). change (bpow radix2 1) with 2. unfold Y in *. lra.
Qed.

Lemma u_small : / 2 ^ 53 <= / 4.
Proof. apply Rinv_le_contravar; [lra|cbn; lra]. Qed.
Lemma eta_small : bpow radix2 (-1075) <= / 4.
Proof. change (/ 4) with (bpow radix2 (-2)). apply bpow_le. lia. Qed.
Lemma b1001 : bpow radix2 1 * bpow radix2 1000 <= bpow radix2 1023.
Proof. rewrite <- bpow_plus. apply bpow_le. lia. Qed.

(** The bound of the sizes holds for every step. *)
Fixpoint fits_all (w : R) (c : list R) (X : R) : Prop :=
  match c with
  | [] => True
  | _ :: c' => (abspoly c X + powers c X) * w ^ List.length c <= bpow radix2 1000 /\ fits_all w c' X
  end.

Lemma abspoly_mono c x M : 0 <= Rabs x <= M -> abspoly c x <= abspoly c M.
Proof.
  intros H. assert (EM : Rabs M = M) by (apply Rabs_pos_eq; lra). induction c as [|a c IH]; [apply Rle_refl|]. rewrite !abspoly_cons, EM. apply Rplus_le_compat_r. apply Rmult_le_compat; [lra|apply abspoly_pos|lra|exact IH].
Qed.
Lemma powers_mono c x M : 0 <= Rabs x <= M -> powers c x <= powers c M.
Proof.
  intros H. assert (EM : Rabs M = M) by (apply Rabs_pos_eq; lra). induction c as [|a c IH]; [apply Rle_refl|]. rewrite !powers_cons, EM. apply Rplus_le_compat_r. apply Rmult_le_compat; [lra|apply powers_ge|lra|exact IH].
Qed.
Lemma fits_of c x w : 1 <= w -> (abspoly c (Rmax 1 (Rabs x)) + powers c (Rmax 1 (Rabs x))) * w ^ List.length c <= bpow radix2 1000 -> fits_all w c x.
Proof.
  intros W. set (M := Rmax 1 (Rabs x)). assert (M1 : 1 <= M) by apply Rmax_l. assert (MX : 0 <= Rabs x <= M) by (split; [apply Rabs_pos|apply Rmax_r]). assert (EM : Rabs M = M) by (apply Rabs_pos_eq; lra).
  induction c as [|a c IH]; intros H; [exact I|]. pose proof (pow_R1_Rle w (List.length (a :: c)) W) as WN. split.
  - apply (fun K => Rle_trans _ _ _ K H). apply Rmult_le_compat_r; [lra|]. apply Rplus_le_compat; [now apply abspoly_mono|now apply powers_mono].
  - apply IH. apply (fun K => Rle_trans _ _ _ K H). pose proof (abspoly_pos c M) as A. pose proof (powers_ge c M) as P. rewrite abspoly_cons, powers_cons, EM. pose proof (Rabs_pos a) as B.
    assert (1 * abspoly c M <= M * abspoly c M) by (apply Rmult_le_compat_r; lra). assert (1 * powers c M <= M * powers c M) by (apply Rmult_le_compat_r; lra).
    apply Rmult_le_compat; [lra|apply pow_le; lra|lra|]. apply Rle_pow; [exact W|cbn; lia].
Qed.

Section P.
Variable lm : libm.
Let O : FOps f64 := F64ops lm.
Local Existing Instance O.
Variables (x : f64).
Hypothesis FX : is_finite x = true.
Let u := / 2 ^ 53.
Let h := bpow radix2 (-1075).

Lemma poly_eval_cons (a : f64) c : poly_eval (ops := O) (a :: c) x = Bplus mode_NE (Bmult mode_NE x (poly_eval (ops := O) c x)) a.
Proof. unfold poly_eval, eval_at. cbn [rev]. now rewrite fold_left_app. Qed.
Lemma fast_eval_cons (a : f64) c : fast_eval_at (ops := O) (a :: c) x = Bfma mode_NE (fast_eval_at (ops := O) c x) x a.
Proof. unfold fast_eval_at. cbn [rev]. now rewrite fold_left_app. Qed.

Lemma horner64 (c : list f64) : Forall (fun a : f64 => is_finite a = true) c -> fits_all ((1 + u) * (1 + u)) (vals c) (B2R x) ->
  let r := poly_eval (ops := O) c x in let w := ((1 + u) * (1 + u)) ^ List.length c in
  is_finite r = true /\ Rabs (B2R r - polynomial (vals c) (B2R x)) <= (w - 1) * abspoly (vals c) (B2R x) + h * w * powers (vals c) (B2R x).
Proof.
  assert (U : 0 < u) by exact u_pos. pose proof u_small as U4. pose proof eta_small as H4. assert (H : 0 < h) by apply bpow_gt_0.
  induction 1 as [|a c FA FC IH]; intros FIT; cbv zeta.
  { split; [reflexivity|]. unfold poly_eval, eval_at, polynomial, abspoly, powers. cbn [rev fold_left vals map List.length Rsum pow fofZ O F64ops]. change (B2R (f64_ofZ 0)) with 0. unfold polynomial. cbn [List.length map Rsum]. rewrite Rminus_0_r, Rabs_R0. lra. }
  change (vals (a :: c)) with (B2R a :: vals c) in *. destruct FIT as [FIT FIT']. cbn [List.length] in *. rewrite abspoly_cons, powers_cons in *. rewrite poly_cons. specialize (IH FIT'). cbv zeta in IH. destruct IH as [FR IH].
  rewrite poly_eval_cons. set (A := poly_eval (ops := O) c x) in *. assert (EL : List.length (vals c) = List.length c) by apply map_length. rewrite EL in FIT.
  set (q := (1 + u) * (1 + u)) in *. assert (Q1 : 1 <= q). { unfold q. pose proof (Rmult_le_pos u u (Rlt_le _ _ U) (Rlt_le _ _ U)). lra. } change (q ^ S (List.length c)) with (q * q ^ List.length c) in *. rewrite (Rmult_comm q) in *.
  assert (W1 : 1 <= q ^ List.length c) by (apply pow_R1_Rle; exact Q1). set (wn := q ^ List.length c) in *.
  pose proof (abspoly_pos (vals c) (B2R x)) as S0. pose proof (powers_ge (vals c) (B2R x)) as G0. pose proof (abspoly_ge (vals c) (B2R x)) as PS.
  set (S := abspoly (vals c) (B2R x)) in *. set (G := powers (vals c) (B2R x)) in *. set (P := polynomial (vals c) (B2R x)) in *.
  assert (BA : Rabs (B2R A) <= wn * S + h * wn * G). { pose proof (Rabs_triang (B2R A - P) P) as T. replace (B2R A - P + P) with (B2R A) in T by ring. lra. }
  destruct (room (B2R x) S G (B2R a) (B2R A) wn q h u BA S0 G0 W1 Q1 (Rlt_le _ _ H) H4 (Rlt_le _ _ U) U4) as [XA XC]. { rewrite <- Rplus_assoc in FIT |- *. exact FIT. }
  pose proof b1000 as BB. pose proof b1001 as BB1. destruct (f64_mult x A FX FR) as [EM FM]. { lra. }
  pose proof (rnd_error (B2R x * B2R A)) as RM. rewrite <- EM, u_val in RM. fold u h in RM. set (m := Bmult mode_NE x A) in *.
  destruct (f64_plus m a FM FA) as [ET FT]. { apply Rle_trans with (Rabs (B2R x * B2R A) * (1 + u) + h + Rabs (B2R a)); [|lra]. replace (B2R m + B2R a) with ((B2R m - B2R x * B2R A) + B2R x * B2R A + B2R a) by ring. pose proof (Rabs_triang ((B2R m - B2R x * B2R A) + B2R x * B2R A) (B2R a)). pose proof (Rabs_triang (B2R m - B2R x * B2R A) (B2R x * B2R A)). lra. }
  split; [exact FT|]. pose proof (rnd_plus_rel m a) as RT. rewrite <- ET, u_val in RT. fold u in RT.
  exact (mul_step _ _ _ _ _ _ _ _ _ _ _ (Rlt_le _ _ U) (Rlt_le _ _ H) W1 S0 G0 IH PS RM RT).
Qed.

Lemma fast64 (c : list f64) : Forall (fun a : f64 => is_finite a = true) c -> fits_all (1 + u) (vals c) (B2R x) ->
  let r := fast_eval_at (ops := O) c x in let w := (1 + u) ^ List.length c in
  is_finite r = true /\ Rabs (B2R r - polynomial (vals c) (B2R x)) <= (w - 1) * abspoly (vals c) (B2R x) + h * w * powers (vals c) (B2R x).
Proof.
  assert (U : 0 < u) by exact u_pos. pose proof u_small as U4. pose proof eta_small as H4. assert (H : 0 < h) by apply bpow_gt_0.
  induction 1 as [|a c FA FC IH]; intros FIT; cbv zeta.
  { split; [reflexivity|]. unfold fast_eval_at, polynomial, abspoly, powers. cbn [rev fold_left vals map List.length Rsum pow fofZ O F64ops]. change (B2R (f64_ofZ 0)) with 0. unfold polynomial. cbn [List.length map Rsum]. rewrite Rminus_0_r, Rabs_R0. lra. }
  change (vals (a :: c)) with (B2R a :: vals c) in *. destruct FIT as [FIT FIT']. cbn [List.length] in *. rewrite abspoly_cons, powers_cons in *. rewrite poly_cons. specialize (IH FIT'). cbv zeta in IH. destruct IH as [FR IH].
  rewrite fast_eval_cons. set (A := fast_eval_at (ops := O) c x) in *. assert (EL : List.length (vals c) = List.length c) by apply map_length. rewrite EL in FIT.
  assert (Q1 : 1 <= 1 + u) by lra. change ((1 + u) ^ S (List.length c)) with ((1 + u) * (1 + u) ^ List.length c) in *. rewrite (Rmult_comm (1 + u)) in *.
  assert (W1 : 1 <= (1 + u) ^ List.length c) by (apply pow_R1_Rle; exact Q1). set (wn := (1 + u) ^ List.length c) in *.
  pose proof (abspoly_pos (vals c) (B2R x)) as S0. pose proof (powers_ge (vals c) (B2R x)) as G0. pose proof (abspoly_ge (vals c) (B2R x)) as PS.
  set (S := abspoly (vals c) (B2R x)) in *. set (G := powers (vals c) (B2R x)) in *. set (P := polynomial (vals c) (B2R x)) in *.
  assert (BA : Rabs (B2R A) <= wn * S + h * wn * G). { pose proof (Rabs_triang (B2R A - P) P) as T. replace (B2R A - P + P) with (B2R A) in T by ring. lra. }
  destruct (room (B2R x) S G (B2R a) (B2R A) wn (1 + u) h u BA S0 G0 W1 Q1 (Rlt_le _ _ H) H4 (Rlt_le _ _ U) U4) as [XA XC]. { rewrite <- Rplus_assoc in FIT |- *. exact FIT. }
  pose proof b1000 as BB. pose proof b1001 as BB1. rewrite (Rmult_comm (B2R x)) in XA, XC. destruct (f64_fma A x a FR FX FA) as [EM FM].
  { apply Rle_trans with (Rabs (B2R A * B2R x) * (1 + u) + h + Rabs (B2R a)); [|lra]. pose proof (Rabs_triang (B2R A * B2R x) (B2R a)). pose proof (Rmult_le_pos _ _ (Rabs_pos (B2R A * B2R x)) (Rlt_le _ _ U)). lra. }
  pose proof (rnd_error (B2R A * B2R x + B2R a)) as RM. rewrite <- EM, u_val in RM. fold u h in RM.
  split; [exact FM|]. exact (fma_step _ _ _ _ _ _ _ _ _ _ (Rlt_le _ _ U) (Rlt_le _ _ H) W1 S0 G0 IH PS RM).
Qed.

Lemma poly64 (c : list f64) : Forall (fun a : f64 => is_finite a = true) c -> let w := (1 + / 2 ^ 53) ^ (2 * List.length c) in let m := Rmax 1 (Rabs (B2R x)) in
  (abspoly (vals c) m + powers (vals c) m) * w <= bpow radix2 1000 ->
  (is_finite (poly_eval (ops := O) c x) = true /\ Rabs (B2R (poly_eval (ops := O) c x) - polynomial (vals c) (B2R x)) <= (w - 1) * abspoly (vals c) (B2R x) + bpow radix2 (-1075) * w * powers (vals c) (B2R x)) /\
  (is_finite (fast_eval_at (ops := O) c x) = true /\ Rabs (B2R (fast_eval_at (ops := O) c x) - polynomial (vals c) (B2R x)) <= ((1 + / 2 ^ 53) ^ List.length c - 1) * abspoly (vals c) (B2R x) + bpow radix2 (-1075) * (1 + / 2 ^ 53) ^ List.length c * powers (vals c) (B2R x)).
Proof.
  intros FC w m H. pose proof u_pos as U. assert (EL : List.length (vals c) = List.length c) by apply map_length.
  assert (EW : w = ((1 + / 2 ^ 53) * (1 + / 2 ^ 53)) ^ List.length c). { unfold w. rewrite pow_mult. f_equal. change ((1 + / 2 ^ 53) ^ 2) with ((1 + / 2 ^ 53) * ((1 + / 2 ^ 53) * 1)). ring. }
  pose proof (Rmult_le_pos _ _ (Rlt_le _ _ U) (Rlt_le _ _ U)) as UU. assert (Q1 : 1 <= (1 + / 2 ^ 53) * (1 + / 2 ^ 53)) by lra. split.
  - rewrite EW in H |- *. apply horner64; [exact FC|]. apply fits_of; [exact Q1|]. rewrite EL. exact H.
  - apply fast64; [exact FC|]. apply fits_of; [unfold u; lra|]. rewrite EL. apply (fun K => Rle_trans _ _ _ K H). apply Rmult_le_compat_l; [pose proof (abspoly_pos (vals c) m); pose proof (powers_ge (vals c) m); unfold m in *; lra|]. unfold w, u. apply Rle_pow; [lra|lia].
Qed.
End P.
