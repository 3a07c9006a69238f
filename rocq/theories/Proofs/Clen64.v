(** Clenshaw summation in binary64: the computed sum is the exact one for coefficients changed by
    roundings, so its error grows with the square of the number of terms only. *)
From Coq Require Import Bool Reals Lra Lia List Arith ZArith.
From Flocq Require Import Core IEEE754.BinarySingleNaN.
From Verif.Num Require Import FOps F64 F64Lemmas RFun.
From Verif.Model Require Import Fp.
From Verif.Spec Require Import Accurate Series Lines64 Sums64.
From Verif.Proofs Require Import MathX Lines64A.
Import ListNotations.
Local Open Scope R_scope.

(** ** The exact recurrence *)
Fixpoint W (x : R) (i : nat) : R := match i with O => 1 | S j => cos x * W x j + cos (INR (S j) * x) end.
Fixpoint sw (x : R) (k : nat) (d : list R) : R := match d with [] => 0 | a :: d' => a * W x k + sw x (S k) d' end.

Lemma W_sin x i : sin x * W x i = sin (INR (S i) * x).
Proof.
  induction i as [|i IH]; [cbn [W INR]; rewrite Rmult_1_r, Rmult_1_l; reflexivity|]. cbn [W]. rewrite (S_INR (S i)), Rmult_plus_distr_r, Rmult_1_l, sin_plus, <- IH. ring.
Qed.
Lemma W_rec x i : W x (S (S i)) = 2 * cos x * W x (S i) - W x i.
Proof.
  change (W x (S (S i))) with (cos x * W x (S i) + cos (INR (S (S i)) * x)). rewrite (S_INR (S i)), Rmult_plus_distr_r, Rmult_1_l, cos_plus, <- W_sin.
  change (W x (S i)) with (cos x * W x i + cos (INR (S i) * x)). pose proof (sin2_cos2 x) as T. unfold Rsqr in T. replace (sin x * W x i * sin x) with ((sin x * sin x) * W x i) by ring. replace (sin x * sin x) with (1 - cos x * cos x) by lra. ring.
Qed.
Lemma W_le x i : Rabs (W x i) <= INR (S i).
Proof.
  induction i as [|i IH]; [cbn; rewrite Rabs_R1; lra|]. cbn [W]. rewrite (S_INR (S i)). pose proof (Rabs_triang (cos x * W x i) (cos (INR (S i) * x))) as T. rewrite Rabs_mult in T.
  assert (A : Rabs (cos x) <= 1) by (apply Rabs_le; apply COS_bound). assert (B : Rabs (cos (INR (S i) * x)) <= 1) by (apply Rabs_le; apply COS_bound).
  pose proof (Rmult_le_compat _ _ _ _ (Rabs_pos _) (Rabs_pos _) A IH). lra.
Qed.
Lemma sw_rec x d : forall k, sw x (S (S k)) d = 2 * cos x * sw x (S k) d - sw x k d.
Proof. induction d as [|a d IH]; intros k; cbn [sw]; [ring|]. rewrite IH, W_rec. ring. Qed.
Lemma sw_step x d : sw x 1 d = 2 * cos x * sw x 0 d - sw x 0 (tl d).
Proof. destruct d as [|a d]; cbn [sw tl]; [ring|]. rewrite sw_rec. cbn [W INR]. rewrite Rmult_1_l. ring. Qed.
Lemma sw_le x d : forall k, Rabs (sw x k d) <= INR (k + List.length d) * abssum d.
Proof.
  induction d as [|a d IH]; intros k; cbn [sw abssum fold_right List.length]; [rewrite Rabs_R0; lra|]. fold (abssum d). specialize (IH (S k)). replace (k + S (List.length d))%nat with (S k + List.length d)%nat by lia.
  pose proof (Rabs_triang (a * W x k) (sw x (S k) d)) as T. rewrite Rabs_mult in T. assert (A : Rabs (W x k) <= INR (S k + List.length d)) by (apply (Rle_trans _ _ _ (W_le x k)); apply le_INR; lia).
  pose proof (Rmult_le_compat_l _ _ _ (Rabs_pos a) A). lra.
Qed.
Lemma sw_sin x d : forall k, sin x * sw x k d = Rsum (List.length d) (fun i => nth i d 0 * sin (INR (S (k + i)) * x)).
Proof.
  induction d as [|a d IH]; intros k; cbn [sw List.length]; [cbn; ring|]. rewrite Rsum_shift, Rmult_plus_distr_l, IH. cbn [nth]. rewrite Nat.add_0_r, <- W_sin. f_equal; [ring|]. apply Rsum_ext. intros i _. do 3 f_equal. f_equal. lia.
Qed.
Lemma sw_series x d : sin x * sw x 0 (tl d) = sine_series d x.
Proof.
  destruct d as [|a d]; [cbn; ring|]. unfold sine_series. cbn [tl List.length]. rewrite sw_sin, Rsum_shift. cbn [nth INR]. rewrite Rmult_0_l, sin_0, Rmult_0_r, Rplus_0_l. reflexivity.
Qed.

(** [d] differs from [c] by [u |c_i| + e] in each place. *)
Definition changed (u e : R) (d c : list R) : Prop := Forall2 (fun a b => Rabs (a - b) <= u * Rabs b + e) d c.
Lemma changed_length u e d c : changed u e d c -> List.length d = List.length c.
Proof. induction 1; cbn [List.length]; congruence. Qed.
Lemma changed_sum u e d c : changed u e d c -> abssum d <= (1 + u) * abssum c + INR (List.length c) * e.
Proof.
  induction 1 as [|a b d c H _ IH]; cbn [abssum fold_right List.length]; [cbn; lra|]. fold (abssum d) (abssum c). rewrite S_INR. pose proof (Rabs_triang (a - b) b) as T. replace (a - b + b) with a in T by ring. lra.
Qed.
Lemma changed_series u e x d c : changed u e d c -> forall k, Rabs (Rsum (List.length d) (fun i => nth i d 0 * sin (INR (k + i) * x)) - Rsum (List.length c) (fun i => nth i c 0 * sin (INR (k + i) * x))) <= u * abssum c + INR (List.length c) * e.
Proof.
  induction 1 as [|a b d c H _ IH]; intros k; [cbn; rewrite Rminus_0_r, Rabs_R0; lra|]. cbn [abssum fold_right List.length]. fold (abssum c). rewrite S_INR, !Rsum_shift. cbn [nth]. specialize (IH (S k)).
  rewrite (Rsum_ext _ (fun i => nth i d 0 * sin (INR (k + S i) * x)) (fun i => nth i d 0 * sin (INR (S k + i) * x))) by (intros i _; do 4 f_equal; lia).
  rewrite (Rsum_ext _ (fun i => nth i c 0 * sin (INR (k + S i) * x)) (fun i => nth i c 0 * sin (INR (S k + i) * x))) by (intros i _; do 4 f_equal; lia).
  set (p := Rsum _ _) in *. set (q := Rsum (List.length c) _) in *. set (s := sin (INR (k + 0) * x)). assert (B : Rabs s <= 1) by (apply Rabs_le; apply SIN_bound).
  replace (a * s + p - (b * s + q)) with ((a - b) * s + (p - q)) by ring. pose proof (Rabs_triang ((a - b) * s) (p - q)) as T. rewrite Rabs_mult in T. pose proof (Rmult_le_compat_l _ _ _ (Rabs_pos (a - b)) B). lra.
Qed.
Lemma abssum_pos c : 0 <= abssum c.
Proof. induction c as [|a c IH]; cbn [abssum fold_right]; [lra|]. fold (abssum c). pose proof (Rabs_pos a). lra. Qed.

(** ** The rounded recurrence *)
Lemma step_real al c y y1 a p s t u h Y : 0 <= u -> u <= / 1000 -> 0 <= h -> 0 <= Y -> Rabs y <= Y -> Rabs y1 <= Y -> Rabs c <= 1 -> Rabs (al - 2 * c) <= 19 * u ->
  Rabs (p - al * y) <= u * Rabs (al * y) + h -> Rabs (s - (p - y1)) <= u * Rabs (p - y1) -> Rabs (t - (s + a)) <= u * Rabs (s + a) ->
  Rabs (p - y1) <= 4 * Y + h /\ Rabs (s + a) <= 4 * Y + 2 * h + Rabs a /\ Rabs (t - (2 * c * y - y1) - a) <= u * Rabs a + (32 * u * Y + 4 * h).
Proof.
  intros U U2 H Y0 BY BY1 BC EA EP ES ET. assert (A2 : Rabs al <= 9 / 4). { pose proof (Rabs_triang (al - 2 * c) (2 * c)) as T. replace (al - 2 * c + 2 * c) with al in T by ring. rewrite (Rabs_mult 2), (Rabs_pos_eq 2) in T by lra. lra. }
  assert (AY : Rabs (al * y) <= 9 / 4 * Y) by (rewrite Rabs_mult; apply Rmult_le_compat; try apply Rabs_pos; assumption).
  assert (CY : Rabs ((al - 2 * c) * y) <= 19 * u * Y) by (rewrite Rabs_mult; apply Rmult_le_compat; try apply Rabs_pos; assumption).
  assert (UY : 0 <= u * Y) by (apply Rmult_le_pos; assumption). assert (UY2 : u * Y <= / 1000 * Y) by (apply Rmult_le_compat_r; assumption). assert (UH : u * h <= / 1000 * h) by (apply Rmult_le_compat_r; assumption). assert (UH0 : 0 <= u * h) by (apply Rmult_le_pos; assumption).
  assert (UA : u * Rabs (al * y) <= 9 / 4 * (u * Y)) by (apply Rle_trans with (u * (9 / 4 * Y)); [apply Rmult_le_compat_l; assumption|lra]).
  assert (P1 : Rabs (p - y1) <= 33 / 10 * Y + h). { replace (p - y1) with ((p - al * y) + al * y + - y1) by ring. pose proof (Rabs_triang ((p - al * y) + al * y) (- y1)) as T1. pose proof (Rabs_triang (p - al * y) (al * y)) as T2. rewrite Rabs_Ropp in T1. lra. }
  assert (UP : u * Rabs (p - y1) <= 33 / 10 * (u * Y) + u * h) by (apply Rle_trans with (u * (33 / 10 * Y + h)); [apply Rmult_le_compat_l; assumption|lra]).
  assert (S1 : Rabs (s + a) <= 34 / 10 * Y + 2 * h + Rabs a). { replace (s + a) with ((s - (p - y1)) + (p - y1) + a) by ring. pose proof (Rabs_triang ((s - (p - y1)) + (p - y1)) a) as T1. pose proof (Rabs_triang (s - (p - y1)) (p - y1)) as T2. lra. }
  assert (US : u * Rabs (s + a) <= 34 / 10 * (u * Y) + 2 * (u * h) + u * Rabs a) by (apply Rle_trans with (u * (34 / 10 * Y + 2 * h + Rabs a)); [apply Rmult_le_compat_l; assumption|lra]).
  split; [lra|]. split; [lra|]. replace (t - (2 * c * y - y1) - a) with ((t - (s + a)) + (s - (p - y1)) + (p - al * y) + (al - 2 * c) * y) by ring.
  pose proof (Rabs_triang ((t - (s + a)) + (s - (p - y1)) + (p - al * y)) ((al - 2 * c) * y)). pose proof (Rabs_triang ((t - (s + a)) + (s - (p - y1))) (p - al * y)). pose proof (Rabs_triang (t - (s + a)) (s - (p - y1))). lra.
Qed.

Lemma bound_ok n S m (u h k : R) : 0 <= u -> u <= / 1000 -> 0 <= h -> 0 <= S -> 0 < k -> 1 <= n -> 0 <= m <= n -> 4 * n * h <= k -> 128 * (n * n) * u <= 1 -> forall T, 0 <= T <= S ->
  let Y := 2 * n * (S + k) in m * ((1 + u) * T + m * (32 * u * Y + 4 * h)) <= Y.
Proof.
  intros U U2 H S0 K N M HK NU T HT Y. assert (Y0 : 0 <= Y) by (unfold Y; apply Rmult_le_pos; lra).
  assert (A1 : m * ((1 + u) * T) <= n * ((1 + u) * S)). { assert (0 <= (1 + u) * T) by (apply Rmult_le_pos; lra). assert ((1 + u) * T <= (1 + u) * S) by (apply Rmult_le_compat_l; lra). apply Rmult_le_compat; lra. }
  assert (MM : m * m <= n * n) by (apply Rmult_le_compat; lra). assert (E0 : 0 <= 32 * u * Y + 4 * h). { assert (0 <= u * Y) by (apply Rmult_le_pos; assumption). lra. }
  assert (A2 : m * m * (32 * u * Y + 4 * h) <= n * n * (32 * u * Y + 4 * h)) by (apply Rmult_le_compat_r; assumption).
  assert (A3 : 128 * (n * n) * u * Y <= 1 * Y) by (apply Rmult_le_compat_r; assumption).
  assert (A4 : n * (4 * n * h) <= n * k) by (apply Rmult_le_compat_l; lra).
  assert (A5 : u * (n * S) <= / 1000 * (n * S)) by (apply Rmult_le_compat_r; [apply Rmult_le_pos; lra|exact U2]). assert (0 <= n * S) by (apply Rmult_le_pos; lra). assert (0 <= n * k) by (apply Rmult_le_pos; lra).
  unfold Y in *. lra.
Qed.

Lemma final_err r s sh y Y n S T u h k : 0 <= u -> u <= / 1000 -> 0 <= h -> 0 < k -> k <= / 100 * u -> 8 * h <= u * k -> 1 <= n -> 0 <= S -> Y = 2 * n * (S + k) -> Rabs y <= Y -> Rabs s <= 1 -> Rabs (sh - s) <= 8 * u * Rabs s + k -> Rabs (r - sh * y) <= u * Rabs (sh * y) + h ->
  Rabs (s * y - T) <= u * S + n * (32 * u * Y + 4 * h) -> Rabs (r - T) <= 128 * (n * n) * u * (S + k).
Proof.
  intros U U1 H K KU HU N S0 EY BY BS ES ER ET. assert (Y0 : 0 <= Y) by (rewrite EY; apply Rmult_le_pos; lra). assert (U8 : 8 * u * Rabs s <= 8 * u * 1) by (apply Rmult_le_compat_l; lra).
  assert (SH : Rabs sh <= 101 / 100). { pose proof (Rabs_triang (sh - s) s) as T0. replace (sh - s + s) with sh in T0 by ring. lra. }
  assert (A : Rabs (sh * y) <= 101 / 100 * Y) by (rewrite Rabs_mult; apply Rmult_le_compat; try apply Rabs_pos; assumption). assert (UA : u * Rabs (sh * y) <= u * (101 / 100 * Y)) by (apply Rmult_le_compat_l; assumption).
  assert (B : Rabs ((sh - s) * y) <= (8 * u + / 100 * u) * Y) by (rewrite Rabs_mult; apply Rmult_le_compat; try apply Rabs_pos; [lra|assumption]).
  replace (r - T) with ((r - sh * y) + (sh - s) * y + (s * y - T)) by ring. pose proof (Rabs_triang ((r - sh * y) + (sh - s) * y) (s * y - T)) as T1. pose proof (Rabs_triang (r - sh * y) ((sh - s) * y)) as T2.
  assert (UY : 0 <= u * Y) by (apply Rmult_le_pos; assumption). assert (NY : 1 * (u * Y) <= n * (u * Y)) by (apply Rmult_le_compat_r; assumption).
  assert (NN : n * 1 <= n * n) by (apply Rmult_le_compat_l; lra). assert (US : 0 <= u * S) by (apply Rmult_le_pos; assumption). assert (NS : 1 * (u * S) <= (n * n) * (u * S)) by (apply Rmult_le_compat_r; lra). assert (NH : n * h <= n * n * (u * k)). { assert (n * h <= n * (u * k)) by (apply Rmult_le_compat_l; lra). assert (n * (u * k) <= n * n * (u * k)) by (apply Rmult_le_compat_r; [apply Rmult_le_pos; lra|lra]). lra. }
  assert (H1 : 1 * h <= n * h) by (apply Rmult_le_compat_r; assumption). assert (UK : 0 <= n * n * (u * k)) by (apply Rmult_le_pos; [apply Rmult_le_pos; lra|apply Rmult_le_pos; lra]). assert (NNS : 0 <= n * n * (u * S)) by (apply Rmult_le_pos; [apply Rmult_le_pos; lra|exact US]).
  assert (EN : n * (u * Y) = 2 * (n * n * (u * S) + n * n * (u * k))) by (rewrite EY; ring). lra.
Qed.

Section C.
Variable lm : libm.
Let O : FOps f64 := F64ops lm.
Local Existing Instance O.
Hypothesis AC : accurate lm.
Variable x : f64.
Hypothesis FX : is_finite x = true.
Hypothesis BX : Rabs (B2R x) <= 1000.
Let u := / 2 ^ 53.
Let h := bpow radix2 (-1075).
Let k := bpow radix2 (-1000).
Let al : f64 := Bmult mode_NE (f64_ofZ 2) (lm_cos lm x).
Let be : f64 := Bopp (f64_ofZ 1).
Definition cstate (c : list f64) : f64 * f64 * f64 := fold_left (clenshaw_step (ops := O) al be) (rev c) (f64_ofZ 0, f64_ofZ 0, f64_ofZ 0).
Lemma cstate_cons (a : f64) c : cstate (a :: c) = (snd (fst (cstate c)), snd (cstate c), Bplus mode_NE (Bplus mode_NE (Bmult mode_NE al (snd (cstate c))) (Bmult mode_NE be (snd (fst (cstate c))))) a).
Proof. unfold cstate. cbn [rev]. rewrite fold_left_app. cbn [fold_left]. destruct (fold_left (clenshaw_step (ops := O) al be) (rev c) (f64_ofZ 0, f64_ofZ 0, f64_ofZ 0)) as [[y2 y1] y]. reflexivity. Qed.

Lemma uk_small : k <= / 100 * u /\ h <= k /\ 0 < h /\ 0 < u /\ u <= / 1000 /\ 0 < k.
Proof.
  unfold k, h, u. split; [|split; [apply bpow_le; lia|split; [apply bpow_gt_0|split; [exact u_pos|split; [apply Rinv_le_contravar; [lra|cbn; lra]|apply bpow_gt_0]]]]].
  apply Rle_trans with (bpow radix2 (-7) * bpow radix2 (-53)); [rewrite <- bpow_plus; apply bpow_le; lia|]. rewrite u_val. apply Rmult_le_compat_r; [left; exact u_pos|cbn; lra].
Qed.
Lemma two_val : B2R (f64_ofZ 2) = 2 /\ is_finite (f64_ofZ 2) = true.
Proof. destruct (B2R_const (f64_ofZ 2) false 4503599627370496 (-51) ltac:(vm_compute; reflexivity)) as [-> E]. split; [unfold F2R; cbn; lra|exact E]. Qed.
Lemma b_big : 4 <= bpow radix2 1023.
Proof. change 4 with (bpow radix2 2). apply bpow_le. lia. Qed.
Lemma al_ok : is_finite al = true /\ Rabs (B2R al - 2 * cos (B2R x)) <= 19 * u.
Proof.
  destruct uk_small as (K1 & K2 & H0 & U0 & U1 & K0). destruct (ac_cos lm AC x FX BX) as [FC EC]. fold k in EC. assert (E50 : / 2 ^ 50 = 8 * u) by (unfold u; cbn; lra). rewrite E50 in EC.
  assert (C1 : Rabs (cos (B2R x)) <= 1) by (apply Rabs_le; apply COS_bound). destruct two_val as [E2 F2].
  assert (U8 : 8 * u * Rabs (cos (B2R x)) <= 8 * u * 1) by (apply Rmult_le_compat_l; lra). 
  assert (CB : Rabs (B2R (lm_cos lm x)) <= 101 / 100). { pose proof (Rabs_triang (B2R (lm_cos lm x) - cos (B2R x)) (cos (B2R x))) as T. replace (B2R (lm_cos lm x) - cos (B2R x) + cos (B2R x)) with (B2R (lm_cos lm x)) in T by ring. lra. }
  assert (C2 : Rabs (2 * B2R (lm_cos lm x)) <= 202 / 100) by (rewrite Rabs_mult, (Rabs_pos_eq 2) by lra; lra).
  destruct (f64_mult (f64_ofZ 2) (lm_cos lm x) F2 FC) as [EA FA]. { rewrite E2. pose proof b_big. lra. }
  split; [exact FA|]. unfold al. rewrite EA, E2. pose proof (rnd_error (2 * B2R (lm_cos lm x))) as R. rewrite u_val in R. fold u h in R.
  assert (UR : u * Rabs (2 * B2R (lm_cos lm x)) <= u * (202 / 100)) by (apply Rmult_le_compat_l; lra).
  set (r := rnd (2 * B2R (lm_cos lm x))) in *. replace (r - 2 * cos (B2R x)) with ((r - 2 * B2R (lm_cos lm x)) + 2 * (B2R (lm_cos lm x) - cos (B2R x))) by ring.
  pose proof (Rabs_triang (r - 2 * B2R (lm_cos lm x)) (2 * (B2R (lm_cos lm x) - cos (B2R x)))) as T. rewrite (Rabs_mult 2), (Rabs_pos_eq 2) in T by lra. lra.
Qed.
Lemma be_ok (y : f64) : is_finite y = true -> Rabs (B2R y) <= bpow radix2 1000 -> is_finite (Bmult mode_NE be y) = true /\ B2R (Bmult mode_NE be y) = - B2R y.
Proof.
  intros F L. destruct one_val as [E1 F1]. assert (EB : B2R be = -1). { unfold be. rewrite B2R_Bopp, E1. ring. } assert (FB : is_finite be = true) by (unfold be; now rewrite is_finite_Bopp).
  destruct (f64_mult be y FB F) as [E G]. { rewrite EB. replace (-1 * B2R y) with (- B2R y) by ring. rewrite Rabs_Ropp. apply (Rle_trans _ _ _ L). exact b1000. }
  split; [exact G|]. rewrite E, EB. replace (-1 * B2R y) with (- B2R y) by ring. rewrite rnd_opp, rnd_B2R. reflexivity.
Qed.

Lemma step64 (y y1 a : f64) Y : is_finite y = true -> is_finite y1 = true -> is_finite a = true -> 0 <= Y <= bpow radix2 900 -> Rabs (B2R y) <= Y -> Rabs (B2R y1) <= Y -> Rabs (B2R a) <= bpow radix2 900 ->
  let t := Bplus mode_NE (Bplus mode_NE (Bmult mode_NE al y) (Bmult mode_NE be y1)) a in
  is_finite t = true /\ Rabs (B2R t - (2 * cos (B2R x) * B2R y - B2R y1) - B2R a) <= u * Rabs (B2R a) + (32 * u * Y + 4 * h).
Proof.
  intros FY FY1 FA BY LY LY1 LA. destruct uk_small as (K1 & K2 & H0 & U0 & U1 & K0). destruct al_ok as [FL EL]. set (V := bpow radix2 900) in *.
  assert (V1 : 1 <= V). { change 1 with (bpow radix2 0). apply bpow_le. lia. } assert (V8 : 8 * V <= bpow radix2 1000). { change 8 with (bpow radix2 3). unfold V. rewrite <- bpow_plus. apply bpow_le. lia. } pose proof b1000 as BB.
  assert (C1 : Rabs (cos (B2R x)) <= 1) by (apply Rabs_le; apply COS_bound).
  destruct (be_ok y1 FY1) as [FB EB]; [lra|].
  assert (A2 : Rabs (B2R al) <= 9 / 4). { pose proof (Rabs_triang (B2R al - 2 * cos (B2R x)) (2 * cos (B2R x))) as T. replace (B2R al - 2 * cos (B2R x) + 2 * cos (B2R x)) with (B2R al) in T by ring. rewrite (Rabs_mult 2), (Rabs_pos_eq 2) in T by lra. lra. }
  destruct (f64_mult al y FL FY) as [EM FM]. { rewrite Rabs_mult. apply Rle_trans with (9 / 4 * Y); [apply Rmult_le_compat; try apply Rabs_pos; assumption|lra]. }
  pose proof (rnd_error (B2R al * B2R y)) as RM. rewrite <- EM, u_val in RM. fold u h in RM. set (p := Bmult mode_NE al y) in *. set (q := Bmult mode_NE be y1) in *.
  pose proof (rnd_plus_rel p q) as RS. rewrite u_val, EB in RS. fold u in RS. change (B2R p + - B2R y1) with (B2R p - B2R y1) in RS.
  pose proof (fun s => step_real (B2R al) (cos (B2R x)) (B2R y) (B2R y1) (B2R a) (B2R p) s (rnd (s + B2R a)) u h Y (Rlt_le _ _ U0) U1 (Rlt_le _ _ H0) (proj1 BY) LY LY1 C1 EL RM) as ST.
  assert (P4 : Rabs (B2R p - B2R y1) <= 4 * Y + h).
  { assert (ZR : Rabs (B2R p - B2R y1 - (B2R p - B2R y1)) <= u * Rabs (B2R p - B2R y1)). { unfold Rminus at 1. rewrite Rplus_opp_r, Rabs_R0. apply Rmult_le_pos; [lra|apply Rabs_pos]. }
    assert (AY : Rabs (B2R al * B2R y) <= 9 / 4 * Y) by (rewrite Rabs_mult; apply Rmult_le_compat; try apply Rabs_pos; assumption). assert (UA : u * Rabs (B2R al * B2R y) <= / 1000 * (9 / 4 * Y)) by (apply Rmult_le_compat; [lra|apply Rabs_pos|lra|lra]).
    replace (B2R p - B2R y1) with ((B2R p - B2R al * B2R y) + B2R al * B2R y + - B2R y1) by ring. pose proof (Rabs_triang ((B2R p - B2R al * B2R y) + B2R al * B2R y) (- B2R y1)) as T1. pose proof (Rabs_triang (B2R p - B2R al * B2R y) (B2R al * B2R y)) as T2. rewrite Rabs_Ropp in T1. lra. }
  destruct (f64_plus p q FM FB) as [ES FS]. { rewrite EB. change (B2R p + - B2R y1) with (B2R p - B2R y1). lra. }
  rewrite EB in ES. change (B2R p + - B2R y1) with (B2R p - B2R y1) in ES. rewrite <- ES in RS. set (s := Bplus mode_NE p q) in *.
  pose proof (rnd_plus_rel s a) as RT. rewrite u_val in RT. fold u in RT. destruct (ST (B2R s) RS RT) as (_ & SA & TE).
  destruct (f64_plus s a FS FA) as [ET FT]. { lra. }
  cbv zeta. split; [exact FT|]. rewrite ET. exact TE.
Qed.

Lemma run64 (N : nat) S (c : list f64) : let n := INR N in let Y := 2 * n * (S + k) in 1 <= n -> 4 * n * h <= k -> 128 * (n * n) * u <= 1 -> 0 <= S -> Y <= bpow radix2 900 ->
  Forall (fun a : f64 => is_finite a = true) c -> (List.length c <= N)%nat -> abssum (vals c) <= S ->
  exists d, B2R (snd (cstate c)) = sw (B2R x) 0 d /\ B2R (snd (fst (cstate c))) = sw (B2R x) 0 (tl d) /\ changed u (32 * u * Y + 4 * h) d (vals c) /\
  is_finite (snd (cstate c)) = true /\ is_finite (snd (fst (cstate c))) = true /\ Rabs (B2R (snd (cstate c))) <= Y /\ Rabs (B2R (snd (fst (cstate c)))) <= Y.
Proof.
  intros n Y N1 HK NU S0 YB FC. destruct uk_small as (K1 & K2 & H0 & U0 & U1 & K0). assert (Y0 : 0 <= Y) by (unfold Y; apply Rmult_le_pos; lra).
  induction FC as [|a c FA FC IH]; intros LC SC.
  { exists []. cbn [cstate rev fold_left snd fst]. change (B2R (f64_ofZ 0)) with 0. rewrite Rabs_R0. cbn [sw tl]. split; [reflexivity|]. split; [reflexivity|]. split; [apply Forall2_nil|]. split; [reflexivity|]. split; [reflexivity|]. split; exact Y0. }
  change (vals (a :: c)) with (B2R a :: vals c) in *. cbn [abssum fold_right] in SC. fold (abssum (vals c)) in SC. pose proof (abssum_pos (vals c)) as SP. pose proof (Rabs_pos (B2R a)) as AP. cbn [List.length] in LC.
  destruct IH as (d & E & E1 & CH & F & F1 & B & B1); [lia|lra|]. rewrite cstate_cons. cbn [snd fst]. set (y := snd (cstate c)) in *. set (y1 := snd (fst (cstate c))) in *.
  assert (SY : S <= Y). { unfold Y. assert (1 * (S + k) <= n * (S + k)) by (apply Rmult_le_compat_r; lra). lra. }
  destruct (step64 y y1 a Y F F1 FA (conj Y0 YB) B B1) as [FT ET]; [lra|]. set (t := Bplus mode_NE _ a) in *.
  exists (B2R t - (2 * cos (B2R x) * B2R y - B2R y1) :: d). cbn [sw tl W].
  assert (EQ : B2R t = (B2R t - (2 * cos (B2R x) * B2R y - B2R y1)) * 1 + sw (B2R x) 1 d). { rewrite sw_step, <- E, <- E1. ring. }
  assert (CH' : changed u (32 * u * Y + 4 * h) (B2R t - (2 * cos (B2R x) * B2R y - B2R y1) :: d) (B2R a :: vals c)) by (constructor; assumption).
  split; [exact EQ|]. split; [exact E|]. split; [exact CH'|]. split; [exact FT|]. split; [exact F|]. split; [|exact B].
  pose proof (sw_le (B2R x) (B2R t - (2 * cos (B2R x) * B2R y - B2R y1) :: d) 0) as L. cbn [sw W] in L. rewrite <- EQ in L. apply (Rle_trans _ _ _ L).
  pose proof (changed_sum _ _ _ _ CH') as CS. pose proof (changed_length _ _ _ _ CH') as LL. cbn [plus]. rewrite LL. assert (EL : List.length (B2R a :: vals c) = Datatypes.S (List.length c)) by (cbn [List.length]; f_equal; apply map_length). rewrite EL in CS |- *.
  assert (M : 0 <= INR (Datatypes.S (List.length c)) <= n) by (split; [apply pos_INR|unfold n; apply le_INR; lia]).
  apply Rle_trans with (INR (Datatypes.S (List.length c)) * ((1 + u) * abssum (B2R a :: vals c) + INR (Datatypes.S (List.length c)) * (32 * u * Y + 4 * h))); [apply Rmult_le_compat_l; [apply pos_INR|exact CS]|].
  apply (bound_ok n S _ u h k); try assumption; try lra. cbn [abssum fold_right]. fold (abssum (vals c)). lra.
Qed.

Lemma clenshaw64 (c : list f64) : Forall (fun a : f64 => is_finite a = true) c -> INR (List.length c) <= 2 ^ 23 -> abssum (vals c) <= bpow radix2 800 ->
  let r := clenshaw_sin_sum (ops := O) c x in
  is_finite r = true /\ Rabs (B2R r - sine_series (vals c) (B2R x)) <= INR (List.length c) ^ 2 * / 2 ^ 46 * (abssum (vals c) + bpow radix2 (-1000)).
Proof.
  intros FC LN LS r. destruct uk_small as (K1 & K2 & H0 & U0 & U1 & K0). destruct (ac_sin lm AC x FX BX) as [FS ES]. fold k in ES |- *. assert (E50 : / 2 ^ 50 = 8 * u) by (unfold u; cbn; lra). rewrite E50 in ES.
  assert (ER : r = Bmult mode_NE (lm_sin lm x) (snd (fst (cstate c)))).
  { unfold r, clenshaw_sin_sum, cstate. change (fmul #2 (fcos x))%F with al. change (fneg (FOps := O) #1)%F with be. destruct (fold_left _ _ _) as [[y2 y1] y]. reflexivity. }
  destruct c as [|a c'].
  { rewrite ER. cbn [cstate rev fold_left fst snd]. destruct (f64_mult (lm_sin lm x) (f64_ofZ 0) FS eq_refl) as [E F]. { change (B2R (f64_ofZ 0)) with 0. rewrite Rmult_0_r, Rabs_R0. apply bpow_ge_0. }
    split; [exact F|]. rewrite E. change (B2R (f64_ofZ 0)) with 0. rewrite Rmult_0_r, rnd_0. unfold sine_series. cbn [vals map List.length Rsum INR pow abssum fold_right]. rewrite Rminus_0_r, Rabs_R0. lra. }
  set (c := a :: c') in *. set (n := INR (List.length c)). assert (N1 : 1 <= n). { unfold n, c. cbn [List.length]. rewrite S_INR. pose proof (pos_INR (List.length c')). lra. }
  assert (N2 : n <= 2 ^ 23) by exact LN. pose proof (abssum_pos (vals c)) as SP.
  assert (NN : n * n <= 2 ^ 23 * 2 ^ 23) by (apply Rmult_le_compat; lra).
  assert (NU : 128 * (n * n) * u <= 1). { apply Rle_trans with (128 * (2 ^ 23 * 2 ^ 23) * u); [apply Rmult_le_compat_r; [lra|lra]|]. unfold u. cbn. lra. }
  assert (HK0 : 8 * h <= u * k /\ bpow radix2 25 * h <= k). { split; unfold h, k, u; [rewrite <- u_val; change 8 with (bpow radix2 3)|]; rewrite <- !bpow_plus; apply bpow_le; lia. } destruct HK0 as [HK0 HK1].
  assert (HK : 4 * n * h <= k). { apply (fun Q => Rle_trans _ _ _ Q HK1). apply Rmult_le_compat_r; [lra|]. change (bpow radix2 25) with (IZR (2 ^ 25)). cbn in N2 |- *. lra. }
  assert (YB : 2 * n * (abssum (vals c) + k) <= bpow radix2 900).
  { assert (KB : k <= bpow radix2 800) by (unfold k; apply bpow_le; lia). apply Rle_trans with (bpow radix2 24 * (2 * bpow radix2 800)); [apply Rmult_le_compat; [lra|lra| |lra]|]. { change (bpow radix2 24) with (IZR (2 ^ 24)). cbn in N2 |- *. lra. } change 2 with (bpow radix2 1). rewrite <- !bpow_plus. apply bpow_le. lia. }
  destruct (run64 (List.length c) (abssum (vals c)) c N1 HK NU SP YB FC (Nat.le_refl _) (Rle_refl _)) as (d & E & E1 & CH & F & F1 & B & B1). fold n in B1, CH. set (Y := 2 * n * (abssum (vals c) + k)) in *. set (y := snd (fst (cstate c))) in *.
  assert (BS : Rabs (sin (B2R x)) <= 1) by (apply Rabs_le; apply SIN_bound). assert (U8 : 8 * u * Rabs (sin (B2R x)) <= 8 * u * 1) by (apply Rmult_le_compat_l; lra).
  assert (SH : Rabs (B2R (lm_sin lm x)) <= 101 / 100). { pose proof (Rabs_triang (B2R (lm_sin lm x) - sin (B2R x)) (sin (B2R x))) as T0. replace (B2R (lm_sin lm x) - sin (B2R x) + sin (B2R x)) with (B2R (lm_sin lm x)) in T0 by ring. lra. }
  destruct (f64_mult (lm_sin lm x) y FS F1) as [EM FM]. { rewrite Rabs_mult. apply Rle_trans with (101 / 100 * bpow radix2 900); [apply Rmult_le_compat; try apply Rabs_pos; lra|]. apply Rle_trans with (bpow radix2 1 * bpow radix2 900); [apply Rmult_le_compat_r; [apply bpow_ge_0|cbn; lra]|]. rewrite <- bpow_plus. apply bpow_le. lia. }
  rewrite ER. split; [exact FM|]. pose proof (rnd_error (B2R (lm_sin lm x) * B2R y)) as RM. rewrite <- EM, u_val in RM. fold u h in RM.
  pose proof (changed_series _ _ (B2R x) _ _ CH 0) as CS. cbn [plus] in CS. fold (sine_series d (B2R x)) (sine_series (vals c) (B2R x)) in CS. rewrite <- sw_series, <- E1 in CS. assert (EL : List.length (vals c) = List.length c) by apply map_length. rewrite EL in CS. fold n in CS.
  assert (E46 : n ^ 2 * / 2 ^ 46 = 128 * (n * n) * u) by (unfold u; cbn; lra). rewrite E46.
  exact (final_err _ _ _ _ Y n (abssum (vals c)) _ u h k (Rlt_le _ _ U0) U1 (Rlt_le _ _ H0) K0 K1 HK0 N1 SP eq_refl B1 BS ES RM CS).
Qed.
End C.
