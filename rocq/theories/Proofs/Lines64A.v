(** Line strings in binary64: the length and the parameterisation. *)
From Coq Require Import Bool Reals Lra Lia List Arith ZArith.
From Flocq Require Import Core IEEE754.BinarySingleNaN.
From Verif.Num Require Import FOps F64 F64Lemmas.
From Verif.Model Require Import Fp Quantities Cs Ellipsoid Geodesics Projections Crs Geometry.
From Verif.Spec Require Import Lines Lines64.
From Verif.Proofs Require Import LinesG.
Import ListNotations.
Local Open Scope R_scope.

Lemma u_val : bpow radix2 (-53) = / 2 ^ 53.
Proof. cbn. lra. Qed.
Lemma u_pos : 0 < / 2 ^ 53.
Proof. apply Rinv_0_lt_compat, pow_lt. lra. Qed.
Lemma minus_rel (x y : f64) : Rabs (rnd (B2R x - B2R y) - (B2R x - B2R y)) <= / 2 ^ 53 * Rabs (B2R x - B2R y).
Proof.
  pose proof (rnd_plus_rel x (Bopp y)) as H. rewrite B2R_Bopp, u_val in H. exact H.
Qed.
Lemma b1000 : bpow radix2 1000 <= bpow radix2 1023.
Proof. apply bpow_le. lia. Qed.

Lemma run_off d t s s' n u : 0 <= n -> 0 <= u -> s' <= s -> s' - (s - d) <= u * (s - d) -> u * (s - d) <= u * s -> t < s' * (1 + n * u) -> d + t < s * (1 + (n + 1) * u).
Proof.
  intros N U L R E T. assert (n * u * s' <= n * u * s). { apply Rmult_le_compat_l; [now apply Rmult_le_pos|exact L]. } lra.
Qed.

Section L.
Variable lm : libm.
Let O : FOps f64 := F64ops lm.
Local Existing Instance O.

Lemma zero_M : length_new (ops := O) (f64_ofZ 0) (M (ops := O)) = B754_zero false.
Proof. reflexivity. Qed.
Lemma leb64 (x y : f64) : is_finite x = true -> is_finite y = true -> Bleb x y = true <-> B2R x <= B2R y.
Proof.
  intros X Y. rewrite Bleb_correct by assumption. destruct (Rle_bool_spec (B2R x) (B2R y)); split; intros; try easy; lra.
Qed.
Lemma pow_ge1 n : 1 <= (1 + / 2 ^ 53) ^ n.
Proof. apply pow_R1_Rle. pose proof u_pos. lra. Qed.
Lemma total_pos ds : lengths64 ds -> 0 <= total (vals ds).
Proof.
  induction 1 as [|d ds [_ D] _ IH]; [apply Rle_refl|]. change (total (vals (d :: ds))) with (B2R d + total (vals ds)). lra.
Qed.

(** ** Sums *)
Lemma sum64 ds : lengths64 ds -> forall (a : f64) A m, is_finite a = true -> 0 <= B2R a -> 0 <= A -> Rabs (B2R a - A) <= ((1 + / 2 ^ 53) ^ m - 1) * A ->
  (A + total (vals ds)) * (1 + / 2 ^ 53) ^ (m + List.length ds) <= bpow radix2 1000 ->
  let s := fold_left (fadd (FOps := O)) ds a in
  is_finite s = true /\ 0 <= B2R s /\ Rabs (B2R s - (A + total (vals ds))) <= ((1 + / 2 ^ 53) ^ (m + List.length ds) - 1) * (A + total (vals ds)).
Proof.
  pose proof u_pos as U. pose proof b1000 as BB. induction 1 as [|d ds [FD PD] HD IH]; intros a A m FA PA PA' EA LE.
  { cbn [fold_left vals map total fold_right List.length] in *. unfold total in *; cbn in *. rewrite Nat.add_0_r, Rplus_0_r in *. auto. }
  cbn [fold_left List.length]. change (vals (d :: ds)) with (B2R d :: vals ds) in *. change (total (B2R d :: vals ds)) with (B2R d + total (vals ds)) in *. cbn [List.length] in LE. rewrite <- plus_n_Sm in *. change (S (m + List.length ds)) with (S m + List.length ds)%nat in *.
  rewrite <- Rplus_assoc in *. pose proof (total_pos ds HD) as TP. pose proof (pow_ge1 m) as G. pose proof (pow_ge1 (List.length ds)) as G2. pose proof (pow_ge1 (S m)) as G1.
  set (w := (1 + / 2 ^ 53) ^ m) in *. assert (W1 : (1 + / 2 ^ 53) ^ S m = w * (1 + / 2 ^ 53)) by (unfold w; cbn [pow]; ring).
  set (u := / 2 ^ 53) in *. apply Rabs_le_inv in EA.
  assert (AD : 0 <= A * w) by (apply Rmult_le_pos; lra). assert (DW : B2R d <= B2R d * w) by (rewrite <- (Rmult_1_r (B2R d)) at 1; apply Rmult_le_compat_l; lra).
  assert (UA : B2R a + B2R d <= (A + B2R d) * w) by lra.
  assert (UB : (A + B2R d) * w <= (A + B2R d + total (vals ds)) * (1 + u) ^ (S m + List.length ds)).
  { apply Rmult_le_compat; [lra|lra|lra|]. apply Rle_pow; [lra|lia]. }
  destruct (f64_plus a d FA FD) as [E F]. { rewrite Rabs_pos_eq by lra. eapply Rle_trans; [|exact BB]. lra. }
  pose proof (rnd_plus_rel a d) as R. rewrite <- E, u_val, (Rabs_pos_eq (B2R a + B2R d)) in R by lra. fold u in R. apply Rabs_le_inv in R.
  assert (N0 : 0 <= B2R (Bplus mode_NE a d)). { rewrite E, <- rnd_0. apply rnd_le. lra. }
  apply (IH (Bplus mode_NE a d) (A + B2R d) (S m) F N0); [lra| |exact LE]. rewrite W1.
  assert (V : u * (B2R a + B2R d) <= u * ((A + B2R d) * w)) by (apply Rmult_le_compat_l; lra).
  assert (X1 : 0 <= u * ((A + B2R d) * w)) by (apply Rmult_le_pos; [lra|apply Rmult_le_pos; lra]).
  apply Rabs_le. replace ((w * (1 + u) - 1) * (A + B2R d)) with ((A + B2R d) * w + u * ((A + B2R d) * w) - A - B2R d) by ring. split; [|lra].
  enough (A - B2R a <= A * w - A) by lra. lra.
Qed.
Lemma length64 l ds : ls_len l = ds -> lengths64 ds -> total (vals ds) * (1 + / 2 ^ 53) ^ List.length ds <= bpow radix2 1000 ->
  is_finite (ls_length (ops := O) l) = true /\ 0 <= B2R (ls_length (ops := O) l) /\ Rabs (B2R (ls_length (ops := O) l) - total (vals ds)) <= ((1 + / 2 ^ 53) ^ List.length ds - 1) * total (vals ds).
Proof.
  intros E H L. unfold ls_length. rewrite E. cbn [fofZ O F64ops]. rewrite zero_M.
  pose proof (sum64 ds H (B754_zero false) 0 0%nat eq_refl (Rle_refl 0) (Rle_refl 0)) as S. cbn [plus B2R pow] in S. rewrite Rplus_0_l in S. apply S; [|exact L].
  rewrite Rminus_0_r, Rabs_R0. lra.
Qed.

(** ** The search for the segment *)
Lemma locate64 ds : lengths64 ds -> forall (s : f64) k, is_finite s = true -> 0 <= B2R s <= bpow radix2 1000 -> 0 < B2R s \/ 0 < hd 0 (vals ds) ->
  (exists i (d r : f64), ls_locate (ops := O) ds s k = ((k + i)%nat, Bdiv mode_NE r d) /\ (i < List.length ds)%nat /\ nth_error ds i = Some d /\ is_finite r = true /\ 0 <= B2R r <= B2R d /\ 0 < B2R d /\
    Rabs (total (firstn i (vals ds)) + B2R r - B2R s) <= INR i * / 2 ^ 53 * B2R s) \/
  (ls_locate (ops := O) ds s k = ((k + List.length ds)%nat, f64_ofZ 0) /\ total (vals ds) < B2R s * (1 + INR (List.length ds) * / 2 ^ 53)).
Proof.
  pose proof u_pos as U. pose proof b1000 as BB. induction 1 as [|d ds [FD PD] HD IH]; intros s k FS PS HS.
  { right. split; [now rewrite Nat.add_0_r|]. unfold total; cbn in *. lra. }
  change (vals (d :: ds)) with (B2R d :: vals ds) in *. cbn [hd] in HS. cbn [ls_locate]. change (fle s d) with (Bleb s d). destruct (Bleb s d) eqn:LE.
  { left. exists 0%nat, d, s. apply leb64 in LE; [|assumption..]. split; [now rewrite Nat.add_0_r|]. split; [cbn; lia|]. split; [easy|]. split; [easy|]. split; [lra|]. split; [lra|]. unfold total; cbn. rewrite Rplus_0_l. unfold Rminus. rewrite Rplus_opp_r, Rabs_R0. lra. }
  assert (LT : B2R d < B2R s). { apply Rnot_le_lt. intros C. apply (leb64 s d FS FD) in C. congruence. }
  destruct (f64_minus s d FS FD) as [E F]. { rewrite Rabs_pos_eq by lra. lra. }
  pose proof (minus_rel s d) as R. rewrite <- E, (Rabs_pos_eq (B2R s - B2R d)) in R by lra.
  assert (UP : B2R (Bminus mode_NE s d) <= B2R s). { rewrite E. apply Rle_trans with (rnd (B2R s)); [apply rnd_le; lra|rewrite rnd_B2R; apply Rle_refl]. } clear E.
  change (fsub (FOps := O) s d) with (Bminus mode_NE s d). set (s' := Bminus mode_NE s d) in *. set (u := / 2 ^ 53) in *. apply Rabs_le_inv in R.
  assert (U2 : u <= / 2). { unfold u. apply Rinv_le_contravar; [lra|]. cbn. lra. }
  assert (P' : 0 < B2R s'). { assert (u * (B2R s - B2R d) <= / 2 * (B2R s - B2R d)) by (apply Rmult_le_compat_r; lra). lra. }
  assert (ES : u * (B2R s - B2R d) <= u * B2R s) by (apply Rmult_le_compat_l; lra).
  destruct (IH s' (S k) F ltac:(lra) (or_introl P')) as [(i & d' & r & EL & LI & NE & FR & PR & DP & ER)|[EL ER]].
  - left. exists (S i), d', r. rewrite EL. split; [f_equal; lia|]. split; [cbn; lia|]. split; [exact NE|]. split; [exact FR|]. split; [exact PR|]. split; [exact DP|].
    cbn [firstn]. change (total (B2R d :: firstn i (vals ds))) with (B2R d + total (firstn i (vals ds))). rewrite S_INR.
    assert (X : INR i * u * B2R s' <= INR i * u * B2R s). { apply Rmult_le_compat_l; [|lra]. apply Rmult_le_pos; [apply pos_INR|lra]. }
    apply Rabs_le_inv in ER. apply Rabs_le. lra.
  - right. rewrite EL. cbn [List.length]. split; [f_equal; lia|]. change (total (B2R d :: vals ds)) with (B2R d + total (vals ds)). rewrite S_INR.
    exact (run_off _ _ _ _ _ _ (pos_INR _) (Rlt_le _ _ U) UP (proj2 R) ES ER).
Qed.

(** ** One coordinate *)
Lemma ratio64 (r d : f64) : is_finite r = true -> 0 <= B2R r <= B2R d -> 0 < B2R d ->
  let t := Bdiv mode_NE r d in is_finite t = true /\ 0 <= B2R t <= 1 /\ Rabs (B2R t - B2R r / B2R d) <= / 2 ^ 53 + bpow radix2 (-1075).
Proof.
  intros F H D. assert (Q : 0 <= B2R r / B2R d <= 1).
  { split; [apply Rmult_le_pos; [lra|left; now apply Rinv_0_lt_compat]|]. apply (Rmult_le_reg_r (B2R d)); [easy|]. replace (B2R r / B2R d * B2R d) with (B2R r) by (field; lra). lra. }
  destruct (f64_div r d F) as [E E2]; [lra| |].
  { rewrite Rabs_pos_eq by lra. apply Rle_trans with 1; [lra|]. change 1 with (bpow radix2 0). apply bpow_le. lia. }
  cbn zeta. rewrite E. split; [exact E2|]. pose proof (rnd_error (B2R r / B2R d)) as R. rewrite u_val, (Rabs_pos_eq (B2R r / B2R d)) in R by lra. split.
  - split; [rewrite <- rnd_0; apply rnd_le; lra|]. apply Rle_trans with (rnd (bpow radix2 0)); [apply rnd_le; cbn; lra|rewrite rnd_bpow by lia; cbn; lra].
  - eapply Rle_trans; [exact R|]. pose proof u_pos. apply Rplus_le_compat_r. rewrite <- (Rmult_1_r (/ 2 ^ 53)) at 2. apply Rmult_le_compat_l; lra.
Qed.
Lemma one_val : B2R (f64_ofZ 1) = 1 /\ is_finite (f64_ofZ 1) = true.
Proof.
  destruct (B2R_const (f64_ofZ 1) false 4503599627370496 (-52) ltac:(vm_compute; reflexivity)) as [-> E]. split; [unfold F2R; cbn; lra|exact E].
Qed.
Lemma coord64 (t a b : f64) r : is_finite t = true -> 0 <= B2R t <= 1 -> Rabs (B2R t - r) <= / 2 ^ 53 + bpow radix2 (-1075) ->
  is_finite a = true -> is_finite b = true -> Rabs (B2R a) <= bpow radix2 1000 -> Rabs (B2R b) <= bpow radix2 1000 ->
  let c := Bplus mode_NE (Bmult mode_NE (Bminus mode_NE (f64_ofZ 1) t) a) (Bmult mode_NE t b) in
  is_finite c = true /\ Rabs (B2R c - (B2R a + r * (B2R b - B2R a))) <= / 2 ^ 50 * (Rabs (B2R a) + Rabs (B2R b)) + bpow radix2 (-1000).
Proof.
  intros FT PT ET FA FB LA LB c. pose proof u_pos as U. pose proof b1000 as BB. destruct one_val as [O1 O2].
  assert (ONE : 1 <= bpow radix2 1000). { change 1 with (bpow radix2 0). apply bpow_le. lia. }
  destruct (f64_minus (f64_ofZ 1) t O2 FT) as [EW FW]. { rewrite O1, Rabs_pos_eq by lra. lra. }
  pose proof (minus_rel (f64_ofZ 1) t) as RW. rewrite <- EW, O1, (Rabs_pos_eq (1 - B2R t)) in RW by lra.
  assert (PW : 0 <= B2R (Bminus mode_NE (f64_ofZ 1) t) <= 1).
  { rewrite EW, O1. split; [rewrite <- rnd_0; apply rnd_le; lra|]. apply Rle_trans with (rnd (bpow radix2 0)); [apply rnd_le; cbn; lra|rewrite rnd_bpow by lia; cbn; lra]. }
  clear EW. set (w := Bminus mode_NE (f64_ofZ 1) t) in *.
  assert (WA : Rabs (B2R w * B2R a) <= Rabs (B2R a)). { rewrite Rabs_mult, (Rabs_pos_eq (B2R w)) by lra. rewrite <- (Rmult_1_l (Rabs (B2R a))) at 2. apply Rmult_le_compat_r; [apply Rabs_pos|lra]. }
  assert (TB : Rabs (B2R t * B2R b) <= Rabs (B2R b)). { rewrite Rabs_mult, (Rabs_pos_eq (B2R t)) by lra. rewrite <- (Rmult_1_l (Rabs (B2R b))) at 2. apply Rmult_le_compat_r; [apply Rabs_pos|lra]. }
  destruct (f64_mult w a FW FA) as [E1 F1]; [lra|]. destruct (f64_mult t b FT FB) as [E2 F2]; [lra|].
  pose proof (rnd_error (B2R w * B2R a)) as R1. pose proof (rnd_error (B2R t * B2R b)) as R2. rewrite <- E1 in R1. rewrite <- E2 in R2. rewrite u_val in R1, R2.
  pose proof (rnd_abs_le_B2R _ a WA) as M1. pose proof (rnd_abs_le_B2R _ b TB) as M2. rewrite <- E1 in M1. rewrite <- E2 in M2. clear E1 E2.
  unfold c. set (m1 := Bmult mode_NE w a) in *. set (m2 := Bmult mode_NE t b) in *.
  assert (B2 : 2 * bpow radix2 1000 <= bpow radix2 1023). { change (2 * bpow radix2 1000) with (bpow radix2 1 * bpow radix2 1000). rewrite <- bpow_plus. apply bpow_le. lia. }
  destruct (f64_plus m1 m2 F1 F2) as [E3 F3]. { pose proof (Rabs_triang (B2R m1) (B2R m2)). lra. }
  split; [exact F3|]. pose proof (rnd_plus_rel m1 m2) as R3. rewrite <- E3, u_val in R3. clear E3.
  set (v := Bplus mode_NE m1 m2) in *. assert (ETA : bpow radix2 (-1075) <= / 2 ^ 53). { rewrite <- u_val. apply bpow_le. lia. }
  assert (ETA2 : 2 * bpow radix2 (-1075) <= bpow radix2 (-1000)). { change (2 * bpow radix2 (-1075)) with (bpow radix2 1 * bpow radix2 (-1075)). rewrite <- bpow_plus. apply bpow_le. lia. }
  assert (E50 : / 2 ^ 50 = 8 * / 2 ^ 53) by (cbn; lra). rewrite E50. pose proof (bpow_gt_0 radix2 (-1075)) as EP.
  clear - U ETA ETA2 EP RW PT PW ET WA TB R1 R2 R3 M1 M2. generalize dependent (B2R v). generalize dependent (B2R m1). generalize dependent (B2R m2). generalize dependent (B2R w). generalize dependent (B2R t). generalize (B2R a) (B2R b).
  intros A B T PT ET TB W RW PW WA M2 R2 L2 M1 R1 L1 V R3. set (u := / 2 ^ 53) in *. set (h := bpow radix2 (-1075)) in *. set (k := bpow radix2 (-1000)) in *.
  pose proof (Rabs_pos A) as PA. pose proof (Rabs_pos B) as PB.
  assert (X1 : u * Rabs (W * A) <= u * Rabs A) by (apply Rmult_le_compat_l; lra). assert (X2 : u * Rabs (T * B) <= u * Rabs B) by (apply Rmult_le_compat_l; lra).
  assert (X3 : u * Rabs (M1 + M2) <= u * (Rabs A + Rabs B)). { apply Rmult_le_compat_l; [lra|]. pose proof (Rabs_triang M1 M2). lra. }
  assert (X4 : Rabs ((W - (1 - T)) * A) <= u * Rabs A). { rewrite Rabs_mult. apply Rmult_le_compat_r; [exact PA|]. assert (u * (1 - T) <= u * 1) by (apply Rmult_le_compat_l; lra). lra. }
  assert (X5 : Rabs ((T - r) * (B - A)) <= (2 * u) * (Rabs A + Rabs B)). { rewrite Rabs_mult. apply Rmult_le_compat; [apply Rabs_pos|apply Rabs_pos|lra|]. pose proof (Rabs_triang B (- A)) as Q. rewrite Rabs_Ropp in Q. unfold Rminus. lra. }
  replace (V - (A + r * (B - A))) with ((V - (M1 + M2)) + (M1 - W * A) + (M2 - T * B) + (W - (1 - T)) * A + (T - r) * (B - A)) by ring.
  pose proof (Rabs_triang ((V - (M1 + M2)) + (M1 - W * A) + (M2 - T * B) + (W - (1 - T)) * A) ((T - r) * (B - A))).
  pose proof (Rabs_triang ((V - (M1 + M2)) + (M1 - W * A) + (M2 - T * B)) ((W - (1 - T)) * A)).
  pose proof (Rabs_triang ((V - (M1 + M2)) + (M1 - W * A)) (M2 - T * B)). pose proof (Rabs_triang (V - (M1 + M2)) (M1 - W * A)).
  assert (0 <= u * Rabs A) by (apply Rmult_le_pos; lra). assert (0 <= u * Rabs B) by (apply Rmult_le_pos; lra). lra.
Qed.
Lemma interpolate64 (t : f64) r p : forall q, is_finite t = true -> 0 <= B2R t <= 1 -> Rabs (B2R t - r) <= / 2 ^ 53 + bpow radix2 (-1075) ->
  within64 (bpow radix2 1000) p -> within64 (bpow radix2 1000) q -> List.length p = List.length q -> computed_between r p q (interpolate (ops := O) t p q).
Proof.
  induction p as [|a p IH]; intros [|b q] FT PT ET WP WQ EL; try easy; [constructor|]. inversion WP as [|? ? [FA LA] WP']; subst. inversion WQ as [|? ? [FB LB] WQ']; subst.
  cbn [interpolate]. destruct (coord64 t a b r FT PT ET FA FB LA LB) as [FC EC]. constructor; [exact FC|exact EC|]. apply IH; auto.
Qed.
End L.
