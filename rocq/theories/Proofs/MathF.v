(** Error-free addition, complex underflow and unit conversions in binary64; unit round trips. *)
From Coq Require Import Reals Lra Lia ZArith Bool List Psatz.
From Flocq Require Import Core IEEE754.BinarySingleNaN Pff.Pff2Flocq.
From Verif.Num Require Import FOps RFun XR XRLemmas F64 F64Lemmas.
From Verif.Model Require Import Fp Quantities Complex.
From Verif.Proofs Require Import AnglesX AnglesEx.
Import ListNotations.
Local Open Scope R_scope.

Lemma rnd_nearest x (g : f64) : Rabs (rnd x - x) <= Rabs (B2R g - x).
Proof.
  destruct (round_N_pt radix2 fexp64 (fun z => negb (Z.even z)) x) as [_ H].
  apply H, generic_format_B2R.
Qed.
Lemma bpow_1021 : bpow radix2 1023 = 4 * bpow radix2 1021.
Proof. replace 1023%Z with (2 + 1021)%Z by lia. now rewrite bpow_plus. Qed.

Lemma Rabs_tri3 a b c : Rabs (a - b) <= Rabs (a - c) + Rabs (c - b).
Proof. replace (a - b) with ((a - c) + (c - b)) by ring. apply Rabs_triang. Qed.

Lemma two_sum_correct (lm : libm) (a b : f64) :
  is_finite a = true -> is_finite b = true ->
  Rabs (B2R a) <= bpow radix2 1021 -> Rabs (B2R b) <= bpow radix2 1021 ->
  let '(x, y) := two_sum (ops := F64ops lm) a b in
  is_finite x = true /\ is_finite y = true /\
  B2R x = rnd (B2R a + B2R b) /\ B2R x + B2R y = B2R a + B2R b.
Proof.
  intros Fa Fb Ha Hb. unfold two_sum. cbn [fadd fsub F64ops].
  pose proof bpow_1021 as E4. pose proof (bpow_ge_0 radix2 1021) as P0.
  set (x := Bplus mode_NE a b). set (z := Bminus mode_NE x a).
  assert (Hab : Rabs (B2R a + B2R b) <= Rabs (B2R a) + Rabs (B2R b)) by apply Rabs_triang.
  destruct (f64_plus a b Fa Fb) as [Ex Fx]; [lra|]. fold x in Ex, Fx.
  (* x - a *)
  assert (H1 : Rabs (B2R x - B2R a - B2R b) <= Rabs (B2R b)).
  { pose proof (rnd_nearest (B2R a + B2R b) a) as H. rewrite <- Ex in H.
    replace (B2R x - (B2R a + B2R b)) with (B2R x - B2R a - B2R b) in H by ring.
    replace (B2R a - (B2R a + B2R b)) with (- B2R b) in H by ring.
    now rewrite Rabs_Ropp in H. }
  assert (H2 : Rabs (B2R x - B2R a) <= 2 * Rabs (B2R b)).
  { replace (B2R x - B2R a) with ((B2R x - B2R a - B2R b) + B2R b) by ring.
    eapply Rle_trans; [apply Rabs_triang|]. lra. }
  destruct (f64_minus x a Fx Fa) as [Ez Fz]; [lra|]. fold z in Ez, Fz.
  (* b - z *)
  assert (H3 : Rabs (B2R z - (B2R x - B2R a)) <= Rabs (B2R b)).
  { pose proof (rnd_nearest (B2R x - B2R a) b) as H. rewrite <- Ez in H.
    eapply Rle_trans; [apply H|]. rewrite Rabs_minus_sym. exact H1. }
  assert (H4 : Rabs (B2R b - B2R z) <= 2 * Rabs (B2R b)).
  { eapply Rle_trans; [apply (Rabs_tri3 _ _ (B2R x - B2R a))|].
    rewrite (Rabs_minus_sym (B2R b)), (Rabs_minus_sym _ (B2R z)). lra. }
  destruct (f64_minus b z Fb Fz) as [Ed Fd]; [lra|].
  (* x - z *)
  assert (H1' : Rabs (B2R x - B2R a - B2R b) <= Rabs (B2R a)).
  { pose proof (rnd_nearest (B2R a + B2R b) b) as H. rewrite <- Ex in H.
    replace (B2R x - (B2R a + B2R b)) with (B2R x - B2R a - B2R b) in H by ring.
    replace (B2R b - (B2R a + B2R b)) with (- B2R a) in H by ring.
    now rewrite Rabs_Ropp in H. }
  assert (H5 : Rabs (B2R z - (B2R x - B2R a)) <= Rabs (B2R a)).
  { pose proof (rnd_nearest (B2R x - B2R a) b) as H. rewrite <- Ez in H.
    eapply Rle_trans; [apply H|]. rewrite Rabs_minus_sym. exact H1'. }
  assert (H6 : Rabs (B2R x - B2R z - B2R a) <= Rabs (B2R a)).
  { replace (B2R x - B2R z - B2R a) with (- (B2R z - (B2R x - B2R a))) by ring.
    now rewrite Rabs_Ropp. }
  assert (H7 : Rabs (B2R x - B2R z) <= 2 * Rabs (B2R a)).
  { replace (B2R x - B2R z) with ((B2R x - B2R z - B2R a) + B2R a) by ring.
    eapply Rle_trans; [apply Rabs_triang|]. lra. }
  destruct (f64_minus x z Fx Fz) as [Ew Fw]; [lra|]. set (w := Bminus mode_NE x z) in *.
  assert (H8 : Rabs (B2R a - B2R w) <= 2 * Rabs (B2R a)).
  { eapply Rle_trans; [apply (Rabs_tri3 _ _ (B2R x - B2R z))|].
    pose proof (rnd_nearest (B2R x - B2R z) a) as H. rewrite <- Ew in H.
    rewrite (Rabs_minus_sym (B2R a)), (Rabs_minus_sym _ (B2R w)).
    rewrite (Rabs_minus_sym (B2R a)) in H. lra. }
  destruct (f64_minus a w Fa Fw) as [Ec Fc]; [lra|].
  set (c := Bminus mode_NE a w) in *. set (d := Bminus mode_NE b z) in *.
  assert (Hc : Rabs (B2R c) <= bpow radix2 1022).
  { rewrite Ec. apply rnd_abs_le_bpow; [lia|].
    replace 1022%Z with (1 + 1021)%Z by lia. rewrite bpow_plus. simpl (bpow radix2 1). lra. }
  assert (Hd : Rabs (B2R d) <= bpow radix2 1022).
  { rewrite Ed. apply rnd_abs_le_bpow; [lia|].
    replace 1022%Z with (1 + 1021)%Z by lia. rewrite bpow_plus. simpl (bpow radix2 1). lra. }
  destruct (f64_plus c d Fc Fd) as [Ey Fy].
  { eapply Rle_trans; [apply Rabs_triang|].
    replace 1023%Z with (1 + 1022)%Z by lia. rewrite bpow_plus. simpl (bpow radix2 1). lra. }
  repeat split; [exact Fx|exact Fy|exact Ex|].
  rewrite Ex, Ey, Ec, Ed, Ew, Ez, Ex.
  apply (TwoSum_correct (-1074) 53 (fun z => negb (Z.even z))); try lia.
  - intros n. rewrite Z.even_opp, Z.even_add. now destruct (Z.even n).
  - apply (generic_format_B2R 53 1024 a).
  - apply (generic_format_B2R 53 1024 b).
Qed.

(** The English claim "whenever the sum does not overflow" fails near the largest numbers. *)
Lemma two_sum_overflow : exists a b : f64, is_finite a = true /\ is_finite b = true /\
  forall lm : libm, let '(x, y) := two_sum (ops := F64ops lm) a b in
  is_finite x = true /\ is_nan y = true.
Proof.
  exists (f64_of (-3) 970), (f64_of (2 ^ 53 - 1) 971).
  split; [vm_compute; reflexivity|]. split; [vm_compute; reflexivity|].
  intros lm. vm_compute. split; reflexivity.
Qed.

(** ** Complex inverse in binary64 *)
Lemma complex_inverse_underflow : exists z : complex f64,
  is_finite (re z) = true /\ is_finite (im z) = true /\
  forall lm : libm, is_zero (ops := F64ops lm) z = false /\
    exists w, cinv (ops := F64ops lm) z = Ok w /\
    is_finite (re w) = false /\ is_nan (im w) = true.
Proof.
  exists (mkC (f64_of 1 (-600)) (f64_ofZ 0)).
  split; [vm_compute; reflexivity|]. split; [vm_compute; reflexivity|].
  intros lm. split; [vm_compute; reflexivity|].
  eexists. split; [vm_compute; reflexivity|]. vm_compute. split; reflexivity.
Qed.

(** ** Units *)
Lemma per_unit_fin p q : q <> 0 -> per_unit (Fin p, Fin q) = Fin (p / q).
Proof. intros H. unfold per_unit. cbn [fst snd]. now rewrite xdiv_fin. Qed.
Lemma angle_roundtrip_exact (x p q : R) : p <> 0 -> q <> 0 ->
  angle_val (angle_new (Fin x) (Fin p, Fin q)) (Fin p, Fin q) = Fin x.
Proof.
  intros Hp Hq. unfold angle_val, angle_new. rewrite per_unit_fin by easy. cbn [fst snd]. xr.
  rewrite xdiv_fin by easy. f_equal. field. easy.
Qed.
Lemma length_roundtrip_exact (x p q : R) : p <> 0 -> q <> 0 ->
  length_val (length_new (Fin x) (Fin p, Fin q)) (Fin p, Fin q) = Fin x.
Proof.
  intros Hp Hq. unfold length_val, length_new. rewrite per_unit_fin by easy. xr.
  rewrite xdiv_fin. { f_equal. field. easy. }
  intros H. apply Hp. apply (Rmult_eq_reg_r (/ q)); [|now apply Rinv_neq_0_compat].
  unfold Rdiv in H. now rewrite H, Rmult_0_l.
Qed.
Lemma ratio_nz p q : p <> 0 -> q <> 0 -> p / q <> 0.
Proof.
  intros Hp Hq H. apply Hp. apply (Rmult_eq_reg_r (/ q)); [|now apply Rinv_neq_0_compat].
  unfold Rdiv in H. now rewrite H, Rmult_0_l.
Qed.
Lemma angle_conversion_exact (a p q p' q' : R) : p <> 0 -> q <> 0 -> p' <> 0 -> q' <> 0 ->
  angle_new (angle_val (Fin a) (Fin p, Fin q)) (Fin p, Fin q) = Fin a /\
  exists v, angle_val (Fin a) (Fin p', Fin q') = Fin v /\ v * (p' / q') = a /\
  exists w, angle_val (Fin a) (Fin p, Fin q) = Fin w /\ v = w * (p / q) / (p' / q').
Proof.
  intros Hp Hq Hp' Hq'. unfold angle_val, angle_new. rewrite !per_unit_fin by easy.
  cbn [fst snd]. xr. rewrite !xdiv_fin by easy. xr. split.
  - f_equal. field. easy.
  - eexists. split; [reflexivity|]. split; [field; easy|].
    eexists. split; [reflexivity|]. field. easy.
Qed.
Lemma length_conversion_exact (a p q p' q' : R) : p <> 0 -> q <> 0 -> p' <> 0 -> q' <> 0 ->
  length_new (length_val (Fin a) (Fin p, Fin q)) (Fin p, Fin q) = Fin a /\
  exists v, length_val (Fin a) (Fin p', Fin q') = Fin v /\ v * (p' / q') = a /\
  exists w, length_val (Fin a) (Fin p, Fin q) = Fin w /\ v = w * (p / q) / (p' / q').
Proof.
  intros Hp Hq Hp' Hq'. unfold length_val, length_new. rewrite !per_unit_fin by easy.
  rewrite !xdiv_fin by (now apply ratio_nz). xr. split.
  - f_equal. field. easy.
  - eexists. split; [reflexivity|]. split; [field; easy|].
    eexists. split; [reflexivity|]. field. easy.
Qed.

(** Radians and metres are stored as given, bit for bit. *)
Lemma Bmult_1_r (x : f64) : Bmult mode_NE x (f64_ofZ 1) = x.
Proof.
  destruct (B2R_const (f64_ofZ 1) false 4503599627370496 (-52) ltac:(vm_compute; reflexivity)) as [E1 F1].
  assert (E : B2R (f64_ofZ 1) = 1) by (rewrite E1; unfold F2R; simpl; lra).
  destruct (is_finite x) eqn:Fx.
  - pose proof (Bmult_correct 53 1024 _ _ mode_NE x (f64_ofZ 1)) as H.
    rewrite E, Rmult_1_r in H.
    replace (round radix2 (SpecFloat.fexp 53 1024) (round_mode mode_NE) (B2R x)) with (B2R x) in H
      by (symmetry; apply (rnd_B2R x)).
    rewrite (Rlt_bool_true _ _ (abs_B2R_lt_emax 53 1024 x)) in H.
    destruct H as (H1 & H2 & H3).
    assert (Fm : is_finite (Bmult mode_NE x (f64_ofZ 1)) = true) by now rewrite H2, Fx, F1.
    apply B2R_Bsign_inj; [easy|easy|easy|].
    rewrite H3 by now apply finite_not_nan. change (Bsign (f64_ofZ 1)) with false. apply xorb_false_r.
  - destruct x as [s|s| |s m e Hb]; try discriminate.
    + apply B2SF_eq. now destruct s; vm_compute.
    + reflexivity.
Qed.
Lemma Bdiv_1_r (x : f64) : Bdiv mode_NE x (f64_ofZ 1) = x.
Proof.
  destruct (B2R_const (f64_ofZ 1) false 4503599627370496 (-52) ltac:(vm_compute; reflexivity)) as [E1 F1].
  assert (E : B2R (f64_ofZ 1) = 1) by (rewrite E1; unfold F2R; simpl; lra).
  destruct (is_finite x) eqn:Fx.
  - pose proof (Bdiv_correct 53 1024 _ _ mode_NE x (f64_ofZ 1)) as H.
    rewrite E in H. specialize (H ltac:(lra)). unfold Rdiv in H. rewrite Rinv_1, Rmult_1_r in H.
    replace (round radix2 (SpecFloat.fexp 53 1024) (round_mode mode_NE) (B2R x)) with (B2R x) in H
      by (symmetry; apply (rnd_B2R x)).
    rewrite (Rlt_bool_true _ _ (abs_B2R_lt_emax 53 1024 x)) in H.
    destruct H as (H1 & H2 & H3).
    assert (Fm : is_finite (Bdiv mode_NE x (f64_ofZ 1)) = true) by now rewrite H2.
    apply B2R_Bsign_inj; [easy|easy|easy|].
    rewrite H3 by now apply finite_not_nan. change (Bsign (f64_ofZ 1)) with false. apply xorb_false_r.
  - destruct x as [s|s| |s m e Hb]; try discriminate.
    + apply B2SF_eq. now destruct s; vm_compute.
    + reflexivity.
Qed.
Lemma base_unit_exact (lm : libm) (x : f64) :
  angle_new (ops := F64ops lm) x (RAD (ops := F64ops lm)) = x /\
  angle_val (ops := F64ops lm) x (RAD (ops := F64ops lm)) = x /\
  length_new (ops := F64ops lm) x (M (ops := F64ops lm)) = x /\
  length_val (ops := F64ops lm) x (M (ops := F64ops lm)) = x.
Proof.
  unfold angle_new, angle_val, length_new, length_val, per_unit, RAD, M.
  cbn [fst snd fmul fdiv fofZ F64ops].
  rewrite (Bdiv_1_r (f64_ofZ 1)), !Bmult_1_r, !Bdiv_1_r. easy.
Qed.

(** *** Relative error *)
Lemma rnd_factor x : bpow radix2 (-1022) <= Rabs x ->
  exists d, Rabs d <= / 2 ^ 53 /\ rnd x = x * (1 + d).
Proof.
  intros H. pose proof (rnd_rel x H) as R1. exists ((rnd x - x) / x).
  assert (x <> 0). { intros ->. rewrite Rabs_R0 in H. pose proof (bpow_gt_0 radix2 (-1022)). lra. }
  split; [|field; easy].
  unfold Rdiv. rewrite Rabs_mult, Rabs_inv. apply Rmult_le_reg_r with (Rabs x).
  { now apply Rabs_pos_lt. }
  rewrite Rmult_assoc, Rinv_l by (now apply Rabs_no_R0). rewrite Rmult_1_r.
  eapply Rle_trans; [apply R1|]. apply Rmult_le_compat_r; [apply Rabs_pos|].
  apply Req_le. rewrite (bpow_powerRZ radix2). simpl. lra.
Qed.
Definition unit_ok (p q : f64) : Prop :=
  is_finite p = true /\ is_finite q = true /\
  / 2 ^ 20 <= Rabs (B2R p) <= 2 ^ 20 /\ / 2 ^ 20 <= Rabs (B2R q) <= 2 ^ 20.
Definition mid_range (x : f64) : Prop := is_finite x = true /\
  bpow radix2 (-900) <= Rabs (B2R x) <= bpow radix2 900.

Lemma abs_1p d : Rabs d <= / 2 ^ 53 -> / 2 <= Rabs (1 + d) <= 2.
Proof.
  intros H. assert (/ 2 ^ 53 <= / 2) by (simpl; lra).
  unfold Rabs in *. destruct (Rcase_abs d), (Rcase_abs (1 + d)); lra.
Qed.
Lemma bpow2 e : (0 <= e)%Z -> 2 ^ Z.to_nat e = bpow radix2 e.
Proof. intros H. rewrite bpow_powerRZ. rewrite <- (Z2Nat.id e) at 2 by easy. rewrite <- pow_powerRZ. reflexivity. Qed.
Lemma bpow2n e : (0 <= e)%Z -> / 2 ^ Z.to_nat e = bpow radix2 (- e).
Proof. intros H. rewrite bpow_opp, bpow2 by easy. reflexivity. Qed.

(** magnitudes by exponents *)
Definition within (x : R) (lo hi : Z) : Prop := bpow radix2 lo <= Rabs x <= bpow radix2 hi.
Lemma within_mul x y a b c d : within x a b -> within y c d -> within (x * y) (a + c) (b + d).
Proof.
  intros [H1 H2] [H3 H4]. unfold within. rewrite Rabs_mult, !bpow_plus.
  pose proof (bpow_ge_0 radix2 a). pose proof (bpow_ge_0 radix2 c).
  split; apply Rmult_le_compat; lra || apply Rabs_pos.
Qed.
Lemma within_nz x a b : within x a b -> x <> 0.
Proof. intros [H _] ->. rewrite Rabs_R0 in H. pose proof (bpow_gt_0 radix2 a). lra. Qed.
Lemma within_inv x a b : within x a b -> within (/ x) (- b) (- a).
Proof.
  intros H. pose proof (within_nz _ _ _ H) as Hx. destruct H as [H1 H2]. unfold within.
  rewrite Rabs_inv, !bpow_opp. pose proof (bpow_gt_0 radix2 a).
  split; apply Rinv_le; lra.
Qed.
Lemma within_div x y a b c d : within x a b -> within y c d -> within (x / y) (a - d) (b - c).
Proof.
  intros H1 H2. unfold Rdiv, Z.sub. apply within_mul; [easy|]. now apply within_inv.
Qed.
Lemma within_1p d : Rabs d <= / 2 ^ 53 -> within (1 + d) (-1) 1.
Proof. intros H. destruct (abs_1p d H). unfold within. simpl (bpow _ _). split; simpl; lra. Qed.
Lemma within_big x a b : within x a b -> (-1022 <= a)%Z -> bpow radix2 (-1022) <= Rabs x.
Proof. intros [H _] Ha. eapply Rle_trans; [|apply H]. now apply bpow_le. Qed.
Lemma within_small x a b : within x a b -> (b <= 1023)%Z -> Rabs x <= bpow radix2 1023.
Proof. intros [_ H] Ha. eapply Rle_trans; [apply H|]. now apply bpow_le. Qed.

Lemma mul_factor (x y : f64) a b c d : is_finite x = true -> is_finite y = true ->
  within (B2R x) a b -> within (B2R y) c d -> (-1022 <= a + c)%Z -> (b + d <= 1023)%Z ->
  exists e, Rabs e <= / 2 ^ 53 /\ B2R (Bmult mode_NE x y) = B2R x * B2R y * (1 + e) /\
    is_finite (Bmult mode_NE x y) = true /\ within (B2R (Bmult mode_NE x y)) (a + c - 1) (b + d + 1).
Proof.
  intros Fx Fy Hx Hy L U. pose proof (within_mul _ _ _ _ _ _ Hx Hy) as W.
  destruct (f64_mult x y Fx Fy) as [E F]; [eapply within_small; eauto|].
  destruct (rnd_factor (B2R x * B2R y)) as (e & He & Re); [eapply within_big; eauto|].
  exists e. rewrite E, Re. repeat split; auto; apply (within_mul _ _ _ _ _ _ W (within_1p _ He)).
Qed.
Lemma div_factor (x y : f64) a b c d : is_finite x = true ->
  within (B2R x) a b -> within (B2R y) c d -> (-1022 <= a - d)%Z -> (b - c <= 1023)%Z ->
  exists e, Rabs e <= / 2 ^ 53 /\ B2R (Bdiv mode_NE x y) = B2R x / B2R y * (1 + e) /\
    is_finite (Bdiv mode_NE x y) = true /\ within (B2R (Bdiv mode_NE x y)) (a - d - 1) (b - c + 1).
Proof.
  intros Fx Hx Hy L U. pose proof (within_div _ _ _ _ _ _ Hx Hy) as W.
  destruct (f64_div x y Fx) as [E F]; [eapply within_nz; eauto|eapply within_small; eauto|].
  destruct (rnd_factor (B2R x / B2R y)) as (e & He & Re); [eapply within_big; eauto|].
  exists e. rewrite E, Re. repeat split; auto; apply (within_mul _ _ _ _ _ _ W (within_1p _ He)).
Qed.

Lemma four_factors a b c d : Rabs a <= / 2 ^ 53 -> Rabs b <= / 2 ^ 53 -> Rabs c <= / 2 ^ 53 -> Rabs d <= / 2 ^ 53 ->
  Rabs ((1 + a) * (1 + b) * (1 + c) * (1 + d) - 1) <= 5 * / 2 ^ 53.
Proof.
  set (u := / 2 ^ 53). assert (Hu : 0 < u <= / 1000) by (unfold u; simpl; lra). clearbody u.
  intros Ha Hb Hc Hd. apply Rabs_le_inv in Ha. apply Rabs_le_inv in Hb. apply Rabs_le_inv in Hc. apply Rabs_le_inv in Hd.
  assert (P : forall x y k m, 0 <= k -> 0 <= m -> k <= 10 -> m <= 10 -> 
     Rabs (x - 1) <= k * u -> Rabs (y - 1) <= m * u -> Rabs (x * y - 1) <= (k + m + k * m * u) * u).
  { intros x y k m Hk Hm _ _ Hx Hy.
    replace (x * y - 1) with ((x - 1) + (y - 1) + (x - 1) * (y - 1)) by ring.
    eapply Rle_trans; [apply Rabs_triang|]. 
    assert (Rabs ((x - 1) * (y - 1)) <= (k * u) * (m * u)).
    { rewrite Rabs_mult. apply Rmult_le_compat; auto using Rabs_pos. }
    pose proof (Rabs_triang (x - 1) (y - 1)). lra. }
  assert (A : Rabs ((1 + a) * (1 + b) - 1) <= 2.1 * u).
  { eapply Rle_trans; [apply (P _ _ 1 1); try lra; apply Rabs_le; lra|]. nra. }
  assert (B : Rabs ((1 + c) * (1 + d) - 1) <= 2.1 * u).
  { eapply Rle_trans; [apply (P _ _ 1 1); try lra; apply Rabs_le; lra|]. nra. }
  rewrite (Rmult_assoc ((1 + a) * (1 + b))).
  eapply Rle_trans; [apply (P _ _ 2.1 2.1); try lra|]. nra.
Qed.
Lemma factor_error x f k : Rabs (f - 1) <= k -> Rabs (x * f - x) <= k * Rabs x.
Proof.
  intros H. replace (x * f - x) with ((f - 1) * x) by ring. rewrite Rabs_mult.
  apply Rmult_le_compat_r; [apply Rabs_pos|easy].
Qed.

Lemma unit_within p : / 2 ^ 20 <= Rabs p <= 2 ^ 20 -> within p (-20) 20.
Proof.
  intros H. unfold within. rewrite <- (bpow2 20) by lia.
  change (-20)%Z with (- (20))%Z. rewrite <- (bpow2n 20) by lia. exact H.
Qed.

Lemma angle_roundtrip_f64 (lm : libm) (x p q : f64) : unit_ok p q -> mid_range x ->
  let r := angle_val (ops := F64ops lm) (angle_new (ops := F64ops lm) x (p, q)) (p, q) in
  is_finite r = true /\ Rabs (B2R r - B2R x) <= 5 * / 2 ^ 53 * Rabs (B2R x).
Proof.
  intros (Fp & Fq & Hp & Hq) (Fx & Hx). apply unit_within in Hp. apply unit_within in Hq.
  unfold angle_val, angle_new, per_unit. cbv zeta. cbn [fst snd fmul fdiv F64ops].
  destruct (div_factor p q _ _ _ _ Fp Hp Hq) as (e1 & H1 & E1 & F1 & W1); try lia.
  destruct (mul_factor x _ _ _ _ _ Fx F1 Hx W1) as (e2 & H2 & E2 & F2 & W2); try lia.
  destruct (mul_factor _ q _ _ _ _ F2 Fq W2 Hq) as (e3 & H3 & E3 & F3 & W3); try lia.
  destruct (div_factor _ p _ _ _ _ F3 W3 Hp) as (e4 & H4 & E4 & F4 & W4); try lia.
  split; [exact F4|].
  rewrite E4, E3, E2, E1.
  replace (_ / B2R p * (1 + e4)) with (B2R x * ((1 + e1) * (1 + e2) * (1 + e3) * (1 + e4))).
  { apply factor_error. now apply four_factors. }
  field. split; eapply within_nz; eauto.
Qed.
Lemma length_roundtrip_f64 (lm : libm) (x p q : f64) : unit_ok p q -> mid_range x ->
  let r := length_val (ops := F64ops lm) (length_new (ops := F64ops lm) x (p, q)) (p, q) in
  is_finite r = true /\ Rabs (B2R r - B2R x) <= 3 * / 2 ^ 53 * Rabs (B2R x).
Proof.
  intros (Fp & Fq & Hp & Hq) (Fx & Hx). apply unit_within in Hp. apply unit_within in Hq.
  unfold length_val, length_new, per_unit. cbv zeta. cbn [fst snd fmul fdiv F64ops].
  destruct (div_factor p q _ _ _ _ Fp Hp Hq) as (e1 & H1 & E1 & F1 & W1); try lia.
  destruct (mul_factor x _ _ _ _ _ Fx F1 Hx W1) as (e2 & H2 & E2 & F2 & W2); try lia.
  destruct (div_factor _ (Bdiv mode_NE p q) _ _ _ _ F2 W2 W1) as (e4 & H4 & E4 & F4 & W4); try lia.
  split; [exact F4|].
  rewrite E4, E2.
  replace (_ / _ * (1 + e4)) with (B2R x * ((1 + e2) * (1 + e4))).
  2:{ field. eapply within_nz; eauto. }
  apply factor_error. clear - H2 H4.
  replace ((1 + e2) * (1 + e4) - 1) with (e2 + e4 + e2 * e4) by ring.
  set (u := / 2 ^ 53) in *. assert (Hu : 0 < u <= / 1000) by (unfold u; simpl; lra). clearbody u.
  eapply Rle_trans; [apply Rabs_triang|].
  assert (Rabs (e2 * e4) <= u * u) by (rewrite Rabs_mult; apply Rmult_le_compat; auto using Rabs_pos).
  pose proof (Rabs_triang e2 e4). nra.
Qed.

(** The predefined units are in that range. *)
Definition lo20 : f64 := f64_of 1 (-20).
Definition hi20 : f64 := f64_of 1 20.
Definition unit_okb (p : f64) : bool :=
  is_finite p && Bleb lo20 (Babs p) && Bleb (Babs p) hi20.
Lemma unit_okb_ok p : unit_okb p = true -> is_finite p = true /\ / 2 ^ 20 <= Rabs (B2R p) <= 2 ^ 20.
Proof.
  unfold unit_okb. rewrite !andb_true_iff. intros [[F L] U]. split; [easy|].
  destruct (B2R_const lo20 false 4503599627370496 (-72) ltac:(vm_compute; reflexivity)) as [El Fl].
  destruct (B2R_const hi20 false 4503599627370496 (-32) ltac:(vm_compute; reflexivity)) as [Eh Fh].
  assert (FA : is_finite (Babs p) = true) by now rewrite is_finite_Babs.
  rewrite Bleb_correct in L by easy. rewrite Bleb_correct in U by easy.
  rewrite B2R_Babs in L, U.
  destruct (Rle_bool_spec (B2R lo20) (Rabs (B2R p))) as [L'|]; [|discriminate].
  destruct (Rle_bool_spec (Rabs (B2R p)) (B2R hi20)) as [U'|]; [|discriminate].
  rewrite El in L'. rewrite Eh in U'. unfold F2R in *. simpl in L', U'. simpl. lra.
Qed.
Lemma unit_ok_of p q : unit_okb p = true -> unit_okb q = true -> unit_ok p q.
Proof. intros H1 H2. apply unit_okb_ok in H1. apply unit_okb_ok in H2. unfold unit_ok. tauto. Qed.

Lemma predefined_angle_units (lm : libm) (x : f64) (u : unit_ f64) : mid_range x ->
  In u [RAD (ops := F64ops lm); DEG (ops := F64ops lm); GRAD (ops := F64ops lm); SEC (ops := F64ops lm)] ->
  let r := angle_val (ops := F64ops lm) (angle_new (ops := F64ops lm) x u) u in
  is_finite r = true /\ Rabs (B2R r - B2R x) <= 5 * / 2 ^ 53 * Rabs (B2R x).
Proof.
  intros Hx Hu. destruct u as [p q]. apply angle_roundtrip_f64; [|easy].
  repeat destruct Hu as [[= <- <-]|Hu]; try easy; apply unit_ok_of; vm_compute; reflexivity.
Qed.
Lemma predefined_length_units (lm : libm) (x : f64) (u : unit_ f64) : mid_range x ->
  In u [M (ops := F64ops lm); FT (ops := F64ops lm); US_FT (ops := F64ops lm)] ->
  let r := length_val (ops := F64ops lm) (length_new (ops := F64ops lm) x u) u in
  is_finite r = true /\ Rabs (B2R r - B2R x) <= 3 * / 2 ^ 53 * Rabs (B2R x).
Proof.
  intros Hx Hu. destruct u as [p q]. apply length_roundtrip_f64; [|easy].
  repeat destruct Hu as [[= <- <-]|Hu]; try easy; apply unit_ok_of; vm_compute; reflexivity.
Qed.
