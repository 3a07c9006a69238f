(** Angles in binary64: where wrapping is exact, how far off it can be, latitude closure. *)
From Coq Require Import Reals Lra Lia ZArith Bool List Psatz.
From Flocq Require Import Core IEEE754.BinarySingleNaN.
From Verif.Num Require Import FOps F64 F64Lemmas PIBounds.
From Verif.Model Require Import Fp Quantities Cs.
From Verif.Spec Require Import Runs.
From Verif.Proofs Require Import AnglesX.
Import ListNotations.
Local Open Scope R_scope.

Section A.
Variable lm : libm.
#[local] Instance ops : FOps f64 := F64ops lm.

Definition p64 : R := m_pi / 2 ^ 51.
Lemma p64_val : B2R PI64 = p64. Proof. apply PI64_val. Qed.
Lemma t64_val : B2R TAU64 = 2 * p64.
Proof. rewrite (proj1 TAU64_val). unfold p64; lra. Qed.
Lemma p64_bounds : 3 < p64 < PI /\ PI < p64 + 122465 / 10 ^ 21.
Proof. pose proof PI_64_bounds. unfold p64, m_pi. lra. Qed.

Lemma bp53 : bpow radix2 (-53) = / 2 ^ 53. Proof. simpl; lra. Qed.
Lemma bp1075 : bpow radix2 (-1075) <= / 2 ^ 100.
Proof.
  apply Rle_trans with (bpow radix2 (-100)); [apply bpow_le; lia|]. simpl; lra.
Qed.
Lemma rnd_err x : Rabs (rnd x - x) <= / 2 ^ 53 * Rabs x + / 2 ^ 100.
Proof. pose proof (rnd_error x). rewrite bp53 in H. pose proof bp1075. lra. Qed.
Lemma big_bound x y : Rabs x <= y -> y <= 2 ^ 60 -> Rabs x <= bpow radix2 1023.
Proof.
  intros H1 H2. apply Rle_trans with (bpow radix2 60); [|apply bpow_le; lia].
  simpl bpow. lra.
Qed.

(** The steps of [remainder a TAU]. *)
Lemma remainder_steps (a : f64) : is_finite a = true -> Rabs (B2R a) <= 2 ^ 50 ->
  let x := B2R a in
  let q := rnd (x / (2 * p64)) in
  let n := IZR (ZnearestE q) in
  is_finite (remainder a TAU64) = true /\
  B2R (remainder a TAU64) = rnd (x - rnd (n * (2 * p64))) /\
  Rabs (q - x / (2 * p64)) <= / 2 ^ 53 * Rabs (x / (2 * p64)) + / 2 ^ 100 /\
  Rabs (q - n) <= / 2 /\
  Rabs (rnd (n * (2 * p64)) - n * (2 * p64)) <= / 2 ^ 53 * Rabs (n * (2 * p64)) + / 2 ^ 100 /\
  Rabs (rnd (x - rnd (n * (2 * p64))) - (x - rnd (n * (2 * p64)))) <=
    / 2 ^ 53 * Rabs (x - rnd (n * (2 * p64))).
Proof.
  intros Fa Ha x q n. pose proof p64_bounds as Hp.
  assert (Hd : Rabs (x / (2 * p64)) <= Rabs x).
  { unfold Rdiv. rewrite Rabs_mult. rewrite <- (Rmult_1_r (Rabs x)) at 2.
    apply Rmult_le_compat_l; [apply Rabs_pos|].
    rewrite Rabs_pos_eq by (apply Rlt_le, Rinv_0_lt_compat; lra).
    rewrite <- Rinv_1. apply Rinv_le_contravar; lra. }
  fold x in Ha.
  assert (E1 := rnd_err (x / (2 * p64))). fold q in E1.
  assert (E2 : Rabs (q - n) <= / 2) by apply ZnearestE_bound.
  assert (E3 := rnd_err (n * (2 * p64))).
  assert (Bn : Rabs n <= 2 ^ 51).
  { apply Rabs_le. apply Rabs_le_inv in E1, E2, Ha, Hd. 
    revert E1 Hd. generalize (x / (2 * p64)). intros d E1 Hd.
    assert (Rabs x <= 2 ^ 50) by (apply Rabs_le; lra).
    assert (Rabs d <= 2 ^ 50) by (apply Rabs_le; lra).
    lra. }
  assert (Hp4 : p64 < 4) by (unfold p64, m_pi; lra).
  assert (Bnt : Rabs (n * (2 * p64)) <= 2 ^ 54).
  { rewrite Rabs_mult. rewrite (Rabs_pos_eq (2 * p64)) by lra.
    pose proof (Rabs_pos n). nra. }
  (* q *)
  destruct (f64_div a TAU64) as [D1 D2].
  { easy. } { rewrite t64_val; lra. }
  { rewrite t64_val. apply big_bound with (2 ^ 50); [fold x|]; lra. }
  rewrite t64_val in D1. fold x in D1. fold q in D1.
  destruct (f64_nearbyint (Bdiv mode_NE a TAU64)) as [N1 N2].
  rewrite D1 in N1. fold n in N1. rewrite D2 in N2.
  destruct (f64_mult (Bnearbyint mode_NE (Bdiv mode_NE a TAU64)) TAU64) as [M1 M2].
  { easy. } { apply TAU64_val. }
  { rewrite N1, t64_val. apply big_bound with (2 ^ 54); lra. }
  rewrite N1, t64_val in M1.
  set (pr := Bmult mode_NE (Bnearbyint mode_NE (Bdiv mode_NE a TAU64)) TAU64) in *.
  assert (Bpr : Rabs (x - B2R pr) <= 2 ^ 56).
  { rewrite M1. apply Rabs_le. apply Rabs_le_inv in E3, Ha.
    pose proof (Rabs_le_inv _ _ Bnt). lra. }
  destruct (f64_minus a pr) as [S1 S2]; [easy|easy|fold x; apply big_bound with (2 ^ 56); lra|].
  fold x in S1. rewrite M1 in S1.
  split; [exact S2|]. split; [exact S1|]. split; [exact E1|]. split; [exact E2|].
  split; [exact E3|].
  pose proof (rnd_plus_rel a (Bopp pr)) as E5. rewrite B2R_Bopp, M1, bp53 in E5. exact E5.
Qed.

Lemma remainder_exact (a : f64) : is_finite a = true -> Rabs (B2R a) <= B2R PI64 ->
  is_finite (remainder a TAU64) = true /\ B2R (remainder a TAU64) = B2R a.
Proof.
  intros Fa Ha. pose proof p64_bounds as Hp. rewrite p64_val in Ha.
  assert (Hp4 : p64 < 4) by (unfold p64, m_pi; lra).
  destruct (remainder_steps a Fa) as (R1 & R2 & _); [lra|].
  set (x := B2R a) in *.
  assert (Q0 : ZnearestE (rnd (x / (2 * p64))) = 0%Z).
  { apply ZnearestE_small.
    change (/ 2) with (bpow radix2 (-1)). apply rnd_abs_le_bpow; [lia|].
    unfold Rdiv. rewrite Rabs_mult, Rabs_inv, (Rabs_pos_eq (2 * p64)) by lra.
    change (bpow radix2 (-1)) with (/ 2).
    apply Rmult_le_reg_r with (2 * p64); [lra|].
    rewrite Rmult_assoc, Rinv_l by lra. lra. }
  rewrite Q0 in R2. rewrite Rmult_0_l, rnd_0, Rminus_0_r in R2. unfold x in R2.
  rewrite rnd_B2R in R2. fold x in R2. easy.
Qed.

Lemma wrapped_exact (a : f64) : is_finite a = true -> Rabs (B2R a) <= B2R PI64 ->
  is_finite (wrapped a) = true /\ B2R (wrapped a) = B2R a.
Proof.
  intros Fa Ha. destruct (remainder_exact a Fa Ha) as [R1 R2]. rewrite p64_val in Ha.
  unfold wrapped. change ftau with TAU64. change fpi with PI64.
  cbn [flt fneg ops F64ops].
  rewrite Bltb_correct; [|easy|rewrite is_finite_Bopp; apply PI64_val].
  rewrite B2R_Bopp, p64_val, R2.
  rewrite Rlt_bool_false; [easy|]. apply Rabs_le_inv in Ha. lra.
Qed.

Lemma remainder_bounds (a : f64) : is_finite a = true -> Rabs (B2R a) <= 2 ^ 50 ->
  exists k : Z,
  is_finite (remainder a TAU64) = true /\
  Rabs (B2R a - IZR k * (2 * p64)) <= p64 + / 2 ^ 53 * Rabs (B2R a) + / 2 ^ 90 /\
  Rabs (B2R (remainder a TAU64) - (B2R a - IZR k * (2 * p64))) <=
    / 2 ^ 53 * Rabs (B2R a) + 7 / 2 ^ 53 /\
  Rabs (IZR k) <= Rabs (B2R a) * (17 / 100) + / 2 + / 2 ^ 40.
Proof.
  intros Fa Ha. pose proof p64_bounds as Hp.
  destruct (remainder_steps a Fa Ha) as (R1 & R2 & E1 & E2 & E3 & E4).
  set (x := B2R a) in *. set (q := rnd (x / (2 * p64))) in *.
  exists (ZnearestE q). rewrite R2. split; [easy|].
  set (k := ZnearestE q) in *. set (n := IZR k) in *.
  set (pr := rnd (n * (2 * p64))) in *. set (r := rnd (x - pr)) in *.
  set (d := x / (2 * p64)) in *.
  assert (Hx : x = d * (2 * p64)) by (unfold d; field; lra).
  assert (Pn : p64 = m_pi / 2 ^ 51) by reflexivity. unfold m_pi in Pn.
  set (X := Rabs x) in *.
  assert (HX0 : 0 <= X) by apply Rabs_pos.
  assert (HD : Rabs d * (2 * p64) = X).
  { unfold X. rewrite Hx, Rabs_mult, (Rabs_pos_eq (2 * p64)) by lra. reflexivity. }
  set (D := Rabs d) in *.
  assert (B1 : Rabs (x - n * (2 * p64)) <= p64 + / 2 ^ 53 * X + / 2 ^ 90).
  { replace (x - n * (2 * p64)) with ((d - n) * (2 * p64)) by (rewrite Hx; ring).
    rewrite Rabs_mult, (Rabs_pos_eq (2 * p64)) by lra.
    assert (Rabs (d - n) <= / 2 ^ 53 * D + / 2 ^ 100 + / 2).
    { apply Rabs_le. apply Rabs_le_inv in E1, E2. lra. }
    apply Rle_trans with ((/ 2 ^ 53 * D + / 2 ^ 100 + / 2) * (2 * p64)).
    - apply Rmult_le_compat_r; lra.
    - rewrite <- HD. clear - Pn. rewrite Pn. lra. }
  split; [exact B1|].
  assert (Bnt : Rabs (n * (2 * p64)) <= X + p64 + / 2 ^ 53 * X + / 2 ^ 90).
  { replace (n * (2 * p64)) with (x + - (x - n * (2 * p64))) by ring.
    eapply Rle_trans; [apply Rabs_triang|]. rewrite Rabs_Ropp. fold X. lra. }
  assert (Bxp : Rabs (x - pr) <= p64 + / 2 ^ 53 * X + / 2 ^ 90 +
      (/ 2 ^ 53 * (X + p64 + / 2 ^ 53 * X + / 2 ^ 90) + / 2 ^ 100)).
  { replace (x - pr) with ((x - n * (2 * p64)) + - (pr - n * (2 * p64))) by ring.
    eapply Rle_trans; [apply Rabs_triang|]. rewrite Rabs_Ropp. lra. }
  split.
  { replace (r - (x - n * (2 * p64))) with ((r - (x - pr)) + - (pr - n * (2 * p64))) by ring.
    eapply Rle_trans; [apply Rabs_triang|]. rewrite Rabs_Ropp. lra. }
  assert (Bn : Rabs n <= D + / 2 ^ 53 * D + / 2 ^ 100 + / 2).
  { apply Rabs_le. apply Rabs_le_inv in E1, E2.
    assert (Dd : Rabs d <= D) by (unfold D; lra). apply Rabs_le_inv in Dd. lra. }
  assert (HD6 : D <= X * (16 / 100)).
  { rewrite <- HD. rewrite Pn. pose proof (Rabs_pos d). fold D in H. lra. }
  lra.
Qed.

Lemma remainder_error (a : f64) : is_finite a = true -> Rabs (B2R a) <= 2 ^ 50 ->
  is_finite (remainder a TAU64) = true /\
  Rabs (B2R (remainder a TAU64)) <= B2R TAU64 / 2 + / 2 ^ 52 * (Rabs (B2R a) + 8) /\
  exists k : Z,
    Rabs (B2R (remainder a TAU64) - (B2R a - IZR k * B2R TAU64)) <= / 2 ^ 53 * (Rabs (B2R a) + 7).
Proof.
  intros Fa Ha. destruct (remainder_bounds a Fa Ha) as (k & H1 & H2 & H3 & _).
  pose proof p64_bounds as Hp. pose proof (Rabs_pos (B2R a)) as H0.
  rewrite t64_val. split; [easy|]. split.
  - set (r := B2R (remainder a TAU64)) in *.
    replace r with ((r - (B2R a - IZR k * (2 * p64))) + (B2R a - IZR k * (2 * p64))) by ring.
    eapply Rle_trans; [apply Rabs_triang|]. lra.
  - exists k. lra.
Qed.

Lemma wrapped_error (a : f64) : is_finite a = true -> Rabs (B2R a) <= 2 ^ 50 ->
  is_finite (wrapped a) = true /\
  - B2R PI64 <= B2R (wrapped a) <= B2R PI64 + / 2 ^ 52 * (Rabs (B2R a) + 8) /\
  exists k : Z,
    Rabs (B2R (wrapped a) - (B2R a - IZR k * (2 * PI))) <= / 2 ^ 52 * (Rabs (B2R a) + 8).
Proof.
  intros Fa Ha. pose proof p64_bounds as Hp. rewrite p64_val.
  destruct (remainder_bounds a Fa Ha) as (k & R1 & B1 & Er & Bn).
  set (x := B2R a) in *. set (n := IZR k) in *.
  set (r := B2R (remainder a TAU64)) in *.
  set (X := Rabs x) in *. assert (HX0 : 0 <= X) by apply Rabs_pos.
  set (dl := PI - p64) in *.
  assert (Hdl : 0 < dl < 122465 / 10 ^ 21) by (unfold dl; lra).
  assert (Bnd : Rabs (n * (2 * dl)) <= (X * (17 / 100) + / 2 + / 2 ^ 40) * (244930 / 10 ^ 21)).
  { rewrite Rabs_mult, (Rabs_pos_eq (2 * dl)) by lra.
    pose proof (Rabs_pos n).
    apply Rle_trans with ((X * (17 / 100) + / 2 + / 2 ^ 40) * (2 * dl)).
    - apply Rmult_le_compat_r; lra.
    - apply Rmult_le_compat_l; lra. }
  assert (Hpi : 2 * PI = 2 * p64 + 2 * dl) by (unfold dl; ring).
  unfold wrapped. change ftau with TAU64. change fpi with PI64.
  cbn [flt fneg ops F64ops].
  rewrite Bltb_correct; [|easy|rewrite is_finite_Bopp; apply PI64_val].
  rewrite B2R_Bopp, p64_val. fold r.
  destruct (Rlt_bool_spec r (- p64)) as [L|L].
  - rewrite p64_val. split; [apply PI64_val|]. split; [lra|].
    exists (k - 1)%Z. rewrite minus_IZR. fold n.
    replace (p64 - (x - (n - 1) * (2 * PI)))
      with (- ((x - n * (2 * p64)) + p64) + n * (2 * dl) - 2 * dl) by (rewrite Hpi; ring).
    apply Rabs_le. apply Rabs_le_inv in B1, Er, Bnd. lra.
  - fold r. split; [easy|]. split.
    + split; [lra|]. apply Rabs_le_inv in B1, Er. lra.
    + exists k. fold n.
      replace (r - (x - n * (2 * PI)))
        with ((r - (x - n * (2 * p64))) + n * (2 * dl)) by (rewrite Hpi; ring).
      apply Rabs_le. apply Rabs_le_inv in Er, Bnd. lra.
Qed.

(** ** Latitudes *)
Lemma lat_new_f64 (a : f64) : is_nan a = false ->
  is_finite (lat_new a) = true /\ - B2R PI_2_64 <= B2R (lat_new a) <= B2R PI_2_64 /\
  (is_finite a = true -> Rabs (B2R a) <= B2R PI_2_64 -> lat_new a = a).
Proof.
  intros Ha. unfold lat_new, angle_clamped. change fpi_2 with PI_2_64.
  change (fneg PI_2_64) with (Bopp PI_2_64).
  destruct PI_2_64_val as [V F].
  destruct (clamp_spec lm a (Bopp PI_2_64) PI_2_64) as (H1 & H2 & H3).
  - easy.
  - now rewrite is_finite_Bopp.
  - easy.
  - rewrite B2R_Bopp, V. unfold m_pi; lra.
  - rewrite B2R_Bopp in H2, H3. split; [exact H1|]. split; [exact H2|].
    intros G1 G2. apply H3; [easy|]. now apply Rabs_le_inv.
Qed.

Lemma lat_run_closed (a : f64) l : is_nan a = false -> Forall op_sane l ->
  is_finite (lat_run a l) = true /\ - B2R PI_2_64 <= B2R (lat_run a l) <= B2R PI_2_64.
Proof.
  intros Ha. unfold lat_run.
  destruct (lat_new_f64 a Ha) as (H1 & H2 & _). revert H1 H2. generalize (lat_new a).
  induction l as [|o l IH]; intros x H1 H2 Hl; [easy|].
  inversion Hl as [|? ? Ho Hl']; subst. simpl fold_left.
  destruct o as [b|b| | |k|k]; simpl in Ho |- *.
  - destruct (lat_new_f64 (Bplus mode_NE x b)) as (G1 & G2 & _); [now apply plus_not_nan|].
    now apply IH.
  - destruct (lat_new_f64 (Bminus mode_NE x b)) as (G1 & G2 & _); [now apply minus_not_nan|].
    now apply IH.
  - apply IH; [|  |easy].
    + change (is_finite (Bopp x) = true). now rewrite is_finite_Bopp.
    + change (- B2R PI_2_64 <= B2R (Bopp x) <= B2R PI_2_64). rewrite B2R_Bopp. lra.
  - apply IH; [|  |easy].
    + change (is_finite (Babs x) = true). now rewrite is_finite_Babs.
    + change (- B2R PI_2_64 <= B2R (Babs x) <= B2R PI_2_64). rewrite B2R_Babs.
      pose proof (Rabs_pos (B2R x)).
      assert (Rabs (B2R x) <= B2R PI_2_64) by (apply Rabs_le; lra). lra.
  - destruct (lat_new_f64 (Bmult mode_NE x k)) as (G1 & G2 & _); [now apply mult_not_nan|].
    now apply IH.
  - destruct Ho as [Ho1 Ho2].
    destruct (lat_new_f64 (Bdiv mode_NE x k)) as (G1 & G2 & _); [now apply div_not_nan|].
    now apply IH.
Qed.

(** ** dms: the sign bit survives *)
Lemma Bsign_mult (x y : f64) : is_nan (Bmult mode_NE x y) = false ->
  Bsign (Bmult mode_NE x y) = xorb (Bsign x) (Bsign y).
Proof.
  intros H. pose proof (Bmult_correct 53 1024 _ _ mode_NE x y) as E.
  destruct (Rlt_bool _ _); [now apply E|].
  destruct (Bmult mode_NE x y); simpl in E; try discriminate; unfold binary_overflow in E;
    simpl in E; now inversion E.
Qed.
Lemma mult_not_nan' (x y : f64) : is_nan x = false -> is_finite y = true -> B2R y <> 0 ->
  is_nan (Bmult mode_NE x y) = false.
Proof.
  intros Hx Hy H0. destruct (is_finite x) eqn:Fx; [now apply mult_not_nan|].
  destruct x; try discriminate. destruct y; try discriminate; try easy.
Qed.
Lemma Bsign_nearbyint m (x : f64) : is_nan x = false ->
  is_nan (Bnearbyint m x) = false /\ Bsign (Bnearbyint m x) = Bsign x.
Proof.
  intros Hx. destruct (Bnearbyint_correct 53 1024 _ m x) as (_ & E2 & E3).
  assert (N : is_nan (Bnearbyint m x) = false).
  { destruct (is_finite x) eqn:F; [now apply finite_not_nan|]. now destruct x. }
  auto.
Qed.

Lemma DEG_PER_RAD64_val : is_finite DEG_PER_RAD64 = true /\ 57 < B2R DEG_PER_RAD64 < 58 /\
  Bsign DEG_PER_RAD64 = false.
Proof.
  destruct (B2R_const DEG_PER_RAD64 false 8063664102031864 (-47) ltac:(vm_compute; reflexivity)) as [E F].
  split; [easy|]. split; [|now vm_compute]. rewrite E. unfold F2R; simpl. lra.
Qed.
Lemma signum_val (a : f64) : is_nan a = false ->
  is_finite (f64_signum a) = true /\ B2R (f64_signum a) <> 0 /\ Bsign (f64_signum a) = Bsign a.
Proof.
  intros Ha.
  assert (P : is_finite (f64_ofZ 1) = true /\ B2R (f64_ofZ 1) <> 0 /\ Bsign (f64_ofZ 1) = false).
  { destruct (B2R_const (f64_ofZ 1) false 4503599627370496 (-52) ltac:(vm_compute; reflexivity)) as [E F].
    split; [easy|]. split; [|now vm_compute]. rewrite E. unfold F2R; simpl. lra. }
  assert (N : is_finite (f64_ofZ (-1)) = true /\ B2R (f64_ofZ (-1)) <> 0 /\ Bsign (f64_ofZ (-1)) = true).
  { destruct (B2R_const (f64_ofZ (-1)) true 4503599627370496 (-52) ltac:(vm_compute; reflexivity)) as [E F].
    split; [easy|]. split; [|now vm_compute]. rewrite E. unfold F2R; simpl. lra. }
  unfold f64_signum. destruct a as [s|s| |s m e H]; try discriminate; simpl; destruct s; easy.
Qed.
Lemma angle_dms_sign (a : f64) : is_nan a = false ->
  is_nan (fst (fst (angle_dms a))) = false /\ Bsign (fst (fst (angle_dms a))) = Bsign a.
Proof.
  intros Ha.
  assert (E : fst (fst (angle_dms a)) =
    Bmult mode_NE (f64_signum a) (Bnearbyint mode_DN (Bmult mode_NE (Babs a) DEG_PER_RAD64))).
  { unfold angle_dms. destruct (flt _ _); reflexivity. }
  rewrite E. clear E.
  destruct DEG_PER_RAD64_val as (D1 & D2 & D3).
  destruct (signum_val a Ha) as (S1 & S2 & S3).
  assert (Na : is_nan (Babs a) = false) by now destruct a.
  assert (Nm : is_nan (Bmult mode_NE (Babs a) DEG_PER_RAD64) = false)
    by (apply mult_not_nan'; try easy; lra).
  pose proof (Bsign_mult _ _ Nm) as Sm. rewrite D3 in Sm.
  destruct (Bsign_nearbyint mode_DN _ Nm) as [Nn Sn].
  set (d := Bnearbyint mode_DN _) in *.
  assert (N : is_nan (Bmult mode_NE (f64_signum a) d) = false).
  { destruct (is_finite d) eqn:Fd; [now apply mult_not_nan|].
    destruct d; try discriminate. destruct (f64_signum a); try discriminate; easy. }
  split; [easy|]. rewrite Bsign_mult by easy. rewrite S3, Sn, Sm.
  rewrite xorb_false_r. replace (Bsign (Babs a)) with false by now destruct a.
  apply xorb_false_r.
Qed.
End A.
