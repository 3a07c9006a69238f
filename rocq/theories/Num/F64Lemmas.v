(** Facts about binary64 operations: when they are exact, how they round, when they give NaN. *)
From Coq Require Import Reals Lra Lia ZArith Bool Psatz.
From Flocq Require Import Core IEEE754.BinarySingleNaN Relative Plus_error.
From Verif.Num Require Import FOps F64.
Local Open Scope R_scope.

Definition fexp64 : Z -> Z := SpecFloat.fexp 53 1024.
Lemma fexp64_FLT : fexp64 = FLT_exp (-1074) 53.
Proof. reflexivity. Qed.
#[global] Instance fexp64_valid : Valid_exp fexp64.
Proof. rewrite fexp64_FLT. apply FLT_exp_valid. reflexivity. Qed.
#[global] Instance fexp64_monotone : Monotone_exp fexp64.
Proof. rewrite fexp64_FLT. apply FLT_exp_monotone. Qed.

(** Rounding to nearest, ties to even. *)
Definition rnd (x : R) : R := round radix2 fexp64 ZnearestE x.

Lemma rnd_le x y : x <= y -> rnd x <= rnd y.
Proof. apply round_le; typeclasses eauto. Qed.
Lemma rnd_0 : rnd 0 = 0.
Proof. apply round_0; typeclasses eauto. Qed.
Lemma rnd_opp x : rnd (- x) = - rnd x.
Proof. apply round_NE_opp. Qed.
Lemma rnd_abs x : rnd (Rabs x) = Rabs (rnd x).
Proof. apply round_NE_abs; typeclasses eauto. Qed.
Lemma rnd_id x : generic_format radix2 fexp64 x -> rnd x = x.
Proof. apply round_generic; typeclasses eauto. Qed.
Lemma rnd_B2R (x : f64) : rnd (B2R x) = B2R x.
Proof. apply rnd_id, generic_format_B2R. Qed.
Lemma rnd_bpow e : (-1074 <= e)%Z -> rnd (bpow radix2 e) = bpow radix2 e.
Proof.
  intros H. apply rnd_id. apply generic_format_bpow. rewrite fexp64_FLT. unfold FLT_exp. lia.
Qed.
Lemma rnd_abs_le_B2R x (b : f64) : Rabs x <= Rabs (B2R b) -> Rabs (rnd x) <= Rabs (B2R b).
Proof.
  intros H. rewrite <- rnd_abs. rewrite <- (rnd_B2R b). rewrite <- rnd_abs. now apply rnd_le.
Qed.
Lemma rnd_abs_le_bpow x e : (-1074 <= e)%Z -> Rabs x <= bpow radix2 e -> Rabs (rnd x) <= bpow radix2 e.
Proof.
  intros He H. rewrite <- rnd_abs. rewrite <- (rnd_bpow e He). now apply rnd_le.
Qed.
Lemma rnd_no_overflow x : Rabs x <= bpow radix2 1023 ->
  Rlt_bool (Rabs (rnd x)) (bpow radix2 1024) = true.
Proof.
  intros H. apply Rlt_bool_true. apply Rle_lt_trans with (bpow radix2 1023).
  - now apply rnd_abs_le_bpow.
  - now apply bpow_lt.
Qed.

(** Relative rounding error with the subnormal floor. *)
Lemma rnd_error x : Rabs (rnd x - x) <= bpow radix2 (-53) * Rabs x + bpow radix2 (-1075).
Proof.
  destruct (error_N_FLT radix2 (-1074) 53 ltac:(reflexivity) (fun z => negb (Z.even z)) x)
    as (eps & eta & He & Ht & _ & Hx).
  unfold rnd. change fexp64 with (FLT_exp (-1074) 53). rewrite Hx.
  replace (x * (1 + eps) + eta - x) with (x * eps + eta) by ring.
  eapply Rle_trans; [apply Rabs_triang|].
  rewrite Rabs_mult.
  apply Rplus_le_compat.
  - rewrite Rmult_comm. apply Rmult_le_compat_r; [apply Rabs_pos|].
    replace (bpow radix2 (-53)) with (/ 2 * bpow radix2 (- (53) + 1)); [easy|].
    change (/ 2) with (bpow radix2 (-1)). rewrite <- bpow_plus. reflexivity.
  - replace (bpow radix2 (-1075)) with (/ 2 * bpow radix2 (-1074)); [easy|].
    change (/ 2) with (bpow radix2 (-1)). rewrite <- bpow_plus. reflexivity.
Qed.

(** Pure relative error away from the subnormal range. *)
Lemma rnd_rel x : bpow radix2 (-1022) <= Rabs x -> Rabs (rnd x - x) <= bpow radix2 (-53) * Rabs x.
Proof.
  intros H.
  pose proof (relative_error_N_FLT radix2 (-1074) 53 ltac:(reflexivity)
                (fun z => negb (Z.even z)) x) as E.
  specialize (E H).
  replace (bpow radix2 (-53)) with (/ 2 * bpow radix2 (- (53) + 1)); [easy|].
  change (/ 2) with (bpow radix2 (-1)). rewrite <- bpow_plus. reflexivity.
Qed.

(** Additions have no underflow error. *)
Lemma rnd_plus_rel (x y : f64) :
  Rabs (rnd (B2R x + B2R y) - (B2R x + B2R y)) <= bpow radix2 (-53) * Rabs (B2R x + B2R y).
Proof.
  pose proof (FLT_plus_error_N_ex radix2 (-1074) 53 (fun z => negb (Z.even z))
               (B2R x) (B2R y) (generic_format_B2R _ _ x) (generic_format_B2R _ _ y))
    as (d & Hd & E).
  unfold rnd. change fexp64 with (FLT_exp (-1074) 53). rewrite E.
  replace ((B2R x + B2R y) * (1 + d) - (B2R x + B2R y)) with (d * (B2R x + B2R y)) by ring.
  rewrite Rabs_mult. apply Rmult_le_compat_r; [apply Rabs_pos|].
  eapply Rle_trans; [exact Hd|].
  unfold u_ro.
  replace (bpow radix2 (-53)) with (/ 2 * bpow radix2 (- (53) + 1)).
  2:{ change (/ 2) with (bpow radix2 (-1)). rewrite <- bpow_plus. reflexivity. }
  set (u := / 2 * bpow radix2 (- (53) + 1)).
  assert (0 < u).
  { unfold u. apply Rmult_lt_0_compat; [lra|apply bpow_gt_0]. }
  apply Rmult_le_reg_r with (1 + u); [lra|].
  unfold Rdiv. rewrite Rmult_assoc, Rinv_l by lra. nra.
Qed.

(** ** The operations on finite arguments *)
Section Ops.
Variable lm : libm.

Lemma f64_plus (x y : f64) : is_finite x = true -> is_finite y = true ->
  Rabs (B2R x + B2R y) <= bpow radix2 1023 ->
  B2R (Bplus mode_NE x y) = rnd (B2R x + B2R y) /\ is_finite (Bplus mode_NE x y) = true.
Proof.
  intros Hx Hy H. pose proof (Bplus_correct 53 1024 _ _ mode_NE x y Hx Hy) as E.
  change (round radix2 (SpecFloat.fexp 53 1024) (round_mode mode_NE)) with rnd in E.
  rewrite rnd_no_overflow in E by easy. tauto.
Qed.
Lemma f64_minus (x y : f64) : is_finite x = true -> is_finite y = true ->
  Rabs (B2R x - B2R y) <= bpow radix2 1023 ->
  B2R (Bminus mode_NE x y) = rnd (B2R x - B2R y) /\ is_finite (Bminus mode_NE x y) = true.
Proof.
  intros Hx Hy H. pose proof (Bminus_correct 53 1024 _ _ mode_NE x y Hx Hy) as E.
  change (round radix2 (SpecFloat.fexp 53 1024) (round_mode mode_NE)) with rnd in E.
  rewrite rnd_no_overflow in E by easy. tauto.
Qed.
Lemma f64_mult (x y : f64) : is_finite x = true -> is_finite y = true ->
  Rabs (B2R x * B2R y) <= bpow radix2 1023 ->
  B2R (Bmult mode_NE x y) = rnd (B2R x * B2R y) /\ is_finite (Bmult mode_NE x y) = true.
Proof.
  intros Hx Hy H. pose proof (Bmult_correct 53 1024 _ _ mode_NE x y) as E.
  change (round radix2 (SpecFloat.fexp 53 1024) (round_mode mode_NE)) with rnd in E.
  rewrite rnd_no_overflow in E by easy. destruct E as (E1 & E2 & _).
  rewrite E2, Hx, Hy. easy.
Qed.
Lemma f64_div (x y : f64) : is_finite x = true -> B2R y <> 0 ->
  Rabs (B2R x / B2R y) <= bpow radix2 1023 ->
  B2R (Bdiv mode_NE x y) = rnd (B2R x / B2R y) /\ is_finite (Bdiv mode_NE x y) = true.
Proof.
  intros Hx Hy H. pose proof (Bdiv_correct 53 1024 _ _ mode_NE x y Hy) as E.
  change (round radix2 (SpecFloat.fexp 53 1024) (round_mode mode_NE)) with rnd in E.
  rewrite rnd_no_overflow in E by easy. destruct E as (E1 & E2 & _).
  rewrite E2, Hx. easy.
Qed.
Lemma f64_nearbyint (x : f64) :
  B2R (Bnearbyint mode_NE x) = IZR (ZnearestE (B2R x)) /\
  is_finite (Bnearbyint mode_NE x) = is_finite x.
Proof.
  destruct (Bnearbyint_correct 53 1024 _ mode_NE x) as (E1 & E2 & _).
  split; [|easy]. rewrite E1.
  unfold round, scaled_mantissa, cexp, FIX_exp, F2R. simpl. now rewrite !Rmult_1_r.
Qed.

(** ** NaN *)
Lemma nan_of_overflow (x : f64) m s : B2SF x = binary_overflow 53 1024 m s -> is_nan x = false.
Proof.
  intros H. rewrite <- is_nan_SF_B2SF, H. unfold binary_overflow.
  now destruct (overflow_to_inf m s).
Qed.
Lemma finite_not_nan (x : f64) : is_finite x = true -> is_nan x = false.
Proof. now destruct x. Qed.
Lemma plus_not_nan (x y : f64) : is_finite x = true -> is_nan y = false ->
  is_nan (Bplus mode_NE x y) = false.
Proof.
  intros Hx Hy. destruct (is_finite y) eqn:Fy.
  - pose proof (Bplus_correct 53 1024 _ _ mode_NE x y Hx Fy) as E.
    destruct (Rlt_bool _ _).
    + now apply finite_not_nan.
    + destruct E as [E _]. now apply nan_of_overflow in E.
  - destruct y; try discriminate. now destruct x.
Qed.
Lemma minus_not_nan (x y : f64) : is_finite x = true -> is_nan y = false ->
  is_nan (Bminus mode_NE x y) = false.
Proof.
  intros Hx Hy. destruct (is_finite y) eqn:Fy.
  - pose proof (Bminus_correct 53 1024 _ _ mode_NE x y Hx Fy) as E.
    destruct (Rlt_bool _ _).
    + now apply finite_not_nan.
    + destruct E as [E _]. now apply nan_of_overflow in E.
  - destruct y; try discriminate. now destruct x.
Qed.
Lemma mult_not_nan (x y : f64) : is_finite x = true -> is_finite y = true ->
  is_nan (Bmult mode_NE x y) = false.
Proof.
  intros Hx Hy.
  pose proof (Bmult_correct 53 1024 _ _ mode_NE x y) as E.
  destruct (Rlt_bool _ _).
  - destruct E as (_ & E & _). apply finite_not_nan. now rewrite E, Hx, Hy.
  - now apply nan_of_overflow in E.
Qed.
Lemma B2R_0_zero (x : f64) : is_finite x = true -> B2R x = 0 -> exists s, x = B754_zero s.
Proof.
  destruct x as [s|s| |s m e H]; try discriminate; [now exists s|].
  intros _ E. exfalso. simpl in E. apply eq_0_F2R in E. now destruct s.
Qed.
Lemma div_not_nan (x y : f64) : is_finite x = true -> is_nan y = false -> Beqb y (B754_zero false) = false ->
  is_nan (Bdiv mode_NE x y) = false.
Proof.
  intros Hx Hy H0. destruct (is_finite y) eqn:Fy.
  - assert (B2R y <> 0).
    { intros E. destruct (B2R_0_zero y Fy E) as [s ->]. now destruct s. }
    pose proof (Bdiv_correct 53 1024 _ _ mode_NE x y H) as E.
    destruct (Rlt_bool _ _).
    + apply finite_not_nan. destruct E as (_ & E & _). now rewrite E.
    + now apply nan_of_overflow in E.
  - destruct y; try discriminate. now destruct x.
Qed.

(** ** Constants *)
Lemma B2R_const (x : f64) s m e : B2SF x = SpecFloat.S754_finite s m e ->
  B2R x = F2R (Float radix2 (cond_Zopp s (Zpos m)) e) /\ is_finite x = true.
Proof.
  intros H. split.
  - rewrite <- SF2R_B2SF, H. reflexivity.
  - rewrite <- is_finite_SF_B2SF, H. reflexivity.
Qed.

Definition m_pi : R := 7074237752028440.   (* 0x1921FB54442D18 *)

Lemma PI_2_64_val : B2R PI_2_64 = m_pi / 2 ^ 52 /\ is_finite PI_2_64 = true.
Proof.
  destruct (B2R_const PI_2_64 false 7074237752028440 (-52) ltac:(vm_compute; reflexivity)) as [E F].
  split; [|easy]. rewrite E. unfold F2R, m_pi; simpl. lra.
Qed.
Lemma PI64_val : B2R PI64 = m_pi / 2 ^ 51 /\ is_finite PI64 = true.
Proof.
  destruct (B2R_const PI64 false 7074237752028440 (-51) ltac:(vm_compute; reflexivity)) as [E F].
  split; [|easy]. rewrite E. unfold F2R, m_pi; simpl. lra.
Qed.
Lemma TAU64_val : B2R TAU64 = m_pi / 2 ^ 50 /\ is_finite TAU64 = true.
Proof.
  destruct (B2R_const TAU64 false 7074237752028440 (-50) ltac:(vm_compute; reflexivity)) as [E F].
  split; [|easy]. rewrite E. unfold F2R, m_pi; simpl. lra.
Qed.

(** ** Comparisons with infinities *)
Lemma Bltb_inf_l s (y : f64) : is_finite y = true -> Bltb (B754_infinity s) y = s.
Proof. destruct y; try discriminate; now destruct s. Qed.
Lemma Bltb_inf_r s (y : f64) : is_finite y = true -> Bltb y (B754_infinity s) = negb s.
Proof. destruct y as [|?| |[] ]; try discriminate; now destruct s. Qed.

Lemma clamp_spec (x a b : f64) : is_nan x = false -> is_finite a = true -> is_finite b = true ->
  B2R a <= B2R b ->
  is_finite (@fclamp f64 (F64ops lm) x a b) = true /\ B2R a <= B2R (@fclamp f64 (F64ops lm) x a b) <= B2R b /\
  (is_finite x = true -> B2R a <= B2R x <= B2R b -> @fclamp f64 (F64ops lm) x a b = x).
Proof.
  intros Hx Ha Hb Hab. unfold fclamp. cbn [flt F64ops].
  destruct (is_finite x) eqn:Fx.
  - rewrite (Bltb_correct _ _ x a) by easy.
    destruct (Rlt_bool_spec (B2R x) (B2R a)) as [L|L].
    + rewrite Bltb_correct by easy. rewrite Rlt_bool_false by easy.
      repeat split; try easy; try lra; intros; lra.
    + rewrite Bltb_correct by easy.
      destruct (Rlt_bool_spec (B2R b) (B2R x)) as [G|G].
      * repeat split; try easy; try lra; intros; lra.
      * repeat split; try easy; try lra; intros; lra.
  - destruct x as [|s| |]; try discriminate.
    rewrite Bltb_inf_l by easy. destruct s.
    + rewrite Bltb_correct by easy. rewrite Rlt_bool_false by easy.
      repeat split; try easy; try lra.
    + rewrite Bltb_inf_r by easy. simpl. repeat split; try easy; try lra.
Qed.
End Ops.
