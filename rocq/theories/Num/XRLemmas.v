(** Lemmas on the exact arithmetic and on the real functions it uses. *)
From Coq Require Import Reals Lra Lia ZArith Bool Ratan Psatz.
From Flocq Require Import Core.
From Verif.Num Require Import FOps RFun XR.
Local Open Scope R_scope.

(** ** Comparisons *)
Lemma Rlt_bool_t a b : a < b -> Rlt_bool a b = true.
Proof. intros; now apply Rlt_bool_true. Qed.
Lemma Rlt_bool_f a b : b <= a -> Rlt_bool a b = false.
Proof. intros; now apply Rlt_bool_false. Qed.
Lemma Rle_bool_t a b : a <= b -> Rle_bool a b = true.
Proof. intros; now apply Rle_bool_true. Qed.
Lemma Rle_bool_f a b : b < a -> Rle_bool a b = false.
Proof. intros; now apply Rle_bool_false. Qed.
Lemma Req_bool_t a b : a = b -> Req_bool a b = true.
Proof. intros; now apply Req_bool_true. Qed.
Lemma Req_bool_f a b : a <> b -> Req_bool a b = false.
Proof. intros; now apply Req_bool_false. Qed.

(** ** Operations on reals *)
Lemma xdiv_fin a b : b <> 0 -> xdiv (Fin a) (Fin b) = Fin (a / b).
Proof. intros; unfold xdiv; now rewrite Req_bool_f. Qed.
Lemma xsqrt_fin a : 0 <= a -> xsqrt (Fin a) = Fin (sqrt a).
Proof. intros; unfold xsqrt; now rewrite Rlt_bool_f. Qed.
Lemma xln_fin a : 0 < a -> xln (Fin a) = Fin (ln a).
Proof. intros; unfold xln; now rewrite Rlt_bool_t. Qed.
Lemma xtan_fin a : cos a <> 0 -> xtan (Fin a) = Fin (tan a).
Proof. intros; unfold xtan; now rewrite Req_bool_f. Qed.
Lemma xasin_fin a : -1 <= a <= 1 -> xasin (Fin a) = Fin (asin a).
Proof. intros; unfold xasin; rewrite Rle_bool_t; [easy|]. apply Rabs_le; lra. Qed.
Lemma xatanh_fin a : -1 < a < 1 -> xatanh (Fin a) = Fin (Ratanh a).
Proof. intros; unfold xatanh; rewrite Rlt_bool_t; [easy|]. apply Rabs_lt; lra. Qed.
Lemma xpowf_fin a b : 0 < a -> xpowf (Fin a) (Fin b) = Fin (Rpower a b).
Proof. intros; unfold xpowf; now rewrite Rlt_bool_t. Qed.

Lemma xmul_1_r x : xmul x (Fin 1) = x.
Proof.
  destruct x; cbn; try easy.
  - now rewrite Rmult_1_r.
  - unfold xinf_sign; rewrite Rlt_bool_t; [easy|lra].
  - unfold xinf_sign; rewrite Rlt_bool_t; [easy|lra].
Qed.
Lemma xdiv_1_1 : xdiv (Fin 1) (Fin 1) = Fin 1.
Proof. rewrite xdiv_fin by lra. f_equal; field. Qed.

(** Unfold the operations of [XRops] and compute the total ones on reals. *)
Ltac xr :=
  cbn [fadd fsub fmul fdiv fneg fabs fsqrt ffma flt fle feq fround_even fround ffloor ftrunc
       fsignum fis_inf fofZ flit finf fpi fpi_2 fpi_4 ftau fdeg_per_rad fsin fcos ftan fasin
       fatan fatan2 fhypot fcbrt fpowf fexp fln fsinh fcosh ftanh fasinh fatanh XRops
       xadd xsub xmul xneg xabs xlift xfun xatan xatan2 xhypot xexp xcosh xtanh xis_inf
       xlt xle xeq xsignum fsq fpow3 fpow4 ffract fto_degrees].
Ltac xr_in H :=
  cbn [fadd fsub fmul fdiv fneg fabs fsqrt ffma flt fle feq fround_even fround ffloor ftrunc
       fsignum fis_inf fofZ flit finf fpi fpi_2 fpi_4 ftau fdeg_per_rad fsin fcos ftan fasin
       fatan fatan2 fhypot fcbrt fpowf fexp fln fsinh fcosh ftanh fasinh fatanh XRops
       xadd xsub xmul xneg xabs xlift xfun xatan xatan2 xhypot xexp xcosh xtanh xis_inf
       xlt xle xeq xsignum fsq fpow3 fpow4 ffract fto_degrees] in H.

Lemma Fin_inj a b : Fin a = Fin b -> a = b.
Proof. now intros [= ->]. Qed.

(** ** Angles *)
Lemma PI_pos : 0 < PI. Proof. exact PI_RGT_0. Qed.

Lemma cos_eq_1_period x : cos x = 1 -> exists k : Z, x = IZR k * (2 * PI).
Proof.
  intros H.
  assert (Hs : sin (x / 2) = 0).
  { assert (E : cos x = 1 - 2 * sin (x / 2) * sin (x / 2)).
    { rewrite <- cos_2a_sin. f_equal; field. }
    rewrite H in E.
    apply Rsqr_0_uniq; unfold Rsqr; lra. }
  destruct (sin_eq_0_0 _ Hs) as [k Hk].
  exists k. lra.
Qed.

Lemma sin_cos_eq_period a b :
  sin a = sin b -> cos a = cos b -> exists k : Z, a - b = IZR k * (2 * PI).
Proof.
  intros Hs Hc. apply cos_eq_1_period.
  rewrite cos_minus, Hs, Hc.
  pose proof (sin2_cos2 b) as H; unfold Rsqr in H; lra.
Qed.

Lemma cos_period_Z x k : cos (x + IZR k * (2 * PI)) = cos x.
Proof.
  destruct (Z_le_dec 0 k) as [Hk|Hk].
  - rewrite <- (cos_period x (Z.to_nat k)). f_equal.
    rewrite INR_IZR_INZ, Z2Nat.id by assumption. ring.
  - rewrite <- (cos_period (x + IZR k * (2 * PI)) (Z.to_nat (- k))). f_equal.
    rewrite INR_IZR_INZ, Z2Nat.id by lia. rewrite opp_IZR. ring.
Qed.

Lemma sin_period_Z x k : sin (x + IZR k * (2 * PI)) = sin x.
Proof.
  destruct (Z_le_dec 0 k) as [Hk|Hk].
  - rewrite <- (sin_period x (Z.to_nat k)). f_equal.
    rewrite INR_IZR_INZ, Z2Nat.id by assumption. ring.
  - rewrite <- (sin_period (x + IZR k * (2 * PI)) (Z.to_nat (- k))). f_equal.
    rewrite INR_IZR_INZ, Z2Nat.id by lia. rewrite opp_IZR. ring.
Qed.

(** Two angles of (-pi, pi] with the same sine and cosine are equal. *)
Lemma IZR_small k : -1 < IZR k < 1 -> k = 0%Z.
Proof.
  intros [H1 H2].
  assert (-1 < k)%Z by (apply lt_IZR; lra).
  assert (k < 1)%Z by (apply lt_IZR; lra). lia.
Qed.

Lemma angle_unique a b :
  - PI < a <= PI -> - PI < b <= PI -> sin a = sin b -> cos a = cos b -> a = b.
Proof.
  intros Ha Hb Hs Hc.
  destruct (sin_cos_eq_period a b Hs Hc) as [k Hk].
  pose proof PI_pos.
  assert (k = 0%Z) as ->.
  { apply IZR_small. split.
    - apply Rmult_lt_reg_r with (2 * PI); [lra|]. rewrite <- Hk. lra.
    - apply Rmult_lt_reg_r with (2 * PI); [lra|]. rewrite <- Hk. lra. }
  lra.
Qed.

(** ** hypot *)
Lemma Rhypot_ge_0 x y : 0 <= Rhypot x y.
Proof. apply sqrt_pos. Qed.
Lemma Rhypot_sq x y : Rhypot x y * Rhypot x y = x * x + y * y.
Proof. unfold Rhypot; rewrite sqrt_sqrt; nra. Qed.
Lemma Rhypot_sym x y : Rhypot x y = Rhypot y x.
Proof. unfold Rhypot; f_equal; ring. Qed.
Lemma Rhypot_opp_l x y : Rhypot (- x) y = Rhypot x y.
Proof. unfold Rhypot; f_equal; ring. Qed.
Lemma Rhypot_opp_r x y : Rhypot x (- y) = Rhypot x y.
Proof. unfold Rhypot; f_equal; ring. Qed.
Lemma Rhypot_eq_0 x y : Rhypot x y = 0 -> x = 0 /\ y = 0.
Proof. intros H; pose proof (Rhypot_sq x y); rewrite H in *; nra. Qed.
Lemma Rhypot_pos x y : x <> 0 \/ y <> 0 -> 0 < Rhypot x y.
Proof.
  intros H. destruct (Rle_lt_or_eq_dec _ _ (Rhypot_ge_0 x y)) as [?|E]; [easy|].
  symmetry in E; apply Rhypot_eq_0 in E; lra.
Qed.
Lemma Rhypot_ge_abs_l x y : Rabs x <= Rhypot x y.
Proof.
  unfold Rhypot. rewrite <- sqrt_Rsqr_abs. apply sqrt_le_1_alt. unfold Rsqr; nra.
Qed.
Lemma Rhypot_unique x y r : 0 <= r -> r * r = x * x + y * y -> Rhypot x y = r.
Proof. intros Hr H; unfold Rhypot; rewrite <- H. now apply sqrt_square. Qed.

(** ** atan2 *)
Lemma cos_atan x : cos (atan x) = / sqrt (1 + x * x).
Proof.
  pose proof (atan_bound x) as [H1 H2].
  assert (Hc : 0 < cos (atan x)) by (apply cos_gt_0; lra).
  assert (Ht : tan (atan x) = x) by apply tan_atan.
  unfold tan in Ht.
  assert (Hs : sin (atan x) = x * cos (atan x)) by (rewrite <- Ht at 2; field; lra).
  assert (H0 : 0 < 1 + x * x) by nra.
  pose proof (sqrt_lt_R0 _ H0) as Hq.
  pose proof (sqrt_sqrt (1 + x * x) ltac:(lra)) as Hqq.
  pose proof (sin2_cos2 (atan x)) as Hp; unfold Rsqr in Hp; rewrite Hs in Hp.
  apply Rmult_eq_reg_r with (sqrt (1 + x * x)); [|lra].
  rewrite Rinv_l by lra.
  set (c := cos (atan x)) in *; set (q := sqrt (1 + x * x)) in *.
  assert ((c * q) * (c * q) = 1).
  { replace (c * q * (c * q)) with (c * c * (q * q)) by ring. rewrite Hqq. nra. }
  assert (0 < c * q) by nra. nra.
Qed.
Lemma sin_atan x : sin (atan x) = x / sqrt (1 + x * x).
Proof.
  pose proof (atan_bound x) as [H1 H2].
  assert (Hc : 0 < cos (atan x)) by (apply cos_gt_0; lra).
  assert (Ht : tan (atan x) = x) by apply tan_atan.
  unfold tan in Ht.
  replace (sin (atan x)) with (x * cos (atan x)) by (rewrite <- Ht at 1; field; lra).
  rewrite cos_atan. unfold Rdiv; ring.
Qed.

Lemma sqrt_ratio x y : x <> 0 -> sqrt (1 + y / x * (y / x)) = Rhypot x y / Rabs x.
Proof.
  intros Hx. unfold Rhypot.
  rewrite <- (sqrt_Rsqr_abs x).
  rewrite <- sqrt_div_alt by (unfold Rsqr; nra).
  f_equal. unfold Rsqr. field. assumption.
Qed.

Lemma Ratan2_spec y x :
  Rhypot x y * cos (Ratan2 y x) = x /\ Rhypot x y * sin (Ratan2 y x) = y.
Proof.
  unfold Ratan2.
  destruct (Rlt_bool_spec 0 x) as [Hx|Hx].
  { pose proof (Rhypot_pos x y ltac:(lra)).
    rewrite cos_atan, sin_atan, sqrt_ratio, Rabs_pos_eq by lra.
    split; field; lra. }
  destruct (Rlt_bool_spec x 0) as [Hx'|Hx'].
  { pose proof (Rhypot_pos x y ltac:(lra)).
    assert (E : sqrt (1 + y / x * (y / x)) = Rhypot x y / - x).
    { rewrite sqrt_ratio by lra. f_equal. rewrite Rabs_left; lra. }
    destruct (Rle_bool_spec 0 y).
    - rewrite neg_cos, neg_sin, cos_atan, sin_atan, E. split; field; lra.
    - replace (atan (y / x) - PI) with (- (- atan (y / x) + PI)) by ring.
      rewrite cos_neg, sin_neg, neg_cos, neg_sin, cos_neg, sin_neg, cos_atan, sin_atan, E.
      split; field; lra. }
  assert (x = 0) as -> by lra.
  assert (Hh : Rhypot 0 y = Rabs y).
  { unfold Rhypot. rewrite <- sqrt_Rsqr_abs. f_equal. unfold Rsqr; ring. }
  rewrite Hh.
  destruct (Rlt_bool_spec 0 y).
  { rewrite cos_PI2, sin_PI2, Rabs_pos_eq by lra. lra. }
  destruct (Rlt_bool_spec y 0).
  { rewrite cos_neg, sin_neg, cos_PI2, sin_PI2, Rabs_left by lra. lra. }
  assert (y = 0) as -> by lra. rewrite Rabs_R0. lra.
Qed.

Lemma Ratan2_bound y x : - PI < Ratan2 y x <= PI.
Proof.
  unfold Ratan2. pose proof PI_pos. pose proof (atan_bound (y / x)).
  repeat match goal with |- context [Rlt_bool ?a ?b] => destruct (Rlt_bool_spec a b)
    | |- context [Rle_bool ?a ?b] => destruct (Rle_bool_spec a b) end; try lra.
  - assert (y / x <= 0).
    { unfold Rdiv. assert (/ x < 0) by now apply Rinv_lt_0_compat. nra. }
    assert (atan (y / x) <= 0).
    { destruct (Req_dec (y / x) 0) as [->|]; [rewrite atan_0; lra|].
      left. rewrite <- atan_0. apply atan_increasing. lra. }
    lra.
  - assert (0 < y / x).
    { unfold Rdiv. assert (/ x < 0) by now apply Rinv_lt_0_compat. nra. }
    assert (0 < atan (y / x)) by (rewrite <- atan_0; now apply atan_increasing).
    lra.
Qed.

Lemma Ratan2_unique y x r t :
  0 < r -> x = r * cos t -> y = r * sin t -> - PI < t <= PI -> Ratan2 y x = t.
Proof.
  intros Hr Hx Hy Ht.
  destruct (Ratan2_spec y x) as [Hc Hs].
  assert (Hh : Rhypot x y = r).
  { apply Rhypot_unique; [lra|]. rewrite Hx, Hy.
    pose proof (sin2_cos2 t) as H; unfold Rsqr in H. nra. }
  rewrite Hh in *.
  apply angle_unique; [apply Ratan2_bound|assumption| |].
  - apply Rmult_eq_reg_l with r; lra.
  - apply Rmult_eq_reg_l with r; lra.
Qed.

Lemma Ratan2_0_pos x : 0 <= x -> Ratan2 0 x = 0.
Proof.
  intros [Hx|<-].
  - apply (Ratan2_unique 0 x x 0); rewrite ?cos_0, ?sin_0; pose proof PI_pos; lra.
  - unfold Ratan2. rewrite !Rlt_bool_f by lra. easy.
Qed.
Lemma Ratan2_0_neg x : x < 0 -> Ratan2 0 x = PI.
Proof.
  intros Hx. apply (Ratan2_unique 0 x (- x) PI); rewrite ?cos_PI, ?sin_PI; pose proof PI_pos; lra.
Qed.
Lemma Ratan2_pos y x : 0 < x -> Ratan2 y x = atan (y / x).
Proof. intros; unfold Ratan2; now rewrite Rlt_bool_t. Qed.

Lemma Ratan2_range_pos y x : 0 <= x -> - (PI / 2) <= Ratan2 y x <= PI / 2.
Proof.
  intros Hx. unfold Ratan2. pose proof PI_pos. pose proof (atan_bound (y / x)).
  repeat match goal with |- context [Rlt_bool ?a ?b] => destruct (Rlt_bool_spec a b)
    | |- context [Rle_bool ?a ?b] => destruct (Rle_bool_spec a b) end; lra.
Qed.

Lemma Ratan2_scale y x k : 0 < k -> Ratan2 (k * y) (k * x) = Ratan2 y x.
Proof.
  intros Hk.
  destruct (Req_dec x 0) as [->|Hx]; [destruct (Req_dec y 0) as [->|Hy]|].
  - now rewrite Rmult_0_r.
  - destruct (Ratan2_spec y 0) as [Hc Hs].
    apply (Ratan2_unique _ _ (k * Rhypot 0 y)); [|nra|nra|apply Ratan2_bound].
    apply Rmult_lt_0_compat; [lra|apply Rhypot_pos; lra].
  - destruct (Ratan2_spec y x) as [Hc Hs].
    apply (Ratan2_unique _ _ (k * Rhypot x y)); [|nra|nra|apply Ratan2_bound].
    apply Rmult_lt_0_compat; [lra|apply Rhypot_pos; lra].
Qed.

(** ** cube root *)
Lemma Rpower_third x : 0 < x -> Rpower x (/ 3) * Rpower x (/ 3) * Rpower x (/ 3) = x.
Proof.
  intros Hx. rewrite <- !Rpower_plus.
  replace (/ 3 + / 3 + / 3) with 1 by field. now apply Rpower_1.
Qed.
Lemma Rcbrt_cube x : Rcbrt x * Rcbrt x * Rcbrt x = x.
Proof.
  unfold Rcbrt.
  destruct (Rlt_bool_spec 0 x); [now apply Rpower_third|].
  destruct (Rlt_bool_spec x 0).
  - pose proof (Rpower_third (- x) ltac:(lra)). set (c := Rpower (- x) (/ 3)) in *.
    replace (- c * - c * - c) with (- (c * c * c)) by ring. lra.
  - lra.
Qed.
Lemma Rcbrt_pos x : 0 < x -> 0 < Rcbrt x.
Proof. intros; unfold Rcbrt; rewrite Rlt_bool_t by easy. apply exp_pos. Qed.
