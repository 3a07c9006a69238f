(** Binary64: rounding errors of [hypot], [atan2] and [cbrt]; signs. *)
From Coq Require Import ZArith Reals QArith Qreals Lra Lia Bool Psatz Qround Qabs.
From Flocq Require Import Core IEEE754.BinarySingleNaN.
From Verif.Num Require Import FOps RFun XRLemmas F64 F64Lemmas Near.
From Verif.Spec Require Import Accurate.
From Verif.Proofs Require Import NearX.
Local Open Scope R_scope.

(** ** Signs *)
Lemma rnd_pos x : 0 <= x -> 0 <= rnd x.
Proof. intros H. rewrite <- rnd_0. now apply rnd_le. Qed.
Lemma mul_sgn (x y : f64) : is_finite (Bmult mode_NE x y) = true -> 0 <= B2R x -> 0 <= B2R y -> 0 <= B2R (Bmult mode_NE x y).
Proof.
  intros F X Y. pose proof (Bmult_correct 53 1024 _ _ mode_NE x y) as C. destruct (Rlt_bool _ _).
  - destruct C as (C & _ & _). rewrite C. apply rnd_pos. now apply Rmult_le_pos.
  - destruct (Bmult mode_NE x y); try discriminate.
Qed.
Lemma sq_sgn (x : f64) : is_finite (Bmult mode_NE x x) = true -> 0 <= B2R (Bmult mode_NE x x).
Proof.
  intros F. pose proof (Bmult_correct 53 1024 _ _ mode_NE x x) as C. destruct (Rlt_bool _ _).
  - destruct C as (C & _ & _). rewrite C. apply rnd_pos. apply Rle_0_sqr.
  - destruct (Bmult mode_NE x x); try discriminate.
Qed.
Lemma add_sgn (x y : f64) : is_finite x = true -> is_finite y = true -> is_finite (Bplus mode_NE x y) = true -> 0 <= B2R x -> 0 <= B2R y -> 0 <= B2R (Bplus mode_NE x y).
Proof.
  intros Fx Fy F X Y. pose proof (Bplus_correct 53 1024 _ _ mode_NE x y Fx Fy) as C. destruct (Rlt_bool _ _).
  - destruct C as (C & _ & _). rewrite C. apply rnd_pos. lra.
  - destruct C as (C & _). destruct (Bplus mode_NE x y); try discriminate.
Qed.
Lemma div_sgn (x y : f64) : is_finite (Bdiv mode_NE x y) = true -> 0 <= B2R x -> 0 < B2R y -> 0 <= B2R (Bdiv mode_NE x y).
Proof.
  intros F X Y. pose proof (Bdiv_correct 53 1024 _ _ mode_NE x y ltac:(lra)) as C. destruct (Rlt_bool _ _).
  - destruct C as (C & _ & _). rewrite C. apply rnd_pos. apply Rmult_le_pos; [exact X|left; now apply Rinv_0_lt_compat].
  - destruct (Bdiv mode_NE x y); try discriminate.
Qed.
Lemma near_pos x X lo hi d e : near x X lo hi d e -> Qle_bool (e + d * mag lo hi + tiny) lo = true -> 0 < B2R x.
Proof. intros N C. pose proof (near_err _ _ _ _ _ _ N) as E. destruct N as (_ & B & _). apply qle in C. rewrite Q2R_plus in C. pose proof tiny_pos. apply Rabs_le_inv in E. lra. Qed.

(** ** hypot *)
Lemma hyp_lip x y X Y : Rabs (Rhypot x y - Rhypot X Y) <= Rhypot (x - X) (y - Y).
Proof.
  assert (T : forall x y X Y, Rhypot (x + X) (y + Y) <= Rhypot x y + Rhypot X Y).
  { clear. intros x y X Y. pose proof (Rhypot_ge_0 x y) as P1. pose proof (Rhypot_ge_0 X Y) as P2. pose proof (Rhypot_sq x y) as S1. pose proof (Rhypot_sq X Y) as S2. unfold Rhypot at 1. rewrite <- (sqrt_Rsqr (Rhypot x y + Rhypot X Y)) by lra. apply sqrt_le_1_alt. unfold Rsqr. set (h := Rhypot x y) in *. set (H := Rhypot X Y) in *.
    assert (x * X + y * Y <= h * H). { destruct (Rle_dec (x * X + y * Y) 0) as [N|N]; [assert (0 <= h * H) by (apply Rmult_le_pos; lra); lra|]. apply Rsqr_incr_0_var; [|apply Rmult_le_pos; lra]. unfold Rsqr. replace (h * H * (h * H)) with ((h * h) * (H * H)) by ring. rewrite S1, S2. pose proof (Rle_0_sqr (x * Y - y * X)) as Q. unfold Rsqr in Q. nra. }
    nra. }
  pose proof (T (x - X) (y - Y) X Y) as A. pose proof (T (X - x) (Y - y) x y) as B. replace (x - X + X) with x in A by ring. replace (y - Y + Y) with y in A by ring. replace (X - x + x) with X in B by ring. replace (Y - y + y) with Y in B by ring.
  replace (Rhypot (X - x) (Y - y)) with (Rhypot (x - X) (y - Y)) in B by (unfold Rhypot; f_equal; ring). apply Rabs_le. lra.
Qed.
Lemma hyp_abs x y X Y : Rabs x <= X -> Rabs y <= Y -> Rhypot x y <= Rhypot X Y.
Proof. intros A B. unfold Rhypot. apply sqrt_le_1_alt. assert (S : forall u v, Rabs u <= v -> u * u <= v * v) by (intros u v K; replace (u * u) with (Rabs u * Rabs u) by (rewrite <- Rabs_mult; apply Rabs_right; nra); pose proof (Rabs_pos u); nra). pose proof (S _ _ A). pose proof (S _ _ B). lra. Qed.
Lemma hyp_add d e f X Y : 0 <= d -> 0 <= e -> 0 <= f -> Rhypot (d * Rabs X + e) (d * Rabs Y + f) <= d * Rhypot X Y + (e + f).
Proof.
  intros D E F. pose proof (hyp_lip (d * Rabs X + e) (d * Rabs Y + f) (d * Rabs X) (d * Rabs Y)) as H. replace (d * Rabs X + e - d * Rabs X) with e in H by ring. replace (d * Rabs Y + f - d * Rabs Y) with f in H by ring. apply Rabs_le_inv in H.
  assert (P : Rhypot (d * Rabs X) (d * Rabs Y) = d * Rhypot X Y). { unfold Rhypot. replace (d * Rabs X * (d * Rabs X) + d * Rabs Y * (d * Rabs Y)) with (d * d * (Rabs X * Rabs X + Rabs Y * Rabs Y)) by ring. rewrite sqrt_mult_alt by nra. rewrite sqrt_square by exact D. do 2 f_equal. rewrite <- !Rabs_mult, !Rabs_right by (apply Rle_ge, Rle_0_sqr). reflexivity. }
  assert (Q : Rhypot e f <= e + f). { unfold Rhypot. rewrite <- (sqrt_Rsqr (e + f)) by lra. apply sqrt_le_1_alt. unfold Rsqr. nra. } lra.
Qed.

Section Lm.
Context (lm : libm) (AC : accurate lm).
Definition hyp_d (d1 d2 : Q) : Q := rup (ulp4 + (1 + ulp4) * qmax d1 d2).
Definition hyp_e (e1 e2 : Q) : Q := rup ((1 + ulp4) * (e1 + e2) + tiny).
Lemma near_hypot x y X Y l1 h1 d1 e1 l2 h2 d2 e2 lo hi : near x X l1 h1 d1 e1 -> near y Y l2 h2 d2 e2 -> Qle_bool (e1 + d1 * mag l1 h1 + mag l1 h1) (2 ^ 100) && Qle_bool (e2 + d2 * mag l2 h2 + mag l2 h2) (2 ^ 100) = true ->
  Q2R lo <= Rhypot X Y <= Q2R hi -> near (lm_hypot lm x y) (Rhypot X Y) lo hi (hyp_d d1 d2) (hyp_e e1 e2).
Proof.
  intros N1 N2 C R. apply andb_prop in C. destruct C as [C1 C2]. apply qle in C1, C2. rewrite Q2R_plus in C1, C2.
  pose proof (near_err _ _ _ _ _ _ N1) as E1. pose proof (near_err _ _ _ _ _ _ N2) as E2. destruct N1 as (A1 & B1 & P1 & Q1 & G1). destruct N2 as (A2 & B2 & P2 & Q2 & G2).
  pose proof (mag_ge _ _ _ B1) as M1. pose proof (mag_ge _ _ _ B2) as M2.
  assert (BIG : Q2R (2 ^ 100) <= bpow radix2 500). { apply Rle_trans with (bpow radix2 100); [right; unfold Q2R; cbn; lra|apply bpow_le; lia]. }
  assert (D1 : Rabs (B2R x) <= bpow radix2 500) by (replace (B2R x) with (X + (B2R x - X)) by ring; eapply Rle_trans; [apply Rabs_triang|lra]).
  assert (D2 : Rabs (B2R y) <= bpow radix2 500) by (replace (B2R y) with (Y + (B2R y - Y)) by ring; eapply Rle_trans; [apply Rabs_triang|lra]).
  destruct (ac_hypot lm AC x y A1 A2 (conj D1 D2)) as [F V]. pose proof ulp4_val as UV. assert (U0 : 0 < / 2 ^ 50) by (apply Rinv_0_lt_compat, pow_lt; lra).
  set (d := Q2R (qmax d1 d2)). assert (Dm : Q2R d1 <= d /\ Q2R d2 <= d) by (split; [apply qmax_l|apply qmax_r]). pose proof (Rabs_pos X) as PX. pose proof (Rabs_pos Y) as PY.
  assert (H : Rabs (Rhypot (B2R x) (B2R y) - Rhypot X Y) <= d * Rhypot X Y + (Q2R e1 + Q2R e2)).
  { eapply Rle_trans; [apply hyp_lip|]. eapply Rle_trans; [|apply hyp_add; lra]. apply hyp_abs.
    - eapply Rle_trans; [exact G1|]. apply Rplus_le_compat_r, Rmult_le_compat_r; lra.
    - eapply Rle_trans; [exact G2|]. apply Rplus_le_compat_r, Rmult_le_compat_r; lra. }
  pose proof (Rhypot_ge_0 X Y) as HP. pose proof (Rhypot_ge_0 (B2R x) (B2R y)) as hp. rewrite (Rabs_right (Rhypot (B2R x) (B2R y))) in V by lra.
  pose proof (rup_ge (ulp4 + (1 + ulp4) * qmax d1 d2)) as RD. fold (hyp_d d1 d2) in RD. rewrite Q2R_plus, Q2R_mult, Q2R_plus, q1, UV in RD. fold d in RD.
  pose proof (rup_ge ((1 + ulp4) * (e1 + e2) + tiny)) as RE. fold (hyp_e e1 e2) in RE. rewrite Q2R_plus, Q2R_mult, !Q2R_plus, q1, UV in RE.
  pose proof tiny_1000 as T. pose proof (bpow_gt_0 radix2 (-1000)) as T0. set (u := / 2 ^ 50) in *. set (h := Rhypot (B2R x) (B2R y)) in *. set (HH := Rhypot X Y) in *.
  assert (Z1 : 0 <= u * d) by (apply Rmult_le_pos; lra). assert (Z2 : 0 <= u * (Q2R e1 + Q2R e2)) by (apply Rmult_le_pos; lra).
  split; [exact F|]. split; [exact R|]. split; [lra|]. split; [lra|]. rewrite (Rabs_right HH) by lra.
  assert (UH : u * h <= u * (HH + (d * HH + (Q2R e1 + Q2R e2)))) by (apply Rmult_le_compat_l; [lra|]; apply Rabs_le_inv in H; lra).
  assert (DH : (u + (1 + u) * d) * HH <= Q2R (hyp_d d1 d2) * HH) by (apply Rmult_le_compat_r; lra).
  replace (B2R (lm_hypot lm x y) - HH) with ((B2R (lm_hypot lm x y) - h) + (h - HH)) by ring. eapply Rle_trans; [apply Rabs_triang|]. lra.
Qed.

Lemma atan_mono x y : x <= y -> atan x <= atan y.
Proof. intros [H| ->]; [left; now apply atan_increasing|lra]. Qed.
(** ** atan2 to the right of the y axis, within 45 degrees of the x axis *)
Lemma atan_lip x y : Rabs (atan x - atan y) <= Rabs (x - y).
Proof.
  destruct (MVT_abs atan (fun t => / (1 + t ^ 2)) y x ltac:(intros c Hc; apply derivable_pt_lim_atan)) as (c & Hc & _). rewrite Hc. pose proof (Rabs_pos (x - y)).
  assert (K : 1 <= 1 + c ^ 2) by nra. rewrite (Rabs_right (/ _)) by (apply Rle_ge; left; apply Rinv_0_lt_compat; lra). rewrite <- (Rmult_1_l (Rabs (x - y))) at 2. apply Rmult_le_compat_r; [lra|]. rewrite <- Rinv_1. apply Rinv_le_contravar; lra.
Qed.
Definition at_e (l1 h1 d1 e1 l2 h2 d2 e2 : Q) : Q := rup ((1 + ulp4) * (((e1 + d1 * mag l1 h1) + (e2 + d2 * mag l2 h2)) / (l2 - (e2 + d2 * mag l2 h2))) + tiny).
Lemma near_atan2 y x Y X l1 h1 d1 e1 l2 h2 d2 e2 : near y Y l1 h1 d1 e1 -> near x X l2 h2 d2 e2 -> Qle_bool tiny (l2 - (e2 + d2 * mag l2 h2)) = true -> Rabs Y <= X ->
  near (lm_atan2 lm y x) (atan (Y / X)) (-1) 1 ulp4 (at_e l1 h1 d1 e1 l2 h2 d2 e2).
Proof.
  intros N1 N2 C YX. apply qle in C. pose proof tiny_pos as TP. assert (NZ : ~ (l2 - (e2 + d2 * mag l2 h2) == 0)%Q) by (apply qpos_ne; lra).
  pose proof (near_err _ _ _ _ _ _ N1) as E1. pose proof (near_err _ _ _ _ _ _ N2) as E2. destruct N1 as (A1 & B1 & P1 & Q1 & G1). destruct N2 as (A2 & B2 & P2 & Q2 & G2).
  pose proof (rup_ge ((1 + ulp4) * (((e1 + d1 * mag l1 h1) + (e2 + d2 * mag l2 h2)) / (l2 - (e2 + d2 * mag l2 h2))) + tiny)) as RE. fold (at_e l1 h1 d1 e1 l2 h2 d2 e2) in RE.
  rewrite Q2R_plus, Q2R_mult, Q2R_div, Q2R_plus, q1, ulp4_val in RE by exact NZ. rewrite (Q2R_plus (e1 + _)) in RE. rewrite Q2R_minus in RE, C.
  set (ey := Q2R (e1 + d1 * mag l1 h1)) in *. set (ex := Q2R (e2 + d2 * mag l2 h2)) in *. set (y' := B2R y) in *. set (x' := B2R x) in *.
  assert (ex0 : 0 <= ex) by (pose proof (Rabs_pos (x' - X)); lra). assert (ey0 : 0 <= ey) by (pose proof (Rabs_pos (y' - Y)); lra).
  assert (xp : Q2R l2 - ex <= x') by (apply Rabs_le_inv in E2; lra). assert (Xp : 0 < X) by lra.
  assert (x0 : 0 < B2R x) by (fold x'; lra). destruct (ac_atan2 lm AC y x A1 A2 (or_introl x0)) as [F V]. fold y' x' in V. rewrite Ratan2_pos in V by lra.
  assert (K : Rabs (y' / x' - Y / X) <= (ey + ex) / (Q2R l2 - ex)).
  { replace (y' / x' - Y / X) with (((y' - Y) * X - Y * (x' - X)) * (/ x' * / X)) by (field; lra). rewrite Rabs_mult. rewrite (Rabs_right (/ x' * / X)) by (apply Rle_ge; left; apply Rmult_lt_0_compat; apply Rinv_0_lt_compat; lra).
    assert (J : Rabs ((y' - Y) * X - Y * (x' - X)) <= (ey + ex) * X). { unfold Rminus at 1. eapply Rle_trans; [apply Rabs_triang|]. rewrite Rabs_Ropp, !Rabs_mult, (Rabs_right X) by lra. assert (Rabs (y' - Y) * X <= ey * X) by (apply Rmult_le_compat_r; lra). assert (Rabs Y * Rabs (x' - X) <= X * ex) by (apply Rmult_le_compat; auto using Rabs_pos). lra. }
    apply Rle_trans with ((ey + ex) * X * (/ x' * / X)); [apply Rmult_le_compat_r; [left; apply Rmult_lt_0_compat; apply Rinv_0_lt_compat; lra|exact J]|].
    replace ((ey + ex) * X * (/ x' * / X)) with ((ey + ex) * / x') by (field; lra). apply Rmult_le_compat_l; [lra|]. apply Rinv_le_contravar; lra. }
  pose proof (atan_lip (y' / x') (Y / X)) as L. set (q := (ey + ex) / (Q2R l2 - ex)) in *.
  assert (R : -1 <= Y / X <= 1). { apply Rabs_le_inv in YX. split; apply (Rmult_le_reg_r X); try lra; unfold Rdiv; rewrite Rmult_assoc, Rinv_l by lra; lra. }
  assert (RG : -1 <= atan (Y / X) <= 1). { pose proof (atan_mono _ _ (proj1 R)) as L1. pose proof (atan_mono _ _ (proj2 R)) as L2. rewrite atan_1 in L2. replace (-1) with (- (1)) in L1 by ring. rewrite atan_opp, atan_1 in L1. pose proof PI_4. lra. }
  pose proof tiny_1000 as T. pose proof (bpow_gt_0 radix2 (-1000)) as T0. assert (U0 : 0 < / 2 ^ 50) by (apply Rinv_0_lt_compat, pow_lt; lra). set (u := / 2 ^ 50) in *. assert (q0' : 0 <= q) by (pose proof (Rabs_pos (y' / x' - Y / X)); lra).
  assert (Z1 : 0 <= u * q) by (apply Rmult_le_pos; lra).
  split; [exact F|]. rewrite ulp4_val. fold u. split; [replace (Q2R (-1)) with (-1) by (unfold Q2R; cbn; lra); rewrite q1; exact RG|]. split; [lra|]. split; [lra|].
  assert (UA : u * Rabs (atan (y' / x')) <= u * (Rabs (atan (Y / X)) + q)). { apply Rmult_le_compat_l; [lra|]. replace (atan (y' / x')) with (atan (Y / X) + (atan (y' / x') - atan (Y / X))) by ring. eapply Rle_trans; [apply Rabs_triang|]. lra. }
  replace (B2R (lm_atan2 lm y x) - atan (Y / X)) with ((B2R (lm_atan2 lm y x) - atan (y' / x')) + (atan (y' / x') - atan (Y / X))) by ring. eapply Rle_trans; [apply Rabs_triang|]. lra.
Qed.

(** ** cbrt near and above one *)
Lemma near_cbrt x X lo hi d e glo ghi : near x X lo hi d e -> 1 <= X -> Qle_bool (Qmake 9 10 + (e + d * mag lo hi)) 1 = true -> Q2R glo <= Rcbrt X <= Q2R ghi ->
  near (lm_cbrt lm x) (Rcbrt X) glo ghi ulp4 (fun_e (Qmake 2 5) lo hi d e).
Proof.
  intros N X1 C R. apply (near_fun _ Rcbrt (fun _ => True) (Qmake 2 5) _ _ _ _ _ _ _ _ (ac_cbrt lm AC) N I); [|unfold Q2R; cbn; lra|exact R].
  pose proof (near_err _ _ _ _ _ _ N) as E. apply qle in C. rewrite Q2R_plus, q1 in C. replace (Q2R (Qmake 9 10)) with (9 / 10) in C by (unfold Q2R; cbn; lra). replace (Q2R (Qmake 2 5)) with (2 / 5) by (unfold Q2R; cbn; lra). apply Rabs_le_inv in E.
  pose proof (Rcbrt_cube (B2R x)) as C1. pose proof (Rcbrt_cube X) as C2. pose proof (Rcbrt_pos (B2R x) ltac:(lra)) as K1. pose proof (Rcbrt_pos X ltac:(lra)) as K2. set (c := Rcbrt (B2R x)) in *. set (c2 := Rcbrt X) in *.
  assert (L1 : 9 / 10 <= c) by (destruct (Rle_lt_dec (9 / 10) c) as [|L]; [assumption|exfalso; assert (c * c <= 81 / 100) by nra; nra]).
  assert (L2 : 1 <= c2) by (destruct (Rle_lt_dec 1 c2) as [|L]; [assumption|exfalso; assert (c2 * c2 <= 1) by nra; nra]).
  rewrite <- C1, <- C2. replace (c * c * c - c2 * c2 * c2) with ((c - c2) * (c * c + c * c2 + c2 * c2)) by ring. rewrite Rabs_mult. assert (G : 5 / 2 <= c * c + c * c2 + c2 * c2) by nra. rewrite (Rabs_right (c * c + c * c2 + c2 * c2)) by lra. pose proof (Rabs_pos (c - c2)). nra.
Qed.
End Lm.
