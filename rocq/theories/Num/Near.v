(** A calculus of rounding errors: [near x X lo hi d e] says that the binary64 number [x] is finite
    and that it approximates the real number [X], which lies between [lo] and [hi], with the relative
    error [d] plus the absolute error [e].  The bounds are rational numbers and are computed. *)
From Coq Require Import ZArith Reals QArith Qreals Lra Lia Bool Psatz Qround Qabs.
From Flocq Require Import Core IEEE754.BinarySingleNaN.
From Verif.Num Require Import FOps F64 F64Lemmas.
Local Open Scope R_scope.

(** ** Rational bounds *)
Definition grid : positive := (2 ^ 120)%positive.
Definition rdn (q : Q) : Q := Qmake (Qfloor (q * inject_Z (Zpos grid))) grid.
Definition rup (q : Q) : Q := Qmake (Qceiling (q * inject_Z (Zpos grid))) grid.
Lemma q2r_make z p : Q2R (Qmake z p) = IZR z / IZR (Zpos p).
Proof. reflexivity. Qed.
Lemma q2r_Z z : Q2R (inject_Z z) = IZR z.
Proof. unfold Q2R, inject_Z. cbn. field. Qed.
Lemma rdn_le q : Q2R (rdn q) <= Q2R q.
Proof.
  unfold rdn. rewrite q2r_make. pose proof (Qfloor_le (q * inject_Z (Zpos grid))) as H. apply Qle_Rle in H. rewrite q2r_Z, Q2R_mult, q2r_Z in H.
  assert (G : 0 < IZR (Zpos grid)) by (apply IZR_lt; reflexivity). apply (Rmult_le_reg_r (IZR (Zpos grid))); [exact G|]. unfold Rdiv. rewrite Rmult_assoc, Rinv_l by lra. lra.
Qed.
Lemma rup_ge q : Q2R q <= Q2R (rup q).
Proof.
  unfold rup. rewrite q2r_make. pose proof (Qle_ceiling (q * inject_Z (Zpos grid))) as H. apply Qle_Rle in H. rewrite q2r_Z, Q2R_mult, q2r_Z in H.
  assert (G : 0 < IZR (Zpos grid)) by (apply IZR_lt; reflexivity). apply (Rmult_le_reg_r (IZR (Zpos grid))); [exact G|]. unfold Rdiv. rewrite Rmult_assoc, Rinv_l by lra. lra.
Qed.
Definition qmax (x y : Q) : Q := if Qle_bool x y then y else x.
Definition qmin (x y : Q) : Q := if Qle_bool x y then x else y.
Lemma qmax_l x y : Q2R x <= Q2R (qmax x y).
Proof. unfold qmax. destruct (Qle_bool x y) eqn:H; [apply Qle_Rle; now apply Qle_bool_iff|lra]. Qed.
Lemma qmax_r x y : Q2R y <= Q2R (qmax x y).
Proof. unfold qmax. destruct (Qle_bool x y) eqn:H; [lra|]. apply Qle_Rle. apply Qnot_lt_le. intros L. apply Qlt_le_weak in L. apply Qle_bool_iff in L. congruence. Qed.
Lemma qmin_l x y : Q2R (qmin x y) <= Q2R x.
Proof. unfold qmin. destruct (Qle_bool x y) eqn:H; [lra|]. apply Qle_Rle. apply Qnot_lt_le. intros L. apply Qlt_le_weak in L. apply Qle_bool_iff in L. congruence. Qed.
Lemma qmin_r x y : Q2R (qmin x y) <= Q2R y.
Proof. unfold qmin. destruct (Qle_bool x y) eqn:H; [apply Qle_Rle; now apply Qle_bool_iff|lra]. Qed.
Definition mag (lo hi : Q) : Q := qmax (Qopp lo) hi.
Lemma mag_ge lo hi X : Q2R lo <= X <= Q2R hi -> Rabs X <= Q2R (mag lo hi).
Proof. intros H. unfold mag. pose proof (qmax_l (Qopp lo) hi) as A. pose proof (qmax_r (Qopp lo) hi) as B. rewrite Q2R_opp in A. apply Rabs_le. lra. Qed.
Lemma qle x y : Qle_bool x y = true -> Q2R x <= Q2R y.
Proof. intros H. apply Qle_Rle. now apply Qle_bool_iff. Qed.
Lemma q0 : Q2R 0 = 0. Proof. unfold Q2R. cbn. lra. Qed.
Lemma q1 : Q2R 1 = 1. Proof. unfold Q2R. cbn. lra. Qed.

(** ** The relation *)
Definition near (x : f64) (X : R) (lo hi d e : Q) : Prop :=
  is_finite x = true /\ Q2R lo <= X <= Q2R hi /\ 0 <= Q2R d /\ 0 <= Q2R e /\ Rabs (B2R x - X) <= Q2R d * Rabs X + Q2R e.

Definition ulp1 : Q := Qmake 1 (2 ^ 53).
Definition tiny : Q := Qmake 1 grid.
Definition big : Q := inject_Z (2 ^ 1000).
Lemma ulp1_val : Q2R ulp1 = bpow radix2 (-53).
Proof. unfold ulp1. rewrite q2r_make. cbn. lra. Qed.
Lemma tiny_val : bpow radix2 (-1075) <= Q2R tiny.
Proof.
  unfold tiny. rewrite q2r_make. unfold Rdiv. rewrite Rmult_1_l. apply Rle_trans with (bpow radix2 (-120)); [apply bpow_le; lia|]. right. cbn [bpow]. f_equal.
Qed.
Lemma big_val : Q2R big = bpow radix2 1000.
Proof. unfold big. rewrite q2r_Z. change 2%Z with (radix_val radix2). rewrite IZR_Zpower by lia. reflexivity. Qed.

(** Error bounds after rounding. *)
Definition rd (d : Q) : Q := rup (d + ulp1 * (1 + d)).
Definition re (e : Q) : Q := rup (e * (1 + ulp1) + tiny).
(** A bound of the result that excludes overflow. *)
Definition fits (lo hi d e : Q) : bool := Qle_bool (mag lo hi * (1 + d) + e) big.

Lemma near_rnd (z : f64) zr Z lo hi d e : is_finite z = true -> B2R z = rnd zr -> Rabs (zr - Z) <= Q2R d * Rabs Z + Q2R e -> 0 <= Q2R d -> 0 <= Q2R e -> Q2R lo <= Z <= Q2R hi ->
  near z Z (rdn lo) (rup hi) (rd d) (re e).
Proof.
  intros F B H D E R. pose proof (rnd_error zr) as RE. rewrite <- B in RE. pose proof tiny_val as T. unfold near, rd, re.
  pose proof (rdn_le lo). pose proof (rup_ge hi). pose proof (rup_ge (d + ulp1 * (1 + d))) as R1. pose proof (rup_ge (e * (1 + ulp1) + tiny)) as R2.
  rewrite !Q2R_plus, !Q2R_mult, !Q2R_plus, ulp1_val, q1 in R1, R2. pose proof (bpow_gt_0 radix2 (-53)) as U. pose proof (bpow_gt_0 radix2 (-1075)) as U'. pose proof (Rabs_pos Z) as ZP. set (u := bpow radix2 (-53)) in *.
  assert (D' : 0 <= u * (1 + Q2R d)) by (apply Rmult_le_pos; lra). assert (E' : 0 <= Q2R e * (1 + u)) by (apply Rmult_le_pos; lra).
  split; [exact F|]. split; [lra|]. split; [lra|]. split; [lra|].
  assert (ZR : Rabs zr <= Rabs Z + (Q2R d * Rabs Z + Q2R e)) by (replace zr with (Z + (zr - Z)) by ring; eapply Rle_trans; [apply Rabs_triang|lra]).
  assert (A : Rabs (B2R z - Z) <= Rabs (B2R z - zr) + Rabs (zr - Z)) by (replace (B2R z - Z) with (B2R z - zr + (zr - Z)) by ring; apply Rabs_triang).
  assert (UZ : u * Rabs zr <= u * (Rabs Z + (Q2R d * Rabs Z + Q2R e))) by (apply Rmult_le_compat_l; lra).
  assert (K : (Q2R d + u * (1 + Q2R d)) * Rabs Z <= Q2R (rup (d + ulp1 * (1 + d))) * Rabs Z) by (apply Rmult_le_compat_r; lra).
  lra.
Qed.
Lemma fits_ok zr Z lo hi d e : fits lo hi d e = true -> Rabs (zr - Z) <= Q2R d * Rabs Z + Q2R e -> 0 <= Q2R d -> Q2R lo <= Z <= Q2R hi -> Rabs zr <= bpow radix2 1023.
Proof.
  intros H A D R. apply qle in H. rewrite Q2R_plus, Q2R_mult, Q2R_plus, q1, big_val in H. pose proof (mag_ge lo hi Z R) as M.
  assert (B : Rabs zr <= Rabs Z + (Q2R d * Rabs Z + Q2R e)) by (replace zr with (Z + (zr - Z)) by ring; eapply Rle_trans; [apply Rabs_triang|lra]).
  assert (C : bpow radix2 1000 <= bpow radix2 1023) by (apply bpow_le; lia). assert (K : Rabs Z * (1 + Q2R d) <= Q2R (mag lo hi) * (1 + Q2R d)) by (apply Rmult_le_compat_r; lra). lra.
Qed.

Lemma near_weak x X lo hi d e lo' hi' d' e' : near x X lo hi d e -> Q2R lo' <= X <= Q2R hi' -> Qle_bool d d' = true -> Qle_bool e e' = true -> near x X lo' hi' d' e'.
Proof.
  intros (A & B & C & D & E) R Hd He. apply qle in Hd, He. split; [exact A|]. split; [exact R|]. split; [lra|]. split; [lra|].
  pose proof (Rabs_pos X). assert (Q2R d * Rabs X <= Q2R d' * Rabs X) by (apply Rmult_le_compat_r; lra). lra.
Qed.
Lemma near_range x X lo hi d e lo' hi' : near x X lo hi d e -> Q2R lo' <= X <= Q2R hi' -> near x X lo' hi' d e.
Proof. intros H R. eapply near_weak; [exact H|exact R| |]; apply Qle_bool_iff, Qle_refl. Qed.
Lemma near_eq x X Y lo hi d e : near x X lo hi d e -> X = Y -> near x Y lo hi d e.
Proof. now intros H <-. Qed.
Lemma near_abs x X lo hi d e : near x X lo hi d e -> near x X lo hi 0 (rup (e + d * mag lo hi)).
Proof.
  intros (A & B & C & D & E). pose proof (mag_ge lo hi X B) as M. pose proof (rup_ge (e + d * mag lo hi)) as R. rewrite Q2R_plus, Q2R_mult in R. pose proof (Rabs_pos X).
  assert (Q2R d * Rabs X <= Q2R d * Q2R (mag lo hi)) by (apply Rmult_le_compat_l; lra). assert (0 <= Q2R d * Rabs X) by (apply Rmult_le_pos; lra).
  split; [exact A|]. split; [exact B|]. rewrite q0. split; [lra|]. split; lra.
Qed.
Lemma near_exact x (lo hi : Q) : is_finite x = true -> Q2R lo <= B2R x <= Q2R hi -> near x (B2R x) lo hi 0 0.
Proof. intros F R. split; [exact F|]. split; [exact R|]. rewrite q0. split; [lra|]. split; [lra|]. rewrite Rminus_eq_0, Rabs_R0. lra. Qed.
Lemma near_err x X lo hi d e : near x X lo hi d e -> Rabs (B2R x - X) <= Q2R (e + d * mag lo hi).
Proof.
  intros (A & B & C & D & E). pose proof (mag_ge lo hi X B) as M. rewrite Q2R_plus, Q2R_mult. assert (Q2R d * Rabs X <= Q2R d * Q2R (mag lo hi)) by (apply Rmult_le_compat_l; lra). lra.
Qed.

(** ** Operations *)
Lemma near_opp x X lo hi d e : near x X lo hi d e -> near (Bopp x) (- X) (- hi) (- lo) d e.
Proof.
  intros (A & B & C & D & E). split; [now rewrite is_finite_Bopp|]. rewrite !Q2R_opp. split; [lra|]. split; [lra|]. split; [lra|]. rewrite B2R_Bopp, Rabs_Ropp. replace (- B2R x - - X) with (- (B2R x - X)) by ring. now rewrite Rabs_Ropp.
Qed.
(** Sums: absolute errors. *)
Definition add_e (l1 h1 d1 e1 l2 h2 d2 e2 : Q) : Q := e1 + e2 + d1 * mag l1 h1 + d2 * mag l2 h2.
Lemma near_add x y X Y l1 h1 d1 e1 l2 h2 d2 e2 : near x X l1 h1 d1 e1 -> near y Y l2 h2 d2 e2 -> fits (l1 + l2) (h1 + h2) 0 (add_e l1 h1 d1 e1 l2 h2 d2 e2) = true ->
  near (Bplus mode_NE x y) (X + Y) (rdn (l1 + l2)) (rup (h1 + h2)) (rd 0) (re (add_e l1 h1 d1 e1 l2 h2 d2 e2)).
Proof.
  intros H1 H2 F. pose proof (near_err _ _ _ _ _ _ H1) as E1. pose proof (near_err _ _ _ _ _ _ H2) as E2. destruct H1 as (A1 & B1 & C1 & D1 & _). destruct H2 as (A2 & B2 & C2 & D2 & _).
  rewrite Q2R_plus, Q2R_mult in E1, E2. pose proof (mag_ge _ _ _ B1) as M1. pose proof (mag_ge _ _ _ B2) as M2. pose proof (Rabs_pos X). pose proof (Rabs_pos Y).
  assert (V : Q2R (add_e l1 h1 d1 e1 l2 h2 d2 e2) = Q2R e1 + Q2R e2 + Q2R d1 * Q2R (mag l1 h1) + Q2R d2 * Q2R (mag l2 h2)) by (unfold add_e; rewrite !Q2R_plus, !Q2R_mult; ring).
  assert (Z : Rabs (B2R x + B2R y - (X + Y)) <= Q2R 0 * Rabs (X + Y) + Q2R (add_e l1 h1 d1 e1 l2 h2 d2 e2)) by (rewrite V, q0; replace (B2R x + B2R y - (X + Y)) with (B2R x - X + (B2R y - Y)) by ring; eapply Rle_trans; [apply Rabs_triang|lra]).
  assert (R : Q2R (l1 + l2) <= X + Y <= Q2R (h1 + h2)) by (rewrite !Q2R_plus; lra).
  assert (D0 : 0 <= Q2R 0) by (rewrite q0; lra). destruct (f64_plus x y A1 A2 (fits_ok _ _ _ _ _ _ F Z D0 R)) as [P1 P2].
  apply (near_rnd _ (B2R x + B2R y)); auto. rewrite V. assert (0 <= Q2R d1 * Q2R (mag l1 h1)) by (apply Rmult_le_pos; lra). assert (0 <= Q2R d2 * Q2R (mag l2 h2)) by (apply Rmult_le_pos; lra). lra.
Qed.
Lemma near_sub x y X Y l1 h1 d1 e1 l2 h2 d2 e2 : near x X l1 h1 d1 e1 -> near y Y l2 h2 d2 e2 -> fits (l1 - h2) (h1 - l2) 0 (add_e l1 h1 d1 e1 l2 h2 d2 e2) = true ->
  near (Bminus mode_NE x y) (X - Y) (rdn (l1 - h2)) (rup (h1 - l2)) (rd 0) (re (add_e l1 h1 d1 e1 l2 h2 d2 e2)).
Proof.
  intros H1 H2 F. pose proof (near_err _ _ _ _ _ _ H1) as E1. pose proof (near_err _ _ _ _ _ _ H2) as E2. destruct H1 as (A1 & B1 & C1 & D1 & _). destruct H2 as (A2 & B2 & C2 & D2 & _).
  rewrite Q2R_plus, Q2R_mult in E1, E2. pose proof (mag_ge _ _ _ B1) as M1. pose proof (mag_ge _ _ _ B2) as M2. pose proof (Rabs_pos X). pose proof (Rabs_pos Y).
  assert (V : Q2R (add_e l1 h1 d1 e1 l2 h2 d2 e2) = Q2R e1 + Q2R e2 + Q2R d1 * Q2R (mag l1 h1) + Q2R d2 * Q2R (mag l2 h2)) by (unfold add_e; rewrite !Q2R_plus, !Q2R_mult; ring).
  assert (Z : Rabs (B2R x - B2R y - (X - Y)) <= Q2R 0 * Rabs (X - Y) + Q2R (add_e l1 h1 d1 e1 l2 h2 d2 e2)) by (rewrite V, q0; replace (B2R x - B2R y - (X - Y)) with (B2R x - X + - (B2R y - Y)) by ring; eapply Rle_trans; [apply Rabs_triang|rewrite Rabs_Ropp; lra]).
  assert (R : Q2R (l1 - h2) <= X - Y <= Q2R (h1 - l2)) by (rewrite !Q2R_minus; lra).
  assert (D0 : 0 <= Q2R 0) by (rewrite q0; lra). destruct (f64_minus x y A1 A2 (fits_ok _ _ _ _ _ _ F Z D0 R)) as [P1 P2].
  apply (near_rnd _ (B2R x - B2R y)); auto. rewrite V. assert (0 <= Q2R d1 * Q2R (mag l1 h1)) by (apply Rmult_le_pos; lra). assert (0 <= Q2R d2 * Q2R (mag l2 h2)) by (apply Rmult_le_pos; lra). lra.
Qed.
(** Sums of numbers that are not negative: relative errors. *)
Lemma near_addp x y X Y l1 h1 d1 e1 l2 h2 d2 e2 : near x X l1 h1 d1 e1 -> near y Y l2 h2 d2 e2 -> Qle_bool 0 l1 && Qle_bool 0 l2 && fits (l1 + l2) (h1 + h2) (qmax d1 d2) (e1 + e2) = true ->
  near (Bplus mode_NE x y) (X + Y) (rdn (l1 + l2)) (rup (h1 + h2)) (rd (qmax d1 d2)) (re (e1 + e2)).
Proof.
  intros H1 H2 F. apply andb_prop in F. destruct F as [F F3]. apply andb_prop in F. destruct F as [F1 F2]. apply qle in F1, F2. rewrite q0 in F1, F2. destruct H1 as (A1 & B1 & C1 & D1 & E1). destruct H2 as (A2 & B2 & C2 & D2 & E2).
  pose proof (qmax_l d1 d2) as M1. pose proof (qmax_r d1 d2) as M2. rewrite (Rabs_right X) in E1 by lra. rewrite (Rabs_right Y) in E2 by lra.
  assert (K1 : Q2R d1 * X <= Q2R (qmax d1 d2) * X) by (apply Rmult_le_compat_r; lra). assert (K2 : Q2R d2 * Y <= Q2R (qmax d1 d2) * Y) by (apply Rmult_le_compat_r; lra).
  assert (Z : Rabs (B2R x + B2R y - (X + Y)) <= Q2R (qmax d1 d2) * Rabs (X + Y) + Q2R (e1 + e2)) by (rewrite Q2R_plus, (Rabs_right (X + Y)) by lra; replace (B2R x + B2R y - (X + Y)) with (B2R x - X + (B2R y - Y)) by ring; eapply Rle_trans; [apply Rabs_triang|lra]).
  assert (R : Q2R (l1 + l2) <= X + Y <= Q2R (h1 + h2)) by (rewrite !Q2R_plus; lra).
  destruct (f64_plus x y A1 A2 (fits_ok _ _ _ _ _ _ F3 Z ltac:(lra) R)) as [P1 P2].
  apply (near_rnd _ (B2R x + B2R y)); auto; [lra|rewrite Q2R_plus; lra].
Qed.
(** Products. *)
Definition mlo (l1 h1 l2 h2 : Q) : Q := qmin (qmin (l1 * l2) (l1 * h2)) (qmin (h1 * l2) (h1 * h2)).
Definition mhi (l1 h1 l2 h2 : Q) : Q := qmax (qmax (l1 * l2) (l1 * h2)) (qmax (h1 * l2) (h1 * h2)).
Definition mul_d (d1 d2 : Q) : Q := d1 + d2 + d1 * d2.
Definition mul_e (l1 h1 d1 e1 l2 h2 d2 e2 : Q) : Q := e1 * (mag l2 h2 * (1 + d2) + e2) + e2 * mag l1 h1 * (1 + d1).
Lemma mul_range l1 h1 l2 h2 X Y : Q2R l1 <= X <= Q2R h1 -> Q2R l2 <= Y <= Q2R h2 -> Q2R (mlo l1 h1 l2 h2) <= X * Y <= Q2R (mhi l1 h1 l2 h2).
Proof.
  intros H1 H2. unfold mlo, mhi.
  pose proof (qmin_l (qmin (l1 * l2) (l1 * h2)) (qmin (h1 * l2) (h1 * h2))). pose proof (qmin_r (qmin (l1 * l2) (l1 * h2)) (qmin (h1 * l2) (h1 * h2))).
  pose proof (qmin_l (l1 * l2) (l1 * h2)). pose proof (qmin_r (l1 * l2) (l1 * h2)). pose proof (qmin_l (h1 * l2) (h1 * h2)). pose proof (qmin_r (h1 * l2) (h1 * h2)).
  pose proof (qmax_l (qmax (l1 * l2) (l1 * h2)) (qmax (h1 * l2) (h1 * h2))). pose proof (qmax_r (qmax (l1 * l2) (l1 * h2)) (qmax (h1 * l2) (h1 * h2))).
  pose proof (qmax_l (l1 * l2) (l1 * h2)). pose proof (qmax_r (l1 * l2) (l1 * h2)). pose proof (qmax_l (h1 * l2) (h1 * h2)). pose proof (qmax_r (h1 * l2) (h1 * h2)).
  rewrite !Q2R_mult in *. set (m := Q2R (qmin (qmin _ _) _)) in *. set (M := Q2R (qmax (qmax _ _) _)) in *. clearbody m M. set (a := Q2R l1) in *. set (b := Q2R h1) in *. set (c := Q2R l2) in *. set (d := Q2R h2) in *.
  assert (P : (Y <= 0 \/ 0 <= Y) /\ (a * c <= a * Y <= a * d \/ a * d <= a * Y <= a * c) /\ (b * c <= b * Y <= b * d \/ b * d <= b * Y <= b * c)).
  { split; [lra|]. split; [destruct (Rle_dec 0 a); [left|right]|destruct (Rle_dec 0 b); [left|right]]; split; nra. }
  destruct P as ([P1|P1] & P2 & P3); assert (Q : (a * Y <= X * Y <= b * Y \/ b * Y <= X * Y <= a * Y)) by (first [left; split; nra|right; split; nra]); lra.
Qed.
Lemma near_mul x y X Y l1 h1 d1 e1 l2 h2 d2 e2 : near x X l1 h1 d1 e1 -> near y Y l2 h2 d2 e2 -> fits (mlo l1 h1 l2 h2) (mhi l1 h1 l2 h2) (mul_d d1 d2) (mul_e l1 h1 d1 e1 l2 h2 d2 e2) = true ->
  near (Bmult mode_NE x y) (X * Y) (rdn (mlo l1 h1 l2 h2)) (rup (mhi l1 h1 l2 h2)) (rd (mul_d d1 d2)) (re (mul_e l1 h1 d1 e1 l2 h2 d2 e2)).
Proof.
  intros (A1 & B1 & C1 & D1 & E1) (A2 & B2 & C2 & D2 & E2) F. pose proof (mul_range _ _ _ _ _ _ B1 B2) as R. pose proof (mag_ge _ _ _ B1) as M1. pose proof (mag_ge _ _ _ B2) as M2. pose proof (Rabs_pos X) as PX. pose proof (Rabs_pos Y) as PY.
  assert (V : Q2R (mul_d d1 d2) = Q2R d1 + Q2R d2 + Q2R d1 * Q2R d2) by (unfold mul_d; rewrite !Q2R_plus, !Q2R_mult; ring).
  assert (W : Q2R (mul_e l1 h1 d1 e1 l2 h2 d2 e2) = Q2R e1 * (Q2R (mag l2 h2) * (1 + Q2R d2) + Q2R e2) + Q2R e2 * Q2R (mag l1 h1) * (1 + Q2R d1)) by (unfold mul_e; repeat rewrite ?Q2R_plus, ?Q2R_mult, ?q1; ring).
  set (m1 := Q2R (mag l1 h1)) in *. set (m2 := Q2R (mag l2 h2)) in *. set (u1 := Q2R d1) in *. set (u2 := Q2R d2) in *. set (v1 := Q2R e1) in *. set (v2 := Q2R e2) in *.
  assert (Z : Rabs (B2R x * B2R y - X * Y) <= Q2R (mul_d d1 d2) * Rabs (X * Y) + Q2R (mul_e l1 h1 d1 e1 l2 h2 d2 e2)).
  { rewrite V, W, Rabs_mult. replace (B2R x * B2R y - X * Y) with ((B2R x - X) * (B2R y - Y) + (B2R x - X) * Y + X * (B2R y - Y)) by ring.
    eapply Rle_trans; [apply Rabs_triang|]. eapply Rle_trans; [apply Rplus_le_compat_r, Rabs_triang|]. rewrite !Rabs_mult. pose proof (Rabs_pos (B2R x - X)) as P1. pose proof (Rabs_pos (B2R y - Y)) as P2. set (p := Rabs (B2R x - X)) in *. set (q := Rabs (B2R y - Y)) in *. set (s := Rabs X) in *. set (t := Rabs Y) in *.
    assert (K1 : p * q <= (u1 * s + v1) * (u2 * t + v2)) by (apply Rmult_le_compat; assumption). assert (K2 : p * t <= (u1 * s + v1) * t) by (apply Rmult_le_compat_r; assumption). assert (K3 : s * q <= s * (u2 * t + v2)) by (apply Rmult_le_compat_l; assumption).
    assert (J1 : v1 * t <= v1 * m2) by (apply Rmult_le_compat_l; assumption). assert (J2 : v2 * s <= v2 * m1) by (apply Rmult_le_compat_l; assumption).
    assert (J3 : v1 * t * u2 <= v1 * m2 * u2) by (apply Rmult_le_compat_r; assumption). assert (J4 : v2 * s * u1 <= v2 * m1 * u1) by (apply Rmult_le_compat_r; assumption). lra. }
  assert (DV : 0 <= Q2R (mul_d d1 d2)) by (rewrite V; assert (0 <= u1 * u2) by (now apply Rmult_le_pos); lra).
  assert (EV : 0 <= Q2R (mul_e l1 h1 d1 e1 l2 h2 d2 e2)) by (rewrite W; assert (0 <= m2 * (1 + u2)) by (apply Rmult_le_pos; lra); assert (0 <= v1 * (m2 * (1 + u2) + v2)) by (apply Rmult_le_pos; lra); assert (0 <= v2 * m1) by (apply Rmult_le_pos; lra); assert (0 <= v2 * m1 * (1 + u1)) by (apply Rmult_le_pos; lra); lra).
  destruct (f64_mult x y A1 A2 (fits_ok _ _ _ _ _ _ F Z DV R)) as [P1 P2]. apply (near_rnd _ (B2R x * B2R y)); auto.
Qed.
(** Quotients by a positive number. *)
Definition div_k (l2 d2 e2 : Q) : Q := d2 + e2 / l2.
Definition div_d (d1 l2 d2 e2 : Q) : Q := (d1 + div_k l2 d2 e2) / (1 - div_k l2 d2 e2).
Definition div_e (e1 l2 d2 e2 : Q) : Q := e1 / (l2 * (1 - div_k l2 d2 e2)).
Definition div_ok (l1 h1 d1 e1 l2 h2 d2 e2 : Q) : bool :=
  Qle_bool tiny l2 && Qle_bool (div_k l2 d2 e2) (Qmake 1 2) && fits (mlo l1 h1 (/ h2) (/ l2)) (mhi l1 h1 (/ h2) (/ l2)) (div_d d1 l2 d2 e2) (div_e e1 l2 d2 e2).
Lemma tiny_pos : 0 < Q2R tiny.
Proof. unfold tiny. rewrite q2r_make. apply Rdiv_lt_0_compat; [lra|]. apply IZR_lt. reflexivity. Qed.
Lemma qhalf : Q2R (Qmake 1 2) = / 2. Proof. unfold Q2R. cbn. lra. Qed.
Lemma qpos_ne q : 0 < Q2R q -> ~ (q == 0)%Q.
Proof. intros H E. apply Qeq_eqR in E. rewrite q0 in E. lra. Qed.
Lemma near_div x y X Y l1 h1 d1 e1 l2 h2 d2 e2 : near x X l1 h1 d1 e1 -> near y Y l2 h2 d2 e2 -> div_ok l1 h1 d1 e1 l2 h2 d2 e2 = true ->
  near (Bdiv mode_NE x y) (X / Y) (rdn (mlo l1 h1 (/ h2) (/ l2))) (rup (mhi l1 h1 (/ h2) (/ l2))) (rd (div_d d1 l2 d2 e2)) (re (div_e e1 l2 d2 e2)).
Proof.
  intros (A1 & B1 & C1 & D1 & E1) (A2 & B2 & C2 & D2 & E2) F. apply andb_prop in F. destruct F as [F F3]. apply andb_prop in F. destruct F as [F1 F2]. apply qle in F1, F2. pose proof tiny_pos as TP. rewrite qhalf in F2.
  assert (L2 : 0 < Q2R l2) by lra. assert (H2 : 0 < Q2R h2) by lra. assert (YP : 0 < Y) by lra. pose proof (qpos_ne _ L2) as NL. pose proof (qpos_ne _ H2) as NH.
  assert (KV : Q2R (div_k l2 d2 e2) = Q2R d2 + Q2R e2 / Q2R l2) by (unfold div_k; rewrite Q2R_plus, Q2R_div by exact NL; reflexivity).
  set (k := Q2R (div_k l2 d2 e2)) in *. assert (KN : Q2R (1 - div_k l2 d2 e2) = 1 - k) by (rewrite Q2R_minus, q1; reflexivity).
  assert (NK : ~ (1 - div_k l2 d2 e2 == 0)%Q) by (apply qpos_ne; rewrite KN; lra).
  assert (DV : Q2R (div_d d1 l2 d2 e2) = (Q2R d1 + k) / (1 - k)) by (unfold div_d; rewrite Q2R_div by exact NK; rewrite Q2R_plus, KN; reflexivity).
  assert (EV : Q2R (div_e e1 l2 d2 e2) = Q2R e1 / (Q2R l2 * (1 - k))).
  { unfold div_e. rewrite Q2R_div; [rewrite Q2R_mult, KN; reflexivity|]. apply qpos_ne. rewrite Q2R_mult, KN. apply Rmult_lt_0_compat; lra. }
  assert (E20 : 0 <= Q2R e2 / Q2R l2) by (apply Rmult_le_pos; [lra|left; now apply Rinv_0_lt_compat]). assert (K0 : 0 <= k) by lra.
  rewrite (Rabs_right Y) in E2 by lra.
  assert (YK : Rabs (B2R y - Y) <= k * Y). { eapply Rle_trans; [exact E2|]. rewrite KV. assert (Q2R e2 <= Q2R e2 / Q2R l2 * Y). { unfold Rdiv. rewrite Rmult_assoc. rewrite <- (Rmult_1_r (Q2R e2)) at 1. apply Rmult_le_compat_l; [lra|]. apply (Rmult_le_reg_l (Q2R l2)); [lra|]. rewrite <- Rmult_assoc, Rinv_r by lra. lra. } lra. }
  assert (YY : Y * (1 - k) <= B2R y) by (apply Rabs_le_inv in YK; lra). assert (YL : 0 < Y * (1 - k)) by (apply Rmult_lt_0_compat; lra). assert (YB : 0 < B2R y) by lra.
  assert (Z : Rabs (B2R x / B2R y - X / Y) <= Q2R (div_d d1 l2 d2 e2) * Rabs (X / Y) + Q2R (div_e e1 l2 d2 e2)).
  { rewrite DV, EV. unfold Rdiv at 4. rewrite Rabs_mult, Rabs_inv, (Rabs_right Y) by lra.
    replace (B2R x / B2R y - X / Y) with ((B2R x - X) * / B2R y + - (X * / Y * ((B2R y - Y) * / B2R y))) by (field; lra).
    eapply Rle_trans; [apply Rabs_triang|]. rewrite Rabs_Ropp, !Rabs_mult, !Rabs_inv, (Rabs_right (B2R y)), (Rabs_right Y) by lra.
    assert (I : 0 < / B2R y <= / (Y * (1 - k))) by (split; [now apply Rinv_0_lt_compat|now apply Rinv_le_contravar]).
    assert (J1 : Rabs (B2R x - X) * / B2R y <= (Q2R d1 * Rabs X + Q2R e1) * / (Y * (1 - k))) by (apply Rmult_le_compat; try lra; apply Rabs_pos).
    assert (J2 : Rabs (B2R y - Y) * / B2R y <= k * Y * / (Y * (1 - k))) by (apply Rmult_le_compat; try lra; apply Rabs_pos).
    assert (J3 : Rabs X * / Y * (Rabs (B2R y - Y) * / B2R y) <= Rabs X * / Y * (k * Y * / (Y * (1 - k)))) by (apply Rmult_le_compat_l; [apply Rmult_le_pos; [apply Rabs_pos|left; now apply Rinv_0_lt_compat]|exact J2]).
    assert (J4 : Q2R e1 * / (Y * (1 - k)) <= Q2R e1 / (Q2R l2 * (1 - k))). { apply Rmult_le_compat_l; [lra|]. apply Rinv_le_contravar; [apply Rmult_lt_0_compat; lra|apply Rmult_le_compat_r; lra]. }
    replace ((Q2R d1 + k) / (1 - k) * (Rabs X * / Y)) with (Q2R d1 * Rabs X * / (Y * (1 - k)) + Rabs X * / Y * (k * Y * / (Y * (1 - k)))) by (field; lra). lra. }
  assert (R : Q2R (mlo l1 h1 (/ h2) (/ l2)) <= X / Y <= Q2R (mhi l1 h1 (/ h2) (/ l2))). { apply mul_range; [exact B1|]. rewrite !Q2R_inv by assumption. split; apply Rinv_le_contravar; lra. }
  assert (D0 : 0 <= Q2R (div_d d1 l2 d2 e2)) by (rewrite DV; apply Rmult_le_pos; [lra|left; apply Rinv_0_lt_compat; lra]).
  assert (E0 : 0 <= Q2R (div_e e1 l2 d2 e2)) by (rewrite EV; apply Rmult_le_pos; [lra|left; apply Rinv_0_lt_compat; apply Rmult_lt_0_compat; lra]).
  destruct (f64_div x y A1 ltac:(lra) (fits_ok _ _ _ _ _ _ F3 Z D0 R)) as [P1 P2]. apply (near_rnd _ (B2R x / B2R y)); auto.
Qed.
(** Square roots. *)
Definition sq_dn (q : Q) : Q := Qmake (Z.sqrt (Qfloor (q * inject_Z (Zpos (grid * grid))))) grid.
Definition sq_up (q : Q) : Q := Qmake (1 + Z.sqrt (Qceiling (q * inject_Z (Zpos (grid * grid))))) grid.
Lemma grid_sq : IZR (Zpos (grid * grid)) = IZR (Zpos grid) * IZR (Zpos grid).
Proof. rewrite <- mult_IZR. reflexivity. Qed.
Lemma grid_pos : 0 < IZR (Zpos grid). Proof. apply IZR_lt. reflexivity. Qed.
Lemma sq_dn_le q : 0 <= Q2R q -> Q2R (sq_dn q) <= sqrt (Q2R q).
Proof.
  intros H. unfold sq_dn. rewrite q2r_make. pose proof grid_pos as G. set (z := Qfloor _). assert (ZQ : IZR z <= Q2R q * (IZR (Zpos grid) * IZR (Zpos grid))) by (pose proof (Qfloor_le (q * inject_Z (Zpos (grid * grid)))) as FL; apply Qle_Rle in FL; fold z in FL; rewrite q2r_Z, Q2R_mult, q2r_Z, grid_sq in FL; exact FL).
  destruct (Z_lt_le_dec z 0) as [N|N].
  - assert (S : Z.sqrt z = 0%Z) by (now apply Z.sqrt_neg). rewrite S. unfold Rdiv. rewrite Rmult_0_l. apply sqrt_pos.
  - pose proof (Z.sqrt_spec z N) as [S _]. apply IZR_le in S. rewrite mult_IZR in S. pose proof (Z.sqrt_nonneg z) as S0. apply IZR_le in S0. rewrite <- (sqrt_Rsqr (IZR (Z.sqrt z) / IZR (Zpos grid))) by (apply Rmult_le_pos; [exact S0|left; now apply Rinv_0_lt_compat]).
    apply sqrt_le_1_alt. unfold Rsqr. apply (Rmult_le_reg_r (IZR (Zpos grid) * IZR (Zpos grid))); [now apply Rmult_lt_0_compat|]. replace (_ * _) with (IZR (Z.sqrt z) * IZR (Z.sqrt z)) by (field; lra). lra.
Qed.
Lemma sq_up_ge q : sqrt (Q2R q) <= Q2R (sq_up q).
Proof.
  unfold sq_up. rewrite q2r_make. pose proof grid_pos as G. set (z := Qceiling _). assert (ZQ : Q2R q * (IZR (Zpos grid) * IZR (Zpos grid)) <= IZR z) by (pose proof (Qle_ceiling (q * inject_Z (Zpos (grid * grid)))) as FL; apply Qle_Rle in FL; fold z in FL; rewrite q2r_Z, Q2R_mult, q2r_Z, grid_sq in FL; exact FL).
  pose proof (Z.sqrt_nonneg z) as S0. destruct (Z_lt_le_dec z 0) as [N|N].
  - assert (Q2R q <= 0). { apply IZR_lt in N. destruct (Rle_dec (Q2R q) 0); [assumption|]. assert (0 < Q2R q * (IZR (Zpos grid) * IZR (Zpos grid))) by (apply Rmult_lt_0_compat; [lra|now apply Rmult_lt_0_compat]). lra. }
    rewrite sqrt_neg_0 by assumption. apply Rmult_le_pos; [apply IZR_le; lia|left; now apply Rinv_0_lt_compat].
  - pose proof (Z.sqrt_spec z N) as [_ S]. assert (S' : IZR z <= IZR (1 + Z.sqrt z) * IZR (1 + Z.sqrt z)) by (rewrite <- mult_IZR; apply IZR_le; lia). assert (P : 0 <= IZR (1 + Z.sqrt z)) by (apply IZR_le; lia).
    rewrite <- (sqrt_Rsqr (IZR (1 + Z.sqrt z) / IZR (Zpos grid))) by (apply Rmult_le_pos; [exact P|left; now apply Rinv_0_lt_compat]).
    apply sqrt_le_1_alt. unfold Rsqr. apply (Rmult_le_reg_r (IZR (Zpos grid) * IZR (Zpos grid))); [now apply Rmult_lt_0_compat|]. replace (IZR (1 + Z.sqrt z) / IZR (Zpos grid) * (IZR (1 + Z.sqrt z) / IZR (Zpos grid)) * (IZR (Zpos grid) * IZR (Zpos grid))) with (IZR (1 + Z.sqrt z) * IZR (1 + Z.sqrt z)) by (field; lra). lra.
Qed.
Lemma f64_sqrt (x : f64) : is_finite x = true -> 0 <= B2R x -> B2R (Bsqrt mode_NE x) = rnd (sqrt (B2R x)) /\ is_finite (Bsqrt mode_NE x) = true.
Proof.
  intros F H. destruct (Bsqrt_correct 53 1024 _ _ mode_NE x) as (P1 & P2 & _). change (round radix2 (SpecFloat.fexp 53 1024) (round_mode mode_NE)) with rnd in P1. split; [exact P1|]. rewrite P2. destruct x as [s|s| |s m e He]; try discriminate; [reflexivity|]. destruct s; [|reflexivity].
  exfalso. cbn [B2R] in H. assert (F2R (Float radix2 (cond_Zopp true (Zpos m)) e) < 0) by (apply F2R_lt_0; reflexivity). lra.
Qed.
Definition sqrt_d (k : Q) : Q := (k + k * k) / inject_Z 2.
Lemma sqrt_near x X k : 0 <= k <= / 2 -> 0 <= X -> Rabs (x - X) <= k * X -> Rabs (sqrt x - sqrt X) <= (k + k * k) / 2 * sqrt X.
Proof.
  intros K HX H. apply Rabs_le_inv in H. pose proof (sqrt_pos X) as SP.
  assert (U : sqrt (1 + k) <= 1 + k / 2). { rewrite <- (sqrt_Rsqr (1 + k / 2)) by lra. apply sqrt_le_1_alt. unfold Rsqr. nra. }
  assert (L : 1 - (k + k * k) / 2 <= sqrt (1 - k)). { destruct K as [K1 K2]. rewrite <- (sqrt_Rsqr (1 - (k + k * k) / 2)) by nra. apply sqrt_le_1_alt. unfold Rsqr. assert (0 <= k * k) by nra. assert (k * k * k * k <= k * k * (/ 4)) by (assert (k * k <= / 4) by nra; nra). assert (0 <= k * k * k) by (apply Rmult_le_pos; nra). nra. }
  assert (UX : sqrt x <= sqrt (1 + k) * sqrt X) by (rewrite <- sqrt_mult by lra; apply sqrt_le_1_alt; lra). assert (LX : sqrt (1 - k) * sqrt X <= sqrt x) by (rewrite <- sqrt_mult by lra; apply sqrt_le_1_alt; lra).
  assert (U2 : sqrt (1 + k) * sqrt X <= (1 + k / 2) * sqrt X) by (apply Rmult_le_compat_r; lra). assert (L2 : (1 - (k + k * k) / 2) * sqrt X <= sqrt (1 - k) * sqrt X) by (apply Rmult_le_compat_r; lra).
  assert (0 <= k * k * sqrt X) by (apply Rmult_le_pos; nra). apply Rabs_le. lra.
Qed.
Lemma near_sqrt x X lo hi d e : near x X lo hi d e -> Qle_bool tiny lo && Qle_bool (div_k lo d e) (Qmake 1 2) && fits (sq_dn lo) (sq_up hi) (sqrt_d (div_k lo d e)) 0 = true ->
  near (Bsqrt mode_NE x) (sqrt X) (rdn (sq_dn lo)) (rup (sq_up hi)) (rd (sqrt_d (div_k lo d e))) (re 0).
Proof.
  intros (A & B & C & D & E) F. apply andb_prop in F. destruct F as [F F3]. apply andb_prop in F. destruct F as [F1 F2]. apply qle in F1, F2. pose proof tiny_pos as TP. rewrite qhalf in F2.
  assert (L2 : 0 < Q2R lo) by lra. pose proof (qpos_ne _ L2) as NL. assert (KV : Q2R (div_k lo d e) = Q2R d + Q2R e / Q2R lo) by (unfold div_k; rewrite Q2R_plus, Q2R_div by exact NL; reflexivity).
  set (k := Q2R (div_k lo d e)) in *. rewrite (Rabs_right X) in E by lra.
  assert (E20 : 0 <= Q2R e / Q2R lo) by (apply Rmult_le_pos; [lra|left; now apply Rinv_0_lt_compat]).
  assert (YK : Rabs (B2R x - X) <= k * X). { eapply Rle_trans; [exact E|]. rewrite KV. assert (Q2R e <= Q2R e / Q2R lo * X). { unfold Rdiv. rewrite Rmult_assoc. rewrite <- (Rmult_1_r (Q2R e)) at 1. apply Rmult_le_compat_l; [lra|]. apply (Rmult_le_reg_l (Q2R lo)); [lra|]. rewrite <- Rmult_assoc, Rinv_r by lra. lra. } lra. }
  assert (XP : 0 <= B2R x) by (apply Rabs_le_inv in YK; assert (0 <= (1 - k) * X) by (apply Rmult_le_pos; lra); lra). destruct (f64_sqrt x A XP) as [P1 P2].
  assert (SD : Q2R (sqrt_d (div_k lo d e)) = (k + k * k) / 2). { unfold sqrt_d. rewrite Q2R_div by discriminate. rewrite Q2R_plus, Q2R_mult. fold k. unfold Q2R at 1. cbn. field. }
  pose proof (sqrt_near (B2R x) X k ltac:(lra) ltac:(lra) YK) as SN. pose proof (sqrt_pos X) as SP. assert (KP : 0 <= (k + k * k) / 2) by nra.
  apply (near_rnd _ (sqrt (B2R x))); auto; [rewrite SD, q0, (Rabs_right (sqrt X)) by lra; lra|lra|rewrite q0; lra|].
  split; [eapply Rle_trans; [apply sq_dn_le; lra|apply sqrt_le_1_alt; lra]|eapply Rle_trans; [apply sqrt_le_1_alt; apply B|apply sq_up_ge]].
Qed.
(** Square roots near zero. *)
Lemma sqrt_near0 x X d e : 0 <= d <= / 2 -> 0 <= e -> 0 <= X -> Rabs (x - X) <= d * X + e -> Rabs (sqrt x - sqrt X) <= (d + d * d) / 2 * sqrt X + sqrt e.
Proof.
  intros Hd He HX H. apply Rabs_le_inv in H. pose proof (sqrt_pos X) as SP. pose proof (sqrt_pos e) as SE. pose proof (sqrt_pos x) as Sx.
  assert (SUB : forall u v, 0 <= u -> 0 <= v -> sqrt (u + v) <= sqrt u + sqrt v). { intros u v Hu Hv. pose proof (sqrt_pos u). pose proof (sqrt_pos v). rewrite <- (sqrt_Rsqr (sqrt u + sqrt v)) by lra. apply sqrt_le_1_alt. unfold Rsqr. pose proof (sqrt_sqrt u Hu). pose proof (sqrt_sqrt v Hv). nra. }
  pose proof (sqrt_near ((1 + d) * X) X d Hd HX ltac:(replace ((1 + d) * X - X) with (d * X) by ring; rewrite Rabs_right; [lra|apply Rle_ge, Rmult_le_pos; lra])) as U.
  pose proof (sqrt_near ((1 - d) * X) X d Hd HX ltac:(replace ((1 - d) * X - X) with (- (d * X)) by ring; rewrite Rabs_Ropp, Rabs_right; [lra|apply Rle_ge, Rmult_le_pos; lra])) as L.
  apply Rabs_le_inv in U, L. assert (X1 : 0 <= (1 + d) * X) by (apply Rmult_le_pos; lra). assert (X2 : 0 <= (1 - d) * X) by (apply Rmult_le_pos; lra).
  assert (UX : sqrt x <= sqrt ((1 + d) * X) + sqrt e) by (eapply Rle_trans; [apply sqrt_le_1_alt with (y := (1 + d) * X + e); lra|now apply SUB]).
  assert (LX : sqrt ((1 - d) * X) <= sqrt x + sqrt e). { destruct (Rle_dec 0 x) as [P|P]; [eapply Rle_trans; [apply sqrt_le_1_alt with (y := x + e); lra|now apply SUB]|]. assert (sqrt ((1 - d) * X) <= sqrt e) by (apply sqrt_le_1_alt; lra). lra. }
  apply Rabs_le. lra.
Qed.
Lemma near_sqrt0 x X lo hi d e : near x X lo hi d e -> 0 <= B2R x -> Qle_bool 0 lo && Qle_bool d (Qmake 1 2) && fits (sq_dn lo) (sq_up hi) (sqrt_d d) (sq_up e) = true ->
  near (Bsqrt mode_NE x) (sqrt X) (rdn (sq_dn lo)) (rup (sq_up hi)) (rd (sqrt_d d)) (re (sq_up e)).
Proof.
  intros (A & B & C & D & E) XP F. apply andb_prop in F. destruct F as [F F3]. apply andb_prop in F. destruct F as [F1 F2]. apply qle in F1, F2. rewrite qhalf in F2. rewrite q0 in F1. rewrite (Rabs_right X) in E by lra.
  destruct (f64_sqrt x A XP) as [P1 P2]. pose proof (sqrt_near0 (B2R x) X _ _ (conj C F2) D ltac:(lra) E) as SN. pose proof (sqrt_pos X) as SP. pose proof (sq_up_ge e) as SU. pose proof (sqrt_pos (Q2R e)) as SE.
  assert (SD : Q2R (sqrt_d d) = (Q2R d + Q2R d * Q2R d) / 2). { unfold sqrt_d. rewrite Q2R_div by discriminate. rewrite Q2R_plus, Q2R_mult. unfold Q2R at 4. cbn. field. }
  assert (KP : 0 <= (Q2R d + Q2R d * Q2R d) / 2) by nra.
  apply (near_rnd _ (sqrt (B2R x))); auto; [rewrite SD, (Rabs_right (sqrt X)) by lra; lra|lra|lra|].
  split; [eapply Rle_trans; [apply sq_dn_le; lra|apply sqrt_le_1_alt; lra]|eapply Rle_trans; [apply sqrt_le_1_alt; apply B|apply sq_up_ge]].
Qed.
(** Integer literals. *)
Lemma near_Z z : (Z.abs z <= 2 ^ 53)%Z -> near (f64_ofZ z) (IZR z) (inject_Z z) (inject_Z z) 0 0.
Proof.
  intros H. pose proof (binary_normalize_correct 53 1024 _ _ mode_NE z 0 false) as N. cbv zeta in N.
  assert (V : F2R (Float radix2 z 0) = IZR z) by (unfold F2R; cbn; ring).
  change (round radix2 (SpecFloat.fexp 53 1024) (round_mode mode_NE)) with rnd in N. rewrite V in N.
  assert (G : generic_format radix2 fexp64 (IZR z)). { rewrite fexp64_FLT. apply generic_format_FLT. destruct (Z.eq_dec (Z.abs z) (2 ^ 53)) as [Q|Q].
    - apply (FLT_spec radix2 (-1074) 53 (IZR z) (Float radix2 (Z.sgn z) 53)); [|cbn; lia|cbn; lia]. unfold F2R. cbn [Fnum Fexp]. change (bpow radix2 53) with (IZR (2 ^ 53)). rewrite <- mult_IZR. f_equal. rewrite <- Q. lia.
    - apply (FLT_spec radix2 (-1074) 53 (IZR z) (Float radix2 z 0)); [now rewrite V|cbn; lia|cbn; lia]. }
  rewrite (rnd_id _ G) in N. rewrite Rlt_bool_true in N.
  - destruct N as (N1 & N2 & _). unfold f64_ofZ, f64_of. split; [exact N2|]. rewrite !q2r_Z, q0. split; [lra|]. split; [lra|]. split; [lra|]. rewrite N1, Rminus_eq_0, Rabs_R0. lra.
  - rewrite <- abs_IZR. apply Rle_lt_trans with (IZR (2 ^ 53)); [now apply IZR_le|]. change (IZR (2 ^ 53)) with (bpow radix2 53). apply bpow_lt. lia.
Qed.
