(** Binary64: the height and the latitude of a geocentric position. *)
From Coq Require Import ZArith Reals QArith Qreals Lra Lia Bool Psatz Qround Qabs.
From Flocq Require Import Core IEEE754.BinarySingleNaN.
From Verif.Num Require Import FOps RFun XR XRLemmas F64 F64Lemmas PIBounds Near.
From Verif.Model Require Import Fp Quantities Cs Ellipsoid.
From Verif.Spec Require Import Angles Axes Shape Accurate Binary64.
From Verif.Proofs Require Import AnglesX AnglesF EllX DatumX MathF NearX NearL LlhF LlhInvF.
Local Open Scope R_scope.

(** ** In real numbers *)
Definition iD (e2 k r : R) : R := k * r / (k + e2).
Definition iH (e2 k r z : R) : R := Rhypot (iD e2 k r) z.
Definition iP (e2 k r z : R) : R := 2 * atan (z / (iD e2 k r + iH e2 k r z)).
Definition ih (e2 k r z : R) : R := (k + e2 - 1) / k * iH e2 k r z.
Lemma inv_exact a b r z k : 0 < b < a -> 0 <= r -> 0 < k -> let e2 := e2r a b in
  r * r / ((k + e2) * (k + e2)) + (1 - e2) * (z * z) / (k * k) = a * a ->
  let p := iP e2 k r z in let h := ih e2 k r z in
  0 <= iD e2 k r /\ 0 < iH e2 k r z /\ - (PI / 2) <= p <= PI / 2 /\ (a * a / gell a b p + h) * cos p = r /\ (b * b / gell a b p + h) * sin p = z.
Proof.
  intros AB R0 K0 e2 KE p h. assert (E2 : 0 < e2 < 1). { unfold e2, e2r. assert (0 < a * a) by nra. split; [apply Rdiv_lt_0_compat; nra|]. apply (Rmult_lt_reg_r (a * a)); [nra|]. assert (X : (a - b) * (a + b) / (a * a) * (a * a) = (a - b) * (a + b)) by (field; lra). rewrite X. nra. }
  assert (B2 : 1 - e2 = b * b / (a * a)) by (unfold e2, e2r; field; lra). assert (AA : 0 < a * a) by nra.
  set (D := iD e2 k r) in *. set (H := iH e2 k r z) in *.
  assert (D0 : 0 <= D). { unfold D. apply Rmult_le_pos; [apply Rmult_le_pos; lra|]. left. apply Rinv_0_lt_compat. lra. }
  assert (DZ : D * D + (1 - e2) * (z * z) = a * a * (k * k)). { rewrite <- KE. unfold D, iD. field. lra. }
  assert (HH : H * H = D * D + z * z) by apply Rhypot_sq.
  assert (H0 : 0 < H).
  { apply Rhypot_pos. fold D. destruct (Req_dec D 0) as [D1|]; [|now left]. right. intros Z.
    rewrite D1, Z in DZ. assert (0 < a * a * (k * k)) by (repeat apply Rmult_lt_0_compat; lra). lra. }
  assert (PE : p = 2 * Ratan2 z (D + H)) by (unfold p, iP; fold D H; rewrite Ratan2_pos by lra; reflexivity).
  split; [exact D0|]. split; [exact H0|]. split.
  { rewrite PE. apply half_range; [easy|easy|]. unfold H, iH. rewrite Rhypot_sym. apply Rhypot_ge_abs_l. }
  destruct (half_atan2 z D H) as [C N]; [easy|lra|easy|lra|]. rewrite <- PE in C, N.
  assert (G : gell a b p = a * a * k / H).
  { unfold gell. replace (cos p) with (D / H) by (rewrite <- C; field; lra).
    replace (sin p) with (z / H) by (rewrite <- N; field; lra).
    replace (a * a * (D / H * (D / H)) + b * b * (z / H * (z / H))) with
      (a * a * (D * D + b * b / (a * a) * (z * z)) / (H * H)) by (field; lra).
    rewrite <- B2, DZ. replace (a * a * (a * a * (k * k)) / (H * H)) with ((a * a * k / H) * (a * a * k / H)) by (field; lra).
    apply sqrt_square. left. apply Rdiv_lt_0_compat; nra. }
  rewrite G. unfold h, ih. fold H. split.
  { replace (cos p) with (D / H) by (rewrite <- C; field; lra). unfold D, iD. field. lra. }
  replace (sin p) with (z / H) by (rewrite <- N; field; lra).
  replace (b * b / (a * a * k / H)) with (b * b / (a * a) * H / k) by (field; lra). rewrite <- B2. field. lra.
Qed.

(** Positions on a meridian: how far apart. *)
Section Mer.
Context (a b : R) (AB : 0 < b <= a).
Definition mr (p h : R) : R := (a * a / gell a b p + h) * cos p.
Definition mz (p h : R) : R := (b * b / gell a b p + h) * sin p.
Lemma mr_deriv h p : derivable_pt_lim (fun p => mr p h) p (- (a * a * (b * b) / (gell a b p * gell a b p * gell a b p) + h) * sin p).
Proof.
  pose proof (gell_bound a b AB p) as G. pose proof (gell_deriv a b AB p) as D. pose proof (gell_sq a b AB p) as GS.
  set (g := gell a b p) in *. assert (G0 : 0 < g) by lra.
  pose proof (derivable_pt_lim_div (fct_cte (a * a)) (gell a b) p _ _ (derivable_pt_lim_const (a * a) p) D ltac:(fold g; lra)) as Q. fold g in Q.
  pose proof (derivable_pt_lim_plus _ _ p _ _ Q (derivable_pt_lim_const h p)) as Q1. pose proof (derivable_pt_lim_mult _ _ p _ _ Q1 (derivable_pt_lim_cos p)) as Q2.
  apply (derivable_pt_lim_ext _ (fun p => mr p h)) in Q2; [|intros x; reflexivity].
  match type of Q2 with derivable_pt_lim _ _ ?l => replace (- (a * a * (b * b) / (g * g * g) + h) * sin p) with l; [exact Q2|] end.
  unfold fct_cte, plus_fct, div_fct, Rsqr. fold g. pose proof (sin2_cos2 p) as SC. unfold Rsqr in SC.
  replace (((0 * g - (b * b - a * a) * (sin p * cos p) / g * (a * a)) / (g * g) + 0) * cos p + (a * a / g + h) * - sin p) with (a * a * sin p * ((a * a - b * b) * (cos p * cos p) - g * g) / (g * g * g) - h * sin p) by (field; lra).
  replace ((a * a - b * b) * (cos p * cos p) - g * g) with (- (b * b)) by (rewrite GS; replace (b * b) with (b * b * (sin p * sin p + cos p * cos p)) at 1 by (rewrite SC; ring); ring). field. lra.
Qed.
Lemma mz_deriv h p : derivable_pt_lim (fun p => mz p h) p ((a * a * (b * b) / (gell a b p * gell a b p * gell a b p) + h) * cos p).
Proof.
  pose proof (gell_bound a b AB p) as G. pose proof (gell_deriv a b AB p) as D. pose proof (gell_sq a b AB p) as GS.
  set (g := gell a b p) in *. assert (G0 : 0 < g) by lra.
  pose proof (derivable_pt_lim_div (fct_cte (b * b)) (gell a b) p _ _ (derivable_pt_lim_const (b * b) p) D ltac:(fold g; lra)) as Q. fold g in Q.
  pose proof (derivable_pt_lim_plus _ _ p _ _ Q (derivable_pt_lim_const h p)) as Q1. pose proof (derivable_pt_lim_mult _ _ p _ _ Q1 (derivable_pt_lim_sin p)) as Q2.
  apply (derivable_pt_lim_ext _ (fun p => mz p h)) in Q2; [|intros x; reflexivity].
  match type of Q2 with derivable_pt_lim _ _ ?l => replace ((a * a * (b * b) / (g * g * g) + h) * cos p) with l; [exact Q2|] end.
  unfold fct_cte, plus_fct, div_fct, Rsqr. fold g. pose proof (sin2_cos2 p) as SC. unfold Rsqr in SC.
  replace (((0 * g - (b * b - a * a) * (sin p * cos p) / g * (b * b)) / (g * g) + 0) * sin p + (b * b / g + h) * cos p) with (b * b * cos p * ((a * a - b * b) * (sin p * sin p) + g * g) / (g * g * g) + h * cos p) by (field; lra).
  replace ((a * a - b * b) * (sin p * sin p) + g * g) with (a * a) by (rewrite GS; replace (a * a) with (a * a * (sin p * sin p + cos p * cos p)) at 1 by (rewrite SC; ring); ring). field. lra.
Qed.
Lemma mer_speed h p : Rabs (a * a * (b * b) / (gell a b p * gell a b p * gell a b p) + h) <= a * a / b + Rabs h.
Proof.
  pose proof (gell_bound a b AB p) as G. set (g := gell a b p) in *. eapply Rle_trans; [apply Rabs_triang|]. apply Rplus_le_compat_r.
  assert (0 < b * b) by nra. assert (0 < a * a) by nra. assert (B3 : b * b * b <= g * g * g) by (repeat apply Rmult_le_compat; nra). assert (0 < b * b * b) by nra.
  rewrite Rabs_right by (apply Rle_ge, Rmult_le_pos; [nra|left; apply Rinv_0_lt_compat; lra]).
  replace (a * a / b) with (a * a * (b * b) / (b * b * b)) by (field; lra). apply Rmult_le_compat_l; [nra|]. apply Rinv_le_contravar; lra.
Qed.
Lemma mr_lip p0 p1 h0 h1 : Rabs (mr p1 h1 - mr p0 h0) <= (a * a / b + Rabs h0) * Rabs (p1 - p0) + Rabs (h1 - h0).
Proof.
  replace (mr p1 h1 - mr p0 h0) with ((mr p1 h0 - mr p0 h0) + (h1 - h0) * cos p1) by (unfold mr; ring). eapply Rle_trans; [apply Rabs_triang|]. apply Rplus_le_compat.
  - destruct (MVT_abs (fun p => mr p h0) (fun p => - (a * a * (b * b) / (gell a b p * gell a b p * gell a b p) + h0) * sin p) p0 p1 (fun c _ => mr_deriv h0 c)) as (c & E & _). rewrite E.
    apply Rmult_le_compat_r; [apply Rabs_pos|]. rewrite Rabs_mult, Rabs_Ropp. pose proof (mer_speed h0 c). pose proof (Rabs_pos (a * a * (b * b) / (gell a b c * gell a b c * gell a b c) + h0)).
    assert (Rabs (sin c) <= 1) by (apply Rabs_le; pose proof (SIN_bound c); lra). pose proof (Rabs_pos (sin c)). nra.
  - rewrite Rabs_mult. assert (Rabs (cos p1) <= 1) by (apply Rabs_le; pose proof (COS_bound p1); lra). pose proof (Rabs_pos (h1 - h0)). nra.
Qed.
Lemma mz_lip p0 p1 h0 h1 : Rabs (mz p1 h1 - mz p0 h0) <= (a * a / b + Rabs h0) * Rabs (p1 - p0) + Rabs (h1 - h0).
Proof.
  replace (mz p1 h1 - mz p0 h0) with ((mz p1 h0 - mz p0 h0) + (h1 - h0) * sin p1) by (unfold mz; ring). eapply Rle_trans; [apply Rabs_triang|]. apply Rplus_le_compat.
  - destruct (MVT_abs (fun p => mz p h0) (fun p => (a * a * (b * b) / (gell a b p * gell a b p * gell a b p) + h0) * cos p) p0 p1 (fun c _ => mz_deriv h0 c)) as (c & E & _). rewrite E.
    apply Rmult_le_compat_r; [apply Rabs_pos|]. rewrite Rabs_mult. pose proof (mer_speed h0 c). pose proof (Rabs_pos (a * a * (b * b) / (gell a b c * gell a b c * gell a b c) + h0)).
    assert (Rabs (cos c) <= 1) by (apply Rabs_le; pose proof (COS_bound c); lra). pose proof (Rabs_pos (cos c)). nra.
  - rewrite Rabs_mult. assert (Rabs (sin p1) <= 1) by (apply Rabs_le; pose proof (SIN_bound p1); lra). pose proof (Rabs_pos (h1 - h0)). nra.
Qed.
End Mer.

(** ** In binary64 *)
Lemma near_shift x X Y lo hi lo' hi' d e (s : Q) : near x X lo hi d e -> Rabs (X - Y) <= Q2R s * Rabs Y -> 0 <= Q2R s -> Q2R lo' <= Y <= Q2R hi' -> near x Y lo' hi' (rup (d * (1 + s) + s)) e.
Proof.
  intros (A & B & C & D & E) H S R. pose proof (rup_ge (d * (1 + s) + s)) as U. rewrite Q2R_plus, Q2R_mult, Q2R_plus, q1 in U. set (dd := Q2R (rup _)) in *. set (d0 := Q2R d) in *. set (s0 := Q2R s) in *.
  assert (0 <= d0 * (1 + s0)) by (apply Rmult_le_pos; lra). split; [exact A|]. split; [exact R|]. split; [fold dd; lra|]. split; [exact D|]. fold dd.
  replace (B2R x - Y) with ((B2R x - X) + (X - Y)) by ring. eapply Rle_trans; [apply Rabs_triang|]. assert (XA : Rabs X <= (1 + s0) * Rabs Y). { replace X with (Y + (X - Y)) by ring. eapply Rle_trans; [apply Rabs_triang|]. lra. }
  assert (d0 * Rabs X <= d0 * ((1 + s0) * Rabs Y)) by (apply Rmult_le_compat_l; lra). assert ((d0 * (1 + s0) + s0) * Rabs Y <= dd * Rabs Y) by (apply Rmult_le_compat_r; [apply Rabs_pos|lra]). lra.
Qed.
Section Lm.
Context (lm : libm) (AC : accurate lm).
Lemma near_atan2_k (y x : f64) X k (e : Q) : is_finite y = true -> is_finite x = true -> 0 < X -> Rabs (B2R x - X) <= k * X -> k <= / 2 -> Rabs (B2R y) <= X -> (1 + / 2 ^ 50) * (k / (1 - k)) + Q2R tiny <= Q2R e ->
  near (lm_atan2 lm y x) (atan (B2R y / X)) (-1) 1 ulp4 e.
Proof.
  intros FY FX XP GX C2 YX RE. pose proof tiny_pos as TP. 
  assert (K0 : 0 <= k). { apply (Rmult_le_reg_r X); [lra|]. pose proof (Rabs_pos (B2R x - X)). lra. }
  set (x' := B2R x) in *. set (y' := B2R y) in *. assert (XL : (1 - k) * X <= x') by (apply Rabs_le_inv in GX; lra). assert (x0 : 0 < x') by nra.
  destruct (ac_atan2 lm AC y x FY FX (or_introl x0)) as [F V]. fold y' x' in V. rewrite Ratan2_pos in V by lra.
  assert (Q : Rabs (y' / x' - y' / X) <= k / (1 - k)).
  { replace (y' / x' - y' / X) with (y' * (X - x') * (/ x' * / X)) by (field; lra). rewrite Rabs_mult, (Rabs_right (/ x' * / X)) by (apply Rle_ge; left; apply Rmult_lt_0_compat; apply Rinv_0_lt_compat; lra). rewrite Rabs_mult, (Rabs_minus_sym X).
    apply Rle_trans with (X * (k * X) * (/ ((1 - k) * X) * / X)); [|right; field; lra]. apply Rmult_le_compat; [apply Rmult_le_pos; apply Rabs_pos|left; apply Rmult_lt_0_compat; apply Rinv_0_lt_compat; lra| |].
    - apply Rmult_le_compat; auto using Rabs_pos.
    - apply Rmult_le_compat_r; [left; apply Rinv_0_lt_compat; lra|]. apply Rinv_le_contravar; [nra|exact XL]. }
  pose proof (atan_lip (y' / x') (y' / X)) as L. set (q := k / (1 - k)) in *.
  assert (R : -1 <= y' / X <= 1). { apply Rabs_le_inv in YX. split; apply (Rmult_le_reg_r X); try lra; unfold Rdiv; rewrite Rmult_assoc, Rinv_l by lra; lra. }
  assert (RG : -1 <= atan (y' / X) <= 1). { pose proof (atan_mono _ _ (proj1 R)) as L1. pose proof (atan_mono _ _ (proj2 R)) as L2. rewrite atan_1 in L2. replace (-1) with (- (1)) in L1 by ring. rewrite atan_opp, atan_1 in L1. pose proof PI_4. lra. }
  pose proof tiny_1000 as T. pose proof (bpow_gt_0 radix2 (-1000)) as T0. assert (U0 : 0 < / 2 ^ 50) by (apply Rinv_0_lt_compat, pow_lt; lra). set (u := / 2 ^ 50) in *. assert (q0' : 0 <= q) by (pose proof (Rabs_pos (y' / x' - y' / X)); lra).
  assert (Z1 : 0 <= u * q) by (apply Rmult_le_pos; lra).
  split; [exact F|]. rewrite ulp4_val. fold u. split; [replace (Q2R (-1)) with (-1) by (unfold Q2R; cbn; lra); rewrite q1; exact RG|]. split; [lra|]. split; [lra|].
  assert (UA : u * Rabs (atan (y' / x')) <= u * (Rabs (atan (y' / X)) + q)). { apply Rmult_le_compat_l; [lra|]. replace (atan (y' / x')) with (atan (y' / X) + (atan (y' / x') - atan (y' / X))) by ring. eapply Rle_trans; [apply Rabs_triang|]. lra. }
  replace (B2R (lm_atan2 lm y x) - atan (y' / X)) with ((B2R (lm_atan2 lm y x) - atan (y' / x')) + (atan (y' / x') - atan (y' / X))) by ring. eapply Rle_trans; [apply Rabs_triang|]. lra.
Qed.
Definition atr_e (lo d e : Q) : Q := rup ((1 + ulp4) * (div_k lo d e / (1 - div_k lo d e)) + tiny).
Lemma near_atan2_r (y x : f64) X lo hi d e : is_finite y = true -> near x X lo hi d e -> Qle_bool tiny lo && Qle_bool (div_k lo d e) (Qmake 1 2) = true -> Rabs (B2R y) <= X ->
  near (lm_atan2 lm y x) (atan (B2R y / X)) (-1) 1 ulp4 (atr_e lo d e).
Proof.
  intros FY N C YX. apply andb_prop in C. destruct C as [C1 C2]. apply qle in C1, C2. rewrite qhalf in C2. pose proof tiny_pos as TP. destruct N as (FX & B & D0 & E0 & G).
  assert (XP : 0 < X) by lra. rewrite (Rabs_right X) in G by lra. set (k := Q2R (div_k lo d e)) in *.
  assert (K : Q2R d * X + Q2R e <= k * X). { unfold k, div_k. rewrite Q2R_plus, Q2R_div by (apply qpos_ne; lra). rewrite Rmult_plus_distr_r. apply Rplus_le_compat_l. unfold Rdiv. rewrite Rmult_assoc. rewrite <- (Rmult_1_r (Q2R e)) at 1. apply Rmult_le_compat_l; [lra|]. apply (Rmult_le_reg_l (Q2R lo)); [lra|]. rewrite <- Rmult_assoc, Rinv_r by lra. lra. }
  assert (K0 : 0 <= k). { apply (Rmult_le_reg_r X); [lra|]. pose proof (Rabs_pos (B2R x - X)). lra. }
  pose proof (rup_ge ((1 + ulp4) * (div_k lo d e / (1 - div_k lo d e)) + tiny)) as RE. fold (atr_e lo d e) in RE.
  assert (NZ : ~ (1 - div_k lo d e == 0)%Q) by (apply qpos_ne; rewrite Q2R_minus, q1; fold k; lra).
  rewrite Q2R_plus, Q2R_mult, Q2R_div, Q2R_plus, Q2R_minus, q1, ulp4_val in RE by exact NZ. fold k in RE.
  apply (near_atan2_k y x X k); try assumption; lra.
Qed.

Context (E : Ellipsoid f64) (a b : R) (HE : earth64 E a b).
Notation O := (F64ops lm).
Notation e2 := (e2r a b).
Section Point.
Context (rf z : f64) (r : R) (NR : near rf r 0 6500000 (Qmake 1 (2 ^ 50)) (Qmake 1 (2 ^ 117))) (FZ : is_finite z = true) (BZ : Rabs (B2R z) <= 6500000) (HR : 6200000 * 6200000 <= r * r + B2R z * B2R z <= 6500000 * 6500000).
Context (k0 : R) (kf Df Hf : f64) (Ek0 : k0 = vk e2 (r / a * (r / a)) ((1 - e2) * (B2R z / a) * (B2R z / a))) (Ekf : kf = vermeille_k (ops := O) (e_sq (ops := O) E) (e_a E) rf z)
  (EDf : Df = Bdiv mode_NE (Bmult mode_NE kf rf) (Bplus mode_NE kf (e_sq (ops := O) E))) (EHf : Hf = lm_hypot lm Df z).
Lemma k_root : 0 < k0 /\ r * r / ((k0 + e2) * (k0 + e2)) + (1 - e2) * (B2R z * B2R z) / (k0 * k0) = a * a.
Proof.
  destruct (near_k lm AC E a b HE rf z r NR FZ BZ HR) as [_ C]. pose proof (e2r_range E a b HE) as E2. destruct HE as (_ & _ & _ & B1 & B2 & B3 & B4).
  pose proof (vk_fin e2 a r (B2R z) ltac:(lra) ltac:(lra) C) as V. rewrite <- Ek0 in V.
  destruct (vermeille_root e2 a r (B2R z) ltac:(lra) ltac:(lra)) as (k & K1 & K2 & K3).
  - replace (r * r / (a * a) + (1 - e2) * (B2R z * B2R z) / (a * a)) with (r / a * (r / a) + (1 - e2) * (B2R z / a) * (B2R z / a)) by (field; lra). exact C.
  - rewrite V in K1. injection K1 as ->. now split.
Qed.
Lemma ranges : 9 / 10 <= k0 <= 11 / 10 /\ 0 <= r <= 6500000 /\ 0 <= iD e2 k0 r <= r /\ 6000000 <= iH e2 k0 r (B2R z) <= 6500000.
Proof.
  destruct (near_k lm AC E a b HE rf z r NR FZ BZ HR) as [(_ & K & _) _]. rewrite <- Ek0 in K. replace (Q2R (Qmake 9 10)) with (9 / 10) in K by qv. replace (Q2R (Qmake 11 10)) with (11 / 10) in K by qv.
  pose proof (e2r_range E a b HE) as E2. destruct NR as (_ & R & _). replace (Q2R 0) with 0 in R by qv. replace (Q2R 6500000) with 6500000 in R by qv.
  split; [exact K|]. split; [exact R|].
  assert (Q : 97 / 100 <= k0 / (k0 + e2) <= 1). { assert (X : k0 / (k0 + e2) * (k0 + e2) = k0) by (field; lra). split; apply (Rmult_le_reg_r (k0 + e2)); lra. }
  assert (DE : iD e2 k0 r = k0 / (k0 + e2) * r) by (unfold iD; field; lra). set (c := k0 / (k0 + e2)) in *.
  split; [rewrite DE; split; [apply Rmult_le_pos; lra|assert (c * r <= 1 * r) by (apply Rmult_le_compat_r; lra); lra]|]. pose proof (Rhypot_sq (iD e2 k0 r) (B2R z)) as S. fold (iH e2 k0 r (B2R z)) in S. assert (N0 : 0 <= Rhypot (iD e2 k0 r) (B2R z)) by apply sqrt_pos. fold (iH e2 k0 r (B2R z)) in N0. set (H := iH e2 k0 r (B2R z)) in *.
  rewrite DE in S. set (Z := B2R z) in *. assert (C2 : 94 / 100 <= c * c <= 1) by (split; [assert (97 / 100 * (97 / 100) <= c * c) by (apply Rmult_le_compat; lra); lra|assert (c * c <= 1 * 1) by (apply Rmult_le_compat; lra); lra]).
  assert (S' : H * H = c * c * (r * r) + Z * Z) by (rewrite S; ring). assert (R2 : 0 <= r * r) by apply Rle_0_sqr. assert (Z2 : 0 <= Z * Z) by apply Rle_0_sqr.
  assert (L1 : 94 / 100 * (r * r) <= c * c * (r * r)) by (apply Rmult_le_compat_r; lra). assert (L2 : c * c * (r * r) <= 1 * (r * r)) by (apply Rmult_le_compat_r; lra).
  split; apply Rnot_lt_le; intros LT.
  - assert (H * H < 6000000 * 6000000) by (apply Rmult_le_0_lt_compat; lra). lra.
  - assert (6500000 * 6500000 < H * H) by (apply Rmult_le_0_lt_compat; lra). lra.
Qed.
Lemma near_D : near Df (iD e2 k0 r) 0 6500000 (Qmake 132 (10 * 2 ^ 53)) (Qmake 1 (2 ^ 110)).
Proof.
  destruct (near_k lm AC E a b HE rf z r NR FZ BZ HR) as [NK _]. rewrite <- Ek0, <- Ekf in NK. pose proof ranges as (K & R & D & H). pose proof (near_err _ _ _ _ _ _ NK) as KE. destruct NK as (FK & _). pose proof (e2r_range E a b HE) as E2.
  replace (Q2R (Qmake 60 (2 ^ 53) + 0 * mag (Qmake 9 10) (Qmake 11 10))) with (60 / 2 ^ 53) in KE by (rewrite Q2R_plus, Q2R_mult, q0, q2r_make; cbn; lra).
  apply Rabs_le_inv in KE. assert (KB : 89 / 100 <= B2R kf <= 111 / 100) by lra.
  pose proof (near_exact kf (Qmake 89 100) (Qmake 111 100) FK ltac:(replace (Q2R (Qmake 89 100)) with (89 / 100) by qv; replace (Q2R (Qmake 111 100)) with (111 / 100) by qv; exact KB)) as NX.
  pose proof (near_e2 lm E a b HE) as N2. fold (e2r a b) in N2. nadd NX N2 N3. nmul NX NR N4. ndiv N4 N3 N5. rewrite <- EDf in N5.
  assert (SH : Rabs (B2R kf * r / (B2R kf + e2) - iD e2 k0 r) <= Q2R (Qmake 2 (2 ^ 53)) * Rabs (iD e2 k0 r)).
  { clear N3 N4 N5 NX N2. set (k1 := B2R kf) in *. clearbody k1. replace (Q2R (Qmake 2 (2 ^ 53))) with (2 / 2 ^ 53) by (rewrite q2r_make; cbn; lra). rewrite (Rabs_right (iD e2 k0 r)) by lra.
    replace (k1 * r / (k1 + e2) - iD e2 k0 r) with (iD e2 k0 r * (e2 * (k1 - k0) / (k0 * (k1 + e2)))) by (unfold iD; field; lra).
    rewrite Rabs_mult, (Rabs_right (iD e2 k0 r)) by lra. rewrite (Rmult_comm (2 / 2 ^ 53)). apply Rmult_le_compat_l; [lra|]. assert (P : 8 / 10 <= k0 * (k1 + e2)) by nra.
    set (P0 := k0 * (k1 + e2)) in *. assert (X : e2 * (k1 - k0) / P0 * P0 = e2 * (k1 - k0)) by (field; lra). apply Rabs_le. split; apply (Rmult_le_reg_r P0); try lra; rewrite X; nra. }
  pose proof (near_shift _ _ _ _ _ 0 6500000 _ _ (Qmake 2 (2 ^ 53)) N5 SH ltac:(rewrite q2r_make; cbn; lra) ltac:(rewrite q0; replace (Q2R 6500000) with 6500000 by qv; lra)) as N6. nnorm N6.
  refine (near_weak _ _ _ _ _ _ _ _ _ _ N6 _ _ _); [|vm_compute; reflexivity|vm_compute; reflexivity]. destruct N6 as (_ & B & _). exact B.
Qed.
Lemma near_H : near Hf (iH e2 k0 r (B2R z)) 6000000 6500000 (Qmake 213 (10 * 2 ^ 53)) (Qmake 1 (2 ^ 109)).
Proof.
  pose proof ranges as (K & R & D & H). pose proof near_D as ND. apply Rabs_le_inv in BZ. pose proof (near_exact z (-6500000) 6500000 FZ ltac:(split; unfold Q2R; cbn; lra)) as NZ.
  pose proof (near_hypot lm AC _ _ _ _ _ _ _ _ _ _ _ _ 6000000 6500000 ND NZ ltac:(vm_compute; reflexivity) ltac:(fold (iH e2 k0 r (B2R z)); replace (Q2R 6000000) with 6000000 by qv; replace (Q2R 6500000) with 6500000 by qv; exact H)) as N. nnorm N. fold (iH e2 k0 r (B2R z)) in N. rewrite <- EHf in N.
  refine (near_weak _ _ _ _ _ _ _ _ _ _ N _ _ _); [|vm_compute; reflexivity|vm_compute; reflexivity]. destruct N as (_ & B & _). exact B.
Qed.
Lemma near_h : near (Bmult mode_NE (Bdiv mode_NE (Bminus mode_NE (Bplus mode_NE kf (e_sq (ops := O) E)) (f64_ofZ 1)) kf) Hf) (ih e2 k0 r (B2R z)) (-1000000) 1000000 0 (Qmake 65 (10 ^ 9)).
Proof.
  destruct (near_k lm AC E a b HE rf z r NR FZ BZ HR) as [NK _]. rewrite <- Ek0, <- Ekf in NK. pose proof ranges as (K & R & D & H). pose proof near_H as NH. pose proof (near_e2 lm E a b HE) as N2. fold (e2r a b) in N2. pose proof (e2r_range E a b HE) as E2.
  nZ 1%Z N1. nadd NK N2 N3. nsub N3 N1 N4. ndiv N4 NK N5. nmul N5 NH N6. apply near_abs in N6. nnorm N6. fold (ih e2 k0 r (B2R z)) in N6.
  refine (near_weak _ _ _ _ _ _ _ _ _ _ N6 _ _ _); [|vm_compute; reflexivity|vm_compute; reflexivity]. destruct N6 as (_ & B & _). eapply near_in_q; [exact B| |]; vm_compute; reflexivity.
Qed.
Lemma near_lat : near (Bmult mode_NE (f64_ofZ 2) (lm_atan2 lm z (Bplus mode_NE Df Hf))) (iP e2 k0 r (B2R z)) (-2) 2 0 (Qmake 63 (2 ^ 53)).
Proof.
  pose proof ranges as (K & R & D & H). pose proof near_H as NH. pose proof near_D as ND. naddp ND NH N1.
  assert (ZB : Rabs (B2R z) <= iD e2 k0 r + iH e2 k0 r (B2R z)). { pose proof (Rhypot_ge_abs_l (B2R z) (iD e2 k0 r)) as X. rewrite Rhypot_sym in X. unfold iH. lra. }
  pose proof (near_atan2_r z _ _ _ _ _ _ FZ N1 ltac:(vm_compute; reflexivity) ZB) as N2. nnorm N2. nZ 2%Z N3. nmul N3 N2 N4. apply near_abs in N4. nnorm N4. fold (iP e2 k0 r (B2R z)) in N4.
  refine (near_weak _ _ _ _ _ _ _ _ _ _ N4 _ _ _); [|vm_compute; reflexivity|vm_compute; reflexivity]. destruct N4 as (_ & B & _). eapply near_in_q; [exact B| |]; vm_compute; reflexivity.
Qed.
(** The latitude is clamped. *)
Lemma near_lat_new : let L := lat_new (ops := O) (Bmult mode_NE (f64_ofZ 2) (lm_atan2 lm z (Bplus mode_NE Df Hf))) in
  is_finite L = true /\ - B2R PI_2_64 <= B2R L <= B2R PI_2_64 /\ Rabs (B2R L - iP e2 k0 r (B2R z)) <= 64 / 2 ^ 53.
Proof.
  pose proof near_lat as N. set (x := Bmult mode_NE (f64_ofZ 2) _) in *. cbv zeta. pose proof (near_err _ _ _ _ _ _ N) as NE. destruct N as (F & _ & _). clearbody x.
  replace (Q2R (Qmake 63 (2 ^ 53) + 0 * mag (-2) 2)) with (63 / 2 ^ 53) in NE by (rewrite Q2R_plus, Q2R_mult, q0, q2r_make; cbn; lra).
  destruct k_root as [K0 KE]. destruct (inv_exact a b r (B2R z) k0) as (_ & _ & PR & _); [destruct HE as (_ & _ & _ & B1 & B2 & B3 & B4); lra|pose proof ranges; lra|exact K0|exact KE|].
  destruct (lat_new_f64 lm x) as (L1 & L2 & L3); [destruct x; try discriminate; reflexivity|]. split; [exact L1|]. split; [exact L2|].
  clear L3. rewrite (proj1 PI_2_64_val) in L2. pose proof PI_64_bounds as PB. unfold m_pi in L2. revert L2. unfold lat_new, angle_clamped, fclamp. change (fpi_2 (FOps := O)) with PI_2_64. change (fneg (FOps := O) PI_2_64) with (Bopp PI_2_64). cbn [flt F64ops].
  destruct PI_2_64_val as [V F2]. rewrite (Bltb_correct _ _ x (Bopp PI_2_64)) by (first [exact F|now rewrite is_finite_Bopp]). rewrite B2R_Bopp. unfold m_pi in V. set (P := iP e2 k0 r (B2R z)) in *. clearbody P. apply Rabs_le_inv in NE.
  destruct (Rlt_bool_spec (B2R x) (- B2R PI_2_64)) as [G|G].
  - rewrite Bltb_correct by (first [exact F2|now rewrite is_finite_Bopp]). rewrite B2R_Bopp, Rlt_bool_false by (rewrite V; lra). rewrite B2R_Bopp. intros _. apply Rabs_le. rewrite V in *. lra.
  - rewrite Bltb_correct by assumption. destruct (Rlt_bool_spec (B2R PI_2_64) (B2R x)) as [G'|G']; intros _; apply Rabs_le; rewrite V in *; lra.
Qed.
End Point.

(** ** The longitude *)
Section Lon.
Context (x y : f64) (FX : is_finite x = true) (FY : is_finite y = true) (BX : Rabs (B2R x) <= 6500000) (BY : Rabs (B2R y) <= 6500000).
Context (rf : f64) (Erf : rf = lm_hypot lm x y).
Notation r := (Rhypot (B2R x) (B2R y)).
Lemma hyp_ok : is_finite rf = true /\ Rabs (B2R rf - r) <= / 2 ^ 50 * r + bpow radix2 (-1000) /\ 0 <= B2R rf /\ Rabs (B2R x) <= r /\ Rabs (B2R y) <= r /\ r <= 13000000.
Proof.
  assert (B : 6500000 <= bpow radix2 500) by (apply Rle_trans with (bpow radix2 23); [cbn; lra|apply bpow_le; lia]).
  destruct (ac_hypot lm AC x y FX FY (conj (Rle_trans _ _ _ BX B) (Rle_trans _ _ _ BY B))) as [F V]. rewrite <- Erf in F, V. rewrite (Rabs_right r) in V by (apply Rle_ge, sqrt_pos).
  split; [exact F|]. split; [exact V|]. split; [rewrite Erf; apply (ac_hypot_pos lm AC); auto; lra|]. split; [apply Rhypot_ge_abs_l|]. split; [rewrite Rhypot_sym; apply Rhypot_ge_abs_l|].
  pose proof (Rhypot_sq (B2R x) (B2R y)) as S. assert (N0 : 0 <= r) by apply sqrt_pos. apply Rabs_le_inv in BX, BY. apply Rnot_lt_le. intros L. assert (13000000 * 13000000 < r * r) by (apply Rmult_le_0_lt_compat; lra). nra.
Qed.
Lemma lon_at (s : f64) : is_finite s = true -> B2R s = rnd (B2R rf + Rabs (B2R y)) -> (B2R x <> 0 \/ B2R y <> 0) ->
  (exists A, near (lm_atan2 lm x s) A (-4) 4 ulp4 tiny) /\ (bpow radix2 (-900) <= r -> near (lm_atan2 lm x s) (atan (B2R x / (r + Rabs (B2R y)))) (-1) 1 ulp4 (Qmake 13 (10 * 2 ^ 50))).
Proof.
  intros FS VS NZ. destruct hyp_ok as (FR & ER & R0 & RX & RY & RB). set (V := Rabs (B2R y)) in *. assert (V0 : 0 <= V) by apply Rabs_pos.
  pose proof (Rabs_pos (B2R x)) as X0. pose proof tiny_1000 as T. pose proof (bpow_gt_0 radix2 (-1000)) as T0.
  assert (VF : rnd V = V). { unfold V. apply round_generic; [typeclasses eauto|]. apply generic_format_abs, generic_format_B2R. }
  assert (SV : V <= B2R s). { rewrite VS, <- VF at 1. apply round_le; [typeclasses eauto|typeclasses eauto|]. lra. }
  split.
  - assert (D : 0 < B2R s \/ B2R x <> 0). { destruct NZ as [N|N]; [now right|]. left. assert (0 < V) by (unfold V; now apply Rabs_pos_lt). lra. }
    destruct (ac_atan2 lm AC x s FX FS D) as [F W]. exists (Ratan2 (B2R x) (B2R s)). split; [exact F|]. pose proof (Ratan2_bound (B2R x) (B2R s)) as RB2. pose proof PI_64_bounds. rewrite ulp4_val.
    split; [replace (Q2R (-4)) with (-4) by qv; replace (Q2R 4) with 4 by qv; lra|]. split; [left; apply Rinv_0_lt_compat, pow_lt; lra|]. pose proof tiny_pos. split; [lra|]. lra.
  - intros RL. assert (RP : 0 < r) by (pose proof (bpow_gt_0 radix2 (-900)); lra). set (S0 := r + V).
    assert (P1 : bpow radix2 (-1000) <= / 2 ^ 90 * S0). { apply Rle_trans with (bpow radix2 (-90) * bpow radix2 (-900)); [rewrite <- bpow_plus; apply bpow_le; lia|]. apply Rmult_le_compat; [left; apply bpow_gt_0|left; apply bpow_gt_0| |unfold S0; lra]. right. change (-90)%Z with (- (90))%Z. rewrite bpow_opp. f_equal. simpl bpow. lra. }
    assert (P2 : bpow radix2 (-1075) <= bpow radix2 (-1000)) by (apply bpow_le; lia).
    pose proof (rnd_error (B2R rf + V)) as RE. rewrite <- VS in RE. assert (U : bpow radix2 (-53) = / 2 ^ 53) by (simpl bpow; lra). rewrite U, (Rabs_right (B2R rf + V)) in RE by lra.
    apply (near_atan2_k x s S0 (12 / 10 / 2 ^ 50)); [exact FX|exact FS|unfold S0; lra| |lra|unfold S0; lra|].
    + assert (A1 : / 2 ^ 50 * r <= / 2 ^ 50 * S0) by (apply Rmult_le_compat_l; unfold S0; lra). apply Rabs_le_inv in ER, RE. assert (SP : 0 < S0) by (unfold S0; lra). apply Rabs_le. unfold S0 in *. set (sv := r + V) in *. replace (B2R rf + V) with (sv + (B2R rf - r)) in RE by (unfold sv; ring). clearbody sv. lra.
    + replace (Q2R (Qmake 13 (10 * 2 ^ 50))) with (13 / 10 / 2 ^ 50) by (rewrite q2r_make; cbn; lra). unfold tiny. rewrite q2r_make. cbn -[pow]. lra.
Qed.
Definition lonf : f64 :=
  if Beqb x (f64_ofZ 0) && Beqb y (f64_ofZ 0) then f64_ofZ 0
  else if Bleb (f64_ofZ 0) y then Bminus mode_NE PI_2_64 (Bmult mode_NE (f64_ofZ 2) (lm_atan2 lm x (Bplus mode_NE rf y)))
  else Bplus mode_NE (Bopp PI_2_64) (Bmult mode_NE (f64_ofZ 2) (lm_atan2 lm x (Bminus mode_NE rf y))).
Lemma near_pi2 : near PI_2_64 (PI / 2) (Qmake 15 10) (Qmake 16 10) 0 (Qmake 1 (2 ^ 53)).
Proof.
  destruct PI_2_64_val as [V F]. pose proof PI_64_bounds as PB. split; [exact F|]. rewrite V, q0, !q2r_make. unfold m_pi. replace (IZR (Zpos (2 ^ 53))) with (2 ^ 53) by (cbn; lra).
  split; [lra|]. split; [lra|]. split; [lra|]. apply Rabs_le. lra.
Qed.
Lemma near_lonf : (exists A, near lonf A (-10) 10 0 (Qmake 1 (2 ^ 30))) /\ (bpow radix2 (-900) <= r -> near lonf (Rlon (B2R x) (B2R y)) (-4) 4 0 (Qmake 6 (2 ^ 50))).
Proof.
  destruct hyp_ok as (FR & ER & R0 & RX & RY & RB). unfold lonf, Rlon. assert (Z0 : B2R (f64_ofZ 0) = 0) by reflexivity.
  rewrite !Beqb_correct, Bleb_correct, Z0 by (auto; reflexivity). pose proof near_pi2 as NP. nZ 2%Z N2.
  assert (RU : B2R rf <= 14000000). { apply Rabs_le_inv in ER. assert (bpow radix2 (-1000) <= bpow radix2 0) by (apply bpow_le; lia). simpl (bpow radix2 0) in *. assert (/ 2 ^ 50 <= / 100) by lra. assert (/ 2 ^ 50 * r <= / 100 * r) by (apply Rmult_le_compat_r; [apply sqrt_pos|lra]). lra. }
  assert (B23 : 30000000 <= bpow radix2 1023) by (apply Rle_trans with (bpow radix2 30); [cbn; lra|apply bpow_le; lia]).
  destruct (Req_bool_spec (B2R x) 0) as [Hx|Hx], (Req_bool_spec (B2R y) 0) as [Hy|Hy]; cbn [andb].
  1: { split.
    - exists 0. split; [reflexivity|]. replace (Q2R (-10)) with (-10) by qv. replace (Q2R 10) with 10 by qv. rewrite Z0, q0, q2r_make. replace (IZR (Zpos (2 ^ 30))) with (2 ^ 30) by (cbn; lra). rewrite Rminus_0_r, Rabs_R0. split; [lra|]. split; [lra|]. split; lra.
    - intros L. exfalso. rewrite Hx, Hy in L. unfold Rhypot in L. replace (0 * 0 + 0 * 0) with 0 in L by ring. rewrite sqrt_0 in L. pose proof (bpow_gt_0 radix2 (-900)). lra. }
  all: (assert (NZ : B2R x <> 0 \/ B2R y <> 0) by tauto); pose proof (Rabs_le_inv _ _ BY) as BY'; destruct (Rle_bool_spec 0 (B2R y)) as [G|G]; try (exfalso; lra).
  all: match goal with |- context [lm_atan2 lm x ?t] => 
      assert (SS : is_finite t = true /\ B2R t = rnd (B2R rf + Rabs (B2R y))) by
        (first [rewrite (Rabs_right (B2R y)) by lra; split; apply f64_plus; auto; rewrite Rabs_right; lra
               |rewrite (Rabs_left (B2R y)) by lra; replace (B2R rf + - B2R y) with (B2R rf - B2R y) by ring; split; apply f64_minus; auto; rewrite Rabs_right; lra]);
      destruct (lon_at t (proj1 SS) (proj2 SS) NZ) as [[A NA] NB] end.
  all: pose proof near_pi2 as NQ; apply near_opp in NQ.
  all: split; [|intros L; specialize (NB L)].
  all: try match type of NB with near _ (atan (_ / (_ + Rabs ?t))) _ _ _ _ => first [rewrite (Rabs_right t) in NB by lra|rewrite (Rabs_left t) in NB by lra; change (r + - t) with (r - t) in NB] end.
  all: match goal with
    | |- exists _, near _ _ _ _ _ _ => nmul N2 NA N3; (match goal with |- context [Bminus mode_NE PI_2_64 _] => nsub NP N3 N4 | |- context [Bplus mode_NE (Bopp PI_2_64) _] => nadd NQ N3 N4 end); apply near_abs in N4; nnorm N4; eexists
    | _ => rewrite Ratan2_pos by (pose proof (bpow_gt_0 radix2 (-900)); lra); nmul N2 NB N3; (match goal with |- context [Bminus mode_NE PI_2_64 _] => nsub NP N3 N4 | |- context [Bplus mode_NE (Bopp PI_2_64) _] => nadd NQ N3 N4 end); apply near_abs in N4; nnorm N4 end.
  all: (refine (near_weak _ _ _ _ _ _ _ _ _ _ N4 _ _ _); [|vm_compute; reflexivity|vm_compute; reflexivity]); destruct N4 as (_ & B & _); eapply near_in_q; [exact B| |]; vm_compute; reflexivity.
Qed.

(** Wrapping. *)
Lemma near_wrap (t : f64) T e c : is_finite t = true -> Rabs (B2R t - T) <= e -> Rabs (B2R t) <= c -> c <= 11 -> exists k : Z, is_finite (wrapped (ops := O) t) = true /\ - B2R PI64 <= B2R (wrapped (ops := O) t) <= B2R PI64 + / 2 ^ 47 /\ Rabs (B2R (wrapped (ops := O) t) - (T - IZR k * (2 * PI))) <= e + / 2 ^ 52 * (c + 8).
Proof.
  intros FT ET BT C. destruct (wrapped_error lm t FT) as (W1 & W2 & k & W3); [eapply Rle_trans; [exact BT|]; replace (2 ^ 50) with (IZR (2 ^ 50)) by (rewrite pow_IZR; reflexivity); cbn; lra|]. exists k. match type of W1 with is_finite ?t' = true => change (wrapped (ops := O) t) with t'; set (w := t') in * end.
  assert (D : / 2 ^ 52 * (Rabs (B2R t) + 8) <= / 2 ^ 52 * (c + 8)) by (apply Rmult_le_compat_l; lra). split; [exact W1|]. split; [assert (/ 2 ^ 52 * (c + 8) <= / 2 ^ 52 * 19) by (apply Rmult_le_compat_l; lra); lra|].
  replace (B2R w - (T - IZR k * (2 * PI))) with ((B2R w - (B2R t - IZR k * (2 * PI))) + (B2R t - T)) by ring. eapply Rle_trans; [apply Rabs_triang|]. lra.
Qed.
Lemma lon_ok (m : f64) : is_finite m = true -> Rabs (B2R m) <= 4 -> let l := wrapped (ops := O) (Bminus mode_NE (wrapped (ops := O) lonf) m) in
  is_finite l = true /\ - B2R PI64 <= B2R l <= B2R PI64 + / 2 ^ 47 /\ (bpow radix2 (-900) <= r -> exists k : Z, Rabs (B2R l + B2R m - (Rlon (B2R x) (B2R y) - IZR k * (2 * PI))) <= 14 / 2 ^ 50).
Proof.
  intros FM BM l. destruct near_lonf as [(A & NA) NB]. pose proof PI_64_bounds as PB. assert (PI_ : B2R PI64 <= 3.1416) by (rewrite (proj1 PI64_val); unfold m_pi; lra).
  assert (F1 : is_finite lonf = true) by apply NA.
  assert (G : forall T e c, Rabs (B2R lonf - T) <= e -> Rabs (B2R lonf) <= c -> c <= 11 -> exists k : Z, is_finite l = true /\ - B2R PI64 <= B2R l <= B2R PI64 + / 2 ^ 47 /\ Rabs (B2R l + B2R m - (T - IZR k * (2 * PI))) <= e + / 2 ^ 52 * (c + 8) + / 2 ^ 52 * 19).
  { intros T e c HT HB HC. destruct (near_wrap lonf T e c F1 HT HB HC) as (k & W1 & W2 & W3). set (w := wrapped (ops := O) lonf) in *. clearbody w. apply Rabs_le_inv in BM.
    assert (WB : Rabs (B2R w - B2R m) <= 7.2) by (apply Rabs_le; lra). destruct (f64_minus w m W1 FM) as [S1 S2]; [eapply Rle_trans; [exact WB|]; apply Rle_trans with (bpow radix2 3); [cbn; lra|apply bpow_le; lia]|].
    pose proof (rnd_error (B2R w - B2R m)) as RE. rewrite <- S1 in RE. set (s := Bminus mode_NE w m) in *. assert (U : bpow radix2 (-53) = / 2 ^ 53) by (simpl bpow; lra). rewrite U in RE.
    assert (P2 : bpow radix2 (-1075) <= / 2 ^ 90) by (apply Rle_trans with (bpow radix2 (-90)); [apply bpow_le; lia|right; simpl bpow; lra]).
    assert (RE' : Rabs (B2R s - (B2R w - B2R m)) <= / 2 ^ 50 * (91 / 100)). { eapply Rle_trans; [exact RE|]. assert (/ 2 ^ 53 * Rabs (B2R w - B2R m) <= / 2 ^ 53 * 7.2) by (apply Rmult_le_compat_l; lra). lra. }
    assert (BS : Rabs (B2R s) <= 7.3). { apply Rabs_le_inv in RE', WB. apply Rabs_le. lra. }
    destruct (near_wrap s (T - IZR k * (2 * PI) - B2R m) (e + / 2 ^ 52 * (c + 8) + / 2 ^ 50 * (91 / 100)) 7.3 S2) as (k' & V1 & V2 & V3); [|exact BS|lra|].
    - replace (B2R s - (T - IZR k * (2 * PI) - B2R m)) with ((B2R s - (B2R w - B2R m)) + (B2R w - (T - IZR k * (2 * PI)))) by ring. eapply Rle_trans; [apply Rabs_triang|]. lra.
    - exists (k + k')%Z. fold l in V1, V2, V3. split; [exact V1|]. split; [exact V2|]. rewrite plus_IZR. replace (B2R l + B2R m - (T - (IZR k + IZR k') * (2 * PI))) with (B2R l - (T - IZR k * (2 * PI) - B2R m - IZR k' * (2 * PI))) by ring. eapply Rle_trans; [exact V3|]. lra. }
  assert (BL : Rabs (B2R lonf) <= 11). { pose proof (near_err _ _ _ _ _ _ NA) as EA. replace (Q2R (Qmake 1 (2 ^ 30) + 0 * mag (-10) 10)) with (1 / 2 ^ 30) in EA by (rewrite Q2R_plus, Q2R_mult, q0, q2r_make; cbn; lra). destruct NA as (_ & RA & _). replace (Q2R (-10)) with (-10) in RA by qv. replace (Q2R 10) with 10 in RA by qv. apply Rabs_le_inv in EA. apply Rabs_le. lra. }
  destruct (G (B2R lonf) 0 11 ltac:(rewrite Rminus_diag_eq, Rabs_R0; [lra|reflexivity]) BL ltac:(lra)) as (_ & G1 & G2 & _). split; [exact G1|]. split; [exact G2|]. intros RL. specialize (NB RL).
  pose proof (near_err _ _ _ _ _ _ NB) as EB. replace (Q2R (Qmake 6 (2 ^ 50) + 0 * mag (-4) 4)) with (6 / 2 ^ 50) in EB by (rewrite Q2R_plus, Q2R_mult, q0, q2r_make; cbn; lra). destruct NB as (_ & RA & _). replace (Q2R (-4)) with (-4) in RA by qv. replace (Q2R 4) with 4 in RA by qv.
  destruct (G (Rlon (B2R x) (B2R y)) (6 / 2 ^ 50) 4.01 EB) as (k & _ & _ & K); [apply Rabs_le_inv in EB; apply Rabs_le; lra|lra|]. exists k. eapply Rle_trans; [exact K|]. lra.
Qed.
End Lon.
End Lm.
