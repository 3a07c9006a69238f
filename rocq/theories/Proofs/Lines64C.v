(** Distances and the length of built lines in binary64. *)
From Coq Require Import Bool Reals Lra Lia List Arith ZArith.
From Flocq Require Import Core IEEE754.BinarySingleNaN.
From Verif.Num Require Import FOps F64 F64Lemmas RFun XRLemmas Near.
From Verif.Model Require Import Fp Quantities Cs Ellipsoid Geodesics Projections Crs Geometry.
From Verif.Spec Require Import Accurate Lines Lines64.
From Verif.Proofs Require Import LinesG NearL Lines64A Lines64B.
Import ListNotations.
Local Open Scope R_scope.

Lemma hyp_le x y : Rhypot x y <= Rabs x + Rabs y.
Proof.
  pose proof (hyp_add 0 (Rabs x) (Rabs y) 0 0 (Rle_refl 0) (Rabs_pos x) (Rabs_pos y)) as H. pose proof (hyp_abs x y (0 * Rabs 0 + Rabs x) (0 * Rabs 0 + Rabs y)) as G. rewrite !Rmult_0_l, !Rplus_0_l in *. pose proof (G (Rle_refl _) (Rle_refl _)). lra.
Qed.
Lemma hyp3 x y z : Rhypot (Rhypot x y) z = sqrt (x * x + y * y + z * z).
Proof. unfold Rhypot at 1. f_equal. f_equal. apply Rhypot_sq. Qed.
Lemma dist_bound H H1 h1 h2 x y z X Y Z u k : 0 <= u -> u <= / 1000 -> 0 <= k -> H1 = Rhypot X Y -> H = Rhypot H1 Z ->
  Rabs (x - X) <= u * Rabs X -> Rabs (y - Y) <= u * Rabs Y -> Rabs (z - Z) <= u * Rabs Z -> 
  Rabs (h1 - Rhypot x y) <= 8 * u * Rabs (Rhypot x y) + k -> Rabs (h2 - Rhypot h1 z) <= 8 * u * Rabs (Rhypot h1 z) + k ->
  Rabs (h1 - H1) <= 10 * u * H1 + k /\ Rabs (h2 - H) <= 32 * u * H + 4 * k.
Proof.
  intros U U2 K E1 E RX RY RZ R1 R2. pose proof (Rhypot_ge_0 x y) as P. pose proof (Rhypot_ge_0 X Y) as P1. rewrite <- E1 in P1. pose proof (Rhypot_ge_0 h1 z) as P2. pose proof (Rhypot_ge_0 H1 Z) as PH. rewrite <- E in PH. rewrite (Rabs_pos_eq _ P) in R1. rewrite (Rabs_pos_eq _ P2) in R2.
  assert (A : Rabs (Rhypot x y - H1) <= u * H1).
  { rewrite E1. apply (Rle_trans _ _ _ (hyp_lip x y X Y)). pose proof (hyp_abs (x - X) (y - Y) (u * Rabs X + 0) (u * Rabs Y + 0)) as G. pose proof (hyp_add u 0 0 X Y U (Rle_refl 0) (Rle_refl 0)) as G2. rewrite !Rplus_0_r in *. pose proof (G RX RY). lra. }
  assert (UU : u * u <= / 1000 * u) by (apply Rmult_le_compat_r; lra).
  assert (UH : u * u * H1 <= / 1000 * u * H1) by (apply Rmult_le_compat_r; lra). assert (UH2 : 0 <= u * H1) by (apply Rmult_le_pos; lra).
  apply Rabs_le_inv in A. assert (B : Rabs (h1 - H1) <= 10 * u * H1 + k).
  { assert (u * Rhypot x y <= u * (H1 + u * H1)) by (apply Rmult_le_compat_l; lra). apply Rabs_le_inv in R1. apply Rabs_le. lra. }
  split; [exact B|]. assert (C : Rabs (Rhypot h1 z - H) <= 10 * u * H + k).
  { rewrite E. apply (Rle_trans _ _ _ (hyp_lip h1 z H1 Z)). assert (P10 : 0 <= 10 * u) by lra. pose proof (hyp_abs (h1 - H1) (z - Z) (10 * u * Rabs H1 + k) (10 * u * Rabs Z + 0)) as G. pose proof (hyp_add (10 * u) k 0 H1 Z P10 K (Rle_refl 0)) as G2. rewrite !Rplus_0_r in *. rewrite (Rabs_pos_eq H1) in G at 1 by exact P1.
    assert (0 <= u * Rabs Z) by (apply Rmult_le_pos; [exact U|apply Rabs_pos]). assert (RZ' : Rabs (z - Z) <= 10 * u * Rabs Z) by lra. pose proof (G B RZ'). lra. }
  apply Rabs_le_inv in C. assert (UH3 : u * u * H <= / 1000 * u * H) by (apply Rmult_le_compat_r; lra). assert (UH4 : 0 <= u * H) by (apply Rmult_le_pos; lra). assert (UK : u * k <= / 1000 * k) by (apply Rmult_le_compat_r; lra).
  assert (u * Rhypot h1 z <= u * (H + 10 * u * H + k)) by (apply Rmult_le_compat_l; lra). apply Rabs_le_inv in R2. apply Rabs_le. lra.
Qed.
Lemma hyp_big h H u k c c' : 0 <= u -> u <= / 1000 -> 0 <= H -> H <= c + c -> Rabs (h - H) <= 8 * u * H + k -> k <= c -> 8 * c <= c' -> Rabs h <= c'.
Proof.
  intros U U2 P L R K C. assert (u * H <= / 1000 * H) by (apply Rmult_le_compat_r; lra). apply Rabs_le_inv in R. apply Rabs_le. lra.
Qed.

Lemma sum_err d D t T a n k : Rabs (d - D) <= a * D + k -> Rabs (t - T) <= a * T + n * k -> Rabs (d + t - (D + T)) <= a * (D + T) + (n + 1) * k.
Proof. intros A B. apply Rabs_le_inv in A, B. apply Rabs_le. lra. Qed.
Lemma both_err L T D w nk : 1 <= w -> Rabs (T - D) <= / 2 ^ 48 * D + nk * bpow radix2 (-998) -> Rabs (L - T) <= (w - 1) * T -> Rabs (L - D) <= ((1 + / 2 ^ 48) * w - 1) * D + nk * w * bpow radix2 (-998).
Proof.
  intros W A B. set (a := / 2 ^ 48) in *. set (k := bpow radix2 (-998)) in *. apply Rabs_le_inv in A, B.
  assert (X : (w - 1) * T <= (w - 1) * (D + a * D + nk * k)) by (apply Rmult_le_compat_l; lra). apply Rabs_le. lra.
Qed.
Lemma no_over T D w0 n : 0 <= D -> Rabs (T - D) <= / 2 ^ 48 * D + INR n * bpow radix2 (-998) -> (1 + D) * (1 + / 2 ^ 53) ^ n <= w0 -> w0 = bpow radix2 900 -> T * (1 + / 2 ^ 53) ^ n <= bpow radix2 1000.
Proof.
  intros P R H ->. pose proof u_pos as U. pose proof (pow_ge1 n) as G. set (w := (1 + / 2 ^ 53) ^ n) in *.
  assert (B : INR n * / 2 ^ 53 <= w). { unfold w. clear - U. induction n as [|n IH]; [cbn; lra|]. rewrite S_INR. change ((1 + / 2 ^ 53) ^ S n) with ((1 + / 2 ^ 53) * (1 + / 2 ^ 53) ^ n). pose proof (pow_ge1 n). set (v := (1 + / 2 ^ 53) ^ n) in *. assert (/ 2 ^ 53 * 1 <= / 2 ^ 53 * v) by (apply Rmult_le_compat_l; lra). lra. }
  assert (W9 : w <= bpow radix2 900). { assert (0 <= D * w) by (apply Rmult_le_pos; lra). lra. }
  assert (D9 : D * w <= bpow radix2 900) by lra.
  assert (N : INR n <= bpow radix2 953). { apply (Rmult_le_reg_r (/ 2 ^ 53)); [exact U|]. apply Rle_trans with w; [exact B|]. apply (Rle_trans _ _ _ W9). right. rewrite <- u_val, <- bpow_plus. reflexivity. }
  assert (NK : INR n * bpow radix2 (-998) <= bpow radix2 (-45)). { apply Rle_trans with (bpow radix2 953 * bpow radix2 (-998)); [apply Rmult_le_compat_r; [apply bpow_ge_0|exact N]|]. rewrite <- bpow_plus. right. reflexivity. }
  assert (K1 : bpow radix2 (-45) <= 1). { change 1 with (bpow radix2 0). apply bpow_le. lia. } assert (A1 : / 2 ^ 48 <= 1) by (rewrite <- Rinv_1; apply Rinv_le_contravar; [lra|cbn; lra]).
  apply Rabs_le_inv in R. assert (AD : / 2 ^ 48 * D <= 1 * D) by (apply Rmult_le_compat_r; lra). assert (T2 : T <= 2 * D + 1) by lra.
  apply Rle_trans with ((2 * D + 1) * w); [apply Rmult_le_compat_r; lra|]. apply Rle_trans with (3 * bpow radix2 900); [lra|]. apply Rle_trans with (bpow radix2 2 * bpow radix2 900); [apply Rmult_le_compat_r; [apply bpow_ge_0|cbn; lra]|]. rewrite <- bpow_plus. apply bpow_le. lia.
Qed.

Section L.
Variable lm : libm.
Let O : FOps f64 := F64ops lm.
Local Existing Instance O.

Lemma per_M : per_unit (ops := O) (M (ops := O)) = f64_ofZ 1.
Proof. apply B2SF_inj. vm_compute. reflexivity. Qed.
Lemma metre (x : f64) : is_finite x = true -> Rabs (B2R x) <= bpow radix2 400 -> is_finite (length_new (ops := O) x (M (ops := O))) = true /\ B2R (length_new (ops := O) x (M (ops := O))) = B2R x.
Proof.
  intros F L. unfold length_new. rewrite per_M. destruct one_val as [E1 F1]. change (fmul (FOps := O) x (f64_ofZ 1)) with (Bmult mode_NE x (f64_ofZ 1)).
  destruct (f64_mult x (f64_ofZ 1) F F1) as [E G]. { rewrite E1, Rmult_1_r. apply (Rle_trans _ _ _ L). apply bpow_le. lia. }
  split; [exact G|]. rewrite E, E1, Rmult_1_r. apply rnd_B2R.
Qed.

Hypothesis AC : accurate lm.
Lemma minus400 (x y : f64) : is_finite x = true -> is_finite y = true -> Rabs (B2R x) <= bpow radix2 400 -> Rabs (B2R y) <= bpow radix2 400 ->
  is_finite (Bminus mode_NE x y) = true /\ Rabs (B2R (Bminus mode_NE x y) - (B2R x - B2R y)) <= / 2 ^ 53 * Rabs (B2R x - B2R y) /\ Rabs (B2R x - B2R y) <= bpow radix2 401 /\ Rabs (B2R (Bminus mode_NE x y)) <= bpow radix2 401.
Proof.
  intros FX FY LX LY. assert (L : Rabs (B2R x - B2R y) <= bpow radix2 401).
  { replace (bpow radix2 401) with (2 * bpow radix2 400) by (change 2 with (bpow radix2 1); rewrite <- bpow_plus; reflexivity). pose proof (Rabs_triang (B2R x) (- B2R y)) as T. rewrite Rabs_Ropp in T. unfold Rminus. lra. }
  destruct (f64_minus x y FX FY) as [E F]. { apply (Rle_trans _ _ _ L). apply bpow_le. lia. }
  split; [exact F|]. split; [rewrite E; apply minus_rel|]. split; [exact L|]. rewrite E. apply rnd_abs_le_bpow; [lia|exact L].
Qed.
Lemma dist3 (x y z x' y' z' : f64) : is_finite x = true -> is_finite y = true -> is_finite z = true -> is_finite x' = true -> is_finite y' = true -> is_finite z' = true ->
  Rabs (B2R x) <= bpow radix2 400 -> Rabs (B2R y) <= bpow radix2 400 -> Rabs (B2R z) <= bpow radix2 400 -> Rabs (B2R x') <= bpow radix2 400 -> Rabs (B2R y') <= bpow radix2 400 -> Rabs (B2R z') <= bpow radix2 400 ->
  let d := lm_hypot lm (lm_hypot lm (Bminus mode_NE x x') (Bminus mode_NE y y')) (Bminus mode_NE z z') in
  let D := sqrt ((B2R x - B2R x') * (B2R x - B2R x') + (B2R y - B2R y') * (B2R y - B2R y') + (B2R z - B2R z') * (B2R z - B2R z')) in
  is_finite d = true /\ 0 <= B2R d /\ Rabs (B2R d - D) <= / 2 ^ 48 * D + bpow radix2 (-998).
Proof.
  intros FX FY FZ FX' FY' FZ' LX LY LZ LX' LY' LZ' d D.
  destruct (minus400 x x' FX FX' LX LX') as (GX & RX & BX & CX). destruct (minus400 y y' FY FY' LY LY') as (GY & RY & BY & CY). destruct (minus400 z z' FZ FZ' LZ LZ') as (GZ & RZ & BZ & CZ).
  assert (L5 : bpow radix2 401 <= bpow radix2 500) by (apply bpow_le; lia).
  assert (DX : Rabs (B2R (Bminus mode_NE x x')) <= bpow radix2 500) by (apply (Rle_trans _ _ _ CX L5)). assert (DY : Rabs (B2R (Bminus mode_NE y y')) <= bpow radix2 500) by (apply (Rle_trans _ _ _ CY L5)). assert (DZ : Rabs (B2R (Bminus mode_NE z z')) <= bpow radix2 500) by (apply (Rle_trans _ _ _ CZ L5)).
  destruct (ac_hypot lm AC (Bminus mode_NE x x') (Bminus mode_NE y y') GX GY (conj DX DY)) as [FH RH]. set (h1 := lm_hypot lm (Bminus mode_NE x x') (Bminus mode_NE y y')) in *.
  assert (E50 : / 2 ^ 50 = 8 * / 2 ^ 53) by (cbn; lra). assert (E48 : / 2 ^ 48 = 32 * / 2 ^ 53) by (cbn; lra). rewrite E50 in RH.
  assert (U2 : / 2 ^ 53 <= / 1000) by (apply Rinv_le_contravar; [lra|cbn; lra]). pose proof u_pos as U. pose proof (bpow_gt_0 radix2 (-1000)) as K.
  assert (DH : Rabs (B2R h1) <= bpow radix2 500).
  { pose proof (hyp_le (B2R (Bminus mode_NE x x')) (B2R (Bminus mode_NE y y'))) as HH. pose proof (Rhypot_ge_0 (B2R (Bminus mode_NE x x')) (B2R (Bminus mode_NE y y'))) as HP. rewrite (Rabs_pos_eq _ HP) in RH.
    assert (K2 : bpow radix2 (-1000) <= bpow radix2 401) by (apply bpow_le; lia). assert (L6 : 8 * bpow radix2 401 <= bpow radix2 500) by (change 8 with (bpow radix2 3); rewrite <- bpow_plus; apply bpow_le; lia).
    apply (hyp_big _ _ _ _ _ _ (Rlt_le _ _ U) U2 HP (Rle_trans _ _ _ HH (Rplus_le_compat _ _ _ _ CX CY)) RH K2 L6). }
  destruct (ac_hypot lm AC h1 (Bminus mode_NE z z') FH GZ (conj DH DZ)) as [FD RD]. rewrite E50 in RD. fold d in RD, FD.
  split; [exact FD|]. split; [exact (ac_hypot_pos lm AC h1 (Bminus mode_NE z z') FH GZ DH DZ)|].
  assert (ED : D = Rhypot (Rhypot (B2R x - B2R x') (B2R y - B2R y')) (B2R z - B2R z')) by (unfold D; now rewrite hyp3).
  destruct (dist_bound D _ (B2R h1) (B2R d) _ _ _ _ _ _ _ _ (Rlt_le _ _ U) U2 (Rlt_le _ _ K) eq_refl ED RX RY RZ RH RD) as [_ R]. rewrite E48.
  replace (bpow radix2 (-998)) with (4 * bpow radix2 (-1000)) by (change 4 with (bpow radix2 2); rewrite <- bpow_plus; reflexivity). exact R.
Qed.

Lemma squares2 a b c d : squares [a; b] [c; d] = (a - c) * (a - c) + (b - d) * (b - d) + (0 - 0) * (0 - 0).
Proof. cbn [squares]. ring. Qed.
Lemma squares3 a b c d e f : squares [a; b; c] [d; e; f] = (a - d) * (a - d) + (b - e) * (b - e) + (c - f) * (c - f).
Proof. cbn [squares]. ring. Qed.
Lemma crs_dist64 crs p q : in_metres lm crs -> List.length p = crs_dim crs -> List.length q = crs_dim crs -> within64 (bpow radix2 400) p -> within64 (bpow radix2 400) q ->
  exists d, crs_dist (ops := O) crs p q = Ret (Ok d) /\ is_finite d = true /\ 0 <= B2R d /\ Rabs (B2R d - apart (vals p) (vals q)) <= / 2 ^ 48 * apart (vals p) (vals q) + bpow radix2 (-998).
Proof.
  intros M LP LQ WP WQ. unfold crs_dist. rewrite LP, LQ, Nat.eqb_refl. cbn [rassert].
  assert (Z : is_finite (f64_ofZ 0) = true /\ B2R (f64_ofZ 0) = 0) by (split; reflexivity).
  assert (Z4 : Rabs 0 <= bpow radix2 400) by (rewrite Rabs_R0; apply bpow_ge_0).
  inversion M as [id d E|id d s E|id d s E]; subst crs; cbn [crs_dim paxes_dim] in LP, LQ.
  1, 3: destruct (len3 p LP) as (x & y & z & ->); destruct (len3 q LQ) as (x' & y' & z' & ->).
  3: destruct (len2 p LP) as (x & y & ->); destruct (len2 q LQ) as (x' & y' & ->).
  1, 2: inversion WP as [|? ? [FX LX] WP1]; subst; inversion WP1 as [|? ? [FY LY] WP2]; subst; inversion WP2 as [|? ? [FZ LZ] _]; subst;
    inversion WQ as [|? ? [FX' LX'] WQ1]; subst; inversion WQ1 as [|? ? [FY' LY'] WQ2]; subst; inversion WQ2 as [|? ? [FZ' LZ'] _]; subst;
    destruct (metre x FX LX) as [GX EX]; destruct (metre y FY LY) as [GY EY]; destruct (metre z FZ LZ) as [GZ EZ]; destruct (metre x' FX' LX') as [GX' EX']; destruct (metre y' FY' LY') as [GY' EY']; destruct (metre z' FZ' LZ') as [GZ' EZ'];
    pose proof (dist3 _ _ _ _ _ _ GX GY GZ GX' GY' GZ') as D; rewrite EX, EY, EZ, EX', EY', EZ' in D; specialize (D LX LY LZ LX' LY' LZ');
    unfold apart, vals; cbn [map]; rewrite squares3; eexists; (split; [reflexivity|exact D]).
  inversion WP as [|? ? [FX LX] WP1]; subst; inversion WP1 as [|? ? [FY LY] _]; subst; inversion WQ as [|? ? [FX' LX'] WQ1]; subst; inversion WQ1 as [|? ? [FY' LY'] _]; subst.
  destruct (metre x FX LX) as [GX EX]; destruct (metre y FY LY) as [GY EY]; destruct (metre x' FX' LX') as [GX' EX']; destruct (metre y' FY' LY') as [GY' EY'].
  pose proof (dist3 _ _ _ _ _ _ GX GY (proj1 Z) GX' GY' (proj1 Z)) as D; rewrite EX, EY, EX', EY', (proj2 Z) in D; specialize (D LX LY Z4 LX' LY' Z4).
  unfold apart, vals; cbn [map]; rewrite squares2; eexists; (split; [reflexivity|exact D]).
Qed.

Lemma apart_pos p q : 0 <= apart p q.
Proof. apply sqrt_pos. Qed.
Lemma path_pos pts : 0 <= path pts.
Proof.
  induction pts as [|p [|q pts] IH]; [apply Rle_refl..|]. change (path (p :: q :: pts)) with (apart p q + path (q :: pts)). pose proof (apart_pos p q). lra.
Qed.
Lemma measured64 crs pts ds : in_metres lm crs -> measured (ops := O) crs pts ds -> Forall (within64 (bpow radix2 400)) pts ->
  lengths64 ds /\ Rabs (total (vals ds) - path (map vals pts)) <= / 2 ^ 48 * path (map vals pts) + INR (List.length ds) * bpow radix2 (-998).
Proof.
  intros M. induction 1 as [p|p q pts d ds E H IH]; intros W.
  { split; [constructor|]. unfold total. cbn [vals map path fold_right List.length INR]. rewrite Rminus_0_r, Rabs_R0. lra. }
  inversion W as [|? ? WP W']; subst. inversion W' as [|? ? WQ W2]; subst. destruct (IH W') as [L R]. destruct (crs_dist_dims _ _ _ _ E) as [LP LQ].
  destruct (crs_dist64 crs p q M LP LQ WP WQ) as (d' & E' & F & P & R'). rewrite E in E'. injection E' as <-. split; [constructor; [split; assumption|exact L]|].
  change (total (vals (d :: ds))) with (B2R d + total (vals ds)). change (path (map vals (p :: q :: pts))) with (apart (vals p) (vals q) + path (map vals (q :: pts))). cbn [List.length]. rewrite S_INR.
  exact (sum_err _ _ _ _ _ _ _ R' R).
Qed.
Lemma built64 crs p q b0 ps b : in_metres lm crs -> lsb_with_line (ops := O) crs p q = Ret (Ok b0) -> line_tos (ops := O) b0 ps = Ret (Ok b) ->
  let pts := p :: q :: ps in let n := S (List.length ps) in let w := (1 + / 2 ^ 53) ^ n in Forall (within64 (bpow radix2 400)) pts -> (1 + path (map vals pts)) * w <= bpow radix2 900 ->
  lengths64 (ls_len (lsb_build b)) /\ List.length (ls_len (lsb_build b)) = n /\ total (vals (ls_len (lsb_build b))) * w <= bpow radix2 1000 /\
  is_finite (ls_length (ops := O) (lsb_build b)) = true /\
  Rabs (B2R (ls_length (ops := O) (lsb_build b)) - path (map vals pts)) <= ((1 + / 2 ^ 48) * w - 1) * path (map vals pts) + INR n * w * bpow radix2 (-998).
Proof.
  intros M E0 E pts n w W H. destruct (build_spec crs p q b0 ps b E0 E) as (_ & ME & _). fold pts in ME. pose proof (measured_length _ _ _ ME) as LN.
  assert (EN : List.length (ls_len (lsb_build b)) = n) by (unfold pts in LN; cbn [List.length] in LN; unfold n; lia).
  destruct (measured64 crs pts _ M ME W) as [L R]. rewrite EN in R. pose proof (path_pos (map vals pts)) as P. set (T := total (vals (ls_len (lsb_build b)))) in *.
  assert (HT : T * w <= bpow radix2 1000). { exact (no_over _ _ _ n P R H eq_refl). }
  split; [exact L|]. split; [exact EN|]. split; [exact HT|]. pose proof (length64 lm (lsb_build b) _ eq_refl L) as K. rewrite EN in K. destruct (K HT) as (F & _ & RL). split; [exact F|].
  exact (both_err _ _ _ _ _ (pow_ge1 n) R RL).
Qed.
End L.
