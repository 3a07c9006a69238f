(** Distances and lengths in any predefined units in binary64. *)
From Coq Require Import Bool Reals Lra Lia List Arith ZArith Qreals String.
From Flocq Require Import Core IEEE754.BinarySingleNaN.
From Verif.Num Require Import FOps F64 F64Lemmas RFun XRLemmas Near.
From Verif.Model Require Import Fp Quantities Cs Ellipsoid Geodesics Projections Crs Geometry.
From Verif.Spec Require Import Axes Shape Frames Accurate Lines Lines64 Binary64 Routes64 MapRoutes64 Space64.
From Verif.Proofs Require Import AxesX TransX NearL LlhF LibmOk TransB MapRouteA LinesG Lines64A Lines64B Lines64C.
Import ListNotations.
Local Open Scope R_scope.

Lemma edist_abs2 p q p' q' e : edist p p' <= e -> edist q q' <= e -> Rabs (edist p q - edist p' q') <= 2 * e.
Proof.
  intros A B. pose proof (edist_triangle p p' q) as T1. pose proof (edist_triangle p' q' q) as T2. pose proof (edist_triangle p' p q') as T3. pose proof (edist_triangle p q q') as T4.
  rewrite (edist_sym q' q) in T2. rewrite (edist_sym p' p) in T3. apply Rabs_le. lra.
Qed.
Lemma way_pos pts : 0 <= way pts.
Proof.
  induction pts as [|p [|q pts] IH]; [apply Rle_refl..|]. change (way (p :: q :: pts)) with (edist p q + way (q :: pts)). pose proof (edist_ge_0 p q). lra.
Qed.
Lemma two400 c : c <= 1000000000 -> c <= bpow radix2 400.
Proof. intros H. apply Rle_trans with (bpow radix2 30); [cbn; lra|]. apply bpow_le. lia. Qed.
Lemma dist_sum d D D' e : Rabs (d - D') <= / 2 ^ 48 * D' + bpow radix2 (-998) -> Rabs (D' - D) <= 2 * e -> e <= 18 / 10 ^ 8 -> 0 <= D -> Rabs (d - D) <= / 2 ^ 48 * D + 4 / 10 ^ 7.
Proof.
  intros A B E P. assert (K : bpow radix2 (-998) <= / 10 ^ 9). { apply Rle_trans with (bpow radix2 (-30)); [apply bpow_le; lia|cbn; lra]. }
  assert (W : / 2 ^ 48 = / 281474976710656) by (f_equal; ring). rewrite W in *. apply Rabs_le_inv in A, B. assert (H : / 281474976710656 <= / 1000000) by (apply Rinv_le_contravar; lra).
  assert (X : / 281474976710656 * D' <= / 281474976710656 * (D + 2 * e)) by (apply Rmult_le_compat_l; lra).
  assert (Y : / 281474976710656 * (2 * e) <= / 1000000 * (36 / 10 ^ 8)). { destruct (Rle_dec 0 e) as [N|N]; [apply Rmult_le_compat; lra|]. apply Rle_trans with 0; [|lra]. rewrite <- (Rmult_0_r (/ 281474976710656)). apply Rmult_le_compat_l; lra. }
  apply Rabs_le. lra.
Qed.

Section L.
Variable lm : libm.
Hypothesis AC : accurate lm.
Notation O := (F64ops lm).

Lemma src_dim c buf P : source64 lm c buf P -> List.length buf = crs_dim c.
Proof. destruct 1 as [id d x y z X Y Z V1 V2 V3 B|id d ax buf a b m l p h P HE VM BM AX BL BP BH GP]; [reflexivity|]. destruct AX; reflexivity. Qed.
Lemma dist_xyz c p q X Y : crs_dim c = 3%nat -> List.length p = 3%nat -> List.length q = 3%nat -> (forall id d ax s, c <> ProjectedCrs id d ax s) ->
  to_xyz (ops := O) 0 c p = Ret (Ok X) -> to_xyz (ops := O) 0 c q = Ret (Ok Y) -> crs_dist (ops := O) c p q = Ret (Ok (xyz_dist_to (ops := O) X Y)).
Proof.
  intros D LP LQ NP EX EY. unfold crs_dist. rewrite LP, LQ, D. cbn [Nat.eqb rassert]. destruct c as [id d|id d ax|id d ax s]; [| |exfalso; exact (NP id d ax s eq_refl)].
  - cbn [to_xyz] in EX, EY. destruct (xaxes_normalize p) as [np| |]; cbn [obind] in EX |- *; try discriminate EX. destruct (xaxes_normalize q) as [nq| |]; cbn [obind] in EY |- *; try discriminate EY. injection EX as <-. injection EY as <-. reflexivity.
  - cbn [to_xyz] in EX, EY. destruct (gaxes_normalize ax p) as [np| |]; cbn [obind] in EX |- *; try discriminate EX. destruct (gaxes_normalize ax q) as [nq| |]; cbn [obind] in EY |- *; try discriminate EY. injection EX as <-. injection EY as <-. reflexivity.
Qed.
Lemma dist_pts X Y P Q e : Binary64.within64 X e P -> Binary64.within64 Y e Q -> e <= 18 / 10 ^ 8 -> edist P (0, 0, 0) <= 500000000 -> edist Q (0, 0, 0) <= 500000000 ->
  let d := xyz_dist_to (ops := O) X Y in is_finite d = true /\ 0 <= B2R d /\ Rabs (B2R d - edist P Q) <= / 2 ^ 48 * edist P Q + 4 / 10 ^ 7.
Proof.
  intros (F1 & F2 & F3 & W) (G1 & G2 & G3 & W') E BP BQ d.
  assert (C : forall x y z V, edist (x, y, z) V <= e -> edist V (0, 0, 0) <= 500000000 -> Rabs x <= bpow radix2 400 /\ Rabs y <= bpow radix2 400 /\ Rabs z <= bpow radix2 400).
  { intros x y z V A B. pose proof (edist_triangle (x, y, z) V (0, 0, 0)) as T. destruct (coord_le x y z 600000000 ltac:(lra)) as (C1 & C2 & C3). pose proof (two400 600000000 ltac:(lra)). repeat split; lra. }
  destruct (C _ _ _ _ W BP) as (L1 & L2 & L3). destruct (C _ _ _ _ W' BQ) as (M1 & M2 & M3).
  destruct (dist3 lm AC _ _ _ _ _ _ F1 F2 F3 G1 G2 G3 L1 L2 L3 M1 M2 M3) as (FD & PD & RD). split; [exact FD|]. split; [exact PD|].
  apply (dist_sum _ _ _ e RD); [|exact E|apply edist_ge_0]. exact (edist_abs2 _ _ _ _ e W W').
Qed.
Lemma edist_par a b c a' b' c' e : Rabs (a - a') <= e -> Rabs (b - b') <= e -> Rabs (c - c') <= e -> edist (a, b, c) (a', b', c') <= 1.733 * e.
Proof. intros A B C. rewrite edist_vnorm. cbn [vadd vscale]. apply vnorm3; match goal with |- Rabs ?x <= _ => match goal with H : Rabs ?y <= e |- _ => replace x with y by ring; exact H end end. Qed.
Lemma read_plane ax buf x y o : map_axes64 lm ax buf x y o -> Rabs x <= 200000000 -> Rabs y <= 200000000 -> Rabs (match o with Some h => h | None => 0 end) <= 99999 ->
  List.length buf = paxes_dim ax /\ edist (x, y, match o with Some h => h | None => 0 end) (0, 0, 0) <= 500000000 /\
  exists p, paxes_normalize (ops := O) ax buf = Ret p /\ Binary64.within64 (mkXYZ (easting p) (northing p) (eheight p)) (18 / 10 ^ 8) (x, y, match o with Some h => h | None => 0 end).
Proof.
  intros A BX BY BH. split; [destruct A; reflexivity|]. split.
  { pose proof (edist_abs x y (match o with Some h => h | None => 0 end) 0 0 0) as T. rewrite !Rminus_0_r in T. lra. }
  destruct A as [u v ku kv e n up E N H U1 U2 VE VN VH|u ku e n E N U1 VE VN].
  - destruct (map_in lm u ku e E U1 VE BX) as [F1 E1]. destruct (map_in lm u ku n N U1 VN BY) as [F2 E2]. destruct (map_in lm v kv up H U2 VH ltac:(lra)) as [F3 E3].
    eexists. split; [reflexivity|]. split; [exact F1|]. split; [exact F2|]. split; [exact F3|]. cbn [easting northing eheight x_ y_ z_]. pose proof (edist_par _ _ _ _ _ _ _ E1 E2 E3). lra.
  - destruct (map_in lm u ku e E U1 VE BX) as [F1 E1]. destruct (map_in lm u ku n N U1 VN BY) as [F2 E2].
    eexists. split; [reflexivity|]. split; [exact F1|]. split; [exact F2|]. split; [reflexivity|]. cbn [easting northing eheight x_ y_ z_]. assert (E3 : Rabs (B2R (fofZ (FOps := O) 0) - 0) <= / 10 ^ 7). { change (B2R (fofZ (FOps := O) 0)) with 0. rewrite Rminus_0_r, Rabs_R0. lra. }
    pose proof (edist_par _ _ _ _ _ _ _ E1 E2 E3). lra.
Qed.
Lemma dist_any c p q P Q : stands64 lm c p P -> stands64 lm c q Q ->
  exists d, crs_dist (ops := O) c p q = Ret (Ok d) /\ is_finite d = true /\ 0 <= B2R d /\ Rabs (B2R d - edist P Q) <= / 2 ^ 48 * edist P Q + 4 / 10 ^ 7.
Proof.
  intros SP SQ. inversion SP as [c0 buf P0 S E1 E2 E3|id d ax spec buf x y o A BX BY BH E1 E2 E3]; subst.
  - inversion SQ as [c0 buf P0 S' E1 E2 E3|id d ax spec buf x y o A BX BY BH E1 E2 E3]; subst.
    + destruct (to_xyz64 lm AC 0 c p [] P S) as (X & EX & WX & BX). destruct (to_xyz64 lm AC 0 c q [] Q S') as (Y & EY & WY & BY). rewrite app_nil_r in EX, EY.
      pose proof (src_dim c p P S) as LP. pose proof (src_dim c q Q S') as LQ. assert (D3 : crs_dim c = 3%nat). { rewrite <- LP. destruct S as [|? ? ? ? ? ? ? ? ? ? ? ? ? ? AX]; [reflexivity|]. destruct AX; reflexivity. }
      exists (xyz_dist_to (ops := O) X Y). split. { apply dist_xyz; auto; [now rewrite LP|now rewrite LQ|]. intros id d ax s ->. inversion S. }
      assert (W' : forall V R, Binary64.within64 V (14 / 10 ^ 8) R -> Binary64.within64 V (18 / 10 ^ 8) R) by (intros V R (a1 & a2 & a3 & a4); repeat split; auto; lra).
      apply (dist_pts X Y P Q (18 / 10 ^ 8)); auto; lra.
    + inversion S.
  - inversion SQ as [c0 buf P0 S' E1 E2 E3|id' d' ax' spec' buf x' y' o' A' BX' BY' BH' E1 E2 E3]; subst; [inversion S'|].
    destruct (read_plane _ _ _ _ _ A BX BY BH) as (LP & NP & u & EU & WU). destruct (read_plane _ _ _ _ _ A' BX' BY' BH') as (LQ & NQ & v & EV & WV).
    exists (enh_dist_to (ops := O) u v). split. { unfold crs_dist. cbn [crs_dim]. rewrite LP, LQ, Nat.eqb_refl. cbn [rassert]. rewrite EU, EV. reflexivity. }
    exact (dist_pts _ _ _ _ _ WU WV (Rle_refl _) NP NQ).
Qed.

Lemma measured_any crs pts ds : measured (ops := O) crs pts ds -> forall Ps, Forall2 (stands64 lm crs) pts Ps ->
  lengths64 ds /\ Rabs (total (vals ds) - way Ps) <= / 2 ^ 48 * way Ps + INR (List.length ds) * (4 / 10 ^ 7) /\ way Ps <= INR (List.length ds) * 1000000000.
Proof.
  assert (NB : forall c p P, stands64 lm c p P -> edist P (0, 0, 0) <= 500000000).
  { intros c p P S. destruct S as [c buf P S|id d ax spec buf x y o A BX BY BH]; [destruct (to_xyz64 lm AC 0 c buf [] P S) as (_ & _ & _ & B); lra|]. apply (read_plane _ _ _ _ _ A BX BY BH). }
  induction 1 as [p|p q pts d ds E H IH]; intros Ps W.
  { inversion W as [|? P ? Ps' SP W1]; subst. inversion W1; subst. split; [constructor|]. unfold total. cbn [vals map way fold_right List.length INR]. rewrite Rminus_0_r, Rabs_R0. lra. }
  inversion W as [|? P ? Ps' SP W1]; subst. inversion W1 as [|? Q ? Ps'' SQ W2]; subst. destruct (IH _ W1) as (L & R & B).
  destruct (dist_any crs p q P Q SP SQ) as (d' & E' & F & PD & R'). rewrite E in E'. injection E' as <-. split; [constructor; [split; assumption|exact L]|].
  change (total (vals (d :: ds))) with (B2R d + total (vals ds)). change (way (P :: Q :: Ps'')) with (edist P Q + way (Q :: Ps'')). cbn [List.length]. rewrite S_INR.
  split; [exact (sum_err _ _ _ _ _ _ _ R' R)|]. pose proof (NB _ _ _ SP) as N1. pose proof (NB _ _ _ SQ) as N2. pose proof (edist_triangle P (0, 0, 0) Q) as T. rewrite (edist_sym (0, 0, 0) Q) in T. lra.
Qed.
End L.

Lemma pow_small n : INR n <= 2 ^ 30 -> (1 + / 2 ^ 53) ^ n <= 1 + INR n * / 2 ^ 52.
Proof.
  pose proof u_pos as U. assert (E : / 2 ^ 52 = 2 * / 2 ^ 53) by (change (2 ^ 53) with (2 * 2 ^ 52); rewrite Rinv_mult; lra). rewrite E. clear E. assert (K : 2 ^ 30 * (2 * / 2 ^ 53) <= 1). { apply (Rmult_le_reg_r (2 ^ 53)); [lra|]. replace (2 ^ 30 * (2 * / 2 ^ 53) * 2 ^ 53) with (2 ^ 30 * 2 * (/ 2 ^ 53 * 2 ^ 53)) by ring. rewrite Rinv_l by lra. lra. }
  set (u := / 2 ^ 53) in *. induction n as [|n IH]; [cbn; lra|]. rewrite S_INR. intros H. specialize (IH ltac:(lra)). change ((1 + u) ^ S n) with ((1 + u) * (1 + u) ^ n). pose proof (pos_INR n) as P.
  apply Rle_trans with ((1 + u) * (1 + INR n * (2 * u))); [apply Rmult_le_compat_l; lra|]. assert (INR n * (2 * u) <= 1). { apply Rle_trans with (2 ^ 30 * (2 * u)); [|exact K]. apply Rmult_le_compat_r; lra. }
  assert (u * (INR n * (2 * u)) <= u * 1) by (apply Rmult_le_compat_l; lra). lra.
Qed.
Lemma final_any L T D w n : 0 <= n <= 2 ^ 30 -> 0 <= D -> D <= n * 1000000000 -> 1 <= w <= 1 + n * / 2 ^ 52 -> Rabs (T - D) <= / 2 ^ 48 * D + n * (4 / 10 ^ 7) -> Rabs (L - T) <= (w - 1) * T -> Rabs (L - D) <= (16 + n) * / 2 ^ 52 * D + n * (5 / 10 ^ 7).
Proof.
  intros [N0 N1] P B [W1 W2] A C. assert (E : / 2 ^ 48 = 16 * / 2 ^ 52) by (change (2 ^ 52) with (16 * 2 ^ 48) || replace (2 ^ 52) with (16 * 2 ^ 48) by ring; rewrite Rinv_mult; lra). rewrite E in A. set (v := / 2 ^ 52) in *.
  assert (V : 0 < v) by (apply Rinv_0_lt_compat; lra). assert (VS : v * 2 ^ 52 = 1) by (unfold v; apply Rinv_l; lra). assert (V2 : 2 ^ 30 * v <= / 10 ^ 6). { apply (Rmult_le_reg_r (10 ^ 6)); [lra|]. rewrite Rinv_l by lra. lra. }
  assert (NV : n * v <= / 10 ^ 6). { apply Rle_trans with (2 ^ 30 * v); [apply Rmult_le_compat_r; lra|exact V2]. }
  apply Rabs_le_inv in A, C. assert (T2 : T <= D + 16 * v * D + n * (4 / 10 ^ 7)) by lra.
  assert (VD : v * D <= n * (/ 10 ^ 6)). { apply Rle_trans with (v * (n * 1000000000)); [apply Rmult_le_compat_l; lra|]. replace (v * (n * 1000000000)) with (n * (v * 1000000000)) by ring. apply Rmult_le_compat_l; lra. }
  assert (X : (w - 1) * T <= (w - 1) * (D + 16 * v * D + n * (4 / 10 ^ 7))) by (apply Rmult_le_compat_l; lra).
  assert (Q : 0 <= 16 * v * D) by (apply Rmult_le_pos; lra).
  assert (Y : (w - 1) * (D + 16 * v * D + n * (4 / 10 ^ 7)) <= n * v * (D + 16 * v * D + n * (4 / 10 ^ 7))) by (apply Rmult_le_compat_r; lra).
  assert (Z1 : n * v * (16 * v * D) <= / 10 ^ 6 * (16 * (n * / 10 ^ 6))) by (apply Rmult_le_compat; try lra; apply Rmult_le_pos; lra).
  assert (Z2 : n * v * (n * (4 / 10 ^ 7)) <= / 10 ^ 6 * (n * (4 / 10 ^ 7))) by (apply Rmult_le_compat_r; [apply Rmult_le_pos; lra|exact NV]).
  apply Rabs_le. lra.
Qed.
Lemma built_any lm : accurate lm -> forall crs p q b0 ps b Ps, lsb_with_line (ops := F64ops lm) crs p q = Ret (Ok b0) -> line_tos (ops := F64ops lm) b0 ps = Ret (Ok b) ->
  Forall2 (stands64 lm crs) (p :: q :: ps) Ps -> let n := INR (S (List.length ps)) in n <= 2 ^ 30 ->
  let L := ls_length (ops := F64ops lm) (lsb_build b) in is_finite L = true /\ Rabs (B2R L - way Ps) <= (16 + n) * / 2 ^ 52 * way Ps + n * (5 / 10 ^ 7).
Proof.
  intros AC crs p q b0 ps b Ps E0 E S n N L. destruct (build_spec crs p q b0 ps b E0 E) as (_ & ME & _). pose proof (measured_length _ _ _ ME) as LN. cbn [List.length] in LN.
  assert (EN : List.length (ls_len (lsb_build b)) = Datatypes.S (List.length ps)) by lia. destruct (measured_any lm AC crs _ _ ME Ps S) as (LL & R & B). rewrite EN in R, B. fold n in R, B.
  pose proof (way_pos Ps) as P. pose proof (pow_small _ N) as PW. pose proof (pow_ge1 (Datatypes.S (List.length ps))) as PG. fold n in PW. pose proof (pos_INR (Datatypes.S (List.length ps))) as N0. fold n in N0.
  pose proof (length64 lm (lsb_build b) _ eq_refl LL) as K. rewrite EN in K. set (w := (1 + / 2 ^ 53) ^ Datatypes.S (List.length ps)) in *. set (T := total (vals (ls_len (lsb_build b)))) in *.
  assert (V : 0 < / 2 ^ 52) by (apply Rinv_0_lt_compat; lra). assert (VN : n * / 2 ^ 52 <= 1). { apply Rle_trans with (2 ^ 30 * / 2 ^ 52); [apply Rmult_le_compat_r; lra|]. apply (Rmult_le_reg_r (2 ^ 52)); [lra|]. rewrite Rmult_assoc, Rinv_l by lra. lra. }
  destruct K as (F & _ & RL).
  { pose proof (total_pos _ LL) as TP. fold T in TP. assert (A : / 2 ^ 48 <= 1) by (rewrite <- Rinv_1; apply Rinv_le_contravar; [lra|cbn; lra]). apply Rabs_le_inv in R. assert (AD : / 2 ^ 48 * way Ps <= 1 * way Ps) by (apply Rmult_le_compat_r; lra).
    assert (TB : T <= 2 ^ 62) by lra. apply Rle_trans with (2 ^ 62 * 2); [apply Rmult_le_compat; lra|]. apply Rle_trans with (bpow radix2 63); [cbn; lra|]. apply bpow_le. lia. }
  split; [exact F|]. exact (final_any _ T _ w n (conj N0 N) P B (conj PG PW) R RL).
Qed.
