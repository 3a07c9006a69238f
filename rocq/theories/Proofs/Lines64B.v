(** Line strings in binary64: points at a given arc length, distances, built lines. *)
From Coq Require Import Bool Reals Lra Lia List Arith ZArith.
From Flocq Require Import Core IEEE754.BinarySingleNaN.
From Verif.Num Require Import FOps F64 F64Lemmas RFun Near.
From Verif.Model Require Import Fp Quantities Cs Ellipsoid Geodesics Projections Crs Geometry.
From Verif.Spec Require Import Accurate Lines Lines64.
From Verif.Proofs Require Import LinesG NearL Lines64A.
Import ListNotations.
Local Open Scope R_scope.

Lemma exp_pow u n : 0 <= u -> (1 + u) ^ n <= exp (INR n * u).
Proof.
  intros U. induction n as [|n IH]; [cbn; rewrite Rmult_0_l, exp_0; lra|]. rewrite S_INR, Rmult_plus_distr_r, exp_plus, Rmult_1_l. cbn [pow]. rewrite Rmult_comm.
  apply Rmult_le_compat; [apply pow_le; lra|lra|exact IH|]. pose proof (exp_ineq1_le u). lra.
Qed.
(** What is below the rounded sum by [2 n] units of rounding is reached before the end. *)
Lemma in_reach s L T n u : 0 <= u -> 0 <= s -> 0 <= T -> 0 <= L -> L <= T * (1 + u) ^ n -> s <= L * (1 - 2 * (INR n * u)) -> s * (1 + INR n * u) <= T.
Proof.
  intros U S T0 L0 L1 H. set (x := INR n * u) in *. assert (X : 0 <= x) by (apply Rmult_le_pos; [apply pos_INR|exact U]).
  assert (A : s * (1 + x) <= L * (1 - x)). { apply Rle_trans with (L * (1 - 2 * x) * (1 + x)); [apply Rmult_le_compat_r; lra|]. rewrite Rmult_assoc. apply Rmult_le_compat_l; [exact L0|]. nra. }
  destruct (Rle_lt_dec (1 - x) 0) as [N|P]. { assert (L * (1 - x) <= L * 0) by (apply Rmult_le_compat_l; lra). lra. }
  apply (Rle_trans _ _ _ A). apply Rle_trans with (T * (1 + u) ^ n * (1 - x)); [apply Rmult_le_compat_r; lra|]. rewrite Rmult_assoc. rewrite <- (Rmult_1_r T) at 2. apply Rmult_le_compat_l; [exact T0|].
  apply Rle_trans with (exp x * exp (- x)); [|rewrite <- exp_plus, Rplus_opp_r, exp_0; lra]. apply Rmult_le_compat; [apply pow_le; lra|lra|now apply exp_pow|]. pose proof (exp_ineq1_le (- x)). lra.
Qed.

Lemma below s L x : 0 <= L -> 0 <= x -> s <= L * (1 - 2 * x) -> s <= L.
Proof. intros A B C. assert (L * (1 - 2 * x) <= L * 1) by (apply Rmult_le_compat_l; lra). lra. Qed.
Lemma le_sum L T w : Rabs (L - T) <= (w - 1) * T -> L <= T * w.
Proof. intros H. apply Rabs_le_inv in H. lra. Qed.

Section L.
Variable lm : libm.
Let O : FOps f64 := F64ops lm.
Local Existing Instance O.

Lemma vals_nth ds i d : nth_error ds i = Some d -> nth i (vals ds) 0 = B2R d.
Proof. intros E. apply nth_error_nth. unfold vals. exact (map_nth_error (@B2R 53 1024) i ds E). Qed.

Section Line.
Variables (l : LineString f64) (pts : list (list f64)) (ds : list f64).
Hypothesis HP : has_positions l pts.
Hypothesis HL : ls_len l = ds.
Hypothesis HN : List.length pts = S (List.length ds).
Hypothesis HD : lengths64 ds.
Hypothesis HW : Forall (within64 (bpow radix2 1000)) pts.
Hypothesis HT : total (vals ds) * (1 + / 2 ^ 53) ^ List.length ds <= bpow radix2 1000.

Lemma pts_dim i p : nth_error pts i = Some p -> List.length p = ls_coord_dim l.
Proof. intros E. apply HP in E. exact (nth_pos_length _ _ _ _ E). Qed.
Lemma past_end : ls_nth l (List.length ds + 1) = Panic.
Proof.
  destruct HP as [HC HQ]. rewrite HN in HC. unfold ls_n, n_pos in HC. unfold ls_nth, nth_pos, slice.
  assert (D : ls_coord_dim l <> 0%nat). { intros E. rewrite E in HC. cbn in HC. lia. }
  replace (Nat.leb ((List.length ds + 1) * ls_coord_dim l) ((List.length ds + 1 + 1) * ls_coord_dim l)) with true by (symmetry; apply Nat.leb_le, Nat.mul_le_mono_r; lia).
  replace (Nat.leb ((List.length ds + 1 + 1) * ls_coord_dim l) (List.length (ls_pos l))) with false; [reflexivity|]. symmetry. apply Nat.leb_gt.
  pose proof (Nat.mul_succ_div_gt (List.length (ls_pos l)) (ls_coord_dim l) D) as G. rewrite HC in G. replace (List.length ds + 1 + 1)%nat with (S (S (List.length ds))) by lia. lia.
Qed.
Lemma in64 i p : nth_error pts i = Some p -> within64 (bpow radix2 1000) p.
Proof. intros E. apply nth_error_In in E. rewrite Forall_forall in HW. now apply HW. Qed.

Lemma param64 (s : f64) : is_finite s = true -> 0 <= B2R s -> 0 < B2R s \/ 0 < hd 0 (vals ds) -> B2R s <= B2R (ls_length (ops := O) l) ->
  (exists v t, ls_param (ops := O) l s = Ret v /\ computed_at pts (vals ds) t v /\ Rabs (t - B2R s) <= INR (List.length ds) * / 2 ^ 53 * B2R s) \/
  (ls_param (ops := O) l s = Panic /\ total (vals ds) < B2R s * (1 + INR (List.length ds) * / 2 ^ 53)).
Proof.
  intros FS PS HS LS. destruct (length64 lm l ds HL HD HT) as (FL & PL & EL). pose proof (total_pos ds HD) as TP. pose proof u_pos as U.
  assert (LE : B2R s <= bpow radix2 1000). { exact (Rle_trans _ _ _ LS (Rle_trans _ _ _ (le_sum _ _ _ EL) HT)). }
  unfold ls_param. change (fle s (ls_length (ops := O) l)) with (Bleb s (ls_length (ops := O) l)). replace (Bleb s (ls_length (ops := O) l)) with true by (symmetry; now apply leb64). cbn [rassert]. rewrite HL.
  destruct (locate64 lm ds HD s 0 FS (conj PS LE) HS) as [(i & d & r & E & LI & NE & FR & PR & DP & ER)|[E ER]]; fold O in E; rewrite E; cbn [plus].
  - left. destruct (nth_error pts i) as [p|] eqn:Ep. 2:{ apply nth_error_None in Ep. lia. } destruct (nth_error pts (S i)) as [q|] eqn:Eq. 2:{ apply nth_error_None in Eq. lia. }
    rewrite (proj2 HP _ _ Ep). cbn [obind]. rewrite Nat.add_1_r, (proj2 HP _ _ Eq). cbn [obind].
    destruct (ratio64 r d FR PR DP) as (FT & PT & ET). eexists _, (total (firstn i (vals ds)) + B2R r). split; [reflexivity|]. split.
    + exists i, (B2R r / B2R d), p, q. split; [exact Ep|]. split; [exact Eq|]. split; [unfold vals; now rewrite map_length|]. split.
      { split; [apply Rmult_le_pos; [lra|left; now apply Rinv_0_lt_compat]|]. apply (Rmult_le_reg_r (B2R d)); [easy|]. replace (B2R r / B2R d * B2R d) with (B2R r) by (field; lra). lra. }
      split; [rewrite (vals_nth ds i d NE); field; lra|]. apply (interpolate64 lm); [exact FT|exact PT|exact ET|exact (in64 _ _ Ep)|exact (in64 _ _ Eq)|]. now rewrite (pts_dim _ _ Ep), (pts_dim _ _ Eq).
    + apply (Rle_trans _ _ _ ER). apply Rmult_le_compat_r; [lra|]. apply Rmult_le_compat_r; [lra|]. apply le_INR. lia.
  - right. split; [|exact ER]. destruct (nth_error pts (List.length ds)) as [p|] eqn:Ep. 2:{ apply nth_error_None in Ep. lia. }
    change (@List.length (binary_float 53 1024) ds) with (@List.length f64 ds). rewrite (proj2 HP _ _ Ep). cbn [obind]. change (obind (ls_nth l (List.length ds + 1)) (fun end_ => Ret (interpolate (ops := O) (f64_ofZ 0) p end_)) = Panic). now rewrite past_end.
Qed.

Lemma param_right (s : f64) v : is_finite s = true -> 0 <= B2R s -> 0 < B2R s \/ 0 < hd 0 (vals ds) -> ls_param (ops := O) l s = Ret v ->
  exists t, computed_at pts (vals ds) t v /\ Rabs (t - B2R s) <= INR (List.length ds) * / 2 ^ 53 * B2R s.
Proof.
  intros FS PS HS E. destruct (length64 lm l ds HL HD HT) as (FL & _ & _). destruct (Rle_lt_dec (B2R s) (B2R (ls_length (ops := O) l))) as [L|L].
  - destruct (param64 s FS PS HS L) as [(v' & t & E' & C & R)|[E' _]]; rewrite E' in E; [|discriminate E]. exists t. injection E as E. rewrite <- E. split; [exact C|exact R].
  - exfalso. unfold ls_param in E. change (fle s (ls_length (ops := O) l)) with (Bleb s (ls_length (ops := O) l)) in E. destruct (Bleb s (ls_length (ops := O) l)) eqn:B; [|discriminate]. apply leb64 in B; [|assumption..]. lra.
Qed.
Lemma param_returns (s : f64) : is_finite s = true -> 0 <= B2R s -> 0 < B2R s \/ 0 < hd 0 (vals ds) -> B2R s <= B2R (ls_length (ops := O) l) * (1 - INR (List.length ds) * / 2 ^ 52) ->
  exists v, ls_param (ops := O) l s = Ret v.
Proof.
  intros FS PS HS LS. destruct (length64 lm l ds HL HD HT) as (_ & PL & EL). pose proof (total_pos ds HD) as TP. pose proof u_pos as U.
  assert (E2 : / 2 ^ 52 = 2 * / 2 ^ 53) by (cbn; lra). rewrite E2 in LS. set (L := ls_length (ops := O) l) in *.
  assert (I : 0 <= INR (List.length ds) * / 2 ^ 53) by (apply Rmult_le_pos; [apply pos_INR|lra]).
  replace (INR (List.length ds) * (2 * / 2 ^ 53)) with (2 * (INR (List.length ds) * / 2 ^ 53)) in LS by ring.
  destruct (param64 s FS PS HS) as [(v & t & E & _)|[_ C]]; [|now exists v|].
  - exact (below _ _ _ PL I LS).
  - exfalso. pose proof (le_sum _ _ _ EL) as K.
    exact (Rlt_not_le _ _ C (in_reach _ _ _ _ _ (Rlt_le _ _ U) PS TP PL K LS)).
Qed.
End Line.
End L.
