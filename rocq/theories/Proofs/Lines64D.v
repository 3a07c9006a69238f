(** Curves of several line strings in binary64, and an example. *)
From Coq Require Import Bool Reals Lra Lia List Arith ZArith.
From Flocq Require Import Core IEEE754.BinarySingleNaN.
From Verif.Num Require Import FOps F64 F64Lemmas RFun Near.
From Verif.Model Require Import Fp Quantities Cs Ellipsoid Geodesics Projections Crs Geometry.
From Verif.Spec Require Import Accurate Lines Lines64.
From Verif.Proofs Require Import LinesG LinesX LinesEx Lines64A Lines64B Lines64C.
Import ListNotations.
Local Open Scope R_scope.

Lemma curve_err d D t T r s r' n u W : 0 <= u -> 0 <= n -> r' <= s -> Rabs (r' - (s - d)) <= u * (s - d) -> 0 <= d -> Rabs (d - D) <= W * D ->
  Rabs (t + r - r') <= n * u * r' + T -> Rabs (D + t + r - s) <= (n + 1) * u * s + (W * D + T).
Proof.
  intros U N L R P E H. assert (X : n * u * r' <= n * u * s) by (apply Rmult_le_compat_l; [now apply Rmult_le_pos|exact L]). assert (Y : u * (s - d) <= u * s) by (apply Rmult_le_compat_l; lra).
  apply Rabs_le_inv in R, E, H. apply Rabs_le. lra.
Qed.

Section L.
Variable lm : libm.
Let O : FOps f64 := F64ops lm.
Local Existing Instance O.

Lemma cv_locate64 segs xs W : Forall2 (fun g x => line64 g (fst x) (snd x)) segs xs -> Forall (fun x => (1 + / 2 ^ 53) ^ List.length (snd x) - 1 <= W) xs -> 0 <= W ->
  forall (s : f64) k, is_finite s = true -> 0 <= B2R s <= bpow radix2 1000 ->
  (exists i g x (r : f64), cv_locate (ops := O) segs s k = ((k + i)%nat, r) /\ nth_error segs i = Some g /\ nth_error xs i = Some x /\ is_finite r = true /\ 0 <= B2R r <= B2R s /\ (B2R s = 0 -> i = 0%nat /\ r = s) /\ (0 < B2R s -> 0 < B2R r) /\
    B2R r <= B2R (ls_length (ops := O) g) /\
    Rabs (total (firstn i (totals xs)) + B2R r - B2R s) <= INR i * / 2 ^ 53 * B2R s + W * total (firstn i (totals xs))) \/
  fst (cv_locate (ops := O) segs s k) = (k + List.length segs)%nat.
Proof.
  intros H HW W0. pose proof u_pos as U. pose proof b1000 as BB. revert HW. induction H as [|g x segs xs G H IH]; intros HW s k FS PS.
  { right. cbn [cv_locate fst List.length]. lia. }
  inversion HW as [|? ? WX HW']; subst. destruct (length64 lm g (snd x) (l64_lengths _ _ _ G) (l64_finite _ _ _ G) (l64_total _ _ _ G)) as (FL & PL & EL). fold O in FL, PL, EL.
  cbn [cv_locate]. change (fle s (ls_length (ops := O) g)) with (Bleb s (ls_length (ops := O) g)). destruct (Bleb s (ls_length (ops := O) g)) eqn:LE.
  { left. exists 0%nat, g, x, s. apply leb64 in LE; [|assumption..]. split; [now rewrite Nat.add_0_r|]. split; [easy|]. split; [easy|]. split; [easy|]. split; [lra|]. split; [easy|]. split; [easy|]. split; [exact LE|]. unfold total; cbn [firstn fold_right INR]. rewrite Rplus_0_l. unfold Rminus. rewrite Rplus_opp_r, Rabs_R0. lra. }
  assert (LT : B2R (ls_length (ops := O) g) < B2R s). { apply Rnot_le_lt. intros C. apply (leb64 s _ FS FL) in C. congruence. }
  destruct (f64_minus s (ls_length (ops := O) g) FS FL) as [E F]. { rewrite Rabs_pos_eq by lra. lra. }
  pose proof (minus_rel s (ls_length (ops := O) g)) as R. rewrite <- E, (Rabs_pos_eq (B2R s - B2R (ls_length (ops := O) g))) in R by lra.
  assert (UP : B2R (Bminus mode_NE s (ls_length (ops := O) g)) <= B2R s). { rewrite E. apply Rle_trans with (rnd (B2R s)); [apply rnd_le; lra|rewrite rnd_B2R; apply Rle_refl]. } clear E.
  change (fsub (FOps := O) s (ls_length (ops := O) g)) with (Bminus mode_NE s (ls_length (ops := O) g)). set (s' := Bminus mode_NE s (ls_length (ops := O) g)) in *. set (u := / 2 ^ 53) in *.
  assert (U2 : u <= / 2). { unfold u. apply Rinv_le_contravar; [lra|]. cbn. lra. }
  assert (P' : 0 < B2R s'). { assert (u * (B2R s - B2R (ls_length (ops := O) g)) <= / 2 * (B2R s - B2R (ls_length (ops := O) g))) by (apply Rmult_le_compat_r; lra). apply Rabs_le_inv in R. lra. }
  destruct (IH HW' s' (S k) F ltac:(lra)) as [(i & g' & x' & r & EQ & NG & NX & FR & PR & _ & PR' & LG & ER)|EQ].
  - left. exists (S i), g', x', r. split; [rewrite EQ; f_equal; lia|]. split; [exact NG|]. split; [exact NX|]. split; [exact FR|]. split; [lra|]. split; [intros Z; exfalso; lra|].
    split; [intros _; exact (PR' P')|]. split; [exact LG|]. cbn [totals map firstn]. fold (totals xs). change (total (total (vals (snd x)) :: firstn i (totals xs))) with (total (vals (snd x)) + total (firstn i (totals xs))). rewrite S_INR, (Rmult_plus_distr_l W).
    pose proof (total_pos _ (l64_finite _ _ _ G)) as TP. assert (EL' : Rabs (B2R (ls_length (ops := O) g) - total (vals (snd x))) <= W * total (vals (snd x))). { apply (Rle_trans _ _ _ EL). apply Rmult_le_compat_r; assumption. }
    exact (curve_err _ _ _ _ _ _ _ _ _ _ (Rlt_le _ _ U) (pos_INR _) UP R PL EL' ER).
  - right. rewrite EQ. cbn [List.length]. lia.
Qed.

Lemma pieces_ge xs i x : nth_error xs i = Some x -> (i + List.length (snd x) <= pieces xs)%nat.
Proof.
  revert i. induction xs as [|y xs IH]; intros [|i] E; try discriminate; cbn [nth_error pieces fold_right] in *.
  - injection E as ->. lia.
  - apply IH in E. unfold pieces in E. lia.
Qed.
Lemma pieces_each xs x : In x xs -> (List.length (snd x) <= pieces xs)%nat.
Proof. intros I. apply In_nth_error in I. destruct I as [i E]. pose proof (pieces_ge xs i x E). lia. Qed.
Lemma totals_pos xs segs i : Forall2 (fun g x => line64 g (fst x) (snd x)) segs xs -> 0 <= total (firstn i (totals xs)) <= total (totals xs).
Proof.
  intros H. revert i. induction H as [|g x segs xs G H IH]; intros i. { rewrite firstn_nil. unfold total; cbn [totals map fold_right]. lra. }
  pose proof (total_pos _ (l64_finite _ _ _ G)) as P. change (totals (x :: xs)) with (total (vals (snd x)) :: totals xs). change (total (total (vals (snd x)) :: totals xs)) with (total (vals (snd x)) + total (totals xs)).
  destruct i as [|i]; cbn [firstn]. { unfold total at 1 2; cbn [fold_right]. specialize (IH 0%nat). lra. }
  change (total (total (vals (snd x)) :: firstn i (totals xs))) with (total (vals (snd x)) + total (firstn i (totals xs))). specialize (IH i). lra.
Qed.
Lemma curve_sum P t r s i n N u W T : 0 <= u -> 0 <= s -> r <= s -> 0 <= n -> i + n <= N -> 0 <= W -> P <= T -> Rabs (P + r - s) <= i * u * s + W * P -> Rabs (t - r) <= n * u * r -> Rabs (P + t - s) <= N * u * s + W * T.
Proof.
  intros U S L N0 I W0 PT A B. assert (X : n * u * r <= n * u * s) by (apply Rmult_le_compat_l; [now apply Rmult_le_pos|exact L]). assert (Y : W * P <= W * T) by (apply Rmult_le_compat_l; lra).
  assert (Z : (i + n) * (u * s) <= N * (u * s)) by (apply Rmult_le_compat_r; [now apply Rmult_le_pos|exact I]). apply Rabs_le_inv in A, B. apply Rabs_le. lra.
Qed.

Lemma curve_right c xs (s : f64) v : Forall2 (fun g x => line64 g (fst x) (snd x)) (cv_seg c) xs -> is_finite s = true -> 0 <= B2R s <= bpow radix2 1000 ->
  0 < B2R s \/ 0 < hd 0 (vals (snd (hd ([], []) xs))) -> cv_param (ops := O) c s = Ret v ->
  exists j pts ds t, nth_error xs j = Some (pts, ds) /\ computed_at pts (vals ds) t v /\
  Rabs (total (firstn j (totals xs)) + t - B2R s) <= INR (pieces xs) * / 2 ^ 53 * B2R s + ((1 + / 2 ^ 53) ^ pieces xs - 1) * total (totals xs).
Proof.
  intros H FS PS HS E. pose proof u_pos as U. pose proof (pow_ge1 (pieces xs)) as G1. unfold cv_param in E. destruct (fle s (cv_length (ops := O) c)); cbn [rassert] in E; [|discriminate E].
  assert (HW : Forall (fun x => (1 + / 2 ^ 53) ^ List.length (snd x) - 1 <= (1 + / 2 ^ 53) ^ pieces xs - 1) xs).
  { apply Forall_forall. intros x I. apply Rplus_le_compat_r. apply Rle_pow; [lra|]. now apply pieces_each. }
  assert (W0 : 0 <= (1 + / 2 ^ 53) ^ pieces xs - 1) by lra.
  destruct (cv_locate64 (cv_seg c) xs _ H HW W0 s 0 FS PS) as [(i & g & x & r & EQ & NG & NX & FR & PR & EZ & EP & LG & ER)|EQ].
  - rewrite EQ in E. cbn [plus] in E. rewrite NG in E. assert (GL : line64 g (fst x) (snd x)).
    { clear - H NG NX. revert i NG NX. induction H as [|a b segs ys A H IH]; intros [|i] NG NX; try discriminate; cbn in NG, NX; [injection NG as ->; injection NX as ->; exact A|]. exact (IH i NG NX). }
    assert (HR : 0 < B2R r \/ 0 < hd 0 (vals (snd x))).
    { destruct PS as [[P|Z] _]; [left; exact (EP P)|]. symmetry in Z. destruct (EZ Z) as [-> _]. destruct HS as [P|P]; [exfalso; lra|]. right. destruct xs as [|y ys]; [discriminate NX|]. cbn in NX. injection NX as ->. exact P. }
    destruct GL as [A1 A2 A3 A4 A5 A6]. destruct (param_right lm g (fst x) (snd x) A1 A2 A3 A4 A5 A6 r v FR (proj1 PR) HR E) as (t & C & RT).
    exists i, (fst x), (snd x), t. split; [rewrite NX; now destruct x|]. split; [exact C|].
    pose proof (pieces_ge xs i x NX) as PG. apply le_INR in PG. rewrite plus_INR in PG.
    exact (curve_sum _ _ _ _ _ _ _ _ _ _ (Rlt_le _ _ U) (proj1 PS) (proj2 PR) (pos_INR _) PG W0 (proj2 (totals_pos xs _ i H)) ER RT).
  - destruct (cv_locate (ops := O) (cv_seg c) s 0) as [ix res]. cbn [fst plus] in EQ. rewrite EQ in E. replace (nth_error (cv_seg c) (List.length (cv_seg c))) with (@None (LineString f64)) in E by (symmetry; apply nth_error_None; lia). discriminate E.
Qed.

(** A curve whose parameterisation panics in its interior. *)
Definition f_2 : f64 := f64_ofZ 2.
Definition f_3 : f64 := f64_ofZ 3.
Lemma curve_panics : exists l1 l2 b0 b s,
  ls_new 2 [f_0; f_0; f_1; f_0; f_1; f_small] [f_1; f_small] = Ret l1 /\ ls_new 2 [f_1; f_small; f_3; f_small] [f_2] = Ret l2 /\
  cvb_with_seg (plane (ops := O)) l1 = Ok b0 /\ cvb_append (ops := O) b0 l2 = Ret (Ok b) /\
  Bltb s (cv_length (ops := O) (cvb_build b)) = true /\ Bltb f_1 s = true /\ cv_param (ops := O) (cvb_build b) s = Panic.
Proof.
  do 4 eexists. exists (ls_length (ops := O) (mkLS 2 [f_0; f_0; f_1; f_0; f_1; f_small] [f_1; f_small])).
  split; [reflexivity|]. split; [reflexivity|]. split; [reflexivity|]. split; [reflexivity|]. split; [vm_compute; reflexivity|]. split; vm_compute; reflexivity.
Qed.

(** The line (0,0), (3,0), (3,2) meets the conditions. *)
Lemma line64_ex : line64 (mkLS 2 [f_0; f_0; f_3; f_0; f_3; f_2] [f_3; f_2]) [[f_0; f_0]; [f_3; f_0]; [f_3; f_2]] [f_3; f_2] /\ total (vals [f_3; f_2]) = 5.
Proof.
  assert (E0 : B2R f_0 = 0) by reflexivity.
  assert (E2 : B2R f_2 = 2 /\ is_finite f_2 = true). { destruct (B2R_const f_2 false 4503599627370496 (-51) ltac:(vm_compute; reflexivity)) as [-> E]. split; [unfold F2R; cbn; lra|exact E]. }
  assert (E3 : B2R f_3 = 3 /\ is_finite f_3 = true). { destruct (B2R_const f_3 false 6755399441055744 (-51) ltac:(vm_compute; reflexivity)) as [-> E]. split; [unfold F2R; cbn; lra|exact E]. }
  destruct E2 as [E2 F2], E3 as [E3 F3]. assert (T : total (vals [f_3; f_2]) = 5). { unfold total. cbn [vals map fold_right]. rewrite E2, E3. lra. }
  assert (B : 1024 <= bpow radix2 1000). { change 1024 with (bpow radix2 10). apply bpow_le. lia. }
  split; [|exact T]. constructor.
  - split; [reflexivity|]. intros [|[|[|i]]] p E; cbn in E; try (injection E as <-; reflexivity). now destruct i.
  - reflexivity.
  - reflexivity.
  - constructor; [split; [exact F3|]|constructor; [split; [exact F2|]|constructor]]. { rewrite E3; lra. } rewrite E2; lra.
  - assert (W0 : is_finite f_0 = true /\ Rabs (B2R f_0) <= bpow radix2 1000) by (split; [reflexivity|rewrite E0, Rabs_R0; lra]).
    assert (W2 : is_finite f_2 = true /\ Rabs (B2R f_2) <= bpow radix2 1000) by (split; [exact F2|rewrite E2, Rabs_pos_eq; lra]).
    assert (W3 : is_finite f_3 = true /\ Rabs (B2R f_3) <= bpow radix2 1000) by (split; [exact F3|rewrite E3, Rabs_pos_eq; lra]).
    unfold within64. repeat first [apply Forall_nil|apply Forall_cons]; first [exact W0|exact W2|exact W3].
  - rewrite T. cbn [List.length]. pose proof u_pos as U. assert (U1 : / 2 ^ 53 <= 1) by (rewrite <- Rinv_1; apply Rinv_le_contravar; [lra|cbn; lra]). set (u := / 2 ^ 53) in *. cbn [pow]. assert (u * u <= 1 * 1) by (apply Rmult_le_compat; lra). lra.
Qed.
End L.
