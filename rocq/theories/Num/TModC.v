(** The truncated polynomials of TMod.v and TModL.v at complex values of the variables. *)
From Coq Require Import Reals QArith Qreals Qabs Lra Lia List Bool ZArith.
From Coquelicot Require Import Complex.
From Verif.Num Require Import TMod TModL.
Import ListNotations.
Open Scope C_scope.

Definition CQ (q : Q) : C := RtoC (Q2R q).
Fixpoint cpow (z : C) (k : nat) : C := match k with O => 1 | S k => z * cpow z k end.
Lemma Cmod_cpow z k : Cmod (cpow z k) = (Cmod z ^ k)%R.
Proof. induction k as [|k IH]; [apply Cmod_1|]. cbn [cpow pow]. now rewrite Cmod_mult, IH. Qed.
Lemma Cmod_sub_triang (x y : C) : (Cmod (x - y)%C <= Cmod x + Cmod y)%R.
Proof. unfold Cminus. eapply Rle_trans; [apply Cmod_triangle|]. rewrite Cmod_opp. lra. Qed.
Fixpoint evc (n : nat) (env : nat -> C) : mp n -> C :=
  match n with O => CQ | S m => fold_right (fun a r => evc m env a + env m * r) (RtoC 0) end.
Lemma CQ_plus' a b : CQ (Qplus' a b) = CQ a + CQ b.
Proof. unfold CQ. now rewrite Q2R_plus', RtoC_plus. Qed.
Lemma CQ_mult' a b : CQ (Qmult' a b) = CQ a * CQ b.
Proof. unfold CQ. now rewrite Q2R_mult', RtoC_mult. Qed.
Lemma CQ_opp a : CQ (- a) = - CQ a.
Proof. unfold CQ. now rewrite Q2R_opp, RtoC_opp. Qed.
Lemma CQ_0 : CQ 0 = 0. Proof. unfold CQ. now rewrite Q2R_0. Qed.
Lemma CQ_1 : CQ 1 = 1. Proof. unfold CQ. now rewrite Q2R_1. Qed.
Lemma CQ_abs q : Cmod (CQ q) = Q2R (Qabs q).
Proof. unfold CQ. now rewrite Cmod_R, Q2R_abs. Qed.

Section E.
Context (env : nat -> C).
Lemma evc_con n q : evc n env (pcon n q) = CQ q.
Proof. induction n as [|n IH]; [reflexivity|]. cbn [evc pcon fold_right]. rewrite IH. ring. Qed.
Lemma evc_zero n : evc n env (pzero n) = 0.
Proof. destruct n; [apply CQ_0|reflexivity]. Qed.
Lemma evc_var n i : (i < n)%nat -> evc n env (pvar n i) = env i.
Proof.
  induction n as [|n IH]; intros H; [lia|]. cbn [pvar]. destruct (Nat.eqb i n) eqn:E.
  - apply Nat.eqb_eq in E. subst. cbn [evc fold_right]. rewrite evc_zero, evc_con, CQ_1. ring.
  - apply Nat.eqb_neq in E. cbn [evc fold_right]. rewrite IH by lia. ring.
Qed.
Lemma evc_cons n (a : mp n) (l : list (mp n)) : evc (S n) env (a :: l) = evc n env a + env n * evc (S n) env l.
Proof. reflexivity. Qed.
Lemma evc_add n : forall p q, evc n env (padd n p q) = evc n env p + evc n env q.
Proof.
  induction n as [|n IH]; [apply CQ_plus'|]. intros p. induction p as [|a p IHp]; intros q; [cbn; ring|].
  destruct q as [|b q]; [cbn [padd zipw]; change (evc (S n) env []) with (RtoC 0); ring|]. cbn [padd zipw]. rewrite !evc_cons, IH.
  specialize (IHp q). cbn [padd zipw] in IHp. rewrite IHp. ring.
Qed.
Lemma evc_opp n : forall p, evc n env (popp n p) = - evc n env p.
Proof. induction n as [|n IH]; [apply CQ_opp|]. intros p. induction p as [|a p IHp]; [cbn; ring|]. cbn [popp map]. rewrite !evc_cons, IH. cbn [popp] in IHp. rewrite IHp. ring. Qed.
Lemma evc_map n f k : (forall q, evc n env (f q) = k * evc n env q) -> forall q, evc (S n) env (map f q) = k * evc (S n) env q.
Proof. intros H q. induction q as [|b q IH]; [cbn; ring|]. cbn [map]. rewrite !evc_cons, H, IH. ring. Qed.
Lemma evc_mul n : forall p q, evc n env (pmul n p q) = evc n env p * evc n env q.
Proof.
  induction n as [|n IH]; [apply CQ_mult'|]. intros p. induction p as [|a p IHp]; intros q; [cbn; ring|].
  change (pmul (S n) (a :: p) q) with (padd (S n) (map (pmul n a) q) (pzero n :: pmul (S n) p q)).
  rewrite evc_add, !evc_cons, IHp, evc_zero, (evc_map n _ (evc n env a)) by (intros; apply IH). ring.
Qed.
Lemma evc_z n : forall p, pz n p = true -> evc n env p = 0.
Proof.
  induction n as [|n IH]; intros p H.
  - apply Qeq_bool_eq in H. change (evc 0 env p) with (RtoC (Q2R p)). rewrite (Qeq_eqR _ _ H), Q2R_0. reflexivity.
  - induction p as [|a p IHp]; [reflexivity|]. cbn [pz forallb] in H. apply andb_true_iff in H as [H1 H2]. rewrite evc_cons, (IH a H1), (IHp H2). ring.
Qed.
Context (rad : nat -> Q).
Lemma evc_nrm n : (forall i, (i < n)%nat -> (Cmod (env i) <= Q2R (rad i))%R) -> forall p, (Cmod (evc n env p) <= Q2R (nrm n rad p))%R.
Proof.
  induction n as [|n IH]; intros H p; [cbn [nrm evc]; rewrite CQ_abs; apply Rle_refl|].
  induction p as [|a p IHp]; [cbn; rewrite Q2R_0, Cmod_0; lra|]. cbn [nrm fold_right]. rewrite evc_cons, Q2R_plus', Q2R_mult'.
  eapply Rle_trans; [apply Cmod_triangle|]. apply Rplus_le_compat; [apply IH; intros; apply H; lia|]. rewrite Cmod_mult.
  apply Rmult_le_compat; [apply Cmod_ge_0|apply Cmod_ge_0|apply H; lia|apply IHp].
Qed.
Lemma evc_split n k : forall p : mp (S n), evc (S n) env p = evc (S n) env (firstn k p : mp (S n)) + cpow (env n) k * evc (S n) env (skipn k p : mp (S n)).
Proof.
  induction k as [|k IH]; intros p; [cbn [firstn skipn cpow]; change (evc (S n) env []) with (RtoC 0); ring|].
  destruct p as [|a p]; [cbn; ring|]. cbn [firstn skipn]. rewrite !evc_cons, (IH p). cbn [cpow]. ring.
Qed.
End E.
Fixpoint evalc (env fe : nat -> C) (e : ex) : C :=
  match e with
  | EC q => CQ q | EV i => env i | EF j => fe j
  | EAdd a b => evalc env fe a + evalc env fe b
  | ESub a b => evalc env fe a - evalc env fe b
  | EMul a b => evalc env fe a * evalc env fe b
  end.
Open Scope R_scope.
Section T.
Context (n N : nat) (rad : nat -> Q).
Notation tm := (tm n).
Notation tp := (tp n).
Notation te := (te n).
Notation tcut := (tcut n N rad).
Notation tadd := (tadd n).
Notation tsub := (tsub n).
Notation tmul := (tmul n N rad).
Notation etm := (etm n N rad).
Notation ewf := (ewf n).
Context (env : nat -> C) (HE : forall i, (i <= n)%nat -> Cmod (env i) <= Q2R (rad i)).
Let HE' : forall i, (i < S n)%nat -> Cmod (env i) <= Q2R (rad i). Proof. intros i H. apply HE. lia. Qed.
Definition oktc (x : C) (m : tm) : Prop := Cmod (x - evc (S n) env (tp m))%C <= Q2R (te m) * Cmod (env n) ^ N.
Let X0 : 0 <= Cmod (env n) ^ N. Proof. apply pow_le, Cmod_ge_0. Qed.
Lemma oktc_cut x p e : Cmod (x - evc (S n) env p)%C <= Q2R e * Cmod (env n) ^ N -> oktc x (tcut p e).
Proof.
  intros H. unfold oktc, TMod.tcut. cbn [TMod.tp TMod.te]. rewrite (evc_split env n N p) in H.
  apply (Rle_trans _ (Q2R (Qplus' (nrm (S n) rad (skipn N p)) e) * Cmod (env n) ^ N)); [|apply Rmult_le_compat_r; [exact X0|apply qup_R]].
  set (lo := evc (S n) env (firstn N p)) in *. set (hi := evc (S n) env (skipn N p)) in *.
  replace (x - lo)%C with (x - (lo + cpow (env n) N * hi) + cpow (env n) N * hi)%C by ring. eapply Rle_trans; [apply Cmod_triangle|].
  rewrite Q2R_plus', Rmult_plus_distr_r, Rplus_comm. apply Rplus_le_compat; [|exact H]. rewrite Cmod_mult, Cmod_cpow, Rmult_comm.
  apply Rmult_le_compat_r; [exact X0|]. apply evc_nrm. exact HE'.
Qed.
Lemma czero (x y : C) : x = y -> Cmod (x - y)%C = 0.
Proof. intros ->. replace (y - y)%C with (RtoC 0) by ring. apply Cmod_0. Qed.
Lemma oktc_con q : oktc (CQ q) (tcut (pcon (S n) q) 0).
Proof. apply oktc_cut. rewrite czero by (now rewrite evc_con). rewrite Q2R_0. lra. Qed.
Lemma oktc_var i : (i <= n)%nat -> oktc (env i) (tcut (pvar (S n) i) 0).
Proof. intros H. apply oktc_cut. rewrite czero by (rewrite evc_var by lia; reflexivity). rewrite Q2R_0. lra. Qed.
Lemma oktc_add x y m m' : oktc x m -> oktc y m' -> oktc (x + y)%C (tadd m m').
Proof.
  unfold oktc, TMod.tadd. intros H H'. cbn [TMod.tp TMod.te]. rewrite evc_add, Q2R_plus'.
  replace (x + y - (evc (S n) env (tp m) + evc (S n) env (tp m')))%C with (x - evc (S n) env (tp m) + (y - evc (S n) env (tp m')))%C by ring. eapply Rle_trans; [apply Cmod_triangle|lra].
Qed.
Lemma oktc_sub x y m m' : oktc x m -> oktc y m' -> oktc (x - y)%C (tsub m m').
Proof.
  unfold oktc, TMod.tsub. intros H H'. cbn [TMod.tp TMod.te]. rewrite evc_add, evc_opp, Q2R_plus'.
  replace (x - y - (evc (S n) env (tp m) + - evc (S n) env (tp m')))%C with (x - evc (S n) env (tp m) - (y - evc (S n) env (tp m')))%C by ring. eapply Rle_trans; [apply Cmod_sub_triang|lra].
Qed.
Lemma oktc_mul x y m m' : oktc x m -> oktc y m' -> oktc (x * y)%C (tmul m m').
Proof.
  destruct m as [p e]. destruct m' as [q f]. unfold TMod.tmul. intros H H'. apply oktc_cut. unfold oktc in *. cbn [TMod.tp TMod.te] in *. rewrite evc_mul, !Q2R_plus', !Q2R_mult', qpow_R.
  pose proof (evc_nrm env rad (S n) HE' p) as Np. pose proof (evc_nrm env rad (S n) HE' q) as Nq.
  set (P := evc (S n) env p) in *. set (Q := evc (S n) env q) in *. set (z := Cmod (env n) ^ N) in *.
  assert (R : z <= Q2R (rad n) ^ N) by (apply pow_incr; split; [apply Cmod_ge_0|apply HE; lia]).
  replace (x * y - P * Q)%C with ((x - P) * Q + ((y - Q) * P + (x - P) * (y - Q)))%C by ring.
  pose proof (Cmod_ge_0 (x - P)%C). pose proof (Cmod_ge_0 (y - Q)%C). pose proof (Cmod_ge_0 P). pose proof (Cmod_ge_0 Q).
  eapply Rle_trans; [apply Cmod_triangle|]. eapply Rle_trans; [apply Rplus_le_compat_l, Cmod_triangle|]. rewrite !Cmod_mult.
  rewrite !Rmult_plus_distr_r. repeat apply Rplus_le_compat.
  - replace (Q2R e * Q2R (nrm (S n) rad q) * z) with (Q2R e * z * Q2R (nrm (S n) rad q)) by ring. now apply Rmult_le_compat.
  - replace (Q2R f * Q2R (nrm (S n) rad p) * z) with (Q2R f * z * Q2R (nrm (S n) rad p)) by ring. now apply Rmult_le_compat.
  - replace (Q2R e * Q2R f * Q2R (rad n) ^ N * z) with (Q2R e * z * Q2R f * Q2R (rad n) ^ N) by ring.
    apply (Rle_trans _ (Q2R e * z * (Q2R f * z))); [now apply Rmult_le_compat|]. replace (Q2R e * z * (Q2R f * z)) with (Q2R e * z * Q2R f * z) by ring.
    destruct (Req_dec z 0) as [Z0|Z0]; [rewrite Z0; replace (Q2R e * 0 * Q2R f * 0) with 0 by ring; replace (Q2R e * 0 * Q2R f * Q2R (rad n) ^ N) with 0 by ring; apply Rle_refl|].
    apply Rmult_le_compat_l; [|exact R]. assert (0 < z) by (pose proof X0; unfold z in *; lra).
    assert (0 <= Q2R e) by (apply (Rmult_le_reg_r z); [assumption|rewrite Rmult_0_l; eapply Rle_trans; [|exact H]; assumption]). assert (0 <= Q2R f) by (apply (Rmult_le_reg_r z); [assumption|rewrite Rmult_0_l; eapply Rle_trans; [|exact H']; assumption]). apply Rmult_le_pos; [apply Rmult_le_pos; [assumption|left; assumption]|assumption].
Qed.
Context (fe : nat -> C) (ft : nat -> tm) (HF : forall j, oktc (fe j) (ft j)).
Lemma etmc_ok e : ewf e = true -> oktc (evalc env fe e) (etm ft e).
Proof.
  induction e; cbn [TMod.ewf evalc TMod.etm]; intros H.
  - apply oktc_con. - apply oktc_var. now apply Nat.leb_le. - apply HF.
  - apply andb_true_iff in H as [H1 H2]. apply oktc_add; auto. - apply andb_true_iff in H as [H1 H2]. apply oktc_sub; auto. - apply andb_true_iff in H as [H1 H2]. apply oktc_mul; auto.
Qed.
Lemma smalljc_ok j k x m : oktc x m -> smallj n N rad j k m = true -> Cmod x <= Q2R k * Cmod (env n) ^ j.
Proof.
  unfold smallj, oktc. intros H S. apply andb_true_iff in S as [S S4]. apply andb_true_iff in S as [S S3]. apply andb_true_iff in S as [S1 S2]. apply Nat.leb_le in S1.
  apply Qle_bool_iff, Qle_Rle in S3. apply Qle_bool_iff, Qle_Rle in S4. rewrite Q2R_0 in S4. rewrite Q2R_plus', Q2R_mult', qpow_R in S3. rewrite (evc_split env n j (tp m)), (evc_z env (S n) _ S2), Cplus_0_l in H.
  pose proof (evc_nrm env rad (S n) HE' (skipn j (tp m))) as B. set (P := evc (S n) env (skipn j (tp m))) in *. assert (Xj : 0 <= Cmod (env n) ^ j) by apply pow_le, Cmod_ge_0.
  replace x with (x - cpow (env n) j * P + cpow (env n) j * P)%C by ring. eapply Rle_trans; [apply Cmod_triangle|]. apply (Rle_trans _ (Q2R (te m) * Cmod (env n) ^ N + Cmod (env n) ^ j * Q2R (nrm (S n) rad (skipn j (tp m))))).
  { apply Rplus_le_compat; [exact H|]. rewrite Cmod_mult, Cmod_cpow. now apply Rmult_le_compat_l. }
  replace (Cmod (env n) ^ N) with (Cmod (env n) ^ (N - j) * Cmod (env n) ^ j) by (rewrite <- pow_add; f_equal; lia).
  apply (Rle_trans _ ((Q2R (nrm (S n) rad (skipn j (tp m))) + Q2R (te m) * Q2R (rad n) ^ (N - j)) * Cmod (env n) ^ j)); [|now apply Rmult_le_compat_r].
  assert (R : Cmod (env n) ^ (N - j) <= Q2R (rad n) ^ (N - j)) by (apply pow_incr; split; [apply Cmod_ge_0|apply HE; lia]).
  rewrite Rmult_plus_distr_r, Rplus_comm. apply Rplus_le_compat; [lra|]. rewrite <- Rmult_assoc. apply Rmult_le_compat_r; [exact Xj|]. now apply Rmult_le_compat_l.
Qed.
End T.
Lemma noftc_ok n N env j : oktc n N env (RtoC 0) (noft n j).
Proof. unfold oktc, noft. cbn [tp te evc fold_right]. replace (RtoC 0 - RtoC 0)%C with (RtoC 0) by ring. rewrite Q2R_0, Cmod_0. lra. Qed.
Fixpoint valsc (env : nat -> C) (l : list ex) (acc : list C) : list C :=
  match l with [] => acc | e :: l' => valsc env l' (acc ++ [evalc env (fun j => nth j acc (RtoC 0)) e]) end.
Definition fvalsc (env : nat -> C) (l : list ex) (j : nat) : C := nth j (valsc env l []) (RtoC 0).

Section L.
Context (n N : nat) (rad : nat -> Q) (env : nat -> C) (HE : forall i, (i <= n)%nat -> Cmod (env i) <= Q2R (rad i)).
Lemma tmsc_ok l : forall va ta, length va = length ta -> (forall j, oktc n N env (nth j va (RtoC 0)) (nth j ta (noft n 0))) -> forallb (ewf n) l = true ->
  forall j, oktc n N env (nth j (valsc env l va) (RtoC 0)) (nth j (tms n N rad l ta) (noft n 0)).
Proof.
  induction l as [|e l IH]; intros va ta HL H W; [exact H|]. cbn [forallb] in W. apply andb_true_iff in W as [W1 W2]. cbn [valsc tms]. apply IH; [rewrite !app_length; cbn [length]; lia| |exact W2].
  intros j. destruct (Nat.lt_ge_cases j (length va)) as [Lt|Ge].
  - rewrite !app_nth1 by lia. apply H.
  - rewrite !app_nth2 by lia. rewrite <- HL. destruct (j - length va)%nat as [|k].
    + cbn [nth]. apply (etmc_ok n N rad env HE); [|exact W1]. exact H.
    + assert (Z : oktc n N env (RtoC 0) (noft n 0)) by apply (noftc_ok n N env 0). destruct k; exact Z.
Qed.
Lemma letc_smallj l e j k : forallb (ewf n) l && ewf n e && (let ts := tms n N rad l [] in smallj n N rad j k (etm n N rad (fun j => nth j ts (noft n 0)) e)) = true ->
  Cmod (evalc env (fvalsc env l) e) <= Q2R k * Cmod (env n) ^ j.
Proof.
  intros H. apply andb_true_iff in H as [H H3]. apply andb_true_iff in H as [H1 H2]. cbv zeta in H3. apply (smalljc_ok n N rad env HE) with (2 := H3). apply (etmc_ok n N rad env HE); [|exact H2].
  intros i. apply tmsc_ok; [reflexivity| |exact H1]. intros [|i']; apply (noftc_ok n N env 0).
Qed.
End L.
