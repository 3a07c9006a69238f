(** Polynomials in several variables with rational coefficients, truncated at a power of the last
    variable with a bound on what is left out; used to compare series. *)
From Coq Require Import Reals QArith Qreals Qabs Qreduction Lra Lia List Bool ZArith.
Import ListNotations.

Fixpoint mp (n : nat) : Type := match n with O => Q | S m => list (mp m) end.
Definition zipw {A} (f : A -> A -> A) : list A -> list A -> list A :=
  fix z l q := match l, q with [], _ => q | _, [] => l | a :: l', b :: q' => f a b :: z l' q' end.
Fixpoint pcon (n : nat) (q : Q) : mp n := match n with O => q | S m => [pcon m q] end.
Definition pzero (n : nat) : mp n := match n with O => 0%Q | S m => [] end.
Fixpoint pvar (n i : nat) : mp n :=
  match n with O => 0%Q | S m => if Nat.eqb i m then [pzero m; pcon m 1] else [pvar m i] end.
Fixpoint padd (n : nat) : mp n -> mp n -> mp n := match n with O => Qplus' | S m => zipw (padd m) end.
Fixpoint popp (n : nat) : mp n -> mp n := match n with O => Qopp | S m => map (popp m) end.
Fixpoint pmul (n : nat) : mp n -> mp n -> mp n :=
  match n with
  | O => Qmult'
  | S m => fix mul l q := match l with [] => [] | a :: l' => zipw (padd m) (map (pmul m a) q) (pzero m :: mul l' q) end
  end.
Fixpoint nrm (n : nat) (rad : nat -> Q) : mp n -> Q :=
  match n with O => Qabs | S m => fold_right (fun a r => Qplus' (nrm m rad a) (Qmult' (rad m) r)) 0%Q end.
Fixpoint pz (n : nat) : mp n -> bool := match n with O => fun q => Qeq_bool q 0 | S m => forallb (pz m) end.
Open Scope R_scope.
Fixpoint ev (n : nat) (env : nat -> R) : mp n -> R :=
  match n with O => Q2R | S m => fold_right (fun a r => ev m env a + env m * r) 0 end.

Lemma Q2R_plus' a b : Q2R (Qplus' a b) = Q2R a + Q2R b.
Proof. unfold Qplus'. rewrite <- Q2R_plus. apply Qeq_eqR, Qred_correct. Qed.
Lemma Q2R_mult' a b : Q2R (Qmult' a b) = Q2R a * Q2R b.
Proof. unfold Qmult'. rewrite <- Q2R_mult. apply Qeq_eqR, Qred_correct. Qed.
Lemma Q2R_0 : Q2R 0 = 0. Proof. unfold Q2R; simpl; lra. Qed.
Lemma Q2R_1 : Q2R 1 = 1. Proof. unfold Q2R; simpl; lra. Qed.
Lemma Q2R_abs q : Q2R (Qabs q) = Rabs (Q2R q).
Proof.
  destruct (Qlt_le_dec q 0) as [H|H].
  - rewrite (Qeq_eqR _ _ (Qabs_neg q (Qlt_le_weak _ _ H))), Q2R_opp. apply Qlt_Rlt in H. rewrite Q2R_0 in H. rewrite Rabs_left by lra. reflexivity.
  - rewrite (Qeq_eqR _ _ (Qabs_pos q H)). apply Qle_Rle in H. rewrite Q2R_0 in H. now rewrite Rabs_right by lra.
Qed.

Section E.
Context (env : nat -> R).
Lemma ev_con n q : ev n env (pcon n q) = Q2R q.
Proof. induction n as [|n IH]; [reflexivity|]. cbn [ev pcon fold_right]. rewrite IH. ring. Qed.
Lemma ev_zero n : ev n env (pzero n) = 0.
Proof. destruct n; [apply Q2R_0|reflexivity]. Qed.
Lemma ev_var n i : (i < n)%nat -> ev n env (pvar n i) = env i.
Proof.
  induction n as [|n IH]; intros H; [lia|]. cbn [pvar]. destruct (Nat.eqb i n) eqn:E.
  - apply Nat.eqb_eq in E. subst. cbn [ev fold_right]. rewrite ev_zero, ev_con, Q2R_1. ring.
  - apply Nat.eqb_neq in E. cbn [ev fold_right]. rewrite IH by lia. ring.
Qed.
Lemma ev_cons n (a : mp n) (l : list (mp n)) : ev (S n) env (a :: l) = ev n env a + env n * ev (S n) env l.
Proof. reflexivity. Qed.
Lemma ev_add n : forall p q, ev n env (padd n p q) = ev n env p + ev n env q.
Proof.
  induction n as [|n IH]; [apply Q2R_plus'|]. intros p. induction p as [|a p IHp]; intros q; [cbn; ring|].
  destruct q as [|b q]; [cbn [padd zipw]; change (ev (S n) env []) with 0; ring|]. cbn [padd zipw]. rewrite !ev_cons, IH.
  specialize (IHp q). cbn [padd zipw] in IHp. rewrite IHp. ring.
Qed.
Lemma ev_opp n : forall p, ev n env (popp n p) = - ev n env p.
Proof. induction n as [|n IH]; [apply Q2R_opp|]. intros p. induction p as [|a p IHp]; [cbn; ring|]. cbn [popp map]. rewrite !ev_cons, IH. cbn [popp] in IHp. rewrite IHp. ring. Qed.
Lemma ev_map n f k : (forall q, ev n env (f q) = k * ev n env q) -> forall q, ev (S n) env (map f q) = k * ev (S n) env q.
Proof. intros H q. induction q as [|b q IH]; [cbn; ring|]. cbn [map]. rewrite !ev_cons, H, IH. ring. Qed.
Lemma ev_mul n : forall p q, ev n env (pmul n p q) = ev n env p * ev n env q.
Proof.
  induction n as [|n IH]; [apply Q2R_mult'|]. intros p. induction p as [|a p IHp]; intros q; [cbn; ring|].
  change (pmul (S n) (a :: p) q) with (padd (S n) (map (pmul n a) q) (pzero n :: pmul (S n) p q)).
  rewrite ev_add, !ev_cons, IHp, ev_zero, (ev_map n _ (ev n env a)) by (intros; apply IH). ring.
Qed.
Lemma ev_z n : forall p, pz n p = true -> ev n env p = 0.
Proof.
  induction n as [|n IH]; intros p H.
  - apply Qeq_bool_eq in H. cbn [ev]. rewrite (Qeq_eqR _ _ H). apply Q2R_0.
  - induction p as [|a p IHp]; [reflexivity|]. cbn [pz forallb] in H. apply andb_true_iff in H as [H1 H2]. rewrite ev_cons, (IH a H1), (IHp H2). ring.
Qed.
Context (rad : nat -> Q).
Lemma nrm_ge n : (forall i, (i < n)%nat -> 0 <= Q2R (rad i)) -> forall p, 0 <= Q2R (nrm n rad p).
Proof.
  induction n as [|n IH]; intros H p; [cbn [nrm]; rewrite Q2R_abs; apply Rabs_pos|].
  induction p as [|a p IHp]; [cbn; rewrite Q2R_0; lra|]. cbn [nrm fold_right]. rewrite Q2R_plus', Q2R_mult'.
  pose proof (IH (fun i L => H i ltac:(lia)) a). pose proof (H n ltac:(lia)). cbn [nrm] in IHp. apply Rplus_le_le_0_compat; [assumption|]. now apply Rmult_le_pos.
Qed.
Lemma ev_nrm n : (forall i, (i < n)%nat -> Rabs (env i) <= Q2R (rad i)) -> forall p, Rabs (ev n env p) <= Q2R (nrm n rad p).
Proof.
  induction n as [|n IH]; intros H p; [cbn [nrm]; rewrite Q2R_abs; apply Rle_refl|].
  induction p as [|a p IHp]; [cbn; rewrite Q2R_0, Rabs_R0; lra|]. cbn [nrm fold_right]. rewrite ev_cons, Q2R_plus', Q2R_mult'.
  eapply Rle_trans; [apply Rabs_triang|]. apply Rplus_le_compat; [apply IH; intros; apply H; lia|]. rewrite Rabs_mult.
  apply Rmult_le_compat; [apply Rabs_pos|apply Rabs_pos|apply H; lia|apply IHp].
Qed.
Lemma ev_split n k : forall p : mp (S n), ev (S n) env p = ev (S n) env (firstn k p : mp (S n)) + env n ^ k * ev (S n) env (skipn k p : mp (S n)).
Proof.
  induction k as [|k IH]; intros p; [cbn [firstn skipn pow]; change (ev (S n) env []) with 0; ring|].
  destruct p as [|a p]; [cbn; ring|]. cbn [firstn skipn]. rewrite !ev_cons, (IH p). cbn [pow]. ring.
Qed.
End E.

(** rounding up, to keep the bounds short *)
Definition qup (q : Q) : Q := Qmake (Qnum q * 10 ^ 12 / Zpos (Qden q) + 1) (10 ^ 12).
Lemma qup_ge q : (q <= qup q)%Q.
Proof.
  destruct q as [n d]. unfold Qle, qup, Qnum, Qden.
  pose proof (Z.div_mod (n * 10 ^ 12) (Zpos d) ltac:(lia)) as E. pose proof (Z.mod_pos_bound (n * 10 ^ 12) (Zpos d) ltac:(lia)) as B.
  change (Zpos (10 ^ 12)) with (10 ^ 12)%Z. set (k := (n * 10 ^ 12 / Zpos d)%Z) in *. nia.
Qed.
Lemma qup_R q : Q2R q <= Q2R (qup q). Proof. apply Qle_Rle, qup_ge. Qed.

(** expressions *)
Inductive ex : Type :=
| EC (q : Q) | EV (i : nat) | EF (j : nat) | EAdd (a b : ex) | ESub (a b : ex) | EMul (a b : ex).
Fixpoint eval (env fe : nat -> R) (e : ex) : R :=
  match e with
  | EC q => Q2R q | EV i => env i | EF j => fe j
  | EAdd a b => eval env fe a + eval env fe b
  | ESub a b => eval env fe a - eval env fe b
  | EMul a b => eval env fe a * eval env fe b
  end.
Section T.
Context (n N : nat) (rad : nat -> Q).
Record tm := mkTM { tp : mp (S n); te : Q }.
Definition tcut (p : mp (S n)) (e : Q) : tm := mkTM (firstn N p) (qup (Qplus' (nrm (S n) rad (skipn N p)) e)).
Fixpoint qpow (q : Q) (k : nat) : Q := match k with O => 1%Q | S k => Qmult' q (qpow q k) end.
Definition tmul (x y : tm) : tm :=
  let 'mkTM p e := x in let 'mkTM q f := y in
  tcut (pmul (S n) p q)
    (Qplus' (Qmult' e (nrm (S n) rad q)) (Qplus' (Qmult' f (nrm (S n) rad p)) (Qmult' (Qmult' e f) (qpow (rad n) N)))).
Definition tadd (x y : tm) : tm := mkTM (padd (S n) (tp x) (tp y)) (Qplus' (te x) (te y)).
Definition tsub (x y : tm) : tm := mkTM (padd (S n) (tp x) (popp (S n) (tp y))) (Qplus' (te x) (te y)).
Fixpoint etm (ft : nat -> tm) (e : ex) : tm :=
  match e with
  | EC q => tcut (pcon (S n) q) 0 | EV i => tcut (pvar (S n) i) 0 | EF j => ft j
  | EAdd a b => tadd (etm ft a) (etm ft b) | ESub a b => tsub (etm ft a) (etm ft b) | EMul a b => tmul (etm ft a) (etm ft b)
  end.
Fixpoint ewf (e : ex) : bool :=
  match e with
  | EC _ => true | EV i => Nat.leb i n | EF _ => true
  | EAdd a b | ESub a b | EMul a b => ewf a && ewf b
  end.
Context (env : nat -> R) (HE : forall i, (i <= n)%nat -> Rabs (env i) <= Q2R (rad i)).
Let HE' : forall i, (i < S n)%nat -> Rabs (env i) <= Q2R (rad i). Proof. intros i H. apply HE. lia. Qed.
Definition okt (x : R) (m : tm) : Prop := Rabs (x - ev (S n) env (tp m)) <= Q2R (te m) * Rabs (env n) ^ N.
Let X0 : 0 <= Rabs (env n) ^ N. Proof. apply pow_le, Rabs_pos. Qed.
Lemma okt_cut x p e : Rabs (x - ev (S n) env p) <= Q2R e * Rabs (env n) ^ N -> okt x (tcut p e).
Proof.
  intros H. unfold okt, tcut. cbn [tp te]. rewrite (ev_split env n N p) in H.
  apply (Rle_trans _ (Q2R (Qplus' (nrm (S n) rad (skipn N p)) e) * Rabs (env n) ^ N)); [|apply Rmult_le_compat_r; [exact X0|apply qup_R]].
  set (lo := ev (S n) env (firstn N p)) in *. set (hi := ev (S n) env (skipn N p)) in *.
  replace (x - lo) with (x - (lo + env n ^ N * hi) + env n ^ N * hi) by ring. eapply Rle_trans; [apply Rabs_triang|].
  rewrite Q2R_plus', Rmult_plus_distr_r, Rplus_comm. apply Rplus_le_compat; [|exact H]. rewrite Rabs_mult, <- RPow_abs, Rmult_comm.
  apply Rmult_le_compat_r; [exact X0|]. apply ev_nrm. exact HE'.
Qed.
Lemma okt_con q : okt (Q2R q) (tcut (pcon (S n) q) 0).
Proof. apply okt_cut. rewrite ev_con, Rminus_diag_eq, Rabs_R0, Q2R_0 by reflexivity. lra. Qed.
Lemma okt_var i : (i <= n)%nat -> okt (env i) (tcut (pvar (S n) i) 0).
Proof. intros H. apply okt_cut. rewrite ev_var, Rminus_diag_eq, Rabs_R0, Q2R_0 by (reflexivity || lia). lra. Qed.
Lemma okt_add x y m m' : okt x m -> okt y m' -> okt (x + y) (tadd m m').
Proof.
  unfold okt, tadd. intros H H'. cbn [tp te]. rewrite ev_add, Q2R_plus'.
  replace (x + y - _) with (x - ev (S n) env (tp m) + (y - ev (S n) env (tp m'))) by ring. eapply Rle_trans; [apply Rabs_triang|lra].
Qed.
Lemma okt_sub x y m m' : okt x m -> okt y m' -> okt (x - y) (tsub m m').
Proof.
  unfold okt, tsub. intros H H'. cbn [tp te]. rewrite ev_add, ev_opp, Q2R_plus'.
  replace (x - y - _) with (x - ev (S n) env (tp m) + - (y - ev (S n) env (tp m'))) by ring. eapply Rle_trans; [apply Rabs_triang|]. rewrite Rabs_Ropp. lra.
Qed.
Lemma qpow_R q k : Q2R (qpow q k) = Q2R q ^ k.
Proof. induction k as [|k IH]; [apply Q2R_1|]. cbn [qpow pow]. now rewrite Q2R_mult', IH. Qed.
Lemma okt_mul x y m m' : okt x m -> okt y m' -> okt (x * y) (tmul m m').
Proof.
  destruct m as [p e]. destruct m' as [q f]. unfold tmul. intros H H'. apply okt_cut. unfold okt in *. cbn [tp te] in *. rewrite ev_mul, !Q2R_plus', !Q2R_mult', qpow_R.
  pose proof (ev_nrm env rad (S n) HE' p) as Np. pose proof (ev_nrm env rad (S n) HE' q) as Nq.
  set (P := ev (S n) env p) in *. set (Q := ev (S n) env q) in *. set (z := Rabs (env n) ^ N) in *.
  assert (R : z <= Q2R (rad n) ^ N) by (apply pow_incr; split; [apply Rabs_pos|apply HE; lia]).
  replace (x * y - P * Q) with ((x - P) * Q + ((y - Q) * P + (x - P) * (y - Q))) by ring.
  pose proof (Rabs_pos (x - P)). pose proof (Rabs_pos (y - Q)). pose proof (Rabs_pos P). pose proof (Rabs_pos Q).
  eapply Rle_trans; [apply Rabs_triang|]. eapply Rle_trans; [apply Rplus_le_compat_l, Rabs_triang|]. rewrite !Rabs_mult.
  rewrite !Rmult_plus_distr_r. repeat apply Rplus_le_compat.
  - replace (Q2R e * Q2R (nrm (S n) rad q) * z) with (Q2R e * z * Q2R (nrm (S n) rad q)) by ring. now apply Rmult_le_compat.
  - replace (Q2R f * Q2R (nrm (S n) rad p) * z) with (Q2R f * z * Q2R (nrm (S n) rad p)) by ring. now apply Rmult_le_compat.
  - replace (Q2R e * Q2R f * Q2R (rad n) ^ N * z) with (Q2R e * z * Q2R f * Q2R (rad n) ^ N) by ring.
    apply (Rle_trans _ (Q2R e * z * (Q2R f * z))); [now apply Rmult_le_compat|]. replace (Q2R e * z * (Q2R f * z)) with (Q2R e * z * Q2R f * z) by ring.
    destruct (Req_dec z 0) as [Z0|Z0]; [rewrite Z0; replace (Q2R e * 0 * Q2R f * 0) with 0 by ring; replace (Q2R e * 0 * Q2R f * Q2R (rad n) ^ N) with 0 by ring; apply Rle_refl|].
    apply Rmult_le_compat_l; [|exact R]. assert (0 < z) by (pose proof X0; unfold z in *; lra).
    assert (0 <= Q2R e) by (apply (Rmult_le_reg_r z); [assumption|rewrite Rmult_0_l; eapply Rle_trans; [|exact H]; assumption]). assert (0 <= Q2R f) by (apply (Rmult_le_reg_r z); [assumption|rewrite Rmult_0_l; eapply Rle_trans; [|exact H']; assumption]). apply Rmult_le_pos; [apply Rmult_le_pos; [assumption|left; assumption]|assumption].
Qed.
Context (fe : nat -> R) (ft : nat -> tm) (HF : forall j, okt (fe j) (ft j)).
Lemma etm_ok e : ewf e = true -> okt (eval env fe e) (etm ft e).
Proof.
  induction e; cbn [ewf eval etm]; intros H.
  - apply okt_con. - apply okt_var. now apply Nat.leb_le. - apply HF.
  - apply andb_true_iff in H as [H1 H2]. apply okt_add; auto. - apply andb_true_iff in H as [H1 H2]. apply okt_sub; auto. - apply andb_true_iff in H as [H1 H2]. apply okt_mul; auto.
Qed.
(** an expression is small of order [N] *)
Definition small (k : Q) (m : tm) : bool := pz (S n) (tp m) && Qle_bool (te m) k.
Lemma small_ok k x m : okt x m -> small k m = true -> Rabs x <= Q2R k * Rabs (env n) ^ N.
Proof.
  unfold small, okt. intros H S. apply andb_true_iff in S as [S1 S2]. rewrite (ev_z env (S n) _ S1), Rminus_0_r in H.
  apply Qle_bool_iff, Qle_Rle in S2. eapply Rle_trans; [exact H|]. now apply Rmult_le_compat_r.
Qed.
(** an expression is small of a lower order [j] *)
Definition smallj (j : nat) (k : Q) (m : tm) : bool :=
  Nat.leb j N && pz (S n) (firstn j (tp m) : mp (S n)) &&
  Qle_bool (Qplus' (nrm (S n) rad (skipn j (tp m) : mp (S n))) (Qmult' (te m) (qpow (rad n) (N - j)))) k &&
  Qle_bool 0 (te m).
Lemma smallj_ok j k x m : okt x m -> smallj j k m = true -> Rabs x <= Q2R k * Rabs (env n) ^ j.
Proof.
  unfold smallj, okt. intros H S. apply andb_true_iff in S as [S S4]. apply andb_true_iff in S as [S S3]. apply andb_true_iff in S as [S1 S2]. apply Nat.leb_le in S1.
  apply Qle_bool_iff, Qle_Rle in S3. apply Qle_bool_iff, Qle_Rle in S4. rewrite Q2R_0 in S4. rewrite Q2R_plus', Q2R_mult', qpow_R in S3. rewrite (ev_split env n j (tp m)), (ev_z env (S n) _ S2), Rplus_0_l in H.
  pose proof (ev_nrm env rad (S n) HE' (skipn j (tp m))) as B. set (P := ev (S n) env (skipn j (tp m))) in *. assert (Xj : 0 <= Rabs (env n) ^ j) by apply pow_le, Rabs_pos.
  replace x with (x - env n ^ j * P + env n ^ j * P) by ring. eapply Rle_trans; [apply Rabs_triang|]. apply (Rle_trans _ (Q2R (te m) * Rabs (env n) ^ N + Rabs (env n) ^ j * Q2R (nrm (S n) rad (skipn j (tp m))))).
  { apply Rplus_le_compat; [exact H|]. rewrite Rabs_mult, <- RPow_abs. now apply Rmult_le_compat_l. }
  replace (Rabs (env n) ^ N) with (Rabs (env n) ^ (N - j) * Rabs (env n) ^ j) by (rewrite <- pow_add; f_equal; lia).
  apply (Rle_trans _ ((Q2R (nrm (S n) rad (skipn j (tp m))) + Q2R (te m) * Q2R (rad n) ^ (N - j)) * Rabs (env n) ^ j)); [|now apply Rmult_le_compat_r].
  assert (R : Rabs (env n) ^ (N - j) <= Q2R (rad n) ^ (N - j)) by (apply pow_incr; split; [apply Rabs_pos|apply HE; lia]).
  rewrite Rmult_plus_distr_r, Rplus_comm. apply Rplus_le_compat; [lra|]. rewrite <- Rmult_assoc. apply Rmult_le_compat_r; [exact Xj|]. now apply Rmult_le_compat_l.
Qed.
(** bound of an expression *)
Definition tmax (m : tm) : Q := qup (Qplus' (nrm (S n) rad (tp m)) (Qmult' (te m) (qpow (rad n) N))).
End T.

Declare Scope ex_scope.
Delimit Scope ex_scope with ex.
Bind Scope ex_scope with ex.
Infix "+" := EAdd : ex_scope.
Infix "-" := ESub : ex_scope.
Infix "*" := EMul : ex_scope.
Definition qc (n : Z) (d : positive) : ex := EC (Qmake n d).
Definition EZ (z : Z) : ex := EC (inject_Z z).
Fixpoint epow (e : ex) (k : nat) : ex := match k with O => EC 1 | 1%nat => e | S k => EMul e (epow e k) end.
(** without unknown functions *)
Definition nofe : nat -> R := fun _ => 0.
Definition noft (n : nat) : nat -> tm n := fun _ => mkTM n [] 0.
Lemma noft_ok n N env j : okt n N env (nofe j) (noft n j).
Proof. unfold okt, nofe, noft. cbn [tp te ev fold_right]. rewrite Q2R_0, Rminus_0_r, Rabs_R0. lra. Qed.
Lemma series_smallj n N j rad env e k : (forall i, (i <= n)%nat -> Rabs (env i) <= Q2R (rad i)) ->
  ewf n e && smallj n N rad j k (etm n N rad (noft n) e) = true -> Rabs (eval env nofe e) <= Q2R k * Rabs (env n) ^ j.
Proof.
  intros H S. apply andb_true_iff in S as [S1 S2]. apply (smallj_ok n N rad env H) with (2 := S2). apply etm_ok; [exact H| |exact S1]. intros i. apply noft_ok.
Qed.
Lemma series_small n N rad env e k : (forall i, (i <= n)%nat -> Rabs (env i) <= Q2R (rad i)) ->
  ewf n e && small n k (etm n N rad (noft n) e) = true -> Rabs (eval env nofe e) <= Q2R k * Rabs (env n) ^ N.
Proof.
  intros H S. apply andb_true_iff in S as [S1 S2]. apply (small_ok n N env) with (2 := S2). apply etm_ok; [exact H| |exact S1]. intros j. apply noft_ok.
Qed.

(** derivatives along a curve of the variables, up to the common denominator [s] *)
Fixpoint dex (d : nat -> ex) (e : ex) : ex :=
  match e with
  | EC _ => EC 0 | EV i => d i | EF _ => EC 0
  | EAdd a b => EAdd (dex d a) (dex d b)
  | ESub a b => ESub (dex d a) (dex d b)
  | EMul a b => EAdd (EMul (dex d a) b) (EMul a (dex d b))
  end.
Lemma dex_deriv (env : R -> nat -> R) (s : R) (d : nat -> ex) x : s <> 0 ->
  (forall i, derivable_pt_lim (fun x => env x i) x (eval (env x) nofe (d i) / s)) ->
  forall e, derivable_pt_lim (fun x => eval (env x) nofe e) x (eval (env x) nofe (dex d e) / s).
Proof.
  intros Hs H e. induction e; cbn [eval dex].
  - replace (Q2R 0 / s) with 0 by (rewrite Q2R_0; unfold Rdiv; ring). apply derivable_pt_lim_const.
  - apply H.
  - replace (Q2R 0 / s) with 0 by (rewrite Q2R_0; unfold Rdiv; ring). apply derivable_pt_lim_const.
  - replace ((_ + _) / s) with (eval (env x) nofe (dex d e1) / s + eval (env x) nofe (dex d e2) / s) by (unfold Rdiv; ring). now apply (derivable_pt_lim_plus (fun x => eval (env x) nofe e1) (fun x => eval (env x) nofe e2)).
  - replace ((_ - _) / s) with (eval (env x) nofe (dex d e1) / s - eval (env x) nofe (dex d e2) / s) by (unfold Rdiv; ring). now apply (derivable_pt_lim_minus (fun x => eval (env x) nofe e1) (fun x => eval (env x) nofe e2)).
  - replace ((_ + _) / s) with (eval (env x) nofe (dex d e1) / s * eval (env x) nofe e2 + eval (env x) nofe e1 * (eval (env x) nofe (dex d e2) / s)) by (unfold Rdiv; ring). now apply (derivable_pt_lim_mult (fun x => eval (env x) nofe e1) (fun x => eval (env x) nofe e2)).
Qed.
Lemma series_bound n N rad env e k : (forall i, (i <= n)%nat -> Rabs (env i) <= Q2R (rad i)) ->
  ewf n e && smallj n N rad 0 k (etm n N rad (noft n) e) = true -> Rabs (eval env nofe e) <= Q2R k.
Proof. intros H S. pose proof (series_smallj n N 0 rad env e k H S) as B. cbn [pow] in B. lra. Qed.
