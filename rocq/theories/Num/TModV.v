(** Truncated polynomials with remainders for several radii at once: the polynomials are computed only once. *)
From Coq Require Import Reals QArith Qreals Lra Lia List Bool.
From Verif.Num Require Import TMod TModL.
Import ListNotations.

Section V.
Context (n N : nat) (rads : list (nat -> Q)).
Record tmv := mkV { vp : mp (S n); ve : list Q }.
Definition vcut (p : mp (S n)) (es : list Q) : tmv :=
  let hi := skipn N p in mkV (firstn N p) (map (fun '(rad, e) => qup (Qplus' (nrm (S n) rad hi) e)) (combine rads es)).
Definition vmul (x y : tmv) : tmv :=
  let 'mkV p es := x in let 'mkV q fs := y in
  vcut (pmul (S n) p q) (map (fun '(rad, (e, f)) => Qplus' (Qmult' e (nrm (S n) rad q)) (Qplus' (Qmult' f (nrm (S n) rad p)) (Qmult' (Qmult' e f) (qpow (rad n) N)))) (combine rads (combine es fs))).
Definition vsum (es fs : list Q) : list Q := map (fun '(e, f) => Qplus' e f) (combine es fs).
Definition vadd (x y : tmv) : tmv := mkV (padd (S n) (vp x) (vp y)) (vsum (ve x) (ve y)).
Definition vsub (x y : tmv) : tmv := mkV (padd (S n) (vp x) (popp (S n) (vp y))) (vsum (ve x) (ve y)).
Definition v0 : list Q := map (fun _ => 0%Q) rads.
Fixpoint evm (ft : nat -> tmv) (e : ex) : tmv :=
  match e with
  | EC q => vcut (pcon (S n) q) v0 | EV i => vcut (pvar (S n) i) v0 | EF j => ft j
  | EAdd a b => vadd (evm ft a) (evm ft b) | ESub a b => vsub (evm ft a) (evm ft b) | EMul a b => vmul (evm ft a) (evm ft b)
  end.
Definition nov : tmv := mkV [] v0.
Fixpoint vms (l : list ex) (acc : list tmv) : list tmv :=
  match l with [] => acc | e :: l' => vms l' (acc ++ [evm (fun j => nth j acc nov) e]) end.

(** [v] collects the models [m rad]. *)
Definition collects (v : tmv) (m : (nat -> Q) -> tm n) : Prop := (forall rad, tp n (m rad) = vp v) /\ ve v = map (fun rad => te n (m rad)) rads.
Lemma combine_map A B C (f : A -> B) (g : A -> C) l : combine (map f l) (map g l) = map (fun x => (f x, g x)) l.
Proof. induction l as [|x l IH]; [reflexivity|]. cbn. now rewrite IH. Qed.
Lemma combine_self A B (f : A -> B) l : combine l (map f l) = map (fun x => (x, f x)) l.
Proof. induction l as [|x l IH]; [reflexivity|]. cbn. now rewrite IH. Qed.
Lemma cut_ok p f : collects (vcut p (map f rads)) (fun rad => tcut n N rad p (f rad)).
Proof. split; [reflexivity|]. unfold vcut. cbn [ve]. rewrite combine_self, map_map. reflexivity. Qed.
Lemma sum_ok a b m k : collects a m -> collects b k -> vsum (ve a) (ve b) = map (fun rad => Qplus' (te n (m rad)) (te n (k rad))) rads.
Proof. intros [_ A] [_ B]. unfold vsum. rewrite A, B, combine_map, map_map. reflexivity. Qed.
Lemma mul_ok a b m k : collects a m -> collects b k -> collects (vmul a b) (fun rad => tmul n N rad (m rad) (k rad)).
Proof.
  intros [A1 A2] [B1 B2]. destruct a as [p es], b as [q fs]. cbn [vp ve] in *. subst es fs.
  assert (T : forall rad, tmul n N rad (m rad) (k rad) = tcut n N rad (pmul (S n) p q) (Qplus' (Qmult' (te n (m rad)) (nrm (S n) rad q)) (Qplus' (Qmult' (te n (k rad)) (nrm (S n) rad p)) (Qmult' (Qmult' (te n (m rad)) (te n (k rad))) (qpow (rad n) N))))).
  { intros rad. specialize (A1 rad). specialize (B1 rad). destruct (m rad) as [p' e]. destruct (k rad) as [q' f]. cbn [tp te] in *. subst p' q'. reflexivity. }
  unfold vmul. rewrite combine_map, combine_self, map_map. destruct (cut_ok (pmul (S n) p q) (fun rad => Qplus' (Qmult' (te n (m rad)) (nrm (S n) rad q)) (Qplus' (Qmult' (te n (k rad)) (nrm (S n) rad p)) (Qmult' (Qmult' (te n (m rad)) (te n (k rad))) (qpow (rad n) N))))) as [C1 C2].
  split; [intros rad; rewrite T; apply C1|]. rewrite C2. apply map_ext. intros rad. now rewrite T.
Qed.
Lemma evm_ok ft fm e : (forall j, collects (ft j) (fun rad => fm rad j)) -> collects (evm ft e) (fun rad => etm n N rad (fm rad) e).
Proof.
  intros F. induction e as [q|i|j|a IA b IB|a IA b IB|a IA b IB]; cbn [evm etm].
  - apply (cut_ok _ (fun _ => 0%Q)).
  - apply (cut_ok _ (fun _ => 0%Q)).
  - apply F.
  - split; [intros rad; cbn [tadd tp]; rewrite (proj1 IA), (proj1 IB); reflexivity|]. cbn [ve vadd]. rewrite (sum_ok _ _ _ _ IA IB). reflexivity.
  - split; [intros rad; cbn [tsub tp]; rewrite (proj1 IA), (proj1 IB); reflexivity|]. cbn [ve vsub]. rewrite (sum_ok _ _ _ _ IA IB). reflexivity.
  - now apply mul_ok.
Qed.
Lemma nov_ok : collects nov (fun _ => noft n 0).
Proof. split; reflexivity. Qed.
Lemma nth_snoc A (l : list A) x j d : nth j (l ++ [x]) d = if Nat.ltb j (length l) then nth j l d else if Nat.eqb j (length l) then x else d.
Proof.
  destruct (Nat.ltb_spec j (length l)) as [H|H]; [now apply app_nth1|]. rewrite app_nth2 by lia. destruct (Nat.eqb_spec j (length l)) as [->|H'].
  - now rewrite Nat.sub_diag.
  - apply nth_overflow. cbn. lia.
Qed.
Lemma vms_ok l : forall va ta, (forall rad, length (ta rad) = length va) -> (forall j, collects (nth j va nov) (fun rad => nth j (ta rad) (noft n 0))) ->
  forall j, collects (nth j (vms l va) nov) (fun rad => nth j (tms n N rad l (ta rad)) (noft n 0)).
Proof.
  induction l as [|e l IH]; intros va ta HL H; [exact H|]. cbn [vms tms]. apply (IH _ (fun rad => ta rad ++ [etm n N rad (fun j => nth j (ta rad) (noft n 0)) e])).
  - intros rad. now rewrite !app_length, HL.
  - intros j. rewrite nth_snoc. pose proof (evm_ok (fun j => nth j va nov) (fun rad j => nth j (ta rad) (noft n 0)) e H) as V.
    assert (X : forall rad, nth j (ta rad ++ [etm n N rad (fun j => nth j (ta rad) (noft n 0)) e]) (noft n 0) =
      if Nat.ltb j (length va) then nth j (ta rad) (noft n 0) else if Nat.eqb j (length va) then etm n N rad (fun j => nth j (ta rad) (noft n 0)) e else noft n 0) by (intros rad; now rewrite nth_snoc, HL).
    split.
    + intros rad. rewrite X. destruct (Nat.ltb j (length va)); [exact (proj1 (H j) rad)|]. destruct (Nat.eqb j (length va)); [exact (proj1 V rad)|exact (proj1 nov_ok rad)].
    + etransitivity; [|apply map_ext; intros rad; now rewrite X]. destruct (Nat.ltb j (length va)); [exact (proj2 (H j))|]. destruct (Nat.eqb j (length va)); [exact (proj2 V)|exact (proj2 nov_ok)].
Qed.
(** All the bounds. *)
Definition smallv (j : nat) (ks : list Q) (v : tmv) : bool := forallb (fun '(rad, (k, e)) => smallj n N rad j k (mkTM n (vp v) e)) (combine rads (combine ks (ve v))).
Definition letv (l : list ex) (e : ex) (j : nat) (ks : list Q) : bool := Nat.eqb (length ks) (length rads) && smallv j ks (let ts := vms l [] in evm (fun j => nth j ts nov) e).
Lemma letv_ok l e j ks : letv l e j ks = true -> forall i d k, (i < length rads)%nat -> let rad := nth i rads d in let ts := tms n N rad l [] in
  smallj n N rad j (nth i ks k) (etm n N rad (fun j => nth j ts (noft n 0)) e) = true.
Proof.
  unfold letv. cbv zeta. intros H. apply andb_true_iff in H as [HL H]. apply Nat.eqb_eq in HL.
  pose proof (evm_ok (fun j => nth j (vms l []) nov) (fun rad j => nth j (tms n N rad l []) (noft n 0)) e) as V. pose proof (vms_ok l [] (fun _ => []) (fun _ => eq_refl)) as W. 
  assert (W0 : forall j, collects (nth j [] nov) (fun _ => nth j [] (noft n 0))) by (intros [|j']; apply nov_ok). specialize (V (W W0)).
  set (v := evm _ e) in *. intros i d k Hi. destruct V as [V1 V2].
  unfold smallv in H. rewrite forallb_forall in H.
  assert (IN : In (nth i rads d, (nth i ks k, te n (etm n N (nth i rads d) (fun j => nth j (tms n N (nth i rads d) l []) (noft n 0)) e))) (combine rads (combine ks (ve v)))).
  { rewrite V2. assert (LE : length (map (fun rad => te n (etm n N rad (fun j => nth j (tms n N rad l []) (noft n 0)) e)) rads) = length rads) by apply map_length.
    rewrite <- (map_nth (fun rad => te n (etm n N rad (fun j => nth j (tms n N rad l []) (noft n 0)) e)) rads d i).
    set (f := te n (etm n N d _ e)). rewrite <- (combine_nth ks _ i k f) by congruence. rewrite <- (combine_nth rads _ i d (k, f)) by (rewrite combine_length, LE, HL; lia).
    apply nth_In. rewrite !combine_length, LE, HL. lia. }
  apply H in IN. rewrite <- (V1 (nth i rads d)) in IN. destruct (etm n N (nth i rads d) _ e). exact IN.
Qed.
End V.
