(** Truncated polynomials with shared subexpressions: in a list of expressions, [EF j] stands for
    the value of the expression number [j]. *)
From Coq Require Import Reals QArith Qreals Lra Lia List Bool.
From Verif.Num Require Import TMod.
Import ListNotations.
Local Open Scope R_scope.

Fixpoint vals (env : nat -> R) (l : list ex) (acc : list R) : list R :=
  match l with [] => acc | e :: l' => vals env l' (acc ++ [eval env (fun j => nth j acc 0) e]) end.
Fixpoint tms (n N : nat) (rad : nat -> Q) (l : list ex) (acc : list (tm n)) : list (tm n) :=
  match l with [] => acc | e :: l' => tms n N rad l' (acc ++ [etm n N rad (fun j => nth j acc (noft n 0)) e]) end.
Definition fvals (env : nat -> R) (l : list ex) (j : nat) : R := nth j (vals env l []) 0.

Section L.
Context (n N : nat) (rad : nat -> Q) (env : nat -> R) (HE : forall i, (i <= n)%nat -> Rabs (env i) <= Q2R (rad i)).
Lemma tms_ok l : forall va ta, length va = length ta -> (forall j, okt n N env (nth j va 0) (nth j ta (noft n 0))) -> forallb (ewf n) l = true ->
  forall j, okt n N env (nth j (vals env l va) 0) (nth j (tms n N rad l ta) (noft n 0)).
Proof.
  induction l as [|e l IH]; intros va ta HL H W; [exact H|]. cbn [forallb] in W. apply andb_true_iff in W as [W1 W2]. cbn [vals tms]. apply IH; [rewrite !app_length; cbn [length]; lia| |exact W2].
  intros j. destruct (Nat.lt_ge_cases j (length va)) as [Lt|Ge].
  - rewrite !app_nth1 by lia. apply H.
  - rewrite !app_nth2 by lia. rewrite <- HL. destruct (j - length va)%nat as [|k].
    + cbn [nth]. apply (etm_ok n N rad env HE); [|exact W1]. exact H.
    + assert (Z : okt n N env 0 (noft n 0)) by apply (noft_ok n N env 0). destruct k; exact Z.
Qed.
Lemma let_smallj l e j k : forallb (ewf n) l && ewf n e && (let ts := tms n N rad l [] in smallj n N rad j k (etm n N rad (fun j => nth j ts (noft n 0)) e)) = true ->
  Rabs (eval env (fvals env l) e) <= Q2R k * Rabs (env n) ^ j.
Proof.
  intros H. apply andb_true_iff in H as [H H3]. apply andb_true_iff in H as [H1 H2]. cbv zeta in H3. apply (smallj_ok n N rad env HE) with (2 := H3). apply (etm_ok n N rad env HE); [|exact H2].
  intros i. apply tms_ok; [reflexivity| |exact H1]. intros [|i']; apply (noft_ok n N env 0).
Qed.
End L.
