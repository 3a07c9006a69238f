(** An example for angles in binary64. *)
From Coq Require Import Reals Lra List.
From Flocq Require Import Core IEEE754.BinarySingleNaN.
From Verif.Num Require Import FOps F64 F64Lemmas.
From Verif.Spec Require Import Runs Angles64.
From Verif.Proofs Require Import AnglesF Lines64A Lines64D.
Import ListNotations.
Local Open Scope R_scope.

Lemma angles64_ex : let calls := [OpAdd f_3; OpNeg; OpSub f_2] in
  is_finite f_3 = true /\ is_finite f_2 = true /\ B2R f_3 = 3 /\ B2R f_2 = 2 /\ Rabs (B2R f_3) + Rabs (B2R f_2) <= 2 ^ 49 /\
  Rabs (B2R f_3) <= 4 /\ 4 <= 2 ^ 40 /\ Forall (turns_by 4) calls /\ turn_sum (B2R f_3) (map turn_of calls) = - 8.
Proof.
  intros calls. assert (E2 : B2R f_2 = 2 /\ is_finite f_2 = true). { destruct (B2R_const f_2 false 4503599627370496 (-51) ltac:(vm_compute; reflexivity)) as [-> E]. split; [unfold F2R; cbn; lra|exact E]. }
  assert (E3 : B2R f_3 = 3 /\ is_finite f_3 = true). { destruct (B2R_const f_3 false 6755399441055744 (-51) ltac:(vm_compute; reflexivity)) as [-> E]. split; [unfold F2R; cbn; lra|exact E]. }
  destruct E2 as [E2 F2], E3 as [E3 F3]. assert (A2 : Rabs (B2R f_2) = 2) by (rewrite E2; apply Rabs_pos_eq; lra). assert (A3 : Rabs (B2R f_3) = 3) by (rewrite E3; apply Rabs_pos_eq; lra).
  repeat split; try assumption; try (rewrite ?A2, ?A3; cbn; lra).
  - repeat apply Forall_cons; [split; [exact F3|lra]|exact I|split; [exact F2|lra]|apply Forall_nil].
  - unfold calls. cbn [map turn_of turn_sum fold_left]. rewrite E2, E3. lra.
Qed.
