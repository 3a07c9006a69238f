(** The binary64 constant PI is just below pi. *)
From Coq Require Import Reals Lra Lia Machin QArith Qreals ZArith.
Local Open Scope R_scope.

Definition qterm (n : nat) : Q :=
  let k := (2 * n + 1)%nat in
  Qmult (inject_Z ((-1) ^ Z.of_nat n))
   (Qplus (Qmake 2 (Pos.of_nat k * 3 ^ Pos.of_nat k))
          (Qmake 1 (Pos.of_nat k * 7 ^ Pos.of_nat k))).

Fixpoint qsum (n : nat) : Q :=
  match n with O => qterm 0 | S m => Qred (Qplus (qsum m) (qterm n)) end.

Lemma IZR_pow_pos b k : (0 < k)%nat -> IZR (Zpos (b ^ Pos.of_nat k)) = IZR (Zpos b) ^ k.
Proof.
  intros Hk. rewrite Pos2Z.inj_pow.
  rewrite <- (positive_nat_Z (Pos.of_nat k)), Nat2Pos.id by lia.
  now rewrite <- pow_IZR.
Qed.

Lemma qterm_ok n : Q2R (qterm n) = tg_alt PI_2_3_7_tg n.
Proof.
  unfold qterm, tg_alt, PI_2_3_7_tg, Ratan_seq. set (k := (2 * n + 1)%nat).
  assert (Hk : (0 < k)%nat) by (unfold k; lia).
  rewrite Q2R_mult, Q2R_plus. unfold Q2R, inject_Z. cbn [Qnum Qden].
  rewrite !Pos2Z.inj_mul, !mult_IZR, !IZR_pow_pos by easy.
  replace (IZR (Z.pos (Pos.of_nat k))) with (INR k).
  2:{ rewrite INR_IZR_INZ. f_equal.
      rewrite <- (positive_nat_Z (Pos.of_nat k)), Nat2Pos.id by lia. reflexivity. }
  rewrite <- pow_IZR. rewrite !pow_inv.
  assert (INR k <> 0) by (apply not_0_INR; lia).
  assert (3 ^ k <> 0) by (apply pow_nonzero; lra).
  assert (7 ^ k <> 0) by (apply pow_nonzero; lra).
  field. auto.
Qed.

Lemma qsum_ok n : Q2R (qsum n) = sum_f_R0 (tg_alt PI_2_3_7_tg) n.
Proof.
  induction n as [|n IH]; cbn [sum_f_R0 qsum].
  - apply qterm_ok.
  - rewrite <- IH, <- qterm_ok. rewrite <- Q2R_plus. apply Qeq_eqR. apply Qred_correct.
Qed.

Lemma PI_64_bounds :
  7074237752028440 / 2 ^ 51 + 122464 / 10 ^ 21 < PI < 7074237752028440 / 2 ^ 51 + 122465 / 10 ^ 21.
Proof.
  destruct (PI_2_3_7_ineq 11) as [H1 H2].
  rewrite <- qsum_ok in H1, H2.
  split.
  - apply Rmult_lt_reg_r with (/ 4); [lra|].
    eapply Rlt_le_trans; [|exact H1].
    replace ((7074237752028440 / 2 ^ 51 + 122464 / 10 ^ 21) * / 4)
      with (Q2R (Qplus (Qmake 7074237752028440 9007199254740992) (Qmake 30616 1000000000000000000000)))
      by (unfold Q2R; simpl; lra).
    apply Qlt_Rlt. vm_compute. reflexivity.
  - apply Rmult_lt_reg_r with (/ 4); [lra|].
    eapply Rle_lt_trans; [exact H2|].
    replace ((7074237752028440 / 2 ^ 51 + 122465 / 10 ^ 21) * / 4)
      with (Q2R (Qplus (Qmake 7074237752028440 9007199254740992) (Qmake 122465 4000000000000000000000)))
      by (unfold Q2R; simpl; lra).
    apply Qlt_Rlt. vm_compute. reflexivity.
Qed.
