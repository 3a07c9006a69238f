(** Binary64: rounding errors of the C library's functions; tactics for [near]. *)
From Coq Require Import ZArith Reals QArith Qreals Lra Lia Bool Psatz Qround Qabs.
From Flocq Require Import Core IEEE754.BinarySingleNaN.
From Verif.Num Require Import FOps RFun F64 F64Lemmas Near.
From Verif.Spec Require Import Accurate.
Local Open Scope R_scope.

Definition ulp4 : Q := Qmake 1 (2 ^ 50).
Lemma ulp4_val : Q2R ulp4 = / 2 ^ 50.
Proof. unfold ulp4. rewrite q2r_make. unfold Rdiv. rewrite Rmult_1_l. f_equal. rewrite pow_IZR. reflexivity. Qed.
Lemma tiny_1000 : bpow radix2 (-1000) * 2 <= Q2R tiny.
Proof.
  unfold tiny. rewrite q2r_make. unfold Rdiv. rewrite Rmult_1_l. apply Rle_trans with (bpow radix2 (-120)); [|right; cbn [bpow]; f_equal]. replace (bpow radix2 (-1000) * 2) with (bpow radix2 (-999)) by (change 2 with (bpow radix2 1); rewrite <- bpow_plus; reflexivity). apply bpow_le. lia.
Qed.
Definition fun_e (L lo hi d e : Q) : Q := rup ((1 + ulp4) * (L * (e + d * mag lo hi)) + tiny).
(** [g] moves by at most [L] times the error of the argument. *)
Lemma near_fun (f : f64 -> f64) g D (L : Q) x X lo hi d e glo ghi : computes f g D -> near x X lo hi d e -> D (B2R x) -> Rabs (g (B2R x) - g X) <= Q2R L * Rabs (B2R x - X) -> 0 <= Q2R L -> Q2R glo <= g X <= Q2R ghi ->
  near (f x) (g X) glo ghi ulp4 (fun_e L lo hi d e).
Proof.
  intros C H Dx Lg L0 G. pose proof (near_err _ _ _ _ _ _ H) as E. destruct H as (A & B & C1 & D1 & _). destruct (C x A Dx) as [F1 F2]. split; [exact F1|]. split; [exact G|]. rewrite ulp4_val. assert (U : 0 < / 2 ^ 50) by (apply Rinv_0_lt_compat, pow_lt; lra). split; [lra|].
  pose proof (rup_ge ((1 + ulp4) * (L * (e + d * mag lo hi)) + tiny)) as R. fold (fun_e L lo hi d e) in R. rewrite Q2R_plus, !Q2R_mult, Q2R_plus, q1, ulp4_val in R. pose proof tiny_1000 as T. pose proof (bpow_gt_0 radix2 (-1000)) as T0.
  set (u := / 2 ^ 50) in *. set (ep := Q2R (e + d * mag lo hi)) in *. assert (P : 0 <= Rabs (B2R x - X)) by apply Rabs_pos.
  assert (LE : Rabs (g (B2R x) - g X) <= Q2R L * ep) by (eapply Rle_trans; [exact Lg|]; apply Rmult_le_compat_l; lra). assert (K0 : 0 <= Q2R L * ep) by (apply Rmult_le_pos; lra). assert (K1 : 0 <= u * (Q2R L * ep)) by (apply Rmult_le_pos; lra).
  split; [lra|]. assert (GA : Rabs (g (B2R x)) <= Rabs (g X) + Q2R L * ep) by (replace (g (B2R x)) with (g X + (g (B2R x) - g X)) by ring; eapply Rle_trans; [apply Rabs_triang|lra]).
  assert (UG : u * Rabs (g (B2R x)) <= u * (Rabs (g X) + Q2R L * ep)) by (apply Rmult_le_compat_l; lra).
  replace (B2R (f x) - g X) with (B2R (f x) - g (B2R x) + (g (B2R x) - g X)) by ring. eapply Rle_trans; [apply Rabs_triang|]. lra.
Qed.

(** Evaluate the bounds of a hypothesis. *)
Lemma near_norm x X l h d e l' h' d' e' : near x X l h d e -> l = l' -> h = h' -> d = d' -> e = e' -> near x X l' h' d' e'.
Proof. now intros H <- <- <- <-. Qed.
Ltac nnorm H :=
  match type of H with
  | near ?x ?X ?l ?h ?d ?e =>
      let l' := eval vm_compute in l in let h' := eval vm_compute in h in let d' := eval vm_compute in d in let e' := eval vm_compute in e in
      apply (near_norm x X l h d e l' h' d' e') in H; [|vm_cast_no_check (eq_refl l')|vm_cast_no_check (eq_refl h')|vm_cast_no_check (eq_refl d')|vm_cast_no_check (eq_refl e')]
  end.
Ltac nadd H1 H2 H := pose proof (near_add _ _ _ _ _ _ _ _ _ _ _ _ H1 H2 ltac:(vm_compute; reflexivity)) as H; nnorm H.
Ltac naddp H1 H2 H := pose proof (near_addp _ _ _ _ _ _ _ _ _ _ _ _ H1 H2 ltac:(vm_compute; reflexivity)) as H; nnorm H.
Ltac nsub H1 H2 H := pose proof (near_sub _ _ _ _ _ _ _ _ _ _ _ _ H1 H2 ltac:(vm_compute; reflexivity)) as H; nnorm H.
Ltac nmul H1 H2 H := pose proof (near_mul _ _ _ _ _ _ _ _ _ _ _ _ H1 H2 ltac:(vm_compute; reflexivity)) as H; nnorm H.
Ltac ndiv H1 H2 H := pose proof (near_div _ _ _ _ _ _ _ _ _ _ _ _ H1 H2 ltac:(vm_compute; reflexivity)) as H; nnorm H.
Ltac nsqrt H1 H := pose proof (near_sqrt _ _ _ _ _ _ H1 ltac:(vm_compute; reflexivity)) as H; nnorm H.
Ltac nZ z H := pose proof (near_Z z ltac:(cbn; lia)) as H; nnorm H.

(** An absolute error as a relative one. *)
Lemma near_rel x X lo hi d e : near x X lo hi d e -> Qle_bool tiny lo = true -> near x X lo hi (rup (d + e / lo)) 0.
Proof.
  intros (A & B & C & D & E) H. apply qle in H. pose proof tiny_pos as T. assert (L : 0 < Q2R lo) by lra. pose proof (rup_ge (d + e / lo)) as R. rewrite Q2R_plus, Q2R_div in R by (now apply qpos_ne).
  assert (E0 : 0 <= Q2R e / Q2R lo) by (apply Rmult_le_pos; [lra|left; now apply Rinv_0_lt_compat]). split; [exact A|]. split; [exact B|]. split; [lra|]. rewrite q0. split; [lra|]. rewrite (Rabs_right X) in * by lra.
  assert (K : Q2R e <= Q2R e / Q2R lo * X). { unfold Rdiv. rewrite Rmult_assoc. rewrite <- (Rmult_1_r (Q2R e)) at 1. apply Rmult_le_compat_l; [lra|]. apply (Rmult_le_reg_l (Q2R lo)); [lra|]. rewrite <- Rmult_assoc, Rinv_r by lra. lra. }
  assert (M : (Q2R d + Q2R e / Q2R lo) * X <= Q2R (rup (d + e / lo)) * X) by (apply Rmult_le_compat_r; lra). lra.
Qed.
Ltac nrel H := apply near_rel in H; [|vm_compute; reflexivity]; nnorm H.
