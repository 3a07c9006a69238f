(** Examples for the rounding errors of sums. *)
From Coq Require Import Bool Reals Lra Lia List Arith ZArith.
From Flocq Require Import Core IEEE754.BinarySingleNaN.
From Verif.Num Require Import FOps F64 F64Lemmas.
From Verif.Spec Require Import Series Lines64 Sums64.
From Verif.Proofs Require Import LinesX Lines64A Lines64D Poly64.
Import ListNotations.
Local Open Scope R_scope.

(** 1 + 2 x + 3 x^2 at 2. *)
Lemma sums_ex : let c := [f_1; f_2; f_3] in
  Forall (fun a : f64 => is_finite a = true) c /\
  (abspoly (vals c) (Rmax 1 (Rabs (B2R f_2))) + powers (vals c) (Rmax 1 (Rabs (B2R f_2)))) * (1 + / 2 ^ 53) ^ (2 * List.length c) <= bpow radix2 1000 /\
  polynomial (vals c) (B2R f_2) = 17 /\ INR (List.length c) <= 2 ^ 23 /\ abssum (vals c) <= bpow radix2 800 /\ Rabs (B2R f_2) <= 1000.
Proof.
  intros c. assert (E2 : B2R f_2 = 2 /\ is_finite f_2 = true). { destruct (B2R_const f_2 false 4503599627370496 (-51) ltac:(vm_compute; reflexivity)) as [-> E]. split; [unfold F2R; cbn; lra|exact E]. }
  assert (E3 : B2R f_3 = 3 /\ is_finite f_3 = true). { destruct (B2R_const f_3 false 6755399441055744 (-51) ltac:(vm_compute; reflexivity)) as [-> E]. split; [unfold F2R; cbn; lra|exact E]. }
  destruct one_val as [E1 F1]. change (f64_ofZ 1) with f_1 in E1, F1. destruct E2 as [E2 F2], E3 as [E3 F3]. assert (V : vals c = [1; 2; 3]) by (unfold c, vals; cbn [map]; now rewrite E1, E2, E3).
  assert (M : Rmax 1 (Rabs (B2R f_2)) = 2) by (rewrite E2, Rabs_pos_eq by lra; apply Rmax_right; lra). rewrite M, V, E2.
  assert (A : abspoly [1; 2; 3] 2 = 17). { rewrite !abspoly_cons. unfold abspoly, polynomial. cbn [map List.length Rsum]. rewrite !Rabs_pos_eq by lra. lra. }
  assert (P : powers [1; 2; 3] 2 = 7). { rewrite !powers_cons. unfold powers, polynomial. cbn [map List.length Rsum]. rewrite !Rabs_pos_eq by lra. lra. }
  assert (B : 4096 <= bpow radix2 1000). { change 4096 with (bpow radix2 12). apply bpow_le. lia. } assert (B8 : 6 <= bpow radix2 800). { apply Rle_trans with (bpow radix2 3); [cbn; lra|]. apply bpow_le. lia. }
  split; [repeat (apply Forall_cons; [assumption|]); apply Forall_nil|]. split.
  { rewrite A, P. apply Rle_trans with (24 * 2 ^ 6); [|lra]. replace (17 + 7) with 24 by ring. apply Rmult_le_compat_l; [lra|]. change (2 * List.length c)%nat with 6%nat. apply pow_incr. pose proof u_pos. assert (/ 2 ^ 53 <= 1) by (rewrite <- Rinv_1; apply Rinv_le_contravar; [lra|cbn; lra]). lra. }
  split; [rewrite !poly_cons; unfold polynomial; cbn [List.length Rsum]; lra|]. split; [cbn; lra|]. split; [cbn [abssum fold_right]; rewrite !Rabs_pos_eq by lra; lra|]. rewrite Rabs_pos_eq; lra.
Qed.
