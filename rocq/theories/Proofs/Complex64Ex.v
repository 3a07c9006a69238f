(** An example for complex arithmetic in binary64. *)
From Coq Require Import Bool Reals Lra Lia List Arith ZArith.
From Flocq Require Import Core IEEE754.BinarySingleNaN.
From Verif.Num Require Import FOps F64 F64Lemmas.
From Verif.Model Require Import Complex.
From Verif.Spec Require Import Series Lines64 Sums64 Complex64.
From Verif.Proofs Require Import MathX LinesX Lines64A Lines64D Poly64 Sums64Ex Complex64P.
Import ListNotations.
Local Open Scope R_scope.

(** 1 + 2 x + 3 x^2 at 1 + 2i is -6 + 16i. *)
Lemma complex_ex : let z := mkC f_1 f_2 in let c := [f_1; f_2; f_3] in
  cfinite z /\ cval z = (1, 2) /\ bpow radix2 (-400) <= modulus (cval z) <= bpow radix2 400 /\ modulus (cval z) * modulus (cval z) <= bpow radix2 1000 /\
  Forall (fun a : f64 => is_finite a = true) c /\
  (abspoly (vals c) (Rmax 1 (modulus (cval z))) + powers (vals c) (Rmax 1 (modulus (cval z)))) * (1 + / 2 ^ 51) ^ (2 * List.length c) <= bpow radix2 1000 /\
  complex_polynomial (vals c) (cval z) = (-6, 16).
Proof.
  intros z c. assert (E2 : B2R f_2 = 2 /\ is_finite f_2 = true). { destruct (B2R_const f_2 false 4503599627370496 (-51) ltac:(vm_compute; reflexivity)) as [-> E]. split; [unfold F2R; cbn; lra|exact E]. }
  assert (E3 : B2R f_3 = 3 /\ is_finite f_3 = true). { destruct (B2R_const f_3 false 6755399441055744 (-51) ltac:(vm_compute; reflexivity)) as [-> E]. split; [unfold F2R; cbn; lra|exact E]. }
  destruct one_val as [E1 F1]. change (f64_ofZ 1) with f_1 in E1, F1. destruct E2 as [E2 F2], E3 as [E3 F3]. assert (V : vals c = [1; 2; 3]) by (unfold c, vals; cbn [map]; now rewrite E1, E2, E3).
  assert (CV : cval z = (1, 2)) by (unfold cval, z; cbn [re im]; now rewrite E1, E2). rewrite CV, V.
  assert (M : 1 <= modulus (1, 2) <= 3). { unfold modulus. cbn [fst snd]. split; [rewrite <- sqrt_1 at 1|rewrite <- (sqrt_square 3) by lra]; apply sqrt_le_1_alt; lra. } set (m := modulus (1, 2)) in *.
  assert (B : 65536 <= bpow radix2 1000). { change 65536 with (bpow radix2 16). apply bpow_le. lia. } assert (B4 : 4 <= bpow radix2 400). { change 4 with (bpow radix2 2). apply bpow_le. lia. } assert (Bm : bpow radix2 (-400) <= 1). { change 1 with (bpow radix2 0). apply bpow_le. lia. }
  split; [split; assumption|]. split; [reflexivity|]. split; [lra|]. split. { apply Rle_trans with (3 * 3); [apply Rmult_le_compat; lra|lra]. }
  split; [repeat (apply Forall_cons; [assumption|]); apply Forall_nil|]. split.
  { rewrite Rmax_right by lra. rewrite !abspoly_cons, !powers_cons. unfold abspoly, powers, polynomial. cbn [map List.length Rsum]. rewrite (Rabs_pos_eq m), !Rabs_pos_eq by lra.
    assert (M2 : m * m <= 9) by (replace 9 with (3 * 3) by ring; apply Rmult_le_compat; lra).
    apply Rle_trans with (64 * 2 ^ 6); [|lra]. assert (m0 : 0 <= m * m) by (apply Rmult_le_pos; lra). apply Rmult_le_compat; [lra|apply pow_le; assert (0 < / 2 ^ 51) by (apply Rinv_0_lt_compat, pow_lt; lra); lra|lra|].
    change (2 * (List.length c))%nat with 6%nat. apply pow_incr. assert (0 < / 2 ^ 51) by (apply Rinv_0_lt_compat, pow_lt; lra). assert (/ 2 ^ 51 <= 1) by (rewrite <- Rinv_1; apply Rinv_le_contravar; [lra|cbn; lra]). lra. }
  rewrite !complex_polynomial_cons. unfold complex_polynomial, c2mul. cbn [List.length Rsum fst snd]. f_equal; ring.
Qed.
