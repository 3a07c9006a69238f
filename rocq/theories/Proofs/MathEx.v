(** Examples for Props/Math.v. *)
From Coq Require Import Reals Lra Lia ZArith Bool List Psatz.
From Flocq Require Import Core IEEE754.BinarySingleNaN.
From Verif.Num Require Import FOps RFun XR XRLemmas F64 F64Lemmas.
From Verif.Model Require Import Fp Quantities Complex.
From Verif.Spec Require Import Series Iteration.
From Verif.Proofs Require Import AnglesX AnglesEx MathX MathF.
Import ListNotations.
Local Open Scope R_scope.

Lemma ex_poly : poly_eval (map Fin [1; 2; 3]) (Fin 2) = Fin 17 /\
  poly_eval_c (map Fin [1; 2; 3]) (cx (0, 1)) = cx (-2, 2).
Proof.
  rewrite poly_eval_fin, poly_eval_c_fin. unfold polynomial, complex_polynomial. simpl.
  unfold cx. simpl. split; repeat f_equal; ring.
Qed.
Lemma ex_clenshaw : clenshaw_sin_sum (map Fin [5; 2; 3]) (Fin (PI / 2)) = Fin 2 /\
  clenshaw_sin_sum (map Fin []) (Fin (PI / 2)) = Fin 0.
Proof.
  rewrite !clenshaw_fin. unfold sine_series. simpl. split; f_equal.
  rewrite Rmult_0_l, sin_0, Rmult_1_l, sin_PI2. replace ((1 + 1) * (PI / 2)) with PI by field.
  rewrite sin_PI. ring.
Qed.
Lemma ex_two_sum (lm : libm) :
  two_sum (ops := F64ops lm) (f64_ofZ 1) (f64_of 1 (-60)) = (f64_ofZ 1, f64_of 1 (-60)).
Proof. unfold two_sum. f_equal; apply B2SF_eq; vm_compute; reflexivity. Qed.
Lemma C_ops (z w : C2) :
  cadd (cx z) (cx w) = cx (fst z + fst w, snd z + snd w) /\
  cmul (cx z) (cx w) = cx (c2mul z w).
Proof. split; reflexivity. Qed.
Lemma ex_complex : cinv (cx (3, 4)) = Ok (cx (3 / 25, - 4 / 25)) /\
  cdiv (cx (1, 0)) (cx (0, 1)) = Ok (cx (0, -1)).
Proof.
  unfold cdiv. rewrite !cinv_cx by (intros E; injection E; intros; lra). cbv iota beta. rewrite cmul_cx.
  unfold cx, c2mul. cbn [fst snd]. split; repeat f_equal; field.
Qed.
Lemma ex_iter : iter_fn 3 [Fin 0] (fun u => map (fun x => match x with Fin r => Fin ((1 - r) / 2) | y => y end) u)
  [Fin (1 / 4)] = Ret [Fin (7 / 8)].
Proof.
  cbn [iter_fn map vec_add all_below]. xr.
  rewrite (Rlt_bool_f (Rabs ((1 - 0) / 2))) by (rewrite Rabs_pos_eq; lra). cbn [andb].
  rewrite (Rlt_bool_f (Rabs ((1 - (0 + (1 - 0) / 2)) / 2))) by (rewrite Rabs_pos_eq; lra). cbn [andb].
  match goal with |- context [Rlt_bool (Rabs ?x) (1 / 4)] =>
    rewrite (Rlt_bool_t (Rabs x)) by (rewrite Rabs_pos_eq; lra) end. cbn [andb].
  apply (f_equal (fun x => Ret [Fin x])). lra.
Qed.
Lemma ex_iter_nan : (forall u : list f64, length u = 1%nat -> length [f64_nan] = 1%nat) /\
  (forall u : list f64, length u = 1%nat -> Exists (fun x => is_nan x = true) [f64_nan]).
Proof. split; [easy|]. intros. now constructor. Qed.
Lemma unit_sizes :
  (forall x, angle_new (Fin x) RAD = Fin x) /\
  angle_new (Fin 180) DEG = Fin PI /\ angle_new (Fin 200) GRAD = Fin PI /\
  angle_new (Fin 3600) SEC = angle_new (Fin 1) DEG /\
  (forall x, length_new (Fin x) M = Fin x) /\
  length_new (Fin 10000) FT = Fin 3048 /\ length_new (Fin 3937) US_FT = Fin 1200.
Proof.
  split; [intros; apply angle_new_RAD|]. split; [|split; [|split; [|split; [intros; apply length_new_M|split]]]];
  unfold angle_new, length_new, per_unit, DEG, GRAD, SEC, FT, US_FT; cbn [fst snd]; xr;
  rewrite ?xdiv_fin by lra; xr; f_equal; try field; unfold Rlit; simpl; field.
Qed.
Lemma ex_mid : is_finite (f64_ofZ 45) = true /\
  bpow radix2 (-900) <= Rabs (B2R (f64_ofZ 45)) <= bpow radix2 900.
Proof.
  destruct (B2R_const (f64_ofZ 45) false 6333186975989760 (-47) ltac:(vm_compute; reflexivity)) as [E F].
  split; [exact F|]. assert (V : B2R (f64_ofZ 45) = 45) by (rewrite E; unfold F2R; simpl; lra).
  rewrite V, Rabs_pos_eq by lra. split.
  - apply Rle_trans with (bpow radix2 0); [apply bpow_le; lia|simpl; lra].
  - apply Rle_trans with (bpow radix2 6); [simpl; lra|apply bpow_le; lia].
Qed.
