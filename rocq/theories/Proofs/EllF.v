(** Binary64: ellipsoid constructors and constants (for Props/Ellipsoid.v). *)
From Coq Require Import Reals Lra Lia ZArith Bool List Psatz String.
From Flocq Require Import Core IEEE754.BinarySingleNaN.
From Verif.Num Require Import FOps RFun XR XRLemmas F64 F64Lemmas.
From Verif.Model Require Import Fp Quantities Cs Ellipsoid.
From Verif.Spec Require Import Angles Axes Shape.
From Verif.Proofs Require Import AnglesX AnglesEx MathF AxesX EllX.
Import ListNotations.
Local Open Scope R_scope.

(** ** Acceptance *)
Section Acceptance.
Context (lm : libm).
#[local] Instance ops : FOps f64 := F64ops lm.
Lemma f64_ofZ_0 : f64_ofZ 0 = B754_zero false. Proof. apply B2SF_eq. vm_compute. reflexivity. Qed.
Lemma f64_ofZ_1 : B2R (f64_ofZ 1) = 1 /\ is_finite (f64_ofZ 1) = true.
Proof.
  destruct (B2R_const (f64_ofZ 1) false 4503599627370496 (-52) ltac:(vm_compute; reflexivity)) as [E F].
  split; [|easy]. rewrite E. unfold F2R. simpl. lra.
Qed.
Lemma from_ab_f64 nm a b : is_finite a = true -> is_finite b = true ->
  (0 < B2R b <= B2R a -> exists E, from_ab nm a b = Ret E /\ e_a E = a /\ e_b E = b) /\
  (~ 0 < B2R b <= B2R a -> from_ab nm a b = Panic).
Proof.
  intros Fa Fb. unfold from_ab, rassert. cbn [flt fle fofZ ops F64ops]. rewrite f64_ofZ_0.
  rewrite (Bltb_correct 53 1024 (B754_zero false) b eq_refl Fb), (Bleb_correct 53 1024 b a Fb Fa).
  change (B2R (B754_zero false)) with 0. split; intros H.
  - rewrite Rlt_bool_t, Rle_bool_t by lra. eexists. split; [reflexivity|]. split; reflexivity.
  - destruct (Rlt_bool_spec 0 (B2R b)); [|easy]. destruct (Rle_bool_spec (B2R b) (B2R a)); [|easy].
    exfalso; lra.
Qed.
Lemma from_ainvf_f64 nm a i : is_finite a = true -> is_finite i = true ->
  (0 < B2R a /\ 1 < B2R i -> exists E, from_ainvf nm a i = Ret E /\ e_a E = a /\ e_invf E = i) /\
  (~ (0 < B2R a /\ 1 < B2R i) -> from_ainvf nm a i = Panic).
Proof.
  intros Fa Fb. unfold from_ainvf, rassert. cbn [flt fle fofZ ops F64ops]. rewrite f64_ofZ_0.
  destruct f64_ofZ_1 as [E1 F1].
  rewrite (Bltb_correct 53 1024 (B754_zero false) a eq_refl Fa), (Bltb_correct 53 1024 _ i F1 Fb), E1.
  change (B2R (B754_zero false)) with 0. split; intros H.
  - rewrite !Rlt_bool_t by lra. eexists. split; [reflexivity|]. split; reflexivity.
  - destruct (Rlt_bool_spec 0 (B2R a)); [|easy]. destruct (Rlt_bool_spec 1 (B2R i)); [|easy].
    exfalso; lra.
Qed.
Lemma nan_panics nm (x : f64) : from_ab nm B754_nan x = Panic /\ from_ab nm x B754_nan = Panic /\
  from_ainvf nm B754_nan x = Panic /\ from_ainvf nm x B754_nan = Panic.
Proof.
  split; [|split; [|split]].
  - unfold from_ab, rassert. cbn [flt fle fofZ ops F64ops].
    destruct (Bltb _ x); [|easy]. now destruct x as [[]|[]| |[] ? ? ?].
  - unfold from_ab, rassert. cbn [flt fle fofZ ops F64ops]. now rewrite f64_ofZ_0.
  - unfold from_ainvf, rassert. cbn [flt fle fofZ ops F64ops]. now rewrite f64_ofZ_0.
  - unfold from_ainvf, rassert. cbn [flt fle fofZ ops F64ops].
    destruct (Bltb _ x); [|easy].
    destruct (B2R_const (f64_ofZ 1) false 4503599627370496 (-52) ltac:(vm_compute; reflexivity)) as [_ F1].
    now destruct (f64_ofZ 1) as [[]|[]| |[] ? ? ?].
Qed.
(** Findings. *)
Lemma from_ab_infinite nm : exists E, from_ab nm f64_inf (f64_ofZ 1) = Ret E /\ e_invf E = B754_nan.
Proof.
  assert (H : omap (fun E => B2SF (e_invf E)) (from_ab nm f64_inf (f64_ofZ 1)) = Ret SpecFloat.S754_nan)
    by (vm_compute; reflexivity).
  destruct (from_ab nm f64_inf (f64_ofZ 1)) as [E| |]; try discriminate.
  exists E. split; [reflexivity|]. injection H as H. now apply B2SF_eq.
Qed.
Lemma from_ainvf_flat nm : exists E,
  from_ainvf nm (f64_of 1 (-1074)) (f64_of 4503599627370497 (-52)) = Ret E /\ e_b E = B754_zero false.
Proof.
  assert (H : omap (fun E => B2SF (e_b E)) (from_ainvf nm (f64_of 1 (-1074)) (f64_of 4503599627370497 (-52))) =
    Ret (SpecFloat.S754_zero false)) by (vm_compute; reflexivity).
  destruct (from_ainvf _ _ _) as [E| |]; try discriminate.
  exists E. split; [reflexivity|]. injection H as H. now apply B2SF_eq.
Qed.
End Acceptance.

(** ** Constants *)

(** A float with at most 60 fractional bits, times 2^60. *)
Definition scaled (x : f64) : option Z :=
  match B2SF x with
  | SpecFloat.S754_finite s m e => if Z.leb (-60) e then Some (cond_Zopp s (Zpos m) * 2 ^ (e + 60))%Z else None
  | SpecFloat.S754_zero _ => Some 0%Z
  | _ => None
  end.
Lemma scaled_ok x n : scaled x = Some n -> is_finite x = true /\ B2R x = IZR n / 2 ^ 60.
Proof.
  unfold scaled. destruct (B2SF x) as [s|s| |s m e] eqn:E; try discriminate.
  - intros [= <-]. destruct x; try discriminate. split; [easy|]. simpl. lra.
  - destruct (Z.leb_spec (-60) e); [|discriminate]. intros [= <-].
    destruct (B2R_const x s m e E) as [-> F]. split; [easy|]. unfold F2R, Fnum, Fexp.
    rewrite mult_IZR. change (2 ^ (e + 60))%Z with (Z.pow (radix_val radix2) (e + 60)). rewrite (IZR_Zpower radix2) by lia.
    rewrite bpow_plus. change (bpow radix2 60) with (IZR (2 ^ 60)).
    replace (2 ^ 60)%R with (IZR (2 ^ 60)) by (rewrite pow_IZR; reflexivity).
    field. apply IZR_neq. discriminate.
Qed.
Definition const_ok (E : Ellipsoid f64) : bool :=
  match scaled (e_a E), scaled (e_b E), scaled (e_invf E) with
  | Some a, Some b, Some i =>
      (0 <? b)%Z && (b <? a)%Z && (2 ^ 60 <? i)%Z &&
      (Z.abs (b * i - a * (i - 2 ^ 60)) * 10 ^ 8 <=? i * 2 ^ 60)%Z
  | _, _, _ => false
  end.
Lemma const_ok_ok E : const_ok E = true ->
  is_finite (e_a E) = true /\ is_finite (e_b E) = true /\ is_finite (e_invf E) = true /\
  0 < B2R (e_b E) < B2R (e_a E) /\ 1 < B2R (e_invf E) /\
  Rabs (B2R (e_b E) - B2R (e_a E) * (1 - 1 / B2R (e_invf E))) <= / 10 ^ 8.
Proof.
  unfold const_ok. destruct (scaled (e_a E)) as [a|] eqn:Ea; [|discriminate].
  destruct (scaled (e_b E)) as [b|] eqn:Eb; [|discriminate].
  destruct (scaled (e_invf E)) as [i|] eqn:Ei; [|discriminate].
  apply scaled_ok in Ea as [Fa Ra]. apply scaled_ok in Eb as [Fb Rb]. apply scaled_ok in Ei as [Fi Ri].
  rewrite !andb_true_iff. intros [[[H1 H2] H3] H4].
  apply Z.ltb_lt, IZR_lt in H1. apply Z.ltb_lt, IZR_lt in H2. apply Z.ltb_lt, IZR_lt in H3.
  apply Z.leb_le, IZR_le in H4. rewrite !mult_IZR, abs_IZR, minus_IZR, !mult_IZR, minus_IZR in H4.
  rewrite Ra, Rb, Ri.
  replace (IZR (2 ^ 60)) with (2 ^ 60)%R in * by (rewrite pow_IZR; reflexivity).
  replace (IZR (10 ^ 8)) with (10 ^ 8)%R in * by (rewrite pow_IZR; reflexivity).
  set (s := (2 ^ 60)%R) in *. assert (S0 : 0 < s) by (apply pow_lt; lra).
  set (t := (10 ^ 8)%R) in *. assert (T0 : 0 < t) by (apply pow_lt; lra).
  set (A := IZR a) in *. set (B := IZR b) in *. set (I := IZR i) in *. clearbody s t A B I.
  assert (Is : 0 < / s) by now apply Rinv_0_lt_compat.
  do 3 (split; [easy|]). split; [unfold Rdiv; split; nra|]. split.
  { apply Rmult_lt_reg_r with s; [easy|]. unfold Rdiv. rewrite Rmult_assoc, Rinv_l by lra. lra. }
  replace (B / s - A / s * (1 - 1 / (I / s))) with ((B * I - A * (I - s)) / (s * I)) by (field; lra).
  unfold Rdiv. rewrite Rabs_mult, Rabs_inv, (Rabs_pos_eq (s * I)) by nra.
  apply Rmult_le_reg_r with (s * I * t); [repeat apply Rmult_lt_0_compat; lra|].
  replace (Rabs (B * I - A * (I - s)) * / (s * I) * (s * I * t)) with (Rabs (B * I - A * (I - s)) * t) by (field; lra).
  replace (/ t * (s * I * t)) with (I * s) by (field; lra). exact H4.
Qed.
Lemma ellipsoid_consts_f64 lm E : In E (ellipsoid_consts (ops := F64ops lm)) ->
  is_finite (e_a E) = true /\ is_finite (e_b E) = true /\ is_finite (e_invf E) = true /\
  0 < B2R (e_b E) < B2R (e_a E) /\ 1 < B2R (e_invf E) /\
  Rabs (B2R (e_b E) - B2R (e_a E) * (1 - 1 / B2R (e_invf E))) <= / 10 ^ 8.
Proof.
  intros H. apply const_ok_ok. revert E H. apply forallb_forall. vm_compute. reflexivity.
Qed.
Definition rebuilt lm (E : Ellipsoid f64) : bool :=
  match from_ainvf (ops := F64ops lm) (e_name E) (e_a E) (e_invf E),
        from_ab (ops := F64ops lm) (e_name E) (e_a E) (e_b E) with
  | Ret E1, Ret E2 => ellipsoid_eq (ops := F64ops lm) E E1 || ellipsoid_eq (ops := F64ops lm) E E2
  | _, _ => false
  end.
Lemma ellipsoid_consts_rebuilt lm E : In E (ellipsoid_consts (ops := F64ops lm)) ->
  exists E', (from_ainvf (ops := F64ops lm) (e_name E) (e_a E) (e_invf E) = Ret E' \/
              from_ab (ops := F64ops lm) (e_name E) (e_a E) (e_b E) = Ret E') /\
  ellipsoid_eq (ops := F64ops lm) E E' = true.
Proof.
  intros H. assert (R : rebuilt lm E = true).
  { revert E H. apply forallb_forall. vm_compute. reflexivity. }
  unfold rebuilt in R. destruct (from_ainvf _ _ _) as [E1| |]; try discriminate.
  destruct (from_ab _ _ _) as [E2| |]; try discriminate.
  apply orb_true_iff in R as [R|R]; [exists E1|exists E2]; auto.
Qed.
Lemma sphere_f64 lm : is_spherical (ops := F64ops lm) (SPHERE (ops := F64ops lm)) = false /\
  B2R (e_a (SPHERE (ops := F64ops lm))) - B2R (e_b (SPHERE (ops := F64ops lm))) = 1.
Proof.
  split; [vm_compute; reflexivity|].
  assert (Sa : scaled (e_a (SPHERE (ops := F64ops lm))) = Some (6370997 * 2 ^ 60)%Z) by (vm_compute; reflexivity).
  assert (Sb : scaled (e_b (SPHERE (ops := F64ops lm))) = Some (6370996 * 2 ^ 60)%Z) by (vm_compute; reflexivity).
  apply scaled_ok in Sa as [_ ->]. apply scaled_ok in Sb as [_ ->]. rewrite !mult_IZR.
  replace (IZR (2 ^ 60)) with (2 ^ 60)%R by (rewrite pow_IZR; reflexivity).
  set (s := (2 ^ 60)%R). assert (0 < s) by (apply pow_lt; lra). clearbody s. field. lra.
Qed.
Lemma meridian_consts_f64 lm P : In P (prime_meridian_consts (ops := F64ops lm)) ->
  is_finite (pm_lon P) = true /\ lon_normalized (ops := F64ops lm) (pm_lon P) = pm_lon P /\
  Rabs (B2R (pm_lon P)) < 2.
Proof.
  intros H.
  assert (R : is_finite (pm_lon P) = true /\
    Beqb (lon_normalized (ops := F64ops lm) (pm_lon P)) (pm_lon P) &&
    Bltb (Babs (pm_lon P)) (f64_ofZ 2) = true).
  { rewrite <- andb_true_iff. revert P H. apply forallb_forall. vm_compute. reflexivity. }
  destruct R as [F R]. apply andb_true_iff in R as [R1 R2]. split; [easy|].
  destruct (B2R_const (f64_ofZ 2) false 4503599627370496 (-51) ltac:(vm_compute; reflexivity)) as [E2 F2].
  rewrite (Bltb_correct _ _ _ _ (eq_trans (is_finite_Babs 53 1024 _) F) F2), B2R_Babs, E2 in R2. split.
  - clear R1 R2.
    assert (X : B2SF (lon_normalized (ops := F64ops lm) (pm_lon P)) = B2SF (pm_lon P)).
    { clear F. revert P H. apply Forall_forall. unfold prime_meridian_consts.
      repeat (apply Forall_cons; [vm_compute; reflexivity|]). constructor. }
    now apply B2SF_eq.
  - destruct (Rlt_bool_spec (Rabs (B2R (pm_lon P))) (F2R (Float radix2 (cond_Zopp false 4503599627370496) (-51)))) as [L|]; [|discriminate].
    unfold F2R in L. simpl in L. lra.
Qed.

(** ** The same constants over the reals *)
Lemma def_ainvf_shape nm a i : 0 < a -> 1 < i -> shape (def_ainvf nm (Fin a) (Fin i)) a (a * (1 - 1 / i)).
Proof.
  intros A I. unfold def_ainvf, shape. cbn [e_a e_b e_invf]. xr. rewrite xdiv_fin by lra. xr. rewrite !length_new_M.
  assert (B : 0 < 1 / i < 1).
  { split; [apply Rdiv_lt_0_compat; lra|]. apply Rmult_lt_reg_r with i; [lra|].
    unfold Rdiv. rewrite Rmult_assoc, Rinv_l by lra. lra. }
  split; [nra|]. split; [easy|]. split; [easy|]. split; [|nra]. intros L. f_equal. field.
  split; [lra|]. replace (a * i - a * (i - 1)) with a by ring. lra.
Qed.
Lemma def_ab_shape nm a b : 0 < b < a -> shape (def_ab nm (Fin a) (Fin b)) a b.
Proof.
  intros H. unfold def_ab, shape. cbn [e_a e_b e_invf]. xr. rewrite Req_bool_f by lra. cbn [negb].
  rewrite xdiv_fin by lra. rewrite !length_new_M. split; [lra|]. repeat split; lra || easy.
Qed.
Lemma ellipsoid_consts_exact E : In E (ellipsoid_consts (F := XR)) -> exists a b, b < a /\ 9 * a < 10 * b /\ shape E a b.
Proof.
  revert E. apply Forall_forall. unfold ellipsoid_consts.
  assert (D1 : forall nm m k m' k', (0 < m)%Z -> (10 * 10 ^ k' < m')%Z -> (0 <= k)%Z -> (0 <= k')%Z ->
     exists a b, b < a /\ 9 * a < 10 * b /\ shape (def_ainvf nm (flit m k) (flit m' k')) a b).
  { intros nm m k m' k' M M' K K'.
    assert (0 < IZR (10 ^ k)) by (apply IZR_lt, Z.pow_pos_nonneg; lia).
    assert (T : 0 < IZR (10 ^ k')) by (apply IZR_lt, Z.pow_pos_nonneg; lia).
    assert (A : 0 < Rlit m k) by (apply Rdiv_lt_0_compat; [now apply IZR_lt|easy]).
    assert (I : 10 < Rlit m' k').
    { unfold Rlit. apply Rmult_lt_reg_r with (IZR (10 ^ k')); [easy|]. unfold Rdiv.
      rewrite Rmult_assoc, Rinv_l, Rmult_1_r by lra. rewrite <- mult_IZR. now apply IZR_lt. }
    exists (Rlit m k), (Rlit m k * (1 - 1 / Rlit m' k')). assert (B : 0 < 1 / Rlit m' k' < / 10).
    { split; [apply Rdiv_lt_0_compat; lra|]. unfold Rdiv. rewrite Rmult_1_l. apply Rinv_lt_contravar; nra. }
    split; [nra|]. split; [nra|]. apply def_ainvf_shape; lra. }
  assert (D2 : forall nm m k m' k', (0 < m')%Z -> (m' * 10 ^ k < m * 10 ^ k')%Z -> (9 * (m * 10 ^ k') < 10 * (m' * 10 ^ k))%Z -> (0 <= k)%Z -> (0 <= k')%Z ->
     exists a b, b < a /\ 9 * a < 10 * b /\ shape (def_ab nm (flit m k) (flit m' k')) a b).
  { intros nm m k m' k' M M' N K K'.
    assert (T : 0 < IZR (10 ^ k)) by (apply IZR_lt, Z.pow_pos_nonneg; lia).
    assert (T' : 0 < IZR (10 ^ k')) by (apply IZR_lt, Z.pow_pos_nonneg; lia).
    assert (B : 0 < Rlit m' k') by (apply Rdiv_lt_0_compat; [now apply IZR_lt|easy]).
    assert (L : Rlit m' k' < Rlit m k).
    { unfold Rlit. apply Rmult_lt_reg_r with (IZR (10 ^ k) * IZR (10 ^ k')); [nra|].
      replace (IZR m' / IZR (10 ^ k') * (IZR (10 ^ k) * IZR (10 ^ k'))) with (IZR m' * IZR (10 ^ k)) by (field; lra).
      replace (IZR m / IZR (10 ^ k) * (IZR (10 ^ k) * IZR (10 ^ k'))) with (IZR m * IZR (10 ^ k')) by (field; lra).
      rewrite <- !mult_IZR. now apply IZR_lt. }
    assert (L' : 9 * Rlit m k < 10 * Rlit m' k').
    { unfold Rlit. apply Rmult_lt_reg_r with (IZR (10 ^ k) * IZR (10 ^ k')); [nra|].
      replace (10 * (IZR m' / IZR (10 ^ k')) * (IZR (10 ^ k) * IZR (10 ^ k'))) with (10 * (IZR m' * IZR (10 ^ k))) by (field; lra).
      replace (9 * (IZR m / IZR (10 ^ k)) * (IZR (10 ^ k) * IZR (10 ^ k'))) with (9 * (IZR m * IZR (10 ^ k'))) by (field; lra).
      rewrite <- !mult_IZR. now apply IZR_lt. }
    exists (Rlit m k), (Rlit m' k'). split; [easy|]. split; [easy|]. apply def_ab_shape. lra. }
  repeat (apply Forall_cons; [(apply D1 || apply D2); (lia || reflexivity || (vm_compute; congruence))|]). constructor.
Qed.
Lemma sphere_exact : shape (SPHERE (F := XR)) 6370997 6370996.
Proof.
  replace 6370996 with (6370997 * (1 - 1 / 6370997)) by lra.
  replace (SPHERE (F := XR)) with (def_ainvf "Normal Sphere (r=6370997)" (Fin 6370997) (Fin 6370997)).
  - apply def_ainvf_shape; lra.
  - unfold SPHERE. xr. unfold Rlit. replace (IZR 6370997 / IZR (10 ^ 0)) with 6370997 by (simpl; lra). easy.
Qed.

Lemma meridian_consts_exact P : In P (prime_meridian_consts (F := XR)) ->
  exists deg, pm_lon P = Fin (deg / 180 * PI) /\ Rabs deg < 180.
Proof.
  revert P. apply Forall_forall. unfold prime_meridian_consts.
  assert (D : forall nm x, Rabs x < 180 -> exists deg, pm_lon (pm_const nm (Fin x)) = Fin (deg / 180 * PI) /\ Rabs deg < 180).
  { intros nm x X. exists x. split; [|easy]. unfold pm_const, angle_new, per_unit, DEG. cbn [pm_lon fst snd]. xr.
    rewrite xdiv_fin by lra. xr. f_equal. field. }
  assert (L : forall m k, (0 <= m)%Z -> (0 <= k)%Z -> (m < 180 * 10 ^ k)%Z -> Rabs (Rlit m k) < 180).
  { intros m k M K H. assert (T : 0 < IZR (10 ^ k)) by (apply IZR_lt, Z.pow_pos_nonneg; lia).
    unfold Rlit, Rdiv. rewrite Rabs_mult, Rabs_inv, (Rabs_pos_eq (IZR (10 ^ k))) by lra.
    rewrite Rabs_pos_eq by (now apply IZR_le).
    apply Rmult_lt_reg_r with (IZR (10 ^ k)); [easy|]. rewrite Rmult_assoc, Rinv_l, Rmult_1_r by lra.
    rewrite <- mult_IZR. now apply IZR_lt. }
  repeat (apply Forall_cons; [apply D; xr; rewrite ?Rabs_Ropp; apply L; vm_compute; congruence|]). constructor.
Qed.
