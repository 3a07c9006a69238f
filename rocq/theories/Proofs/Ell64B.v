(** Binary64: auxiliary latitudes; ellipsoids as constructed; the predefined ones. *)
From Coq Require Import ZArith Reals QArith Qreals Qabs Lra Lia Bool Psatz List String.
From Flocq Require Import Core IEEE754.BinarySingleNaN.
From Flocq Require Import Sterbenz.
From Verif.Num Require Import FOps RFun XR XRLemmas F64 F64Lemmas PIBounds Near.
From Verif.Model Require Import Fp Quantities Cs Ellipsoid.
From Verif.Spec Require Import Angles Accurate Binary64 Ellipsoid64.
From Verif.Proofs Require Import AnglesX AnglesF EllX NearX NearL LlhF CtorF NearT MathF LibmOk Lines64A Ell64.
Import ListNotations.
Local Open Scope R_scope.

(** ** The auxiliary latitudes *)
Lemma atan_rel x X (d e : R) : Rabs (x - X) <= d * Rabs X + e -> 0 <= d -> 0 <= e -> d + e <= / 100 -> Rabs (atan x - atan X) <= d + e.
Proof.
  intros H D0 E0 DE. destruct (Rle_or_lt (Rabs X) 1) as [L|L].
  - eapply Rle_trans; [apply atan_lip|]. apply (Rle_trans _ _ _ H). assert (d * Rabs X <= d * 1) by (apply Rmult_le_compat_l; lra). lra.
  - assert (K : forall x X, 1 < X -> Rabs (x - X) <= d * X + e -> Rabs (atan x - atan X) <= d + e).
    { clear - D0 E0 DE. intros x X L H. set (t := (x - X) / X). assert (EX : x = X * (1 + t)) by (unfold t; field; lra).
      assert (T : Rabs t <= d + e). { unfold t, Rdiv. rewrite Rabs_mult, (Rabs_pos_eq (/ X)) by (left; apply Rinv_0_lt_compat; lra). apply (Rmult_le_reg_r X); [lra|]. rewrite Rmult_assoc, Rinv_l, Rmult_1_r by lra. apply (Rle_trans _ _ _ H). assert (e * 1 <= e * X) by (apply Rmult_le_compat_l; lra). lra. }
      rewrite EX. eapply Rle_trans; [apply NearT.atan_scaled; lra|]. pose proof (Rabs_pos t). lra. }
    destruct (Rle_or_lt 0 X) as [P|P].
    + rewrite (Rabs_pos_eq X) in * by exact P. now apply K.
    + rewrite (Rabs_left X) in * by exact P. rewrite <- (Ropp_involutive x), <- (Ropp_involutive X), (atan_opp (- x)), (atan_opp (- X)). replace (- atan (- x) - - atan (- X)) with (- (atan (- x) - atan (- X))) by ring. rewrite Rabs_Ropp. apply K; [lra|]. replace (- x - - X) with (- (x - X)) by ring. rewrite Rabs_Ropp. exact H.
Qed.
Lemma zero_val : B2R (f64_ofZ 0) = 0 /\ is_finite (f64_ofZ 0) = true.
Proof. split; reflexivity. Qed.
Section L.
Context (lm : libm) (AC : accurate lm).
Local Notation O := (F64ops lm).
Lemma near_tan p : is_finite p = true -> Rabs (B2R p) <= B2R PI_2_64 -> near (lm_tan lm p) (tan (B2R p)) (- inject_Z (10 ^ 20)) (inject_Z (10 ^ 20)) ulp4 (rup ((1 + ulp4) * 0 + tiny)).
Proof.
  intros F B. apply (near_four_abs _ (tan (B2R p))); [now apply (ac_tan lm AC)|rewrite Rminus_diag_eq, Rabs_R0, q0 by reflexivity; lra|]. pose proof (tan_bound _ B) as T. apply Rabs_le_inv in T. rewrite Q2R_opp, q2r_Z. change (10 ^ 20)%Z with (Z.pow 10 (Z.of_nat 20)). rewrite <- pow_IZR. exact T.
Qed.
Lemma near_lat c C d p : near c C (Qmake 98 100) 1 d 0 -> Qle_bool d (Qmake 7 (2 ^ 53)) = true -> is_finite p = true -> Rabs (B2R p) <= B2R PI_2_64 -> off64 (lm_atan lm (Bmult mode_NE c (lm_tan lm p))) (atan (C * tan (B2R p))) (/ 2 ^ 48).
Proof.
  intros N CD F B. assert (N0 : near c C (Qmake 98 100) 1 (Qmake 7 (2 ^ 53)) 0) by (refine (near_weak _ _ _ _ _ _ _ _ _ _ N _ CD _); [apply N|reflexivity]). clear N. pose proof (near_tan p F B) as NT. nnorm NT. nmul N0 NT N1.
  match type of N1 with near ?x ?X ?lo ?hi ?d1 ?e1 => pose proof N1 as (F1 & _ & D1 & E1 & K1); assert (KA : Rabs (atan (B2R x) - atan X) <= Q2R (d1 + e1)) by (rewrite Q2R_plus; apply atan_rel; [exact K1|exact D1|exact E1|rewrite <- Q2R_plus; replace (/ 100) with (Q2R (Qmake 1 100)) by qr; apply qle; vm_compute; reflexivity]); pose proof (near_four_abs _ _ _ _ (Qmake (-158) 100) (Qmake 158 100) (ac_atan lm AC x F1 I) KA) as N2 end.
  match type of N2 with ?A -> _ => assert (H0 : A) end. { pose proof (atan_bound (C * tan (B2R p))) as AB. pose proof PI_64_bounds as PB. replace (Q2R (Qmake (-158) 100)) with (- (158 / 100)) by qr. replace (Q2R (Qmake 158 100)) with (158 / 100) by qr. lra. }
  specialize (N2 H0). nnorm N2. replace (/ 2 ^ 48) with (32 * / 2 ^ 53) by (replace (2 ^ 53) with (2 ^ 48 * 32) by (change 53%nat with (48 + 5)%nat; rewrite pow_add; cbn [pow]; ring); field; apply pow_nonzero; lra). offu N2 32%Z. lra.
Qed.
Lemma latitudes64 E a b p : earth64 E a b -> flat64 E a b -> is_finite p = true -> Rabs (B2R p) <= B2R PI_2_64 ->
  off64 (reduced_latitude (ops := O) E p) (atan (b / a * tan (B2R p))) (/ 2 ^ 48) /\ off64 (geocentric_latitude (ops := O) E p) (atan (b * b / (a * a) * tan (B2R p))) (/ 2 ^ 48).
Proof.
  intros HE FL F B. unfold reduced_latitude, geocentric_latitude. rewrite !(proj1 (base_unit_exact lm _)). cbn [fatan fmul fsub ftan F64ops]. change (fofZ (FOps := O) 1) with (f64_ofZ 1). split.
  - pose proof (near_omf lm E a b HE FL) as N. apply (near_lat _ _ (Qmake 7 (2 ^ 53))); [|reflexivity|exact F|exact B]. refine (near_weak _ _ _ _ _ _ _ _ _ _ N _ _ _); [|apply Qle_bool_iff, Qle_refl|apply Qle_bool_iff, Qle_refl]. destruct N as (_ & R & _). rewrite q1 in *. replace (Q2R (Qmake 99 100)) with (99 / 100) in R by qr. replace (Q2R (Qmake 98 100)) with (98 / 100) by qr. lra.
  - apply (near_lat _ _ (Qmake 3 (2 ^ 53))); [exact (near_ome lm E a b HE)|reflexivity|exact F|exact B].
Qed.

(** ** Construction *)
Lemma gap (x y : f64) : is_finite x = true -> is_finite y = true -> 0 < B2R y < B2R x -> B2R y * bpow radix2 (-53) < B2R x - B2R y.
Proof.
  intros Fx Fy [Y0 L]. pose proof (generic_format_B2R 53 1024 x) as Gx. pose proof (generic_format_B2R 53 1024 y) as Gy. change (SpecFloat.fexp 53 1024) with (FLT_exp (-1074) 53) in Gx, Gy.
  pose proof (succ_le_lt radix2 (FLT_exp (-1074) 53) (B2R y) (B2R x) Gy Gx L) as S. rewrite succ_eq_pos in S by lra. pose proof (ulp_FLT_gt radix2 (-1074) 53 (B2R y)) as U. rewrite (Rabs_pos_eq (B2R y)) in U by lra. change (bpow radix2 (- (53))) with (bpow radix2 (-53)) in U. set (v := ulp radix2 (FLT_exp (-1074) 53) (B2R y)) in *. apply Rlt_le_trans with v; [exact U|lra].
Qed.
Lemma sub_exact (x y : f64) : is_finite x = true -> is_finite y = true -> B2R y <= B2R x <= 2 * B2R y -> 0 < B2R y -> B2R x <= 2 ^ 30 -> B2R (Bminus mode_NE x y) = B2R x - B2R y /\ is_finite (Bminus mode_NE x y) = true.
Proof.
  intros Fx Fy L Y0 M. destruct (f64_minus x y Fx Fy) as [V F]. { apply Rle_trans with (bpow radix2 30); [|apply bpow_le; lia]. change (bpow radix2 30) with (IZR (2 ^ 30)). replace (IZR (2 ^ 30)) with (2 ^ 30) by (cbn; lra). rewrite Rabs_pos_eq; lra. }
  split; [|exact F]. rewrite V. apply round_generic; [apply valid_rnd_N|]. pose proof (generic_format_B2R 53 1024 x) as Gx. pose proof (generic_format_B2R 53 1024 y) as Gy. apply sterbenz; [apply FLT_exp_valid; reflexivity|apply FLT_exp_monotone|exact Gx|exact Gy|lra].
Qed.
Lemma from_ab64 name (x y : f64) : is_finite x = true -> is_finite y = true -> 6300000 <= B2R y < B2R x -> B2R x <= 6400000 -> 99 * B2R x <= 100 * B2R y ->
  exists E, from_ab (ops := O) name x y = Ret E /\ e_name E = name /\ earth64 E (B2R x) (B2R y) /\ flat64 E (B2R x) (B2R y).
Proof.
  intros Fx Fy [B1 B2] B3 B4. destruct zero_val as [Z0 FZ]. assert (T1 : Bltb (f64_ofZ 0) y = true) by (apply lt_true; [exact FZ|exact Fy|rewrite Z0; lra]). assert (T2 : Bltb y x = true) by (apply lt_true; assumption).
  assert (T3 : Bleb y x = true) by (rewrite Bleb_correct by assumption; apply Rle_bool_true; lra).
  destruct (sub_exact x y Fx Fy) as [V F]; [lra|lra|cbn; lra|]. pose proof (gap x y Fx Fy ltac:(lra)) as G. set (a := B2R x) in *. set (b := B2R y) in *. set (w := Bminus mode_NE x y) in *.
  assert (W0 : bpow radix2 (-31) <= a - b). { replace (bpow radix2 (-31)) with (bpow radix2 22 * bpow radix2 (-53)) by (rewrite <- bpow_plus; reflexivity). left. eapply Rle_lt_trans; [|exact G]. apply Rmult_le_compat_r; [apply bpow_ge_0|]. cbn. lra. }
  assert (W1 : 0 < a - b) by lra. assert (Q0 : 100 <= a / (a - b)) by (apply (Rmult_le_reg_r (a - b)); [exact W1|]; unfold Rdiv; rewrite Rmult_assoc, Rinv_l by lra; lra).
  assert (QM : a / (a - b) <= bpow radix2 60). { apply (Rmult_le_reg_r (a - b)); [exact W1|]. unfold Rdiv. rewrite Rmult_assoc, Rinv_l, Rmult_1_r by lra. apply Rle_trans with (bpow radix2 60 * bpow radix2 (-31)); [|apply Rmult_le_compat_l; [apply bpow_ge_0|exact W0]]. rewrite <- bpow_plus. cbn. lra. }
  destruct (f64_div x w Fx) as [VD FD]; [lra| |]. { fold a. rewrite V, Rabs_pos_eq by lra. apply (Rle_trans _ _ _ QM), bpow_le. lia. }
  fold a in VD. rewrite V in VD. pose proof (rnd_error (a / (a - b))) as RE. rewrite <- VD, (Rabs_pos_eq (a / (a - b))), u_val in RE by lra. exists (mkEllipsoid name x y (Bdiv mode_NE x w)).
  split. { unfold from_ab, rassert. cbn [flt fle fsub fdiv F64ops]. change (fofZ (FOps := O) 0) with (f64_ofZ 0). rewrite T1, T3, T2. reflexivity. }
  split; [reflexivity|]. split. { split; [now split|]. split; [now split|]. split; [exact FD|]. fold a b. lra. }
  pose proof u_pos as U. assert (US : / 2 ^ 53 <= / 1000) by (apply Rinv_le_contravar; [lra|cbn; lra]). assert (U2 : / 2 ^ 51 = 4 * / 2 ^ 53) by (replace (2 ^ 53) with (4 * 2 ^ 51) by (change (2 ^ 53) with (2 * (2 * 2 ^ 51)); ring); field).
  assert (ET : bpow radix2 (-1075) <= / 2 ^ 53) by (rewrite <- u_val; apply bpow_le; lia). set (i := B2R (Bdiv mode_NE x w)) in *. set (q := a / (a - b)) in *. set (u := / 2 ^ 53) in *. assert (RQ : Rabs (i - q) <= 2 * u * q). { assert (u * 1 <= u * q) by (apply Rmult_le_compat_l; lra). lra. }
  assert (RI := RQ). apply Rabs_le_inv in RI. assert (UQ : 2 * u * q <= / 500 * q) by (apply Rmult_le_compat_r; lra). assert (I0 : 99 <= i) by lra. split; [exact FD|]. split; [cbn [e_invf]; fold i; lra|]. cbn [e_invf]. fold i. rewrite U2. replace ((a - b) / a) with (/ q) by (unfold q; field; lra).
  replace (/ i - / q) with (- (i - q) * / (i * q)) by (field; lra). rewrite Rabs_mult, Rabs_Ropp, (Rabs_pos_eq (/ (i * q))) by (left; apply Rinv_0_lt_compat, Rmult_lt_0_compat; lra).
  apply Rle_trans with (2 * u * q * / (i * q)); [apply Rmult_le_compat_r; [left; apply Rinv_0_lt_compat, Rmult_lt_0_compat; lra|exact RQ]|]. replace (2 * u * q * / (i * q)) with (2 * u * / i) by (field; lra). assert (/ i <= 1) by (rewrite <- Rinv_1; apply Rinv_le_contravar; lra). assert (2 * u * / i <= 2 * u * 1) by (apply Rmult_le_compat_l; lra). lra.
Qed.
Lemma from_ainvf64 name (x i : f64) : is_finite x = true -> is_finite i = true -> 6370000 <= B2R x <= 6400000 -> 101 <= B2R i <= 6400000 ->
  exists E, from_ainvf (ops := O) name x i = Ret E /\ e_name E = name /\ e_invf E = i /\ off64 (e_b E) (B2R x * (1 - / B2R i)) (3 / 10 ^ 9) /\ earth64 E (B2R x) (B2R (e_b E)) /\ flat64 E (B2R x) (B2R (e_b E)).
Proof.
  intros Fx Fi Bx Bi. destruct zero_val as [Z0 FZ]. destruct one_val as [Z1 FO]. assert (T1 : Bltb (f64_ofZ 0) x = true) by (apply lt_true; [exact FZ|exact Fx|rewrite Z0; lra]). assert (T2 : Bltb (f64_ofZ 1) i = true) by (apply lt_true; [exact FO|exact Fi|rewrite Z1; lra]).
  set (bf := Bmult mode_NE (Bminus mode_NE (f64_ofZ 1) (Bdiv mode_NE (f64_ofZ 1) i)) x). exists (mkEllipsoid name x bf i). split. { unfold from_ainvf, rassert. cbn [flt fsub fdiv F64ops]. change (fofZ (FOps := O) 0) with (f64_ofZ 0). change (fofZ (FOps := O) 1) with (f64_ofZ 1). rewrite T1, T2. reflexivity. }
  split; [reflexivity|]. split; [reflexivity|]. cbn [e_b].
  assert (IB : / 6400000 <= / B2R i <= / 101) by (split; apply Rinv_le_contravar; lra).
  nZ 1%Z N1. pose proof (near_exact i 101 6400000 Fi ltac:(split; [replace (Q2R 101) with 101 by qr|replace (Q2R 6400000) with 6400000 by qr]; lra)) as NI. pose proof (near_exact x 6370000 6400000 Fx ltac:(split; [replace (Q2R 6370000) with 6370000 by qr|replace (Q2R 6400000) with 6400000 by qr]; lra)) as NX.
  ndiv N1 NI N2. apply (near_range _ _ _ _ _ _ 0 (Qmake 1 101)) in N2; [|rewrite q0; replace (Q2R (Qmake 1 101)) with (/ 101) by qr; lra]. nsub N1 N2 N3. apply (near_eq _ _ (1 - / B2R i)) in N3; [|unfold Rdiv; ring].
  apply (near_range _ _ _ _ _ _ (Qmake 99 100) 1) in N3; [|rewrite q1; replace (Q2R (Qmake 99 100)) with (99 / 100) by qr; lra]. nrel N3. nmul N3 NX N4. fold bf in N4. nrel N4. pose proof N4 as (FB & RB & DB & EB & KB). rewrite q0 in KB.
  assert (KB' : Rabs (B2R bf - B2R x * (1 - / B2R i)) <= 3 * / 2 ^ 53 * (B2R x * (1 - / B2R i))). { rewrite (Rmult_comm (B2R x)). eapply Rle_trans; [exact KB|]. rewrite Rplus_0_r, Rabs_pos_eq by (apply Rmult_le_pos; lra). apply Rmult_le_compat_r; [apply Rmult_le_pos; lra|]. rewrite <- (q_u 3). apply qle. vm_compute. reflexivity. }
  clear - KB' FB IB Bx Bi Fx Fi. set (a := B2R x) in *. set (f := / B2R i) in *. set (B := B2R bf) in *. pose proof u_pos as U. assert (U2 : / 2 ^ 51 = 4 * / 2 ^ 53) by (replace (2 ^ 53) with (4 * 2 ^ 51) by (change (2 ^ 53) with (2 * (2 * 2 ^ 51)); ring); field).
  assert (US : 3 * / 2 ^ 53 <= / 10 ^ 15 * (7 / 20)). { rewrite <- (q_u 3). replace (/ 10 ^ 15 * (7 / 20)) with (Q2R (Qmake 7 (20 * 10 ^ 15))) by (unfold Q2R; cbn; lra). apply qle. vm_compute. reflexivity. }
  assert (AF : a * (1 - f) <= 6400000 * 1) by (apply Rmult_le_compat; lra). assert (A0 : 0 <= a * (1 - f)) by (apply Rmult_le_pos; lra).
  assert (KA : Rabs (B - a * (1 - f)) <= 3 * / 2 ^ 53 * a). { apply (Rle_trans _ _ _ KB'). apply Rmult_le_compat_l; [lra|]. assert (a * f >= 0) by (apply Rle_ge, Rmult_le_pos; lra). lra. }
  assert (KC : Rabs (B - a * (1 - f)) <= 3 / 10 ^ 9). { apply (Rle_trans _ _ _ KB'). apply Rle_trans with (/ 10 ^ 15 * (7 / 20) * (6400000 * 1)); [apply Rmult_le_compat; lra|]. lra. }
  assert (AL : a * / 6400000 <= a * f <= a * / 101) by (split; apply Rmult_le_compat_l; lra). assert (KD := KC). apply Rabs_le_inv in KD. assert (P9 : 3 / 10 ^ 9 <= / 100) by lra.
  split; [split; [exact FB|exact KC]|]. split. { split; [now split|]. split; [now split|]. split; [exact Fi|]. fold a B. lra. }
  split; [exact Fi|]. cbn [e_invf]. split; [lra|]. fold f. rewrite U2. replace (f - (a - B) / a) with ((B - a * (1 - f)) * / a) by (field; lra). rewrite Rabs_mult, (Rabs_pos_eq (/ a)) by (left; apply Rinv_0_lt_compat; lra).
  apply (Rmult_le_reg_r a); [lra|]. rewrite Rmult_assoc, Rinv_l, Rmult_1_r by lra. apply (Rle_trans _ _ _ KA). apply Rmult_le_compat_r; lra.
Qed.
End L.

(** ** The predefined ellipsoids *)
Definition b2q (x : f64) : Q :=
  match x with
  | B754_finite s m e _ => let z := cond_Zopp s (Zpos m) in
      match e with Z0 => inject_Z z | Zpos k => inject_Z (z * 2 ^ Zpos k) | Zneg k => Qmake z (2 ^ k) end
  | _ => 0%Q
  end.
Lemma b2q_ok x : Q2R (b2q x) = B2R x.
Proof.
  destruct x as [s|s| |s m e He]; try (cbn; unfold Q2R; cbn; lra). unfold b2q, B2R, F2R. cbn [Fnum Fexp]. set (z := cond_Zopp s (Zpos m)). destruct e as [|k|k].
  - rewrite q2r_Z. cbn. ring.
  - rewrite q2r_Z, mult_IZR. change (2 ^ Zpos k)%Z with (Zpower (radix_val radix2) (Zpos k)). rewrite IZR_Zpower by lia. reflexivity.
  - rewrite q2r_make. unfold Rdiv. f_equal. change (Zneg k) with (- Zpos k)%Z. rewrite bpow_opp. f_equal. rewrite Pos2Z.inj_pow. change (2 ^ Zpos k)%Z with (Zpower (radix_val radix2) (Zpos k)). now rewrite IZR_Zpower by lia.
Qed.
Definition flatb (E : Ellipsoid f64) : bool :=
  let a := b2q (e_a E) in let b := b2q (e_b E) in let i := b2q (e_invf E) in
  is_finite (e_invf E) && negb (Qle_bool i 1) && negb (Qle_bool a 0) && Qle_bool (Qabs (/ i - (a - b) / a)) (Qmake 1 (2 ^ 51)).
Lemma q2r_abs q : Q2R (Qabs q) = Rabs (Q2R q).
Proof.
  apply Qabs_case; intros H; apply Qle_Rle in H; rewrite q0 in H; [now rewrite Rabs_pos_eq|]. rewrite Q2R_opp, Rabs_left1 by exact H. reflexivity.
Qed.
Lemma qnle x y : negb (Qle_bool x y) = true -> Q2R y < Q2R x.
Proof. intros H. apply Qlt_Rlt. apply Qnot_le_lt. intros K. apply Qle_bool_iff in K. rewrite K in H. discriminate. Qed.
Lemma flatb_ok E : flatb E = true -> flat64 E (B2R (e_a E)) (B2R (e_b E)).
Proof.
  unfold flatb. rewrite !andb_true_iff. intros (((F & I1) & A0) & D). apply qnle in I1, A0. rewrite q1 in I1. rewrite q0 in A0. apply qle in D. rewrite q2r_abs, Q2R_minus, Q2R_div, Q2R_inv, Q2R_minus, !b2q_ok in D.
  - rewrite b2q_ok in I1. split; [exact F|]. split; [exact I1|]. apply (Rle_trans _ _ _ D). right. rewrite q2r_make. unfold Rdiv. rewrite Rmult_1_l. f_equal. now rewrite pow_IZR.
  - intros K. apply Qeq_eqR in K. rewrite q0 in K. lra.
  - intros K. apply Qeq_eqR in K. rewrite q0 in K. lra.
Qed.
Lemma consts_flat lm : List.forallb flatb (ellipsoid_consts (ops := F64ops lm)) = true.
Proof. vm_compute. reflexivity. Qed.
Lemma consts_earth_flat lm E : List.In E (ellipsoid_consts (ops := F64ops lm)) -> earth64 E (B2R (e_a E)) (B2R (e_b E)) /\ flat64 E (B2R (e_a E)) (B2R (e_b E)).
Proof. intros H. split; [apply earthb_ok, (proj1 (List.forallb_forall _ _) (consts_earth lm) E H)|apply flatb_ok, (proj1 (List.forallb_forall _ _) (consts_flat lm) E H)]. Qed.
