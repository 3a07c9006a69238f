(** Binary64: constructors of angles from degrees, minutes and seconds. *)
From Coq Require Import ZArith Reals QArith Qreals Lra Lia Bool List.
From Flocq Require Import Core IEEE754.BinarySingleNaN.
From Verif.Num Require Import FOps F64 F64Lemmas PIBounds Near.
From Verif.Model Require Import Fp Quantities Cs.
From Verif.Spec Require Import Angles Sexagesimal.
From Verif.Proofs Require Import AnglesF NearX LlhInvG TransB Ctor.
Local Open Scope R_scope.

Section Lm.
Context (lm : libm).
Local Notation O := (F64ops lm).
Context (d m s : f64) (FD : is_finite d = true) (FM : is_finite m = true) (FS : is_finite s = true).

Lemma signum_near : near (f64_signum d) (if Bsign d then -1 else 1) (-1) 1 0 0.
Proof.
  nZ (-1)%Z N1. nZ 1%Z N2.
  destruct d as [b|b| |b mm ee H]; try discriminate; unfold f64_signum; cbn [Bsign]; destruct b; (eapply near_weak; [first [exact N1|exact N2]|idtac..]); try (vm_compute; reflexivity); rewrite !q2r_make; cbn; lra.
Qed.
Context (BD : Rabs (B2R d) <= 360) (BM : 0 <= B2R m <= 59) (BS : 0 <= B2R s < 60).
Let t := (if Bsign d then -1 else 1) * (Rabs (B2R d) + B2R m / 60 + B2R s / 3600) * (PI / 180).
Lemma t_bound : Rabs t <= 64 / 10.
Proof.
  pose proof PI_RGT_0. pose proof PI_64_bounds as PB. unfold t. set (q := Rabs (B2R d) + B2R m / 60 + B2R s / 3600).
  assert (0 <= q <= 361) by (unfold q; pose proof (Rabs_pos (B2R d)); lra).
  assert (0 <= q * (PI / 180)) by (apply Rmult_le_pos; lra). assert (q * (PI / 180) <= 361 * (PI / 180)) by (apply Rmult_le_compat_r; lra).
  destruct (Bsign d); apply Rabs_le; lra.
Qed.
Lemma dms_near : near (angle_new (ops := O) (dms_degrees (ops := O) d m s) (DEG (ops := O))) t (-7) 7 0 (Qmake 64 (2 ^ 53)).
Proof.
  pose proof t_bound as TB. apply Rabs_le_inv in TB. unfold t in *. pose proof near_pi as NP. nrel NP. nZ 60%Z N60. nZ 3600%Z N3600. nZ 180%Z N180. pose proof signum_near as NS.
  pose proof (near_exact (Babs d) 0 360 ltac:(now rewrite is_finite_Babs) ltac:(rewrite B2R_Babs, !q2r_make; pose proof (Rabs_pos (B2R d)); cbn; lra)) as ND. rewrite B2R_Babs in ND.
  pose proof (near_exact m 0 59 FM ltac:(rewrite !q2r_make; cbn; lra)) as NM. pose proof (near_exact s 0 60 FS ltac:(rewrite !q2r_make; cbn; lra)) as NN.
  ndiv NM N60 W1. ndiv NN N3600 W2. nadd ND W1 W3. nadd W3 W2 W4. nmul NS W4 E. ndiv NP N180 U. nmul E U W5.
  unfold angle_new, dms_degrees, per_unit, DEG. cbn [fst snd].
  apply near_abs in W5. eapply near_weak; [exact W5|idtac..]; try (vm_compute; reflexivity). rewrite !q2r_make. cbn. lra.
Qed.
Lemma f64_Z (z : Z) : (Z.abs z <= 2 ^ 53)%Z -> is_finite (f64_ofZ z) = true /\ B2R (f64_ofZ z) = IZR z.
Proof.
  intros H. destruct (near_Z z H) as (F & _ & _ & _ & E). rewrite q0 in E. split; [exact F|]. assert (Rabs (B2R (f64_ofZ z) - IZR z) <= 0) as Q by lra. apply Rabs_le_inv in Q. lra.
Qed.
Lemma lt_true (x y : f64) : is_finite x = true -> is_finite y = true -> B2R x < B2R y -> Bltb x y = true.
Proof. intros. rewrite Bltb_correct by assumption. now apply Rlt_bool_true. Qed.
Lemma le_true (x y : f64) : is_finite x = true -> is_finite y = true -> B2R x <= B2R y -> Bleb x y = true.
Proof. intros. rewrite Bleb_correct by assumption. now apply Rle_bool_true. Qed.
Lemma lon_dms_ret dbg : (dbg = true -> -180 < B2R d) -> lon_dms (ops := O) dbg d m s = Ret (lon_new (ops := O) (angle_new (ops := O) (dms_degrees (ops := O) d m s) (DEG (ops := O)))) /\
  azimuth_dms (ops := O) dbg d m s = Ret (azimuth_new (ops := O) (angle_new (ops := O) (dms_degrees (ops := O) d m s) (DEG (ops := O)))).
Proof.
  intros H. unfold lon_dms, azimuth_dms. destruct dbg; [|split; reflexivity]. specialize (H eq_refl). cbn [negb orb flt fle fneg fofZ F64ops].
  pose proof (f64_Z 180 ltac:(vm_compute; discriminate)) as [F1 V1]. pose proof (f64_Z 0 ltac:(vm_compute; discriminate)) as [F2 V2]. pose proof (f64_Z 59 ltac:(vm_compute; discriminate)) as [F3 V3]. pose proof (f64_Z 60 ltac:(vm_compute; discriminate)) as [F4 V4].
  assert (K1 : Bltb (Bopp (f64_ofZ 180)) d = true) by (apply lt_true; [now rewrite is_finite_Bopp|exact FD|rewrite B2R_Bopp, V1; lra]). assert (K2 : Bleb m (f64_ofZ 180) = true) by (apply le_true; [exact FM|exact F1|rewrite V1; lra]). assert (K3 : Bleb (f64_ofZ 0) m = true) by (apply le_true; [exact F2|exact FM|rewrite V2; lra]). assert (K4 : Bleb m (f64_ofZ 59) = true) by (apply le_true; [exact FM|exact F3|rewrite V3; lra]).
  assert (K5 : Bleb (f64_ofZ 0) s = true) by (apply le_true; [exact F2|exact FS|rewrite V2; lra]). assert (K6 : Bltb s (f64_ofZ 60) = true) by (apply lt_true; [exact FS|exact F4|rewrite V4; lra]). rewrite K1, K2, K3, K4, K5, K6.
  split; reflexivity.
Qed.
Lemma lat_dms_ret dbg : (dbg = true -> -90 <= B2R d) -> lat_dms (ops := O) dbg d m s = Ret (lat_new (ops := O) (angle_new (ops := O) (dms_degrees (ops := O) d m s) (DEG (ops := O)))).
Proof.
  intros H. unfold lat_dms. destruct dbg; [|reflexivity]. specialize (H eq_refl). cbn [negb orb flt fle fneg fofZ F64ops].
  pose proof (f64_Z 90 ltac:(vm_compute; discriminate)) as [F1 V1]. pose proof (f64_Z 0 ltac:(vm_compute; discriminate)) as [F2 V2]. pose proof (f64_Z 59 ltac:(vm_compute; discriminate)) as [F3 V3]. pose proof (f64_Z 60 ltac:(vm_compute; discriminate)) as [F4 V4].
  assert (K1 : Bleb (Bopp (f64_ofZ 90)) d = true) by (apply le_true; [now rewrite is_finite_Bopp|exact FD|rewrite B2R_Bopp, V1; lra]). assert (K2 : Bleb m (f64_ofZ 90) = true) by (apply le_true; [exact FM|exact F1|rewrite V1; lra]). assert (K3 : Bleb (f64_ofZ 0) m = true) by (apply le_true; [exact F2|exact FM|rewrite V2; lra]). assert (K4 : Bleb m (f64_ofZ 59) = true) by (apply le_true; [exact FM|exact F3|rewrite V3; lra]).
  assert (K5 : Bleb (f64_ofZ 0) s = true) by (apply le_true; [exact F2|exact FS|rewrite V2; lra]). assert (K6 : Bltb s (f64_ofZ 60) = true) by (apply lt_true; [exact FS|exact F4|rewrite V4; lra]). rewrite K1, K2, K3, K4, K5, K6.
  reflexivity.
Qed.
Lemma lon_f64 dbg : (dbg = true -> -180 < B2R d) -> exists l k, lon_dms (ops := O) dbg d m s = Ret l /\ is_finite l = true /\ - B2R PI64 <= B2R l <= B2R PI64 + / 2 ^ 47 /\ Rabs (B2R l - t - IZR k * (2 * PI)) <= 12 / 10 ^ 15.
Proof.
  intros H. destruct dms_near as (F & B & _ & _ & E). rewrite q0, Rmult_0_l, Rplus_0_l in E. pose proof t_bound as TB. apply Rabs_le_inv in TB.
  set (x := angle_new (ops := O) (dms_degrees (ops := O) d m s) (DEG (ops := O))) in *. assert (Q1 : Q2R (Qmake 64 (2 ^ 53)) = 64 / 2 ^ 53) by (rewrite q2r_make; cbn; lra). rewrite Q1 in E.
  destruct (near_wrap lm x t _ 7 F E) as (k & W1 & W2 & W3); [apply Rabs_le_inv in E; apply Rabs_le; lra|lra|]. exists (lon_new (ops := O) x), (- k)%Z.
  split; [apply (lon_dms_ret dbg H)|]. split; [exact W1|]. split; [exact W2|]. rewrite opp_IZR. eapply Rle_trans; [|eapply Rle_trans; [exact W3|lra]]. right. f_equal. unfold lon_new. ring.
Qed.
Lemma norm_wrap (x : f64) : is_finite x = true -> Rabs (B2R x) <= 2 ^ 50 -> (normalized (ops := O) x = wrapped (ops := O) x /\ - B2R PI64 < B2R (wrapped (ops := O) x)) \/ (B2R (wrapped (ops := O) x) = - B2R PI64 /\ normalized (ops := O) x = PI64).
Proof.
  intros F B. destruct (remainder_bounds lm x F B) as (j & FR & _). change (is_finite (remainder (ops := O) x TAU64) = true) in FR. destruct PI64_val as [PV PF]. unfold normalized, wrapped. change (ftau (FOps := O)) with TAU64. change (fpi (FOps := O)) with PI64. revert FR. generalize (remainder (ops := O) x TAU64). intros r FR. cbn [flt fle fneg F64ops].
  rewrite Bltb_correct, Bleb_correct by (rewrite ?is_finite_Bopp; first [exact FR|exact PF]). rewrite B2R_Bopp. assert (0 < B2R PI64) by (rewrite PV; unfold m_pi; lra).
  destruct (Rle_bool_spec (B2R r) (- B2R PI64)) as [K|K]; destruct (Rlt_bool_spec (B2R r) (- B2R PI64)) as [K'|K']; try lra; [left|right|left]; (split; [lra||reflexivity|lra||reflexivity]).
Qed.
Lemma azimuth_f64 dbg : (dbg = true -> -180 < B2R d) -> exists l k, azimuth_dms (ops := O) dbg d m s = Ret l /\ is_finite l = true /\ - B2R PI64 < B2R l <= B2R PI64 + / 2 ^ 47 /\ Rabs (B2R l - t - IZR k * (2 * PI)) <= 2 / 10 ^ 14.
Proof.
  intros H. destruct (lon_f64 dbg H) as (l & k & E1 & F & L & E). destruct (lon_dms_ret dbg H) as [R1 R2]. rewrite R2. rewrite R1 in E1. assert (RI : forall a b : f64, Ret a = Ret b -> a = b) by (intros ? ? Q; now injection Q). apply RI in E1.
  destruct dms_near as (FX & _ & _ & _ & XE). pose proof t_bound as TB. set (x := angle_new (ops := O) (dms_degrees (ops := O) d m s) (DEG (ops := O))) in *. clearbody x. clear R1 R2 H. rewrite q0, Rmult_0_l, Rplus_0_l in XE. assert (Q1 : Q2R (Qmake 64 (2 ^ 53)) = 64 / 2 ^ 53) by (rewrite q2r_make; cbn; lra). rewrite Q1 in XE. clear Q1.
  apply Rabs_le_inv in XE, TB. clearbody t. unfold azimuth_new. change (wrapped (ops := O) x = l) in E1. destruct (norm_wrap x FX ltac:(apply Rabs_le; lra)) as [[N1 N2]|[N1 N2]]; rewrite E1 in N1, N2 || rewrite E1 in N1.
  - rewrite N1. exists l, k. split; [reflexivity|]. split; [exact F|]. split; [split; [exact N2|apply L]|eapply Rle_trans; [exact E|lra]].
  - rewrite N2. exists PI64, (k + 1)%Z. split; [reflexivity|]. destruct PI64_val as [PV PF]. pose proof PI_64_bounds as PB. split; [exact PF|]. rewrite N1 in E. rewrite PV in *. unfold m_pi in *. split; [lra|]. rewrite plus_IZR. apply Rabs_le_inv in E. apply Rabs_le.
    set (K := IZR k * (2 * PI)) in *. replace ((IZR k + 1) * (2 * PI)) with (K + 2 * PI) by (unfold K; ring). lra.
Qed.
Lemma lat_f64 dbg : (dbg = true -> -90 <= B2R d) -> Rabs t <= PI / 2 -> exists l, lat_dms (ops := O) dbg d m s = Ret l /\ is_finite l = true /\ Rabs (B2R l) <= B2R PI_2_64 /\ Rabs (B2R l - t) <= 2 / 10 ^ 14.
Proof.
  intros H TB. destruct dms_near as (F & B & _ & _ & E). rewrite q0, Rmult_0_l, Rplus_0_l in E.
  set (x := angle_new (ops := O) (dms_degrees (ops := O) d m s) (DEG (ops := O))) in *. assert (Q1 : Q2R (Qmake 64 (2 ^ 53)) = 64 / 2 ^ 53) by (rewrite q2r_make; cbn; lra). rewrite Q1 in E.
  destruct (lat_clamp lm x t _ F E TB) as (C1 & C2 & C3). exists (lat_new (ops := O) x). split; [apply (lat_dms_ret dbg H)|]. split; [exact C1|]. split; [apply Rabs_le; lra|]. eapply Rle_trans; [exact C3|lra].
Qed.
End Lm.
