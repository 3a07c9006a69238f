(** Binary64: splitting an angle into degrees, minutes and seconds. *)
From Coq Require Import Reals Lra Lia ZArith QArith Qreals Bool List.
From Flocq Require Import Core IEEE754.BinarySingleNaN.
From Verif.Num Require Import FOps F64 F64Lemmas PIBounds Near.
From Verif.Model Require Import Fp Quantities Cs.
From Verif.Spec Require Import Runs Angles64.
From Verif.Proofs Require Import AnglesX AnglesX2 AnglesF NearX NearL CtorF Lines64A Angles64P.
Local Open Scope R_scope.

Lemma nearbyint_val m (x : f64) : B2R (Bnearbyint m x) = IZR (round_mode m (B2R x)) /\ is_finite (Bnearbyint m x) = is_finite x.
Proof.
  destruct (Bnearbyint_correct 53 1024 _ m x) as (E1 & E2 & _). split; [|easy]. rewrite E1. unfold round, scaled_mantissa, cexp, FIX_exp, F2R. simpl. now rewrite !Rmult_1_r.
Qed.
Lemma u16 : 0 < / 2 ^ 53 <= 112 / 10 ^ 18 /\ 0 < / 2 ^ 100 <= / 10 ^ 30.
Proof. split; (split; [apply Rinv_0_lt_compat, pow_lt; lra|]); [replace (112 / 10 ^ 18) with (/ (10 ^ 18 / 112)) by field|]; (apply Rinv_le_contravar; [cbn; lra|cbn; lra]). Qed.
Lemma deg_val : B2R DEG_PER_RAD64 = 8063664102031864 / 2 ^ 47 /\ is_finite DEG_PER_RAD64 = true.
Proof. destruct (B2R_const DEG_PER_RAD64 false 8063664102031864 (-47) ltac:(vm_compute; reflexivity)) as [-> F]. split; [unfold F2R; cbn; lra|exact F]. Qed.
Lemma deg_err : Rabs (B2R DEG_PER_RAD64 - 180 / PI) <= 3 / 10 ^ 15.
Proof.
  rewrite (proj1 deg_val). pose proof p64_bounds as PB. unfold p64, m_pi in PB. set (D := 8063664102031864 / 2 ^ 47). replace (D - 180 / PI) with ((D * PI - 180) * / PI) by (field; lra). rewrite Rabs_mult, (Rabs_pos_eq (/ PI)) by (left; apply Rinv_0_lt_compat; lra).
  apply (Rmult_le_reg_r PI); [lra|]. rewrite Rmult_assoc, Rinv_l, Rmult_1_r by lra. apply Rabs_le. unfold D. lra.
Qed.
Section D.
Variable lm : libm.
Local Notation O := (F64ops lm).
(** Sixty times the fraction. *)
Lemma fract60 (x : f64) : is_finite x = true -> 0 <= B2R x <= 1000 ->
  let h := fmul (FOps := O) (fofZ (FOps := O) 60) (ffract (ops := O) x) in
  is_finite h = true /\ 0 <= B2R h /\ Rabs (B2R h - 60 * (B2R x - IZR (Zfloor (B2R x)))) <= 2 / 10 ^ 14.
Proof.
  intros F B h. destruct (nearbyint_val mode_ZR x) as [VT FT]. cbn [round_mode] in VT. rewrite Ztrunc_floor in VT by lra. rewrite F in FT. pose proof (floor_le (B2R x)) as [L U]. destruct u16 as [U1 U2].
  destruct (f64_minus x (Bnearbyint mode_ZR x) F FT) as [V1 F1]. { rewrite VT. apply (big_bound _ 1); [apply Rabs_le; lra|cbn; lra]. } rewrite VT in V1. set (n := IZR (Zfloor (B2R x))) in *. pose proof (rnd_err (B2R x - n)) as R1. rewrite <- V1, (Rabs_pos_eq (B2R x - n)) in R1 by lra.
  assert (P1 : 0 <= B2R (Bminus mode_NE x (Bnearbyint mode_ZR x))) by (rewrite V1; apply rnd_pos; lra). unfold h, ffract. cbn [fmul fsub ftrunc F64ops]. change (fofZ (FOps := O) 60) with (f64_ofZ 60). set (f := Bminus mode_NE x (Bnearbyint mode_ZR x)) in *.
  assert (K1 : / 2 ^ 53 * (B2R x - n) <= / 2 ^ 53 * 1) by (apply Rmult_le_compat_l; lra). assert (R1' : Rabs (B2R f - (B2R x - n)) <= 113 / 10 ^ 18) by lra. clear R1. apply Rabs_le_inv in R1'. destruct (f64_Z 60 ltac:(cbn; lia)) as [F6 V6].
  destruct (f64_mult (f64_ofZ 60) f F6 F1) as [V2 F2]. { rewrite V6. apply (big_bound _ 100); [apply Rabs_le; lra|cbn; lra]. } rewrite V6 in V2. pose proof (rnd_err (60 * B2R f)) as R2. rewrite <- V2, (Rabs_pos_eq (60 * B2R f)) in R2 by lra.
  assert (K2 : / 2 ^ 53 * (60 * B2R f) <= / 2 ^ 53 * 61) by (apply Rmult_le_compat_l; lra). split; [exact F2|]. split; [rewrite V2; apply rnd_pos; lra|]. assert (R2' : Rabs (B2R (Bmult mode_NE (f64_ofZ 60) f) - 60 * B2R f) <= 7 / 10 ^ 15) by lra. apply Rabs_le_inv in R2'. apply Rabs_le. lra.
Qed.
Lemma lit8 : is_finite (flit (FOps := O) 1 8) = true /\ 99 / 10 ^ 10 <= B2R (flit (FOps := O) 1 8) <= 101 / 10 ^ 10.
Proof. destruct (B2R_const (flit (FOps := O) 1 8) false 6044629098073146 (-79) ltac:(vm_compute; reflexivity)) as [-> F]. split; [exact F|]. unfold F2R. cbn. lra. Qed.

Section A.
Context (a : f64) (Fa : is_finite a = true) (Ba : Rabs (B2R a) <= 8).
Let g : f64 := fto_degrees (ops := O) (fabs (FOps := O) a).
Let A := Rabs (B2R a) * (180 / PI).
Lemma g_ok : is_finite g = true /\ 0 <= B2R g <= 460 /\ Rabs (B2R g - A) <= 8 / 10 ^ 14.
Proof.
  unfold g, fto_degrees. cbn [fmul fabs fdeg_per_rad F64ops]. destruct deg_val as [DV DF]. pose proof deg_err as DE. destruct u16 as [U1 U2]. pose proof (Rabs_pos (B2R a)) as A0. assert (FA : is_finite (Babs a) = true) by now rewrite is_finite_Babs.
  assert (DB : 57 < B2R DEG_PER_RAD64 < 573 / 10) by (rewrite DV; lra). set (D := B2R DEG_PER_RAD64) in *. assert (P : 0 <= Rabs (B2R a) * D <= 8 * (573 / 10)) by (split; [apply Rmult_le_pos; lra|apply Rmult_le_compat; lra]).
  destruct (f64_mult (Babs a) DEG_PER_RAD64 FA DF) as [V F]. { rewrite B2R_Babs. fold D. apply (big_bound _ 1000); [rewrite Rabs_pos_eq; lra|cbn; lra]. } rewrite B2R_Babs in V. fold D in V.
  pose proof (rnd_err (Rabs (B2R a) * D)) as R. rewrite <- V, (Rabs_pos_eq (Rabs (B2R a) * D)) in R by lra. assert (K : / 2 ^ 53 * (Rabs (B2R a) * D) <= 112 / 10 ^ 18 * (8 * (573 / 10))) by (apply Rmult_le_compat; lra).
  assert (E : Rabs (Rabs (B2R a) * D - A) <= 8 * (3 / 10 ^ 15)). { unfold A. rewrite <- Rmult_minus_distr_l, Rabs_mult, Rabs_Rabsolu. apply Rmult_le_compat; try apply Rabs_pos; lra. }
  set (z := B2R (Bmult mode_NE (Babs a) DEG_PER_RAD64)) in *. split; [exact F|]. assert (Z0 : 0 <= z) by (rewrite V; apply rnd_pos; lra). apply Rabs_le_inv in E. assert (R' : Rabs (z - Rabs (B2R a) * D) <= 52 / 10 ^ 15) by lra. apply Rabs_le_inv in R'. split; [lra|]. apply Rabs_le. lra.
Qed.
Lemma sg_val : B2R (f64_signum a) = (if Bsign a then -1 else 1) /\ is_finite (f64_signum a) = true.
Proof. pose proof (signum_near a Fa) as N. split; [|apply N]. pose proof (near_err _ _ _ _ _ _ N) as E. replace (Q2R (0 + 0 * mag (-1) 1)) with 0 in E by (rewrite Q2R_plus, Q2R_mult, q0; ring). apply Rabs_le_inv in E. lra. Qed.
Lemma d_ok : let d := fmul (FOps := O) (fsignum (FOps := O) a) (ffloor (FOps := O) g) in
  is_finite d = true /\ B2R d = (if Bsign a then -1 else 1) * IZR (Zfloor (B2R g)) /\ (0 <= Zfloor (B2R g))%Z.
Proof.
  intros d. destruct g_ok as (F & B & _). destruct (nearbyint_val mode_DN g) as [V FF]. cbn [round_mode] in V. rewrite F in FF. destruct sg_val as [SV SF]. assert (N0 : (0 <= Zfloor (B2R g))%Z) by (apply Zfloor_lub; lra). pose proof (floor_le (B2R g)) as FL. assert (N0' : 0 <= IZR (Zfloor (B2R g))) by now apply (IZR_le 0).
  unfold d. cbn [fmul fsignum ffloor F64ops]. set (w := Bnearbyint mode_DN g) in *. assert (M : Rabs (B2R (f64_signum a) * B2R w) <= bpow radix2 1023). { rewrite SV, V. apply (big_bound _ 1000); [destruct (Bsign a); apply Rabs_le; lra|cbn; lra]. }
  destruct (f64_mult _ _ SF FF M) as [E1 E2]. split; [exact E2|]. split; [|exact N0]. rewrite E1, SV. rewrite <- V. destruct (Bsign a).
  - replace (-1 * B2R w) with (B2R (Bopp w)) by (rewrite B2R_Bopp; ring). apply rnd_B2R.
  - rewrite Rmult_1_l. apply rnd_B2R.
Qed.
Lemma dms_split64 : let '(d, m, s) := angle_dms (ops := O) a in
  is_finite d = true /\ is_finite m = true /\ is_finite s = true /\
  (exists n : Z, (0 <= n)%Z /\ B2R d = (if Bsign a then -1 else 1) * IZR n) /\ (exists k : Z, (0 <= k <= 60)%Z /\ B2R m = IZR k /\ (k = 60%Z -> B2R s = 0)) /\ 0 <= B2R s < 60 /\
  Rabs (Rabs (B2R d) + B2R m / 60 + B2R s / 3600 - Rabs (B2R a) * (180 / PI)) <= 2 / 10 ^ 10 /\
  (B2R s <> 0 -> Rabs (Rabs (B2R d) + B2R m / 60 + B2R s / 3600 - Rabs (B2R a) * (180 / PI)) <= / 10 ^ 13).
Proof.
  destruct g_ok as (Fg & Bg & Eg). fold A. destruct d_ok as (Fd & Vd & Nd). unfold angle_dms. fold g. destruct (fract60 g Fg ltac:(lra)) as (Fh & H0 & Eh). cbv zeta. set (h := fmul (FOps := O) (fofZ (FOps := O) 60) (ffract (ops := O) g)) in *. set (d := fmul (FOps := O) (fsignum (FOps := O) a) (ffloor (FOps := O) g)) in *.
  assert (AD : Rabs (B2R d) = IZR (Zfloor (B2R g))). { apply (IZR_le 0) in Nd. rewrite Vd. destruct (Bsign a); [rewrite <- Rabs_Ropp|]; rewrite Rabs_pos_eq; lra. } pose proof (floor_le (B2R g)) as [GL GU]. apply Rabs_le_inv in Eg, Eh.
  assert (HB : B2R h <= 60 + 3 / 10 ^ 14) by lra. assert (DN : exists n : Z, (0 <= n)%Z /\ B2R d = (if Bsign a then -1 else 1) * IZR n) by (exists (Zfloor (B2R g)); split; assumption).
  set (nn := IZR (Zfloor (B2R g))) in *. destruct (nearbyint_val mode_NA h) as [Vr Fr]. rewrite Fh in Fr. cbn [round_mode] in Vr. pose proof (ZnearestA_bound (B2R h)) as RB. set (r := ZnearestA (B2R h)) in *. change (IZR (ZnearestA (B2R h))) with (IZR r) in *. destruct u16 as [U1 U2].
  destruct (f64_minus h (Bnearbyint mode_NA h) Fh Fr) as [Vq Fq]. { rewrite Vr. apply (big_bound _ 1); [lra|cbn; lra]. } rewrite Vr in Vq. pose proof (rnd_err (B2R h - IZR r)) as Rq. rewrite <- Vq in Rq. assert (Kq : / 2 ^ 53 * Rabs (B2R h - IZR r) <= / 2 ^ 53 * 1) by (apply Rmult_le_compat_l; lra).
  cbn [flt fabs fsub fround F64ops]. destruct lit8 as [F8 V8]. rewrite Bltb_correct by (rewrite ?is_finite_Babs; first [exact Fq|exact F8]). rewrite B2R_Babs. set (q := B2R (Bminus mode_NE h (Bnearbyint mode_NA h))) in *. assert (QA : Rabs (Rabs q - Rabs (B2R h - IZR r)) <= 113 / 10 ^ 18) by (eapply Rle_trans; [apply Rabs_triang_inv2|lra]). apply Rabs_le_inv in QA.
  assert (R0 : (0 <= r)%Z). { apply Rabs_le_inv in RB. assert (-1 < IZR r) by lra. apply (lt_IZR (-1)) in H. lia. } assert (R60 : (r <= 60)%Z). { apply Rabs_le_inv in RB. assert (IZR r < 61) by lra. apply (lt_IZR _ 61) in H. lia. }
  destruct (Rlt_bool_spec (Rabs q) (B2R (flit (FOps := O) 1 8))) as [S|S].
  - change (fofZ (FOps := O) 0) with (f64_ofZ 0). destruct (f64_Z 0 ltac:(cbn; lia)) as [F0 V0]. rewrite V0, Vr, AD. split; [exact Fd|]. split; [exact Fr|]. split; [exact F0|]. split; [exact DN|]. split. { exists r. split; [lia|]. split; [reflexivity|]. intros _. reflexivity. }
    split; [lra|]. assert (HR : Rabs (B2R h - IZR r) <= 102 / 10 ^ 10) by lra. apply Rabs_le_inv in HR. split; [apply Rabs_le; lra|intros K; lra].
  - destruct (nearbyint_val mode_DN h) as [Vm Fm]. rewrite Fh in Fm. cbn [round_mode] in Vm. destruct (fract60 h Fh ltac:(lra)) as (Fs & S0 & Es). cbn [ffloor F64ops]. set (s := fmul (FOps := O) (fofZ (FOps := O) 60) (ffract (ops := O) h)) in *. rewrite Vm, AD. pose proof (floor_le (B2R h)) as [HL HU]. set (k := Zfloor (B2R h)) in *. apply Rabs_le_inv in Es.
    assert (HR : 98 / 10 ^ 10 <= Rabs (B2R h - IZR r)) by lra. assert (K0 : (0 <= k)%Z) by (apply Zfloor_lub; lra).
    assert (HT : B2R h - IZR k <= 1 - 97 / 10 ^ 10). { destruct (Rle_or_lt (B2R h - IZR k) (1 - 97 / 10 ^ 10)) as [Y|Y]; [exact Y|]. exfalso. assert (r = k + 1)%Z. { apply Rabs_le_inv in RB. assert (Y1 : IZR k < IZR r) by lra. assert (Y2 : IZR r < IZR k + 2) by lra. rewrite <- (plus_IZR k 2) in Y2. apply lt_IZR in Y1, Y2. lia. } rewrite H, plus_IZR in HR. rewrite Rabs_left in HR by lra. lra. }
    assert (K59 : (k <= 59)%Z). { destruct (Z.le_gt_cases k 59) as [Y|Y]; [exact Y|]. exfalso. assert (Y1 : 60 <= IZR k) by (apply (IZR_le 60); lia). assert (Y2 : r = 60%Z). { apply Rabs_le_inv in RB. assert (Y3 : 59 < IZR r) by lra. apply (lt_IZR 59) in Y3. lia. } rewrite Y2 in HR. rewrite Rabs_pos_eq in HR by lra. lra. }
    split; [exact Fd|]. split; [exact Fm|]. split; [exact Fs|]. split; [exact DN|]. split. { exists k. split; [lia|]. split; [reflexivity|]. intros Y. lia. }
    split; [lra|]. assert (FIN : Rabs (nn + IZR k / 60 + B2R s / 3600 - A) <= / 10 ^ 13) by (apply Rabs_le; lra). split; [lra|]. intros _. exact FIN.
Qed.
End A.
(** Splitting and putting together again. *)
Lemma dms_there64 (a : f64) dbg : is_finite a = true -> Rabs (B2R a) <= 62 / 10 -> let '(d, m, s) := angle_dms (ops := O) a in B2R m <= 59 ->
  ((dbg = true -> -180 < B2R d) -> (exists l, lon_dms (ops := O) dbg d m s = Ret l /\ is_finite l = true /\ near_angle (B2R l) (B2R a) (4 / 10 ^ 12)) /\ (exists z, azimuth_dms (ops := O) dbg d m s = Ret z /\ is_finite z = true /\ near_angle (B2R z) (B2R a) (4 / 10 ^ 12))) /\
  (Rabs (B2R a) <= 157 / 100 -> exists l, lat_dms (ops := O) dbg d m s = Ret l /\ is_finite l = true /\ Rabs (B2R l - B2R a) <= 4 / 10 ^ 12).
Proof.
  intros Fa Ba. pose proof (dms_split64 a Fa ltac:(lra)) as H. pose proof (angle_dms_sign lm a (finite_not_nan _ Fa)) as SG. change (ops lm) with O in SG. destruct (angle_dms (ops := O) a) as [[d m] s]. cbn [fst] in SG. destruct SG as [_ SG]. destruct H as (Fd & Fm & Fs & (n & N0 & Vd) & (k & K0 & Vm & _) & Bs & E & _). intros M59.
  assert (PB := p64_bounds). assert (P3 : 3 < PI) by lra. assert (M0 : 0 <= B2R m) by (rewrite Vm; apply (IZR_le 0); lia). pose proof (Rabs_pos (B2R a)) as A0. pose proof (Rabs_pos (B2R d)) as D0.
  assert (AB : Rabs (B2R a) * (180 / PI) <= 359). { apply (Rmult_le_reg_r PI); [lra|]. replace (Rabs (B2R a) * (180 / PI) * PI) with (Rabs (B2R a) * 180) by (field; lra). unfold p64, m_pi in PB. lra. }
  assert (BD : Rabs (B2R d) <= 360) by (apply Rabs_le_inv in E; lra). set (t := (if Bsign d then -1 else 1) * (Rabs (B2R d) + B2R m / 60 + B2R s / 3600) * (PI / 180)).
  assert (TA : Rabs (t - B2R a) <= 35 / 10 ^ 13). { assert (AS : B2R a = (if Bsign d then -1 else 1) * Rabs (B2R a)). { rewrite SG. destruct a as [b|b| |b mm ee He]; try discriminate; cbn [B2R Bsign]; [rewrite Rabs_R0; ring|]. destruct b; cbn [cond_Zopp]; [rewrite Rabs_left; [ring|apply F2R_lt_0; reflexivity]|rewrite Rabs_pos_eq; [ring|apply F2R_ge_0; discriminate]]. }
    unfold t. set (Q := Rabs (B2R d) + B2R m / 60 + B2R s / 3600) in *. assert (EQ : Q * (PI / 180) - Rabs (B2R a) = (Q - Rabs (B2R a) * (180 / PI)) * (PI / 180)) by (field; lra).
    assert (EB : Rabs (Q * (PI / 180) - Rabs (B2R a)) <= 2 / 10 ^ 10 * (315 / 100 / 180)). { rewrite EQ, Rabs_mult. apply Rmult_le_compat; try apply Rabs_pos; [exact E|]. rewrite Rabs_pos_eq by lra. unfold p64, m_pi in PB. lra. }
    rewrite AS. destruct (Bsign d); [replace (-1 * Q * (PI / 180) - -1 * Rabs (B2R a)) with (- (Q * (PI / 180) - Rabs (B2R a))) by ring; rewrite Rabs_Ropp|replace (1 * Q * (PI / 180) - 1 * Rabs (B2R a)) with (Q * (PI / 180) - Rabs (B2R a)) by ring]; apply (Rle_trans _ _ _ EB); lra. }
  split.
  - intros DB. split.
    + destruct (lon_f64 lm d m s Fd Fm Fs BD ltac:(lra) Bs dbg DB) as (l & j & E1 & F1 & _ & T1). exists l. split; [exact E1|]. split; [exact F1|]. fold t in T1. exists j. apply Rabs_le_inv in T1, TA. apply Rabs_le. lra.
    + destruct (azimuth_f64 lm d m s Fd Fm Fs BD ltac:(lra) Bs dbg DB) as (l & j & E1 & F1 & _ & T1). exists l. split; [exact E1|]. split; [exact F1|]. fold t in T1. exists j. apply Rabs_le_inv in T1, TA. apply Rabs_le. lra.
  - intros BL. assert (AB2 : Rabs (B2R a) * (180 / PI) <= 8999 / 100). { apply (Rmult_le_reg_r PI); [lra|]. replace (Rabs (B2R a) * (180 / PI) * PI) with (Rabs (B2R a) * 180) by (field; lra). unfold p64, m_pi in PB. lra. }
    assert (D90 : Rabs (B2R d) <= 90) by (apply Rabs_le_inv in E; lra). apply Rabs_le_inv in D90, TA, BL. destruct (lat_f64 lm d m s Fd Fm Fs BD ltac:(lra) Bs dbg ltac:(intros _; lra)) as (l & E1 & F1 & _ & T1). { fold t. unfold p64, m_pi in PB. apply Rabs_le. lra. } fold t in T1. exists l. split; [exact E1|]. split; [exact F1|]. apply Rabs_le_inv in T1. apply Rabs_le. lra.
Qed.
(** Three radians are 171 degrees 53 minutes and some seconds. *)
Lemma dms64_d : B2SF (fst (fst (angle_dms (ops := O) (f64_ofZ (-3))))) = SpecFloat.S754_finite true 6016527627190272 (-45).
Proof. vm_compute. reflexivity. Qed.
Lemma dms64_m : B2SF (snd (fst (angle_dms (ops := O) (f64_ofZ (-3))))) = SpecFloat.S754_finite false 7459086882832384 (-47).
Proof. vm_compute. reflexivity. Qed.
Lemma dms64_s : B2SF (snd (angle_dms (ops := O) (f64_ofZ (-3)))) = SpecFloat.S754_finite false 8117029737085440 (-49).
Proof. vm_compute. reflexivity. Qed.
Lemma dms64_ex : let '(d, m, s) := angle_dms (ops := O) (f64_ofZ (-3)) in B2R d = -171 /\ B2R m = 53 /\ 143 / 10 < B2R s < 145 / 10.
Proof.
  pose proof dms64_d as Hd. pose proof dms64_m as Hm. pose proof dms64_s as Hs. destruct (angle_dms (ops := O) (f64_ofZ (-3))) as [[d m] s]. cbn [fst snd] in Hd, Hm, Hs.
  apply B2R_const in Hd, Hm, Hs. destruct Hd as [-> _], Hm as [-> _], Hs as [-> _]. unfold F2R. cbn. lra.
Qed.
Lemma dms64_ex2 : is_finite (f64_ofZ (-3)) = true /\ B2R (f64_ofZ (-3)) = -3 /\
  let '(d, m, s) := angle_dms (ops := O) (f64_ofZ (-3)) in B2R d = -171 /\ B2R m = 53 /\ 143 / 10 < B2R s < 145 / 10.
Proof. destruct (f64_Z (-3) ltac:(cbn; lia)) as [F V]. split; [exact F|]. split; [exact V|exact dms64_ex]. Qed.
End D.
