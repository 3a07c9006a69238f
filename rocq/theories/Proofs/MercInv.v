(** Exact arithmetic: the inverse series of Mercator on an ellipsoid. *)
From Coq Require Import String Reals QArith Qreals Lra Lia ZArith Bool Psatz List.
From Coquelicot Require Import Coquelicot.
From Flocq Require Import Core.Raux.
From Verif.Num Require Import FOps RFun XR XRLemmas TMod TModL.
From Verif.Model Require Import Fp Quantities Cs Ellipsoid Geodesics Projections Crs.
From Verif.Spec Require Import Angles Series Axes Shape Maps.
From Verif.Proofs Require Import AnglesX MathX AxesX EllX DatumX EllEx Wgs84 ProjX MercX TMX.
Import ListNotations.
Local Open Scope R_scope.

(** ** Taylor *)
Lemma sin_taylor5 x : Rabs x <= 1 -> Rabs (sin x - (x - x ^ 3 / 6)) <= Rabs x ^ 5 / 120.
Proof.
  assert (K : forall x, 0 <= x <= 1 -> x - x ^ 3 / 6 <= sin x <= x - x ^ 3 / 6 + x ^ 5 / 120).
  { intros y Hy. destruct (pre_sin_bound y 0 ltac:(lra) ltac:(lra)) as [L U]. unfold sin_approx, sin_term in L, U. cbn in L, U. lra. }
  intros H. destruct (Rle_dec 0 x) as [P|P].
  - rewrite (Rabs_right x) in H |- * by lra. destruct (K x ltac:(lra)). apply Rabs_le. lra.
  - rewrite (Rabs_left x) in H |- * by lra. destruct (K (- x) ltac:(lra)) as [L U]. rewrite sin_neg in L, U. replace ((- x) ^ 3) with (- x ^ 3) in L, U by ring. apply Rabs_le. lra.
Qed.
Lemma cos_taylor6 x : Rabs x <= 1 -> Rabs (cos x - (1 - x ^ 2 / 2 + x ^ 4 / 24)) <= Rabs x ^ 6 / 720.
Proof.
  intros H. apply Rabs_le_inv in H. destruct (pre_cos_bound x 0 ltac:(lra) ltac:(lra)) as [_ U]. destruct (pre_cos_bound x 1 ltac:(lra) ltac:(lra)) as [L _]. unfold cos_approx, cos_term in L, U. cbn in L, U.
  replace (Rabs x ^ 6) with (x ^ 6) by (rewrite RPow_abs, Rabs_right; [reflexivity|]; apply Rle_ge; replace (x ^ 6) with ((x ^ 3) * (x ^ 3)) by ring; apply Rle_0_sqr).
  assert (0 <= x ^ 6) by (replace (x ^ 6) with ((x ^ 3) * (x ^ 3)) by ring; apply Rle_0_sqr). apply Rabs_le. cbn in *. lra.
Qed.
Lemma multiple x y k : 0 <= k -> Rabs x <= k * Rabs y -> exists r, Rabs r <= k /\ x = y * r.
Proof.
  intros K H. destruct (Req_dec y 0) as [->|N].
  - exists 0. rewrite Rabs_R0 in *. split; [exact K|]. rewrite Rmult_0_r in H. pose proof (Rabs_pos x). destruct (Req_dec x 0) as [->|X]; [ring|]. pose proof (Rabs_pos_lt x X). lra.
  - exists (x / y). split; [|field; exact N]. unfold Rdiv. rewrite Rabs_mult, Rabs_inv. apply (Rmult_le_reg_r (Rabs y)); [now apply Rabs_pos_lt|]. rewrite Rmult_assoc, Rinv_l, Rmult_1_r by now apply Rabs_no_R0. exact H.
Qed.

(** ** The series *)
Section Ser.
Definition mC := EV 0. Definition mr1 := EV 1. Definition mr2 := EV 2. Definition mE := EV 3.
Definition ec0 : ex := (mE * (qc 1 2 + mE * (qc 5 24 + mE * (qc 1 12 + mE * qc 13 360))))%ex.
Definition ec1 : ex := (mE * mE * (qc 7 48 + mE * (qc 29 240 + mE * qc 811 11520)))%ex.
Definition ec2 : ex := (mE * mE * mE * (qc 7 120 + mE * qc 81 1120))%ex.
Definition ec3 : ex := (mE * mE * mE * mE * qc 4279 161280)%ex.
Definition emP : ex := (ec0 + EZ 2 * ec1 * mC + ec2 * (EZ 4 * (mC * mC) - EZ 1) + ec3 * (EZ 8 * (mC * mC * mC) - EZ 4 * mC))%ex.
Definition emD : ex := (EZ 1 + EZ 2 * ec0 * mC + EZ 4 * ec1 * (EZ 2 * (mC * mC) - EZ 1) + EZ 6 * ec2 * (EZ 4 * (mC * mC * mC) - EZ 3 * mC) + EZ 8 * ec3 * (EZ 8 * (mC * mC * (mC * mC)) - EZ 8 * (mC * mC) + EZ 1))%ex.
Definition emZ : ex := (EZ 1 - mC * mC)%ex.
Definition emS : ex := (emP - emP * emP * emP * emZ * qc 1 6 + mE * mE * mE * mE * mE * mr1)%ex.
Definition emK : ex := (EZ 1 - emP * emP * emZ * qc 1 2 + emP * emP * (emP * emP) * (emZ * emZ) * qc 1 24 + mE * mE * mE * mE * mE * mr2)%ex.
Definition emmu : ex := (emK + (EZ 1 + mC) * emS)%ex.
Definition emka : ex := (emK - (EZ 1 - mC) * emS)%ex.
Definition emw : ex := (EZ 1 - mE * ((EZ 1 - mC) * qc 1 2) * (emmu * emmu))%ex.
Definition emN : ex := (emD * (EZ 1 - mE) - emw * emka)%ex.
Definition mrad (i : nat) : Q := match i with 0%nat => 1%Q | 1%nat => Qmake 1 3000 | 2%nat => Qmake 1 3000 | _ => Qmake 1 50 end.
Definition menv (C r1 r2 E : R) (i : nat) : R := match i with 0%nat => C | 1%nat => r1 | 2%nat => r2 | _ => E end.
Definition emL : ex := (qc (-325) 1792 + mC * (qc 3657 8960 + mC * (qc 31469 13440 + mC * (qc 2567 2688 + mC * (qc (-71503) 26880 + mC * qc (-50081) 26880)))))%ex.
Definition emR : ex := (emN - epow mE 5 * emL)%ex.
Lemma menv_ok C r1 r2 E : -1 <= C <= 1 -> Rabs r1 <= / 3000 -> Rabs r2 <= / 3000 -> 0 <= E <= / 50 -> forall i, (i <= 3)%nat -> Rabs (menv C r1 r2 E i) <= Q2R (mrad i).
Proof. intros HC H1 H2 HE [|[|[|[|i]]]] Hi; [| | | |lia]; unfold Q2R; cbn [menv mrad Qnum Qden]; try (apply Rabs_le; lra); lra. Qed.
Definition RL (C : R) : R := -325 / 1792 + C * (3657 / 8960 + C * (31469 / 13440 + C * (2567 / 2688 + C * (-71503 / 26880 + C * (-50081 / 26880))))).
Definition eLat (c : Q) : ex := let x := (EC c + EV 0)%ex in (qc (-325) 1792 + x * (qc 3657 8960 + x * (qc 31469 13440 + x * (qc 2567 2688 + x * (qc (-71503) 26880 + x * qc (-50081) 26880)))))%ex.
Lemma eLat_bound c r : ewf 0 (eLat c) && smallj 0 6 (fun _ => r) 0 (Qmake 105 100) (etm 0 6 (fun _ => r) (noft 0) (eLat c)) = true ->
  forall C, Rabs (C - Q2R c) <= Q2R r -> Rabs (RL C) <= 105 / 100.
Proof.
  intros V C H. replace (105 / 100) with (Q2R (Qmake 105 100)) by (unfold Q2R; cbn [Qnum Qden]; field).
  replace (RL C) with (eval (fun _ => C - Q2R c) nofe (eLat c)).
  - apply (series_bound 0 6 (fun _ => r) (fun _ => C - Q2R c)); [|exact V]. intros i _. exact H.
  - unfold eLat, RL, qc. cbn [eval]. replace (Q2R c + (C - Q2R c)) with C by ring. unfold Q2R. cbn [Qnum Qden]. field.
Qed.
Ltac rlp a b := apply (eLat_bound (Qmake a b) (Qmake 1 b)); [vm_compute; reflexivity|unfold Q2R; cbn [Qnum Qden]; apply Rabs_le; lra].
Lemma RL_bound C : -1 <= C <= 1 -> Rabs (RL C) <= 105 / 100.
Proof.
  intros H.
  destruct (Rle_dec C (-3/4)); [rlp (-7)%Z 8%positive|]. destruct (Rle_dec C (-1/2)); [rlp (-5)%Z 8%positive|].
  destruct (Rle_dec C (-1/4)); [rlp (-3)%Z 8%positive|]. destruct (Rle_dec C 0); [rlp (-1)%Z 8%positive|].
  destruct (Rle_dec C (1/4)); [rlp 1%Z 8%positive|]. destruct (Rle_dec C (1/2)); [rlp 3%Z 8%positive|].
  destruct (Rle_dec C (3/4)); [rlp 5%Z 8%positive|]. destruct (Rle_dec C (7/8)); [rlp 13%Z 16%positive|].
  destruct (Rle_dec C (15/16)); [rlp 29%Z 32%positive|]. destruct (Rle_dec C (31/32)); [rlp 61%Z 64%positive|]. 
  destruct (Rle_dec C (63/64)); [rlp 125%Z 128%positive|]. rlp 127%Z 128%positive.
Qed.
(** the same expressions with shared parts *)
Definition LM : list ex :=
  [emP; EF 0 * EF 0; emZ; mE * mE * mE * mE * mE;
   EF 0 - EF 1 * EF 0 * EF 2 * qc 1 6 + EF 3 * mr1;
   EZ 1 - EF 1 * EF 2 * qc 1 2 + EF 1 * EF 1 * (EF 2 * EF 2) * qc 1 24 + EF 3 * mr2;
   EF 5 + (EZ 1 + mC) * EF 4;
   EF 5 - (EZ 1 - mC) * EF 4;
   EZ 1 - mE * ((EZ 1 - mC) * qc 1 2) * (EF 6 * EF 6);
   EF 8 * EF 7]%ex.
Definition LMw : ex := (EF 9 - EZ 1)%ex. Definition LMk : ex := (EF 7 - EZ 1)%ex.
Definition LMR : ex := (emD * (EZ 1 - mE) - EF 9 - epow mE 5 * emL)%ex.
Lemma LM_eval v : eval v nofe emR = eval v (fvals v LM) LMR /\ eval v nofe (emw * emka - EZ 1)%ex = eval v (fvals v LM) LMw /\ eval v nofe (emka - EZ 1)%ex = eval v (fvals v LM) LMk.
Proof.
  repeat split; reflexivity.
Qed.
Lemma emR_small C r1 r2 E : -1 <= C <= 1 -> Rabs r1 <= / 3000 -> Rabs r2 <= / 3000 -> 0 <= E <= / 50 -> Rabs (eval (menv C r1 r2 E) nofe emR) <= 23 / 100 * E ^ 5.
Proof.
  intros HC H1 H2 HE. replace (23 / 100) with (Q2R (Qmake 23 100)) by (unfold Q2R; cbn [Qnum Qden]; field).
  rewrite <- (Rabs_right E) at 2 by lra. rewrite (proj1 (LM_eval _)). apply (let_smallj 3 7 mrad (menv C r1 r2 E)); [now apply menv_ok|vm_compute; reflexivity].
Qed.
Lemma emwk_low C r1 r2 E : -1 <= C <= 1 -> Rabs r1 <= / 3000 -> Rabs r2 <= / 3000 -> 0 <= E <= / 50 -> Rabs (eval (menv C r1 r2 E) nofe (emw * emka - EZ 1)%ex) <= 42 / 1000.
Proof.
  intros HC H1 H2 HE. replace (42 / 1000) with (Q2R (Qmake 42 1000)) by (unfold Q2R; cbn [Qnum Qden]; field).
  rewrite (proj1 (proj2 (LM_eval _))). rewrite <- (Rmult_1_r (Q2R _)). change 1 with (Rabs (menv C r1 r2 E 3) ^ 0). apply (let_smallj 3 2 mrad (menv C r1 r2 E)); [now apply menv_ok|vm_compute; reflexivity].
Qed.
Lemma emka_low C r1 r2 E : -1 <= C <= 1 -> Rabs r1 <= / 3000 -> Rabs r2 <= / 3000 -> 0 <= E <= / 50 -> Rabs (eval (menv C r1 r2 E) nofe (emka - EZ 1)%ex) <= 42 / 1000.
Proof.
  intros HC H1 H2 HE. replace (42 / 1000) with (Q2R (Qmake 42 1000)) by (unfold Q2R; cbn [Qnum Qden]; field).
  rewrite (proj2 (proj2 (LM_eval _))). rewrite <- (Rmult_1_r (Q2R _)). change 1 with (Rabs (menv C r1 r2 E 3) ^ 0). apply (let_smallj 3 2 mrad (menv C r1 r2 E)); [now apply menv_ok|vm_compute; reflexivity].
Qed.
Lemma emP_low C E : -1 <= C <= 1 -> 0 <= E <= / 50 -> Rabs (eval (menv C 0 0 E) nofe emP) <= 52 / 100 * E.
Proof.
  intros HC HE. replace (52 / 100) with (Q2R (Qmake 52 100)) by (unfold Q2R; cbn [Qnum Qden]; field).
  rewrite <- (pow_1 E) at 2. rewrite <- (Rabs_right E) at 2 by lra. apply (series_smallj 3 2 1 mrad (menv C 0 0 E)); [apply menv_ok; try assumption; rewrite Rabs_R0; lra|vm_compute; reflexivity].
Qed.
End Ser.

(** ** The latitude of a conformal latitude *)
Definition mc0 (E : R) : R := E * (1 / 2 + E * (5 / 24 + E * (1 / 12 + E * (13 / 360)))).
Definition mc1 (E : R) : R := E * E * (7 / 48 + E * (29 / 240 + E * (811 / 11520))).
Definition mc2 (E : R) : R := E * E * E * (7 / 120 + E * (81 / 1120)).
Definition mc3 (E : R) : R := E * E * E * E * (4279 / 161280).
Definition mpsi (E x : R) : R := x + mc0 E * sin (2 * x) + mc1 E * sin (4 * x) + mc2 E * sin (6 * x) + mc3 E * sin (8 * x).
Definition mpsi' (E x : R) : R := 1 + 2 * mc0 E * cos (2 * x) + 4 * mc1 E * cos (4 * x) + 6 * mc2 E * cos (6 * x) + 8 * mc3 E * cos (8 * x).
Lemma mpsi_deriv E x : is_derive (mpsi E) x (mpsi' E x).
Proof. unfold mpsi, mpsi'. auto_derive; [easy|]. ring. Qed.
Lemma mpsi_0 E : mpsi E 0 = 0.
Proof. unfold mpsi. rewrite !Rmult_0_r, sin_0. ring. Qed.
Ltac evx := unfold emN, emw, emka, emmu, emK, emS, emD, emP, emZ, ec0, ec1, ec2, ec3, mC, mr1, mr2, mE, qc, EZ in *; cbn [eval menv] in *; unfold Q2R in *; cbn [Qnum Qden inject_Z] in *.
Lemma sin4 t : sin (4 * t) = sin (2 * t) * (2 * cos (2 * t)).
Proof. replace (4 * t) with (2 * (2 * t)) by ring. rewrite sin_2a. ring. Qed.
Lemma cos4 t : cos (4 * t) = 2 * (cos (2 * t) * cos (2 * t)) - 1.
Proof. replace (4 * t) with (2 * (2 * t)) by ring. rewrite cos_2a_cos. ring. Qed.
Lemma sincos_sq t : sin t * sin t = 1 - cos t * cos t.
Proof. pose proof (sin2_cos2 t). unfold Rsqr in *. lra. Qed.
Lemma sin6 t : sin (6 * t) = sin (2 * t) * (4 * (cos (2 * t) * cos (2 * t)) - 1).
Proof. replace (6 * t) with (4 * t + 2 * t) by ring. rewrite sin_plus, sin4, cos4. ring. Qed.
Lemma cos6 t : cos (6 * t) = 4 * (cos (2 * t) * cos (2 * t) * cos (2 * t)) - 3 * cos (2 * t).
Proof. replace (6 * t) with (4 * t + 2 * t) by ring. rewrite cos_plus, sin4, cos4. pose proof (sincos_sq (2 * t)) as Q. replace (sin (2 * t) * (2 * cos (2 * t)) * sin (2 * t)) with (2 * cos (2 * t) * (sin (2 * t) * sin (2 * t))) by ring. rewrite Q. ring. Qed.
Lemma sin8 t : sin (8 * t) = sin (2 * t) * (8 * (cos (2 * t) * cos (2 * t) * cos (2 * t)) - 4 * cos (2 * t)).
Proof. replace (8 * t) with (2 * (4 * t)) by ring. rewrite sin_2a, sin4, cos4. ring. Qed.
Lemma cos8 t : cos (8 * t) = 8 * (cos (2 * t) * cos (2 * t) * (cos (2 * t) * cos (2 * t))) - 8 * (cos (2 * t) * cos (2 * t)) + 1.
Proof. replace (8 * t) with (2 * (4 * t)) by ring. rewrite cos_2a_cos, cos4. ring. Qed.

Section Pt.
Context (E x : R) (HE : 0 <= E <= / 50).
Let C := cos (2 * x).
Let S := sin (2 * x).
Let PP := eval (menv C 0 0 E) nofe emP.
Lemma mC_b : -1 <= C <= 1. Proof. apply COS_bound. Qed.
Lemma mS_sq : S * S = 1 - C * C. Proof. unfold S, C. apply sincos_sq. Qed.
Lemma mdelta : mpsi E x = x + S * PP.
Proof. unfold mpsi, PP, mc0, mc1, mc2, mc3. rewrite sin4, sin6, sin8. fold C S. evx. field. Qed.
Lemma mP_b : Rabs PP <= 52 / 100 * E. Proof. apply emP_low; [apply mC_b|exact HE]. Qed.
Lemma mS_b : Rabs S <= 1. Proof. apply Rabs_le. apply SIN_bound. Qed.
Lemma mSP_b : Rabs (S * PP) <= 52 / 100 * E.
Proof. rewrite Rabs_mult. pose proof mP_b. pose proof mS_b. pose proof (Rabs_pos S). pose proof (Rabs_pos PP). nra. Qed.
Lemma mres : exists r1 r2, Rabs r1 <= / 3000 /\ Rabs r2 <= / 3000 /\
  sin (S * PP) = S * eval (menv C r1 r2 E) nofe emS /\ cos (S * PP) = eval (menv C r1 r2 E) nofe emK.
Proof.
  pose proof mSP_b as B. pose proof mP_b as BP. pose proof mS_b as BS. assert (HE5 : 0 <= E ^ 5) by (apply pow_le; lra).
  assert (B1 : Rabs (S * PP) <= 1) by lra.
  destruct (multiple (sin (S * PP) - (S * PP - (S * PP) ^ 3 / 6)) (S * E ^ 5) (/ 3000)) as (r1 & R1 & Q1); [lra| |].
  { eapply Rle_trans; [now apply sin_taylor5|]. rewrite !Rabs_mult, (Rabs_right (E ^ 5)) by lra. rewrite Rpow_mult_distr.
    assert (K1 : Rabs S ^ 5 <= Rabs S). { pose proof (Rabs_pos S). assert (Rabs S ^ 4 <= 1) by (rewrite <- (pow1 4); apply pow_incr; lra). replace (Rabs S ^ 5) with (Rabs S * Rabs S ^ 4) by ring. nra. }
    assert (K2 : Rabs PP ^ 5 <= (52 / 100 * E) ^ 5) by (apply pow_incr; split; [apply Rabs_pos|exact BP]). rewrite Rpow_mult_distr in K2.
    assert (0 <= Rabs PP ^ 5) by (apply pow_le, Rabs_pos). pose proof (Rabs_pos S).
    assert (Rabs S ^ 5 * Rabs PP ^ 5 <= Rabs S * ((52 / 100) ^ 5 * E ^ 5)) by (apply Rmult_le_compat; try assumption; apply pow_le, Rabs_pos).
    assert (0 <= Rabs S * E ^ 5) by now apply Rmult_le_pos. set (u := Rabs S) in *. set (v := E ^ 5) in *. nra. }
  destruct (multiple (cos (S * PP) - (1 - (S * PP) ^ 2 / 2 + (S * PP) ^ 4 / 24)) (E ^ 5) (/ 3000)) as (r2 & R2 & Q2); [lra| |].
  { eapply Rle_trans; [now apply cos_taylor6|]. rewrite (Rabs_right (E ^ 5)) by lra.
    assert (K2 : Rabs (S * PP) ^ 6 <= (52 / 100 * E) ^ 6) by (apply pow_incr; split; [apply Rabs_pos|exact B]). rewrite Rpow_mult_distr in K2.
    replace (E ^ 6) with (E * E ^ 5) in K2 by ring. set (v := E ^ 5) in *. nra. }
  exists r1, r2. split; [exact R1|]. split; [exact R2|].
  assert (EP : eval (menv C r1 r2 E) nofe emP = PP) by reflexivity.
  split.
  - replace (sin (S * PP)) with (S * PP - (S * PP) ^ 3 / 6 + S * E ^ 5 * r1) by lra. unfold emS. cbn [eval]. rewrite EP. clear EP Q1 Q2. replace ((S * PP) ^ 3) with (S * (S * S) * (PP * PP * PP)) by ring. rewrite mS_sq. evx. field.
  - replace (cos (S * PP)) with (1 - (S * PP) ^ 2 / 2 + (S * PP) ^ 4 / 24 + E ^ 5 * r2) by lra. unfold emK. cbn [eval]. rewrite EP. clear EP Q1 Q2. replace ((S * PP) ^ 2) with ((S * S) * (PP * PP)) by ring. replace ((S * PP) ^ 4) with ((S * S) * (S * S) * (PP * PP * (PP * PP))) by ring. rewrite mS_sq. evx. field.
Qed.
Lemma mpsi'_ev r1 r2 : mpsi' E x = eval (menv C r1 r2 E) nofe emD.
Proof. unfold mpsi', mc0, mc1, mc2, mc3. rewrite cos4, cos6, cos8. fold C. evx. field. Qed.
(** the identities and bounds at one point *)
Lemma mpoint : exists ka, 95 / 100 <= ka /\ cos (mpsi E x) = cos x * ka /\
  let w := 1 - E * (sin (mpsi E x) * sin (mpsi E x)) in
  958 / 1000 <= w * ka /\ Rabs (mpsi' E x * (1 - E) - w * ka) <= 128 / 100 * E ^ 5.
Proof.
  destruct mres as (r1 & r2 & R1 & R2 & Q1 & Q2). pose proof mC_b as CB.
  exists (eval (menv C r1 r2 E) nofe emka).
  pose proof (emka_low C r1 r2 E CB R1 R2 HE) as K1. pose proof (emwk_low C r1 r2 E CB R1 R2 HE) as K2. pose proof (emR_small C r1 r2 E CB R1 R2 HE) as K3. pose proof (RL_bound C CB) as K4.
  assert (S2 : S = 2 * sin x * cos x) by apply sin_2a.
  assert (CC : 1 + C = 2 * (cos x * cos x)) by (unfold C; rewrite cos_2a_cos; ring).
  assert (CS : 1 - C = 2 * (sin x * sin x)) by (unfold C; rewrite cos_2a_sin; ring).
  assert (Es : sin (mpsi E x) = sin x * eval (menv C r1 r2 E) nofe emmu).
  { rewrite mdelta, sin_plus, Q1, Q2, S2. unfold emmu. cbn [eval]. set (s := eval _ _ emS). set (k := eval _ _ emK). unfold mC, EZ. cbn [eval menv]. unfold Q2R. cbn [Qnum Qden inject_Z]. replace (1 * / 1) with 1 by field. rewrite CC. ring. }
  assert (Ec : cos (mpsi E x) = cos x * eval (menv C r1 r2 E) nofe emka).
  { rewrite mdelta, cos_plus, Q1, Q2, S2. unfold emka. cbn [eval]. set (s := eval _ _ emS). set (k := eval _ _ emK). unfold mC, EZ. cbn [eval menv]. unfold Q2R. cbn [Qnum Qden inject_Z]. replace (1 * / 1) with 1 by field. rewrite CS. ring. }
  assert (Ew : 1 - E * (sin (mpsi E x) * sin (mpsi E x)) = eval (menv C r1 r2 E) nofe emw).
  { rewrite Es. unfold emw. cbn [eval]. set (mu := eval _ _ emmu). unfold mC, mE, EZ, qc. cbn [eval menv]. unfold Q2R. cbn [Qnum Qden inject_Z]. replace (1 * / 1) with 1 by field. rewrite CS. field. }
  split. { unfold EZ in K1. cbn [eval] in K1. unfold Q2R in K1. cbn [Qnum Qden inject_Z] in K1. apply Rabs_le_inv in K1. lra. }
  split; [exact Ec|]. cbn zeta. rewrite Ew. split.
  { unfold EZ in K2. cbn [eval] in K2. unfold Q2R in K2. cbn [Qnum Qden inject_Z] in K2. apply Rabs_le_inv in K2. lra. }
  rewrite (mpsi'_ev r1 r2).
  replace (eval (menv C r1 r2 E) nofe emD * (1 - E) - eval (menv C r1 r2 E) nofe emw * eval (menv C r1 r2 E) nofe emka) with (eval (menv C r1 r2 E) nofe emR + E ^ 5 * RL C).
  - eapply Rle_trans; [apply Rabs_triang|]. rewrite Rabs_mult. assert (0 <= E ^ 5) by (apply pow_le; lra). rewrite (Rabs_right (E ^ 5)) by lra. pose proof (Rabs_pos (RL C)). nra.
  - unfold emR, emN. cbn [eval]. set (d := eval _ _ emD). set (w := eval _ _ emw). set (k := eval _ _ emka). unfold emL, RL, mE, mC, EZ, qc, epow. cbn [eval menv]. unfold Q2R. cbn [Qnum Qden inject_Z]. field.
Qed.
End Pt.

(** ** Comparing a function with the isometric latitude *)
Lemma np_cos p : nonpolar p -> 0 < cos p.
Proof. unfold nonpolar. intros H. apply cos_gt_0; lra. Qed.
Lemma below_isom k (f f' : R -> R) : 0 <= k -> f 0 = 0 -> (forall x, nonpolar x -> is_derive f x (f' x)) -> (forall x, nonpolar x -> Rabs (f' x) <= k / cos x) ->
  forall x, nonpolar x -> Rabs (f x) <= k * Rabs (isom x).
Proof.
  intros K F0 D B x Hx.
  assert (M : forall s, s = 1 \/ s = -1 -> exists c, 0 <= c /\ k * isom x + s * f x = c * x).
  { intros s Hs. destruct (MVT_gen (fun t => k * isom t + s * f t) 0 x (fun t => k / cos t + s * f' t)) as (c & Hc & Q).
    - intros t Ht. assert (N : nonpolar t) by (unfold nonpolar in *; unfold Rmin, Rmax in Ht; destruct (Rle_dec 0 x); lra).
      assert (D1 : is_derive isom t (/ cos t)) by (apply is_derive_Reals; now apply isom_deriv). pose proof (D t N) as D2.
      auto_derive; [repeat split; [now exists (/ cos t)|now exists (f' t)]|]. rewrite (is_derive_unique (fun x : R => isom x) _ _ D1), (is_derive_unique (fun x : R => f x) _ _ D2). unfold Rdiv. ring.
    - intros t Ht. assert (N : nonpolar t) by (unfold nonpolar in *; unfold Rmin, Rmax in Ht; destruct (Rle_dec 0 x); lra).
      assert (D1 : is_derive isom t (/ cos t)) by (apply is_derive_Reals; now apply isom_deriv). pose proof (D t N) as D2.
      apply derivable_continuous_pt. exists (k / cos t + s * f' t). apply is_derive_Reals.
      auto_derive; [repeat split; [now exists (/ cos t)|now exists (f' t)]|]. rewrite (is_derive_unique (fun x : R => isom x) _ _ D1), (is_derive_unique (fun x : R => f x) _ _ D2). unfold Rdiv. ring.
    - assert (N : nonpolar c) by (unfold nonpolar in *; unfold Rmin, Rmax in Hc; destruct (Rle_dec 0 x); lra). exists (k / cos c + s * f' c). split.
      + pose proof (B c N) as Bc. apply Rabs_le_inv in Bc. destruct Hs as [->| ->]; lra.
      + rewrite F0, isom_0, Rminus_0_r in Q. lra. }
  destruct (M 1 ltac:(now left)) as (c1 & P1 & Q1). destruct (M (-1) ltac:(now right)) as (c2 & P2 & Q2).
  destruct (Rle_dec 0 x) as [X|X].
  - assert (0 <= c1 * x) by (apply Rmult_le_pos; lra). assert (0 <= c2 * x) by (apply Rmult_le_pos; lra).
    pose proof (Rle_abs (isom x)). assert (k * isom x <= k * Rabs (isom x)) by (apply Rmult_le_compat_l; assumption). apply Rabs_le. lra.
  - assert (c1 * x <= 0) by nra. assert (c2 * x <= 0) by nra. pose proof (Rle_abs (- isom x)) as A. rewrite Rabs_Ropp in A.
    assert (k * - isom x <= k * Rabs (isom x)) by (apply Rmult_le_compat_l; assumption). apply Rabs_le. lra.
Qed.
Lemma sinh_ge v : 0 <= v -> v <= sinh v.
Proof.
  intros H. destruct (MVT_gen sinh 0 v cosh) as (c & _ & Q).
  - intros t _. apply is_derive_Reals, derivable_pt_lim_sinh.
  - intros t _. apply derivable_continuous_pt. exists (cosh t). apply derivable_pt_lim_sinh.
  - rewrite sinh_0', !Rminus_0_r in Q. pose proof (cosh_ge_1 c). nra.
Qed.
Lemma cosh_2 v : cosh (2 * v) = 1 + 2 * (sinh v * sinh v).
Proof. unfold cosh, sinh. replace (2 * v) with (v + v) by ring. replace (- (v + v)) with (- v + - v) by ring. rewrite !exp_plus. assert (exp v * exp (- v) = 1) by (rewrite <- exp_plus, Rplus_opp_r; apply exp_0). nra. Qed.
Lemma cosh_quad u : 1 + u * u / 2 <= cosh u.
Proof.
  assert (K : forall u, 0 <= u -> 1 + u * u / 2 <= cosh u). { intros t Ht. replace t with (2 * (t / 2)) at 3 by field. rewrite cosh_2. pose proof (sinh_ge (t / 2) ltac:(lra)). nra. }
  destruct (Rle_dec 0 u); [now apply K|]. rewrite <- cosh_opp. replace (u * u) with (- u * - u) by ring. apply K. lra.
Qed.
Lemma isom_cos p : nonpolar p -> Rabs (isom p) * cos p <= 7072 / 10000.
Proof.
  intros H. rewrite <- (gd_isom p H) at 2. rewrite cos_gd. set (u := isom p). pose proof (cosh_quad u) as Q. pose proof (cosh_pos u).
  apply (Rmult_le_reg_r (cosh u)); [assumption|]. rewrite Rmult_assoc, Rinv_l, Rmult_1_r by lra. pose proof (Rabs_pos u). assert (UU : u * u = Rabs u * Rabs u) by (unfold Rabs; destruct (Rcase_abs u); ring). set (v := Rabs u) in *. rewrite UU in Q. pose proof (Rle_0_sqr (v - 14142 / 10000)) as Z. unfold Rsqr in Z. lra.
Qed.

Section Inv.
Context (e : R) (He : 0 <= e < 1) (HE : 0 <= e * e <= / 50).
Let E := e * e.
Definition meps : R := 27 / 20 * (e * e) ^ 5.
Lemma meps_b : 0 <= meps <= / 1000000.
Proof. unfold meps. split; [apply Rmult_le_pos; [lra|apply pow_le; lra]|]. assert ((e * e) ^ 5 <= (/ 50) ^ 5) by (apply pow_incr; lra). lra. Qed.
Lemma mw_pos p : 98 / 100 <= 1 - E * (sin p * sin p) <= 1.
Proof. pose proof (SIN_bound p). assert (0 <= sin p * sin p <= 1) by nra. unfold E. split; nra. Qed.
Lemma mpsi_np x : nonpolar x -> nonpolar (mpsi E x).
Proof.
  intros Hx. destruct (mpoint E x HE) as (ka & K1 & K2 & _). pose proof (mdelta E x) as D. pose proof (mSP_b E x HE) as B. apply Rabs_le_inv in B.
  assert (C : 0 < cos (mpsi E x)) by (rewrite K2; apply Rmult_lt_0_compat; [now apply np_cos|lra]).
  unfold nonpolar in *. pose proof PI2_1 as PB. fold E in HE. 
  split.
  - destruct (Rlt_dec (- (PI / 2)) (mpsi E x)) as [L|L]; [exact L|]. exfalso. assert (cos (mpsi E x) <= 0); [|lra]. rewrite <- cos_neg. apply cos_le_0; lra.
  - destruct (Rlt_dec (mpsi E x) (PI / 2)) as [L|L]; [exact L|]. exfalso. assert (cos (mpsi E x) <= 0); [|lra]. apply cos_le_0; lra.
Qed.
Definition mdef (x : R) : R := isom_e e (mpsi E x) - isom x.
Definition mdef' (x : R) : R := mpsi' E x * ((1 - e * e) / ((1 - e * e * (sin (mpsi E x) * sin (mpsi E x))) * cos (mpsi E x))) - / cos x.
Lemma mdef_deriv x : nonpolar x -> is_derive mdef x (mdef' x).
Proof.
  intros H. assert (D1 : is_derive isom x (/ cos x)) by (apply is_derive_Reals; now apply isom_deriv).
  pose proof (isom_e_deriv e _ He (mpsi_np x H)) as D2. pose proof (mpsi_deriv E x) as D3.
  unfold mdef, mdef'. apply (is_derive_minus (fun x => isom_e e (mpsi E x)) isom); [|exact D1].
  apply (is_derive_comp (isom_e e) (mpsi E)); assumption.
Qed.
Lemma mdef'_b x : nonpolar x -> Rabs (mdef' x) <= meps / cos x.
Proof.
  intros H. destruct (mpoint E x HE) as (ka & K1 & K2 & K3 & K4). cbn zeta in *. fold E in K3, K4 |- *. pose proof (np_cos x H) as C. pose proof (mw_pos (mpsi E x)) as W. unfold mdef'. fold E. rewrite K2. set (w := 1 - E * _) in *.
  replace (mpsi' E x * ((1 - E) / (w * (cos x * ka))) - / cos x) with ((mpsi' E x * (1 - E) - w * ka) / (w * ka) / cos x) by (field; repeat split; lra).
  unfold Rdiv at 1. rewrite Rabs_mult, (Rabs_right (/ cos x)) by (apply Rle_ge; left; now apply Rinv_0_lt_compat).
  apply Rmult_le_compat_r; [left; now apply Rinv_0_lt_compat|]. unfold Rdiv. rewrite Rabs_mult, Rabs_inv, (Rabs_right (w * ka)) by lra.
  apply (Rmult_le_reg_r (w * ka)); [lra|]. rewrite Rmult_assoc, Rinv_l, Rmult_1_r by lra. eapply Rle_trans; [exact K4|]. unfold meps. fold E. assert (0 <= E ^ 5) by (apply pow_le; unfold E; lra). nra.
Qed.
Lemma mdef_b x : nonpolar x -> Rabs (mdef x) <= meps * Rabs (isom x).
Proof.
  intros H. apply (below_isom meps mdef mdef'); [apply meps_b| |exact mdef_deriv|exact mdef'_b|exact H]. unfold mdef. rewrite mpsi_0, isom_e_0, isom_0. ring.
Qed.
Lemma isom_e_le p : nonpolar p -> Rabs (isom_e e p) <= Rabs (isom p).
Proof.
  intros H. rewrite <- (Rmult_1_l (Rabs (isom p))). apply (below_isom 1 (isom_e e) (fun p => (1 - e * e) / ((1 - e * e * (sin p * sin p)) * cos p))); [lra|apply isom_e_0| | |exact H].
  - intros x. now apply isom_e_deriv.
  - intros x Hx. pose proof (np_cos x Hx). pose proof (mw_pos x) as W. fold E. set (w := 1 - E * _) in *. assert (1 - E <= w). { unfold w. pose proof (SIN_bound x). assert (sin x * sin x <= 1) by nra. assert (0 <= E) by (unfold E; lra). nra. }
    assert (0 < w * cos x) by (apply Rmult_lt_0_compat; lra). assert (0 <= 1 - E) by (unfold E; lra). rewrite Rabs_right by (apply Rle_ge, Rmult_le_pos; [assumption|left; now apply Rinv_0_lt_compat]).
    apply (Rmult_le_reg_r (w * cos x)); [assumption|]. replace ((1 - E) / (w * cos x) * (w * cos x)) with (1 - E) by (field; lra). replace (1 / cos x * (w * cos x)) with w by (field; lra). assumption.
Qed.
(** back from the northing *)
Lemma mback p : nonpolar p -> Rabs (mpsi E (PI / 2 - 2 * atan (exp (- isom_e e p))) - p) <= E ^ 5.
Proof.
  intros H. set (y := isom_e e p). set (x := PI / 2 - 2 * atan (exp (- y))). assert (Nx : nonpolar x) by apply isom_lat_range.
  assert (Ix : isom x = y) by apply isom_of. pose proof (mdef_b x Nx) as D. rewrite Ix in D. unfold mdef in D. rewrite Ix in D.
  pose proof (mpsi_np x Nx) as Np. set (q := mpsi E x) in *. pose proof meps_b as EB.
  assert (E5 : 0 <= E ^ 5) by (apply pow_le; unfold E; lra).
  destruct (MVT_gen (isom_e e) p q (fun p => (1 - e * e) / ((1 - e * e * (sin p * sin p)) * cos p))) as (c & Hc & Q).
  - intros t Ht. apply isom_e_deriv; [exact He|]. unfold nonpolar in *; unfold Rmin, Rmax in Ht; destruct (Rle_dec p q); lra.
  - intros t Ht. assert (N : nonpolar t) by (unfold nonpolar in *; unfold Rmin, Rmax in Ht; destruct (Rle_dec p q); lra).
    apply derivable_continuous_pt. eexists. apply is_derive_Reals. now apply isom_e_deriv.
  - assert (N : nonpolar c) by (unfold nonpolar in *; unfold Rmin, Rmax in Hc; destruct (Rle_dec p q); lra).
    pose proof (np_cos c N) as Cc. pose proof (mw_pos c) as W. fold E in Q. set (w := 1 - E * _) in *. fold y in Q.
    assert (Q' : (isom_e e q - y) * (w * cos c) = (1 - E) * (q - p)). { rewrite Q. field. split; lra. }
    assert (Mon : forall u v, nonpolar u -> nonpolar v -> u <= v -> isom_e e u <= isom_e e v).
    { intros u v Nu Nv L. destruct (MVT_gen (isom_e e) u v (fun p => (1 - e * e) / ((1 - e * e * (sin p * sin p)) * cos p))) as (d & Hd & Qd).
      - intros t Ht. apply isom_e_deriv; [exact He|]. unfold nonpolar in *; unfold Rmin, Rmax in Ht; destruct (Rle_dec u v); lra.
      - intros t Ht. assert (Nt : nonpolar t) by (unfold nonpolar in *; unfold Rmin, Rmax in Ht; destruct (Rle_dec u v); lra).
        apply derivable_continuous_pt. eexists. apply is_derive_Reals. now apply isom_e_deriv.
      - assert (Nd : nonpolar d) by (unfold nonpolar in *; unfold Rmin, Rmax in Hd; destruct (Rle_dec u v); lra).
        pose proof (np_cos d Nd). pose proof (mw_pos d) as Wd. fold E in Qd. set (wd := 1 - E * (sin d * sin d)) in *. assert (0 <= (1 - E) / (wd * cos d)). { apply Rmult_le_pos; [unfold E; lra|]. left. apply Rinv_0_lt_compat, Rmult_lt_0_compat; lra. } cbn beta in Qd. assert (0 <= (1 - E) / (wd * cos d) * (v - u)) by (apply Rmult_le_pos; lra). lra. }
    assert (Y : (1 - meps) * Rabs y <= Rabs (isom_e e c)).
    { apply Rabs_le_inv in D. assert (B : Rmin y (isom_e e q) <= isom_e e c <= Rmax y (isom_e e q)).
      { unfold Rmin, Rmax in Hc. destruct (Rle_dec p q) as [L|L].
        - pose proof (Mon p c H N ltac:(lra)). pose proof (Mon c q N Np ltac:(lra)). fold y in H0. unfold Rmin, Rmax. destruct (Rle_dec y (isom_e e q)); lra.
        - pose proof (Mon q c Np N ltac:(lra)). pose proof (Mon c p N H ltac:(lra)). fold y in H1. unfold Rmin, Rmax. destruct (Rle_dec y (isom_e e q)); lra. }
      unfold Rmin, Rmax in B. destruct (Rle_dec y (isom_e e q)); destruct (Rle_dec 0 y) as [P|P].
      - rewrite (Rabs_right y) in * by lra. pose proof (Rle_abs (isom_e e c)). nra.
      - rewrite (Rabs_left y) in * by lra. pose proof (Rle_abs (- isom_e e c)) as A. rewrite Rabs_Ropp in A. nra.
      - rewrite (Rabs_right y) in * by lra. pose proof (Rle_abs (isom_e e c)). nra.
      - rewrite (Rabs_left y) in * by lra. pose proof (Rle_abs (- isom_e e c)) as A. rewrite Rabs_Ropp in A. nra. }
    pose proof (isom_e_le c N) as I1. pose proof (isom_cos c N) as I2.
    assert (F : Rabs y * cos c <= 7073 / 10000).
    { assert (F1 : (1 - meps) * Rabs y * cos c <= Rabs (isom c) * cos c) by (apply Rmult_le_compat_r; lra). rewrite Rmult_assoc in F1. assert (F2 : 0 <= Rabs y * cos c) by (apply Rmult_le_pos; [apply Rabs_pos|lra]). set (t := Rabs y * cos c) in *. assert (meps * t <= / 1000000 * t) by (apply Rmult_le_compat_r; lra). lra. }
    assert (G : (1 - E) * Rabs (q - p) <= meps * (7073 / 10000)).
    { replace ((1 - E) * Rabs (q - p)) with (Rabs ((1 - E) * (q - p))) by (rewrite Rabs_mult, (Rabs_right (1 - E)) by (unfold E; lra); reflexivity).
      rewrite <- Q', Rabs_mult, (Rabs_right (w * cos c)) by (apply Rle_ge, Rmult_le_pos; lra).
      apply Rle_trans with (meps * Rabs y * cos c).
      - apply Rmult_le_compat; [apply Rabs_pos|apply Rmult_le_pos; lra|exact D|nra].
      - rewrite Rmult_assoc. apply Rmult_le_compat_l; lra. }
    unfold meps in G. fold E in G. pose proof (Rabs_pos (q - p)). assert (49 / 50 <= 1 - E) by (unfold E; lra). nra.
Qed.
End Inv.

(** ** The operation *)
Section Op.
Context (E : Ellipsoid XR) (a b : R) (HE : shape E a b) (lon0 lat0 k0 fe fn : R).
Let P := merc_new E (Fin lon0) (Fin lat0) (Fin k0) (Fin fe) (Fin fn).
Let Hab : 0 < b <= a. Proof. apply HE. Qed.
Let e2 := (a * a - b * b) / (a * a).
Lemma merc_coeffs : m_c0 P = Fin (mc0 e2) /\ m_c1 P = Fin (mc1 e2) /\ m_c2 P = Fin (mc2 e2) /\ m_c3 P = Fin (mc3 e2).
Proof.
  unfold P, merc_new. cbn [m_c0 m_c1 m_c2 m_c3]. rewrite (e_sq_fin E a b HE). fold e2.
  unfold fast_eval_at. cbn [rev app fold_left]. xr. rewrite !xdiv_fin by lra. xr. unfold mc0, mc1, mc2, mc3.
  unfold Rlit. cbn. clearbody e2. repeat split; f_equal; field.
Qed.
Context (Hf : 99 * a <= 100 * b).
Lemma ee_b : 0 <= the_e a b * the_e a b <= / 50.
Proof.
  rewrite (the_e_sq E a b HE). split.
  - apply Rmult_le_pos; [nra|]. left. apply Rinv_0_lt_compat. nra.
  - apply (Rmult_le_reg_r (a * a)); [nra|]. unfold Rdiv. rewrite Rmult_assoc, Rinv_l, Rmult_1_r by nra. nra.
Qed.
Lemma merc_unproj_fin : k0 <> 0 -> forall x y h,
  merc_unproj P (enh (x, y, h)) =
  Ok (llh3 (Rwrap (lon0 + (x - fe) / (k0 * a))) (mpsi e2 (PI / 2 - 2 * atan (exp (- ((y - fn) / (k0 * a)))))) h).
Proof.
  intros K x y h. destruct merc_coeffs as (C0 & C1 & C2 & C3). unfold merc_unproj. rewrite C0, C1, C2, C3.
  unfold P, merc_new, enh. cbn [m_a m_lon0 m_k0 m_fe m_fn easting northing eheight].
  replace (e_a E) with (Fin a) by (symmetry; apply HE).
  unfold arc_div, length_scale. rewrite ?angle_new_RAD. assert (k0 * a <> 0) by (apply Rmult_integral_contrapositive; lra).
  xr. rewrite !xdiv_fin by easy. rewrite lon_add_fin. cbn [xatan xexp]. xr.
  replace ((fn - y) / (k0 * a)) with (- ((y - fn) / (k0 * a))) by (field; lra).
  set (t := PI / 2 - 2 * atan (exp (- ((y - fn) / (k0 * a))))). fold (mpsi e2 t).
  assert (N : nonpolar (mpsi e2 t)). { unfold e2. rewrite <- (the_e_sq E a b HE). apply mpsi_np; [apply ee_b|apply isom_lat_range]. }
  rewrite lat_new_id; [reflexivity|]. unfold nonpolar in N. lra.
Qed.
Lemma merc_inverse : k0 <> 0 -> forall l p h, nonpolar p -> exists x y l' p',
  merc_proj P (llh3 l p h) = Ok (enh (x, y, h)) /\ merc_unproj P (enh (x, y, h)) = Ok (llh3 l' p' h) /\ same_lon l' l /\ Rabs (p' - p) <= e2 ^ 5.
Proof.
  intros K l p h H. eexists _, _, _, _. split; [now apply (merc_proj_fin E a b HE)|]. rewrite merc_unproj_fin by easy. split; [reflexivity|].
  assert (k0 * a <> 0) by (apply Rmult_integral_contrapositive; lra). split.
  - replace ((fe + k0 * a * Rnorm (l - lon0) - fe) / (k0 * a)) with (Rnorm (l - lon0)) by (field; lra). apply back_lon.
  - replace ((fn + k0 * a * isom_e (the_e a b) p - fn) / (k0 * a)) with (isom_e (the_e a b) p) by (field; lra).
    unfold e2. rewrite <- (the_e_sq E a b HE). apply mback; [apply (the_e_bound E a b HE)|apply ee_b|exact H].
Qed.
Lemma merc_inverse' : 0 < k0 -> forall x y h, Rabs (x - fe) < PI * (k0 * a) -> exists l p y',
  merc_unproj P (enh (x, y, h)) = Ok (llh3 l p h) /\ nonpolar p /\ merc_proj P (llh3 l p h) = Ok (enh (x, y', h)) /\
  Rabs (y' - y) <= 27 / 20 * e2 ^ 5 * Rabs (y - fn).
Proof.
  intros K x y h H. do 3 eexists. split; [apply merc_unproj_fin; lra|]. assert (KA : 0 < k0 * a) by (apply Rmult_lt_0_compat; lra).
  set (t := PI / 2 - 2 * atan (exp (- ((y - fn) / (k0 * a))))). assert (Nt : nonpolar t) by apply isom_lat_range.
  assert (N : nonpolar (mpsi e2 t)). { unfold e2. rewrite <- (the_e_sq E a b HE). apply mpsi_np; [apply ee_b|exact Nt]. }
  split; [exact N|]. split.
  - unfold P. rewrite (merc_proj_fin E a b HE) by exact N. rewrite there_lon.
    + replace (fe + k0 * a * ((x - fe) / (k0 * a))) with x by (field; lra). reflexivity.
    + apply Rabs_def2 in H. split; apply (Rmult_lt_reg_r (k0 * a)); try lra; replace ((x - fe) / (k0 * a) * (k0 * a)) with (x - fe) by (field; lra); lra.
  - fold t. pose proof (mdef_b (the_e a b) (the_e_bound E a b HE) ee_b t Nt) as D. unfold mdef, meps in D. rewrite (the_e_sq E a b HE) in D. fold e2 in D.
    assert (It : isom t = (y - fn) / (k0 * a)) by apply isom_of. rewrite It in D.
    replace (fn + k0 * a * isom_e (the_e a b) (mpsi e2 t) - y) with (k0 * a * (isom_e (the_e a b) (mpsi e2 t) - (y - fn) / (k0 * a))) by (field; lra).
    rewrite Rabs_mult, (Rabs_right (k0 * a)) by lra. replace (27 / 20 * e2 ^ 5 * Rabs (y - fn)) with (k0 * a * (27 / 20 * e2 ^ 5 * Rabs ((y - fn) / (k0 * a)))).
    + apply Rmult_le_compat_l; lra.
    + replace (Rabs ((y - fn) / (k0 * a))) with (Rabs (y - fn) / (k0 * a)) by (unfold Rdiv; rewrite Rabs_mult, Rabs_inv, (Rabs_right (k0 * a)) by lra; reflexivity). field. lra.
Qed.
End Op.
Lemma merc_ellipsoid_inverse E a b lon0 k0 fe fn : shape E a b -> 99 * a <= 100 * b -> 0 < k0 ->
  let P := applied_to (SMercator1SP (Fin lon0) (Fin k0) (Fin fe) (Fin fn)) E in
  let e2 := (a * a - b * b) / (a * a) in
  (forall fuel l p h, nonpolar p -> exists x y l' p',
     proj P (llh3 l p h) = Ok (enh (x, y, h)) /\
     unproj fuel P (enh (x, y, h)) = Ret (Ok (llh3 l' p' h)) /\ same_lon l' l /\ Rabs (p' - p) <= e2 ^ 5) /\
  (forall fuel x y h, Rabs (x - fe) < PI * (k0 * a) -> exists l p y',
     unproj fuel P (enh (x, y, h)) = Ret (Ok (llh3 l p h)) /\ nonpolar p /\
     proj P (llh3 l p h) = Ok (enh (x, y', h)) /\ Rabs (y' - y) <= 27 / 20 * e2 ^ 5 * Rabs (y - fn)).
Proof.
  intros S F K. cbn zeta. split.
  - intros fuel l p h H. destruct (merc_inverse E a b S lon0 0 k0 fe fn F ltac:(lra) l p h H) as (x & y & l' & p' & Q1 & Q2 & Q3).
    exists x, y, l', p'. split; [exact Q1|]. split; [|exact Q3]. cbn [unproj applied_to]. unfold merc_new_1_sp. change (fofZ 0) with (Fin 0). now rewrite Q2.
  - intros fuel x y h H. destruct (merc_inverse' E a b S lon0 0 k0 fe fn F K x y h H) as (l & p & y' & Q1 & Q2 & Q3).
    exists l, p, y'. split; [|split; [exact Q2|exact Q3]]. cbn [unproj applied_to]. unfold merc_new_1_sp. change (fofZ 0) with (Fin 0). now rewrite Q1.
Qed.
Lemma merc_wgs84 a b : shape WGS84 a b -> 99 * a <= 100 * b /\ ((a * a - b * b) / (a * a)) ^ 5 <= 14 / 1000000000000.
Proof.
  intros S. destruct (wgs84_shape a b S) as [-> ->]. split; [lra|].
  set (g := 1 - / (298257223563 / 1000000000)). replace ((6378137 * 6378137 - 6378137 * g * (6378137 * g)) / (6378137 * 6378137)) with (1 - g * g) by field.
  assert (G : 99664718 / 100000000 <= g <= 1) by (unfold g; lra). clearbody g.
  assert (0 <= 1 - g * g <= 66945 / 10000000) by nra.
  apply Rle_trans with ((66945 / 10000000) ^ 5); [apply pow_incr; lra|lra].
Qed.
