(** Exact arithmetic: the residuals of Karney's series. *)
From Coq Require Import Reals QArith Qreals Lra Psatz Lia List.
From Coquelicot Require Import Coquelicot.
From Flocq Require Import Core.Raux.
From Verif.Num Require Import FOps RFun XR XRLemmas TMod TModL.
From Verif.Spec Require Import Series.
From Verif.Proofs Require Import AnglesX MathX SphereG SphereN GeoG GeoV GeoK MercInv.
Import ListNotations.
Local Open Scope R_scope.

Lemma sin_taylor7 x : Rabs x <= 1 -> Rabs (sin x - (x - x ^ 3 / 6 + x ^ 5 / 120)) <= Rabs x ^ 7 / 5040.
Proof.
  assert (K : forall x, 0 <= x <= 1 -> x - x ^ 3 / 6 + x ^ 5 / 120 - x ^ 7 / 5040 <= sin x <= x - x ^ 3 / 6 + x ^ 5 / 120).
  { intros y Hy. destruct (pre_sin_bound y 0 ltac:(lra) ltac:(lra)) as [_ U]. destruct (pre_sin_bound y 1 ltac:(lra) ltac:(lra)) as [L _]. unfold sin_approx, sin_term in L, U. cbn in L, U. lra. }
  intros H. destruct (Rle_dec 0 x) as [P|P].
  - rewrite (Rabs_right x) in H |- * by lra. destruct (K x ltac:(lra)). apply Rabs_le. assert (0 <= x ^ 7) by (apply pow_le; lra). lra.
  - rewrite (Rabs_left x) in H |- * by lra. destruct (K (- x) ltac:(lra)) as [L U]. rewrite sin_neg in L, U. replace ((- x) ^ 3) with (- x ^ 3) in L, U by ring. replace ((- x) ^ 5) with (- x ^ 5) in L, U by ring.
    assert (0 <= (- x) ^ 7) by (apply pow_le; lra). apply Rabs_le. lra.
Qed.

(** multiples of an angle *)
Section Mult.
Context (x : R).
Let Q : sin x * sin x = 1 - cos x * cos x. Proof. apply sincos_sq. Qed.
Lemma s2x : sin (2 * x) = sin x * (2 * cos x). Proof. rewrite sin_2a. ring. Qed.
Lemma c2x : cos (2 * x) = 2 * (cos x * cos x) - 1. Proof. rewrite cos_2a_cos. ring. Qed.
Lemma s3x : sin (3 * x) = sin x * (4 * (cos x * cos x) - 1).
Proof. replace (3 * x) with (2 * x + x) by ring. rewrite sin_plus, s2x, c2x. ring. Qed.
Lemma c3x : cos (3 * x) = cos x * (4 * (cos x * cos x) - 3).
Proof. replace (3 * x) with (2 * x + x) by ring. rewrite cos_plus, s2x, c2x. replace (sin x * (2 * cos x) * sin x) with (2 * cos x * (sin x * sin x)) by ring. rewrite Q. ring. Qed.
Lemma s4x : sin (4 * x) = sin x * (cos x * (8 * (cos x * cos x) - 4)).
Proof. replace (4 * x) with (3 * x + x) by ring. rewrite sin_plus, s3x, c3x. ring. Qed.
Lemma c4x : cos (4 * x) = 8 * (cos x * cos x * (cos x * cos x)) - 8 * (cos x * cos x) + 1.
Proof. replace (4 * x) with (3 * x + x) by ring. rewrite cos_plus, s3x, c3x. replace (sin x * (4 * (cos x * cos x) - 1) * sin x) with ((4 * (cos x * cos x) - 1) * (sin x * sin x)) by ring. rewrite Q. ring. Qed.
Lemma s5x : sin (5 * x) = sin x * (16 * (cos x * cos x * (cos x * cos x)) - 12 * (cos x * cos x) + 1).
Proof. replace (5 * x) with (4 * x + x) by ring. rewrite sin_plus, s4x, c4x. ring. Qed.
Lemma c5x : cos (5 * x) = cos x * (16 * (cos x * cos x * (cos x * cos x)) - 20 * (cos x * cos x) + 5).
Proof. replace (5 * x) with (4 * x + x) by ring. rewrite cos_plus, s4x, c4x. replace (sin x * (cos x * (8 * (cos x * cos x) - 4)) * sin x) with (cos x * (8 * (cos x * cos x) - 4) * (sin x * sin x)) by ring. rewrite Q. ring. Qed.
Lemma s6x : sin (6 * x) = sin x * (cos x * (32 * (cos x * cos x * (cos x * cos x)) - 32 * (cos x * cos x) + 6)).
Proof. replace (6 * x) with (5 * x + x) by ring. rewrite sin_plus, s5x, c5x. ring. Qed.
Lemma c6x : cos (6 * x) = 32 * (cos x * cos x * cos x * (cos x * cos x * cos x)) - 48 * (cos x * cos x * (cos x * cos x)) + 18 * (cos x * cos x) - 1.
Proof. replace (6 * x) with (5 * x + x) by ring. rewrite cos_plus, s5x, c5x. replace (sin x * (16 * (cos x * cos x * (cos x * cos x)) - 12 * (cos x * cos x) + 1) * sin x) with ((16 * (cos x * cos x * (cos x * cos x)) - 12 * (cos x * cos x) + 1) * (sin x * sin x)) by ring. rewrite Q. ring. Qed.
End Mult.

(** ** Distance: [kC] the cosine of twice the arc, [ke] Karney's small parameter *)
Definition kC := EV 0. Definition kr1 := EV 1. Definition kr2 := EV 2. Definition ke := EV 3.
Definition ks : ex := (ke * ke)%ex.
(** sum of e^l c_l sin 2lx = sin 2x * U, sum of 2l e^l c_l cos 2lx = W, where y = e cos 2x *)
Definition eU (y c1 c2 c3 c4 c5 c6 : ex) : ex :=
  (ke * (c1 + y * (EZ 2 * c2) + (EZ 4 * (y * y) - ks) * c3 + y * (EZ 8 * (y * y) - EZ 4 * ks) * c4
   + (EZ 16 * (y * y * (y * y)) - EZ 12 * (ks * (y * y)) + ks * ks) * c5 + y * (EZ 32 * (y * y * (y * y)) - EZ 32 * (ks * (y * y)) + EZ 6 * (ks * ks)) * c6))%ex.
Definition eW (y c1 c2 c3 c4 c5 c6 : ex) : ex :=
  (EZ 2 * (c1 * y) + EZ 4 * (c2 * (EZ 2 * (y * y) - ks)) + EZ 6 * (c3 * (y * (EZ 4 * (y * y) - EZ 3 * ks)))
   + EZ 8 * (c4 * (EZ 8 * (y * y * (y * y)) - EZ 8 * (ks * (y * y)) + ks * ks))
   + EZ 10 * (c5 * (y * (EZ 16 * (y * y * (y * y)) - EZ 20 * (ks * (y * y)) + EZ 5 * (ks * ks))))
   + EZ 12 * (c6 * (EZ 32 * (y * y * y * (y * y * y)) - EZ 48 * (ks * (y * y * (y * y))) + EZ 18 * (ks * ks * (y * y)) - ks * ks * ks)))%ex.
Definition d1 : ex := (qc (-1) 2 + ks * (qc 3 16 + ks * qc (-1) 32))%ex.
Definition d2 : ex := (qc (-1) 16 + ks * (qc 1 32 + ks * qc (-9) 2048))%ex.
Definition d3 : ex := (qc (-1) 48 + ks * qc 3 256)%ex.
Definition d4 : ex := (qc (-5) 512 + ks * qc 3 512)%ex.
Definition d5 : ex := qc (-7) 1280. Definition d6 : ex := qc (-7) 2048.
Definition p1 : ex := (qc 1 2 + ks * (qc (-9) 32 + ks * qc 205 1536))%ex.
Definition p2 : ex := (qc 5 16 + ks * (qc (-37) 96 + ks * qc 1335 4096))%ex.
Definition p3 : ex := (qc 29 96 + ks * qc (-75) 128)%ex.
Definition p4 : ex := (qc 539 1536 + ks * qc (-2391) 2560)%ex.
Definition p5 : ex := qc 3467 7680. Definition p6 : ex := qc 38081 61440.
Definition eA1 : ex := (EZ 1 + ks * (qc 1 4 + ks * (qc 1 64 + ks * qc 1 256)))%ex.
Definition krad (i : nat) : Q := match i with 0%nat => 1%Q | 1%nat => Qmake 1 100 | 2%nat => Qmake 1 100 | _ => Qmake 1 190 end.
Definition kenv (C r1 r2 e : R) (i : nat) : R := match i with 0%nat => C | 1%nat => r1 | 2%nat => r2 | _ => e end.
Lemma kenv_ok C r1 r2 e : -1 <= C <= 1 -> Rabs r1 <= / 100 -> Rabs r2 <= / 100 -> 0 <= e <= / 190 -> forall i, (i <= 3)%nat -> Rabs (kenv C r1 r2 e i) <= Q2R (krad i).
Proof. intros HC H1 H2 HE [|[|[|[|i]]]] Hi; [| | | |lia]; unfold Q2R; cbn [kenv krad Qnum Qden]; try (apply Rabs_le; lra); lra. Qed.
Lemma kenv_ok0 C e : -1 <= C <= 1 -> 0 <= e <= / 190 -> forall i, (i <= 3)%nat -> Rabs (kenv C 0 0 e i) <= Q2R (krad i).
Proof. intros HC HE. apply kenv_ok; try assumption; rewrite Rabs_R0; lra. Qed.

(** the derivative of the distance *)
Definition L1 : list ex := [ke * kC; eA1 * (EZ 1 + eW (EF 0) d1 d2 d3 d4 d5 d6)]%ex.
Definition kdist (e C : R) : R := fvals (kenv C 0 0 e) L1 1.
Lemma kdist_res C e : -1 <= C <= 1 -> 0 <= e <= / 190 -> Rabs (kdist e C * kdist e C - (1 - 2 * e * C + e * e)) <= 19 * e ^ 7.
Proof.
  intros HC He. replace (kdist e C * kdist e C - (1 - 2 * e * C + e * e)) with (eval (kenv C 0 0 e) (fvals (kenv C 0 0 e) L1) (EF 1 * EF 1 - (EZ 1 - EZ 2 * EF 0 + ks))%ex).
  2: { cbn [eval]. change (fvals (kenv C 0 0 e) L1 1) with (kdist e C). set (k := kdist e C). change (fvals (kenv C 0 0 e) L1 0) with (e * C). unfold EZ, ks, ke. cbn [eval kenv]. unfold Q2R. cbn [Qnum Qden inject_Z]. field. }
  replace 19 with (Q2R (Qmake 19 1)) by (unfold Q2R; cbn [Qnum Qden]; field).
  replace (e ^ 7) with (Rabs e ^ 7) by (rewrite Rabs_right by lra; reflexivity). apply (let_smallj 3 7 krad (kenv C 0 0 e) (kenv_ok0 C e HC He)). vm_compute. reflexivity.
Qed.
Lemma kdist_low C e : -1 <= C <= 1 -> 0 <= e <= / 190 -> Rabs (kdist e C - 1) <= / 100.
Proof.
  intros HC He. replace (kdist e C - 1) with (eval (kenv C 0 0 e) (fvals (kenv C 0 0 e) L1) (EF 1 - EZ 1)%ex).
  2: { cbn [eval]. change (fvals (kenv C 0 0 e) L1 1) with (kdist e C). set (k := kdist e C). unfold EZ. cbn [eval]. unfold Q2R. cbn [Qnum Qden inject_Z]. field. }
  replace (/ 100) with (Q2R (Qmake 1 100) * Rabs e ^ 0) by (unfold Q2R; cbn [Qnum Qden pow]; field).
  apply (let_smallj 3 4 krad (kenv C 0 0 e) (kenv_ok0 C e HC He)). vm_compute. reflexivity.
Qed.
(** the terms of [kI1] and [kS] *)
Ltac kev := unfold kdist; unfold fvals, L1, eU, eW, eA1, d1, d2, d3, d4, d5, d6, p1, p2, p3, p4, p5, p6, ks, kC, kr1, kr2, ke, qc, EZ; cbn [vals app nth eval kenv]; unfold Q2R; cbn [Qnum Qden inject_Z].
Definition kU (e y : R) : R := eval (kenv 0 0 0 e) (fun _ => y) (eU (EF 0) d1 d2 d3 d4 d5 d6).
Definition pU (e y : R) : R := eval (kenv 0 0 0 e) (fun _ => y) (eU (EF 0) p1 p2 p3 p4 p5 p6).
Ltac series := cbn [map Rsum length nth pow INR Rterms Z.of_nat Pos.of_succ_nat Pos.succ].
Lemma kI1_U e s : kI1 e s = s + sin (2 * s) * kU e (e * cos (2 * s)).
Proof.
  unfold kI1, sine_series, evals, C1R, polynomial. series. set (x := 2 * s).
  replace ((1 + 1) * x) with (2 * x) by ring. replace ((1 + 1 + 1) * x) with (3 * x) by ring. replace ((1 + 1 + 1 + 1) * x) with (4 * x) by ring. replace ((1 + 1 + 1 + 1 + 1) * x) with (5 * x) by ring. replace ((1 + 1 + 1 + 1 + 1 + 1) * x) with (6 * x) by ring.
  rewrite s6x, s5x, s4x, s3x, s2x, Rmult_1_l. generalize (sin x), (cos x). intros S C. unfold kU. kev. field.
Qed.
Lemma kS_U e t : kS e t = t + sin (2 * t) * pU e (e * cos (2 * t)).
Proof.
  unfold kS, evals, CP1R, polynomial. series. set (x := 2 * t).
  replace (x * 1) with x by ring. replace (x * 2) with (2 * x) by ring. replace (x * 3) with (3 * x) by ring. replace (x * 4) with (4 * x) by ring. replace (x * 5) with (5 * x) by ring. replace (x * 6) with (6 * x) by ring.
  rewrite s6x, s5x, s4x, s3x, s2x. generalize (sin x), (cos x). intros S C. unfold pU. kev. field.
Qed.
Lemma kI1_deriv e s : is_derive (fun s => kA1 e * (1 - e) * kI1 e s) s (kdist e (cos (2 * s))) \/ e = 1.
Proof.
  destruct (Req_dec e 1) as [->|N]; [now right|left].
  unfold kI1, sine_series, evals, C1R, polynomial, kA1, PA1R. series. auto_derive; [easy|].
  set (x := 2 * s). replace ((1 + 1) * x) with (2 * x) by ring. replace ((1 + 1 + 1) * x) with (3 * x) by ring. replace ((1 + 1 + 1 + 1) * x) with (4 * x) by ring. replace ((1 + 1 + 1 + 1 + 1) * x) with (5 * x) by ring. replace ((1 + 1 + 1 + 1 + 1 + 1) * x) with (6 * x) by ring.
  rewrite c6x, c5x, c4x, c3x, c2x. unfold polynomial. series. rewrite ?Rmult_1_l, ?Rmult_0_l. generalize (cos x). intros C. kev. field. lra.
Qed.

(** ** Reversion *)
Definition eZ : ex := (EZ 1 - kC * kC)%ex.
Definition L2 : list ex :=
  [ke * kC; EZ 2 * eU (EF 0) p1 p2 p3 p4 p5 p6; EF 1 * EF 1 * eZ;
   EF 1 * (EZ 1 - EF 2 * (qc 1 6 - EF 2 * qc 1 120)) + epow ke 6 * kr1; EZ 1 - EF 2 * (qc 1 2 - EF 2 * qc 1 24) + epow ke 6 * kr2;
   EF 4 + kC * EF 3; ke * (kC * EF 4 - eZ * EF 3)]%ex.
Definition eR2 : ex := (qc 1 2 * EF 1 + EF 5 * eU (EF 6) d1 d2 d3 d4 d5 d6)%ex.
Lemma pU_low C e : -1 <= C <= 1 -> 0 <= e <= / 190 -> Rabs (2 * pU e (e * C)) <= 101 / 100 * e.
Proof.
  intros HC He. replace (2 * pU e (e * C)) with (eval (kenv C 0 0 e) (fvals (kenv C 0 0 e) [ke * kC; EZ 2 * eU (EF 0) p1 p2 p3 p4 p5 p6]%ex) (EF 1)).
  2: { unfold pU. kev. field. }
  replace (101 / 100) with (Q2R (Qmake 101 100)) by (unfold Q2R; cbn [Qnum Qden]; field). match goal with |- _ <= ?k * e => replace (k * e) with (k * Rabs e ^ 1) by (rewrite pow_1, Rabs_right by lra; reflexivity) end.
  apply (let_smallj 3 7 krad (kenv C 0 0 e) (kenv_ok0 C e HC He)). vm_compute. reflexivity.
Qed.
Lemma rev_res C r1 r2 e : -1 <= C <= 1 -> Rabs r1 <= / 100 -> Rabs r2 <= / 100 -> 0 <= e <= / 190 ->
  Rabs (eval (kenv C r1 r2 e) (fvals (kenv C r1 r2 e) L2) eR2) <= 201 * e ^ 7.
Proof.
  intros HC H1 H2 He. replace 201 with (Q2R (Qmake 201 1)) by (unfold Q2R; cbn [Qnum Qden]; field). replace (e ^ 7) with (Rabs e ^ 7) by (rewrite Rabs_right by lra; reflexivity).
  apply (let_smallj 3 7 krad (kenv C r1 r2 e) (kenv_ok C r1 r2 e HC H1 H2 He)). vm_compute. reflexivity.
Qed.
Lemma kS_rev e t : 0 <= e <= / 190 -> Rabs (kI1 e (kS e t) - t) <= 201 * e ^ 7.
Proof.
  intros He. rewrite kS_U. set (S := sin (2 * t)). set (C := cos (2 * t)). set (P := pU e (e * C)). assert (HC : -1 <= C <= 1) by apply COS_bound. assert (HS : Rabs S <= 1) by (apply Rabs_le, SIN_bound).
  assert (SQ : S * S = 1 - C * C) by apply sincos_sq. pose proof (pU_low C e HC He) as B. fold P in B. set (q := 2 * P) in *. pose proof (Rabs_pos S) as S0. pose proof (Rabs_pos q) as Q0.
  assert (B1 : Rabs (S * q) <= 101 / 100 * e) by (rewrite Rabs_mult; nra). assert (B2 : Rabs (S * q) <= 1) by lra. assert (E6 : 0 <= e ^ 6) by (apply pow_le; lra).
  destruct (multiple (sin (S * q) - (S * q - (S * q) ^ 3 / 6 + (S * q) ^ 5 / 120)) (S * e ^ 6) (/ 100)) as (r1 & R1 & Q1); [lra| |].
  { eapply Rle_trans; [now apply sin_taylor7|]. rewrite !Rabs_mult, (Rabs_right (e ^ 6)) by lra. rewrite Rpow_mult_distr.
    assert (K1 : Rabs S ^ 7 <= Rabs S). { assert (Rabs S ^ 6 <= 1) by (rewrite <- (pow1 6); apply pow_incr; lra). replace (Rabs S ^ 7) with (Rabs S * Rabs S ^ 6) by ring. nra. }
    assert (K2 : Rabs q ^ 7 <= (101 / 100 * e) ^ 7) by (apply pow_incr; split; assumption). rewrite Rpow_mult_distr in K2. replace (e ^ 7) with (e * e ^ 6) in K2 by ring.
    assert (K3 : Rabs q ^ 7 <= e ^ 6). { eapply Rle_trans; [exact K2|]. rewrite <- Rmult_assoc. rewrite <- (Rmult_1_l (e ^ 6)) at 2. apply Rmult_le_compat_r; [exact E6|]. assert ((101 / 100) ^ 7 <= 2) by lra. nra. }
    assert (Rabs S ^ 7 * Rabs q ^ 7 <= Rabs S * e ^ 6) by (apply Rmult_le_compat; try assumption; apply pow_le; assumption). assert (0 <= Rabs S * e ^ 6) by now apply Rmult_le_pos. lra. }
  destruct (multiple (cos (S * q) - (1 - (S * q) ^ 2 / 2 + (S * q) ^ 4 / 24)) (e ^ 6) (/ 100)) as (r2 & R2 & Q2); [lra| |].
  { eapply Rle_trans; [now apply cos_taylor6|]. rewrite (Rabs_right (e ^ 6)) by lra.
    assert (K2 : Rabs (S * q) ^ 6 <= (101 / 100 * e) ^ 6) by (apply pow_incr; split; [apply Rabs_pos|exact B1]). rewrite Rpow_mult_distr in K2. set (v := e ^ 6) in *. nra. }
  set (env := kenv C r1 r2 e). set (fv := fvals env L2).
  assert (V0 : fv 0%nat = e * C) by reflexivity. assert (V1 : fv 1%nat = q) by (unfold q, P, pU, fv, env, L2; kev; field).
  assert (V2 : fv 2%nat = q * q * (S * S)). { rewrite SQ. change (fv 2%nat) with (fv 1%nat * fv 1%nat * eval env (fun j => fv j) eZ). rewrite V1. unfold eZ, env. kev. field. }
  assert (V3 : sin (S * q) = S * fv 3%nat).
  { change (fv 3%nat) with (eval env fv (EF 1 * (EZ 1 - EF 2 * (qc 1 6 - EF 2 * qc 1 120)) + epow ke 6 * kr1)%ex). cbn [eval]. rewrite V1, V2. unfold epow, env. kev. rewrite <- (Rplus_0_r (sin _)). replace (sin (S * q)) with (S * q - (S * q) ^ 3 / 6 + (S * q) ^ 5 / 120 + S * e ^ 6 * r1) by lra. field. }
  assert (V4 : cos (S * q) = fv 4%nat).
  { change (fv 4%nat) with (eval env fv (EZ 1 - EF 2 * (qc 1 2 - EF 2 * qc 1 24) + epow ke 6 * kr2)%ex). cbn [eval]. rewrite V2. unfold epow, env. kev. replace (cos (S * q)) with (1 - (S * q) ^ 2 / 2 + (S * q) ^ 4 / 24 + e ^ 6 * r2) by lra. field. }
  assert (V5 : sin (2 * t + S * q) = S * fv 5%nat).
  { rewrite sin_plus, V3, V4. fold S C. change (fv 5%nat) with (fv 4%nat + C * fv 3%nat). ring. }
  assert (V6 : e * cos (2 * t + S * q) = fv 6%nat).
  { rewrite cos_plus, V3, V4. fold S C. change (fv 6%nat) with (e * (C * fv 4%nat - eval env fv eZ * fv 3%nat)). replace (eval env fv eZ) with (S * S) by (rewrite SQ; unfold eZ, env; kev; field). ring. }
  rewrite kI1_U. replace (2 * (t + S * P)) with (2 * t + S * q) by (unfold q; ring). rewrite V5, V6.
  replace (t + S * P + S * fv 5%nat * kU e (fv 6%nat) - t) with (S * eval env fv eR2).
  - rewrite Rabs_mult. pose proof (rev_res C r1 r2 e HC R1 R2 He) as RR. change (Rabs (eval env fv eR2) <= 201 * e ^ 7) in RR. pose proof (Rabs_pos (eval env fv eR2)). nra.
  - unfold eR2. cbn [eval]. rewrite V1. unfold kU, eU, d1, d2, d3, d4, d5, d6, ks, ke, EZ, qc, env. cbn [eval kenv]. unfold q, Q2R. cbn [Qnum Qden inject_Z]. field.
Qed.
