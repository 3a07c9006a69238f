(** Accuracy of Vincenty's series. *)
From Coq Require Import Reals QArith Qreals Lra Psatz Lia.
From Coquelicot Require Import Coquelicot.
From Verif.Num Require Import FOps RFun XR XRLemmas TMod.
From Verif.Model Require Import Fp Quantities Complex Cs Ellipsoid Geodesics.
From Verif.Spec Require Import Angles Axes Shape Frames Sphere Geodesic.
From Verif.Proofs Require Import AnglesX SphereG SphereN GeoG GeoV GeoVD Bessel BesselP GeoAcc.
Local Open Scope R_scope.

(** the series of the length, with [v] the square of the second eccentricity times the cosine of
    the azimuth at the equator, [C] the cosine of twice the arc *)
Section Ser.
Definition vC := EV 0. Definition vv := EV 1.
Definition eA : ex := (EZ 1 + vv * qc (1) 16384 * (EZ 4096 + vv * (EZ (-768) + vv * (EZ 320 - EZ 175 * vv))))%ex.
Definition eB : ex := (vv * qc (1) 1024 * (EZ 256 + vv * (EZ (-128) + vv * (EZ 74 - EZ 47 * vv))))%ex.
Definition eP : ex := (eA * (EZ 1 - eB * vC - qc (1) 4 * (eB * eB) * (EZ 2 * (vC * vC) - EZ 1) - qc (1) 8 * (eB * eB * eB) * (EZ 4 * (vC * vC * vC) - EZ 3 * vC)))%ex.
Definition eO : ex := (qc (-1) 16384 + qc (1) 512 * (vC * vC) - qc (5) 2048 * (vC * vC * (vC * vC)))%ex.
Definition ePO : ex := (eP + epow vv 4 * eO)%ex.
Definition eS : ex := (ePO * ePO - (EZ 1 + qc (1) 2 * vv * (EZ 1 - vC)))%ex.
Definition srad (i : nat) : Q := match i with O => 1%Q | _ => Qmake 21 1000 end.
Definition senv (C v : R) (i : nat) : R := match i with O => C | _ => v end.
Definition RP (v C : R) : R := RA v * (1 - RB v * C - / 4 * (RB v * RB v) * (2 * (C * C) - 1) - / 8 * (RB v * RB v * RB v) * (4 * (C * C * C) - 3 * C)).
Definition RO (C : R) : R := - / 16384 + / 512 * (C * C) - 5 / 2048 * (C * C * (C * C)).
Lemma eA_ev C v : eval (senv C v) nofe eA = RA v.
Proof. unfold eA, RA, EZ, qc. cbn [eval vv senv]. unfold Q2R. cbn [Qnum Qden inject_Z]. field. Qed.
Lemma eB_ev C v : eval (senv C v) nofe eB = RB v.
Proof. unfold eB, RB, EZ, qc. cbn [eval vv senv]. unfold Q2R. cbn [Qnum Qden inject_Z]. field. Qed.
Lemma eP_ev C v : eval (senv C v) nofe eP = RP v C.
Proof. unfold eP, RP. cbn [eval]. rewrite eA_ev, eB_ev. unfold EZ, qc. cbn [eval vC senv]. unfold Q2R. cbn [Qnum Qden inject_Z]. field. Qed.
Lemma eO_ev C v : eval (senv C v) nofe eO = RO C.
Proof. unfold eO, RO, qc. cbn [eval vC senv]. unfold Q2R. cbn [Qnum Qden inject_Z]. field. Qed.
Lemma eS_ev C v : eval (senv C v) nofe eS = (RP v C + v ^ 4 * RO C) * (RP v C + v ^ 4 * RO C) - (1 + v * (1 - C) / 2).
Proof. unfold eS, ePO. cbn [eval]. rewrite eP_ev, eO_ev. unfold EZ, epow, qc. cbn [eval vC vv senv]. unfold Q2R. cbn [Qnum Qden inject_Z]. field. Qed.
Lemma speed_res C v : -1 <= C <= 1 -> 0 <= v <= 21 / 1000 ->
  Rabs ((RP v C + v ^ 4 * RO C) * (RP v C + v ^ 4 * RO C) - (1 + v * (1 - C) / 2)) <= 96 / 1000 * v ^ 5.
Proof.
  intros HC Hv. rewrite <- eS_ev. replace (96 / 1000) with (Q2R (Qmake 96 1000)) by (unfold Q2R; cbn [Qnum Qden]; field).
  rewrite <- (Rabs_right v) at 2 by lra. apply (series_smallj 1 7 5 srad (senv C v)); [|vm_compute; reflexivity].
  intros [|[|i]] Hi; [| |lia]; unfold Q2R; cbn [senv srad Qnum Qden]; apply Rabs_le; lra.
Qed.
Definition eP1 : ex := (ePO - EZ 1)%ex.
Lemma speed_low C v : -1 <= C <= 1 -> 0 <= v <= 21 / 1000 -> Rabs (RP v C + v ^ 4 * RO C - 1) <= 6 / 10 * v.
Proof.
  intros HC Hv. replace (RP v C + v ^ 4 * RO C - 1) with (eval (senv C v) nofe eP1).
  2: { unfold eP1, ePO. cbn [eval]. rewrite eP_ev, eO_ev. unfold EZ, epow, qc. cbn [eval vC vv senv]. unfold Q2R. cbn [Qnum Qden inject_Z]. field. }
  replace (6 / 10) with (Q2R (Qmake 6 10)) by (unfold Q2R; cbn [Qnum Qden]; field).
  rewrite <- (pow_1 v) at 2. rewrite <- (Rabs_right v) at 2 by lra. apply (series_smallj 1 2 1 srad (senv C v)); [|vm_compute; reflexivity].
  intros [|[|i]] Hi; [| |lia]; unfold Q2R; cbn [senv srad Qnum Qden]; apply Rabs_le; lra.
Qed.
(** the series of the longitude: [q] the square of the cosine of the azimuth at the equator *)
Definition lq := EV 1. Definition lf := EV 2.
Definition eCc : ex := (lf * qc 1 16 * lq * (EZ 4 + lf * (EZ 4 - EZ 3 * lq)))%ex.
Definition eT : ex := ((EZ 1 - eCc) * (EZ 1 + eCc * vC + eCc * eCc * (EZ 2 * (vC * vC) - EZ 1)))%ex.
Definition eG : ex :=
  (lq * (vC - EZ 1) * qc 1 4 + lq * lq * (qc 13 32 - qc 7 16 * vC + qc 1 32 * (vC * vC)) + lq * lq * lq * (qc (-3) 16 + qc 9 64 * vC - qc 1 64 * (vC * vC) + qc 5 64 * (vC * vC * vC)))%ex.
Definition eTG : ex := (eT + epow lf 3 * eG)%ex.
Definition eW2 : ex := (EZ 1 - lf * (EZ 2 - lf) * (EZ 1 - lq * (EZ 1 - vC) * qc 1 2))%ex.
Definition eD : ex := ((EZ 2 - lf - eTG) * (EZ 2 - lf - eTG) - eW2 * (eTG * eTG))%ex.
Definition lrad (i : nat) : Q := match i with 2%nat => Qmake 1 100 | _ => Qmake 1 1 end.
Definition lenv (C q f : R) (i : nat) : R := match i with O => C | 1%nat => q | _ => f end.
Definition RT (f q C : R) : R := (1 - RC f q) * (1 + RC f q * C + RC f q * RC f q * (2 * (C * C) - 1)).
Definition RG (q C : R) : R :=
  q * (C - 1) / 4 + q * q * (13 / 32 - 7 / 16 * C + / 32 * (C * C)) + q * q * q * (- 3 / 16 + 9 / 64 * C - / 64 * (C * C) + 5 / 64 * (C * C * C)).
Lemma eCc_ev C q f : eval (lenv C q f) nofe eCc = RC f q.
Proof. unfold eCc, RC, EZ, qc. cbn [eval lq lf lenv]. unfold Q2R. cbn [Qnum Qden inject_Z]. field. Qed.
Lemma eT_ev C q f : eval (lenv C q f) nofe eT = RT f q C.
Proof. unfold eT, RT. cbn [eval]. rewrite eCc_ev. unfold EZ, qc. cbn [eval vC lenv]. unfold Q2R. cbn [Qnum Qden inject_Z]. field. Qed.
Lemma eTG_ev C q f : eval (lenv C q f) nofe eTG = RT f q C + f ^ 3 * RG q C.
Proof. unfold eTG. cbn [eval]. rewrite eT_ev. unfold eG, RG, EZ, epow, qc. cbn [eval vC lq lf lenv]. unfold Q2R. cbn [Qnum Qden inject_Z]. field. Qed.
Lemma lon_res C q f : -1 <= C <= 1 -> 0 <= q <= 1 -> 0 <= f <= / 100 ->
  Rabs ((2 - f - (RT f q C + f ^ 3 * RG q C)) * (2 - f - (RT f q C + f ^ 3 * RG q C)) - (1 - f * (2 - f) * (1 - q * (1 - C) / 2)) * ((RT f q C + f ^ 3 * RG q C) * (RT f q C + f ^ 3 * RG q C))) <= 203 / 10 * f ^ 4.
Proof.
  intros HC Hq Hf. rewrite <- eTG_ev. match goal with |- Rabs ?x <= _ => replace x with (eval (lenv C q f) nofe eD) end.
  2: { unfold eD. cbn [eval]. generalize (eval (lenv C q f) nofe eTG). intros tg. unfold eW2, EZ, qc. cbn [eval vC lq lf lenv]. unfold Q2R. cbn [Qnum Qden inject_Z]. field. }
  replace (203 / 10) with (Q2R (Qmake 203 10)) by (unfold Q2R; cbn [Qnum Qden]; field).
  rewrite <- (Rabs_right f) at 2 by lra. apply (series_smallj 2 6 4 lrad (lenv C q f)); [|vm_compute; reflexivity].
  intros [|[|[|i]]] Hi; [| | |lia]; unfold Q2R; cbn [lenv lrad Qnum Qden]; apply Rabs_le; lra.
Qed.
Lemma lon_low C q f : -1 <= C <= 1 -> 0 <= q <= 1 -> 0 <= f <= / 100 -> Rabs (RT f q C + f ^ 3 * RG q C - 1) <= 6 / 10 * f.
Proof.
  intros HC Hq Hf. rewrite <- eTG_ev. replace (eval (lenv C q f) nofe eTG - 1) with (eval (lenv C q f) nofe (eTG - EZ 1)%ex) by (unfold EZ; cbn [eval]; unfold Q2R; cbn [Qnum Qden inject_Z]; field).
  replace (6 / 10) with (Q2R (Qmake 6 10)) by (unfold Q2R; cbn [Qnum Qden]; field).
  rewrite <- (pow_1 f) at 2. rewrite <- (Rabs_right f) at 2 by lra. apply (series_smallj 2 2 1 lrad (lenv C q f)); [|vm_compute; reflexivity].
  intros [|[|[|i]]] Hi; [| | |lia]; unfold Q2R; cbn [lenv lrad Qnum Qden]; apply Rabs_le; lra.
Qed.
End Ser.

(** comparison of two functions by their derivatives, up to an oscillation *)
Lemma compare (F G O f g o : R -> R) (r : R) : (forall t, is_derive F t (f t)) -> (forall t, is_derive G t (g t)) -> (forall t, is_derive O t (o t)) ->
  (forall t, Rabs (g t - f t - o t) <= r) -> F 0 = 0 -> G 0 = 0 -> forall t, Rabs (G t - F t) <= r * Rabs t + Rabs (O t - O 0).
Proof.
  intros DF DG DO B F0 G0 t. pose proof (lipschitz (fun t => G t - F t - O t) (fun t => g t - f t - o t) r) as L.
  specialize (L ltac:(intros x; apply (is_derive_minus (fun t => G t - F t) O x (g x - f x) (o x)); [apply (is_derive_minus G F x (g x) (f x)); auto|auto]) B t 0).
  cbv beta in L. rewrite F0, G0, (Rminus_0_r t) in L. replace (G t - F t) with (G t - F t - O t - (0 - 0 - O 0) + (O t - O 0)) by ring. eapply Rle_trans; [apply Rabs_triang|]. lra.
Qed.

Section V.
Context (a b be al : R) (Hab : 0 < b <= a) (Hf : 99 * a <= 100 * b) (Hbe : 0 < cos be).
Notation s := (sa be al).
Notation c := (ca0 be al).
Notation t1 := (arc1 be al).
Notation bw := (bw a b c).
Notation bth := (bth a b s c t1).
Notation len := (blen a b c t1).
Notation q := (1 - s * s).
Notation v := (q * ((a * a - b * b) / (b * b))).
Notation f := ((a - b) / a).
Let S0 := sc0 be al.
Lemma ep2_bound : 0 <= (a * a - b * b) / (b * b) <= 21 / 1000.
Proof. split; [apply Rdiv_le_0_compat; nra|]. apply (Rmult_le_reg_r (b * b)); [nra|]. replace ((a * a - b * b) / (b * b) * (b * b)) with (a * a - b * b) by (field; lra). nra. Qed.
Lemma v_bound : 0 <= v <= 21 / 1000.
Proof. pose proof ep2_bound. pose proof (q01 be al). nra. Qed.
Lemma f_bound : 0 <= f <= / 100.
Proof. split; [apply Rdiv_le_0_compat; lra|]. apply (Rmult_le_reg_r a); [lra|]. replace (f * a) with (a - b) by (field; lra). lra. Qed.
Lemma cos2 x : cos (2 * x) = 1 - 2 * (sin x * sin x).
Proof. rewrite cos_2a_sin. ring. Qed.
Lemma speed_exact x : a * bw x / b * (a * bw x / b) = 1 + v * (1 - cos (2 * x)) / 2 /\ 1 <= a * bw x / b.
Proof.
  split.
  - replace (a * bw x / b * (a * bw x / b)) with (a * a * (bw x * bw x) / (b * b)) by (field; lra). rewrite (bw_sq a b s c Hab S0), cos2, <- (ca0_sq be al). field. split; lra.
  - pose proof (bw_ge a b s c Hab S0 x) as G. replace 1 with (a * (b / a) / b) by (field; split; lra). apply Rmult_le_compat_r; [left; apply Rinv_0_lt_compat; lra|]. apply Rmult_le_compat_l; lra.
Qed.
Definition osc (t : R) : R := - sin (4 * (t1 + t)) / 16384 - 5 * sin (8 * (t1 + t)) / 131072.
Lemma RO_cos x : RO (cos (2 * x)) = - cos (4 * x) / 4096 - 5 * cos (8 * x) / 16384.
Proof. unfold RO. replace (8 * x) with (2 * (2 * (2 * x))) by ring. replace (4 * x) with (2 * (2 * x)) by ring. rewrite (cos_2a_cos (2 * (2 * x))), (cos_2a_cos (2 * x)). field. Qed.
Lemma osc_deriv t : is_derive osc t (RO (cos (2 * (t1 + t)))).
Proof. rewrite RO_cos. unfold osc. auto_derive; [easy|]. field. Qed.
Lemma osc_bound t : Rabs (osc t - osc 0) <= / 5000.
Proof. unfold osc. pose proof (SIN_bound (4 * (t1 + t))). pose proof (SIN_bound (8 * (t1 + t))). pose proof (SIN_bound (4 * (t1 + 0))). pose proof (SIN_bound (8 * (t1 + 0))). apply Rabs_le. lra. Qed.
Lemma vlen t : Rabs (len t - b * (RA v * (t - Rdelta (RB v) (sin t) (cos t) (cos (2 * t1 + t))))) <= b * (v ^ 4 / 5000 + v ^ 5 / 20 * Rabs t).
Proof.
  pose proof v_bound as Hv.
  pose proof (compare (fun t => RA v * (t - Rdelta (RB v) (sin t) (cos t) (cos (2 * t1 + t)))) (fun t => len t / b) (fun t => v ^ 4 * osc t)
    (fun t => RP v (cos (2 * (t1 + t)))) (fun t => a * bw (t1 + t) / b) (fun t => v ^ 4 * RO (cos (2 * (t1 + t)))) (v ^ 5 / 20)) as K.
  assert (R : Rabs (len t / b - RA v * (t - Rdelta (RB v) (sin t) (cos t) (cos (2 * t1 + t)))) <= v ^ 5 / 20 * Rabs t + Rabs (v ^ 4 * osc t - v ^ 4 * osc 0)).
  { apply K; clear K.
    - intros u. pose proof (Rvd_deriv (RB v) t1 0 u) as D.
      apply is_derive_ext with (fun t => RA v * (t - Rvd (RB v) t1 0 t)); [intros w; unfold Rvd; ring_simplify; reflexivity|].
      replace (RP v (cos (2 * (t1 + u)))) with (RA v * (1 - Rvd' (RB v) t1 u)).
      + apply (is_derive_scal (fun t => t - Rvd (RB v) t1 0 t)). apply (is_derive_minus (fun t : R => t) (fun t => Rvd (RB v) t1 0 t) u 1); [apply (@is_derive_id R_AbsRing)|exact D].
      + unfold RP, Rvd'. replace (2 * t1 + 2 * u) with (2 * (t1 + u)) by ring. replace (3 * (2 * (t1 + u))) with (2 * (2 * (t1 + u)) + 2 * (t1 + u)) by ring. rewrite (cos_plus (2 * (2 * (t1 + u)))), (cos_2a_cos (2 * (t1 + u))), (sin_2a (2 * (t1 + u))).
        pose proof (sc (2 * (t1 + u))) as Q. set (C := cos (2 * (t1 + u))) in *. set (Z := sin (2 * (t1 + u))) in *. replace (2 * Z * C * Z) with (2 * C * (1 - C * C)) by (rewrite <- Q; ring). field.
    - intros u. apply is_derive_ext with (fun t => / b * len t); [intros w; apply Rmult_comm|]. replace (a * bw (t1 + u) / b) with (/ b * (a * bw (t1 + u))) by (unfold Rdiv; ring). apply (is_derive_scal len). apply (blen_deriv a b s c t1 Hab S0).
    - intros u. apply (is_derive_scal osc). apply osc_deriv.
    - intros u. destruct (speed_exact (t1 + u)) as [E G]. set (w := a * bw (t1 + u) / b) in *. set (C := cos (2 * (t1 + u))) in *. assert (HC : -1 <= C <= 1) by apply COS_bound.
      pose proof (speed_res C v HC Hv) as A1. pose proof (speed_low C v HC Hv) as A2. rewrite <- E in A1. replace (w - RP v C - v ^ 4 * RO C) with (w - (RP v C + v ^ 4 * RO C)) by ring.
      set (P := RP v C + v ^ 4 * RO C) in *. assert (P1 : 98 / 100 <= P) by (apply Rabs_le_between in A2; lra).
      apply (Rmult_le_reg_r (w + P)); [lra|]. rewrite <- (Rabs_right (w + P)) at 1 by lra. rewrite <- Rabs_mult. replace ((w - P) * (w + P)) with (- (P * P - w * w)) by ring. rewrite Rabs_Ropp.
      assert (V5 : 0 <= v ^ 5) by (apply pow_le; lra). eapply Rle_trans; [exact A1|]. nra.
    - rewrite sin_0. unfold Rdelta. ring.
    - rewrite (blen_0 a b c t1). unfold Rdiv. ring. }
  assert (V4 : 0 <= v ^ 4) by (apply pow_le; lra).
  replace (len t - b * _) with (b * (len t / b - RA v * (t - Rdelta (RB v) (sin t) (cos t) (cos (2 * t1 + t))))) by (field; lra).
  rewrite Rabs_mult, (Rabs_right b) by lra. apply Rmult_le_compat_l; [lra|]. eapply Rle_trans; [exact R|]. rewrite <- Rmult_minus_distr_l, Rabs_mult, (Rabs_right (v ^ 4)) by lra. pose proof (osc_bound t). nra.
Qed.

(** longitude *)
Definition G0 : R := - q / 4 + 27 / 64 * (q * q) - 25 / 128 * (q * q * q).
Definition H1 : R := q / 4 - 7 / 16 * (q * q) + 51 / 256 * (q * q * q).
Definition H2 : R := q * q / 32 - q * q * q / 64.
Definition H3 : R := 5 / 256 * (q * q * q).
Definition losc (t : R) : R := G0 * t + H1 / 2 * sin (2 * (t1 + t)) + H2 / 8 * sin (4 * (t1 + t)) + H3 / 6 * sin (6 * (t1 + t)).
Lemma losc_deriv t : is_derive losc t (RG q (cos (2 * (t1 + t)))).
Proof.
  unfold losc. auto_derive; [easy|]. unfold RG. replace (6 * (t1 + t)) with (2 * (2 * (t1 + t)) + 2 * (t1 + t)) by ring. replace (4 * (t1 + t)) with (2 * (2 * (t1 + t))) by ring.
  rewrite (cos_plus (2 * (2 * (t1 + t)))), (cos_2a_cos (2 * (t1 + t))), (sin_2a (2 * (t1 + t))). pose proof (sc (2 * (t1 + t))) as Q. set (C := cos (2 * (t1 + t))) in *. set (Z := sin (2 * (t1 + t))) in *.
  replace (2 * Z * C * Z) with (2 * C * (1 - C * C)) by (rewrite <- Q; ring). unfold G0, H1, H2, H3. field.
Qed.
Lemma G0_bound : - / 20 <= G0 <= 0. Proof. pose proof (q01 be al). unfold G0. set (x := q) in *. clearbody x. assert (0 <= x * ((x - 5 / 12) * (x - 5 / 12))) by (apply Rmult_le_pos; [lra|apply Rle_0_sqr]). assert (0 <= (1 - x) * ((x - 5 / 12) * (x - 5 / 12))) by (apply Rmult_le_pos; [lra|apply Rle_0_sqr]).
  split; [lra|]. assert (0 <= x * ((x - 108 / 100) * (x - 108 / 100))) by (apply Rmult_le_pos; [lra|apply Rle_0_sqr]). lra. Qed.
Lemma H1_bound : 0 <= H1 <= / 20. Proof. pose proof (q01 be al). unfold H1. set (x := q) in *. clearbody x. assert (0 <= x * ((x - 39 / 100) * (x - 39 / 100))) by (apply Rmult_le_pos; [lra|apply Rle_0_sqr]). assert (0 <= (1 - x) * ((x - 39 / 100) * (x - 39 / 100))) by (apply Rmult_le_pos; [lra|apply Rle_0_sqr]).
  split; [|lra]. assert (0 <= x * ((x - 11 / 10) * (x - 11 / 10))) by (apply Rmult_le_pos; [lra|apply Rle_0_sqr]). lra. Qed.
Lemma H2_bound : 0 <= H2 <= / 64. Proof. pose proof (q01 be al). unfold H2. set (x := q) in *. assert (0 <= x * x <= x) by nra. assert (0 <= x * x * x <= x * x) by nra. split; nra. Qed.
Lemma H3_bound : 0 <= H3 <= 5 / 256. Proof. pose proof (q01 be al). unfold H3. set (x := q) in *. assert (0 <= x * x <= x) by nra. assert (0 <= x * x * x <= x * x) by nra. lra. Qed.
Lemma losc_bound t : Rabs (losc t - losc 0) <= Rabs t / 20 + / 16.
Proof.
  unfold losc. pose proof G0_bound as B0. pose proof H1_bound as B1. pose proof H2_bound as B2. pose proof H3_bound as B3.
  pose proof (SIN_bound (2 * (t1 + t))) as S1. pose proof (SIN_bound (4 * (t1 + t))) as S2. pose proof (SIN_bound (6 * (t1 + t))) as S3.
  pose proof (SIN_bound (2 * (t1 + 0))) as S1'. pose proof (SIN_bound (4 * (t1 + 0))) as S2'. pose proof (SIN_bound (6 * (t1 + 0))) as S3'.
  set (x := sin (2 * (t1 + t))) in *. set (y := sin (4 * (t1 + t))) in *. set (z := sin (6 * (t1 + t))) in *. set (x' := sin (2 * (t1 + 0))) in *. set (y' := sin (4 * (t1 + 0))) in *. set (z' := sin (6 * (t1 + 0))) in *.
  pose proof (mul_bound H1 x (proj1 B1) S1). pose proof (mul_bound H2 y (proj1 B2) S2). pose proof (mul_bound H3 z (proj1 B3) S3). pose proof (mul_bound H1 x' (proj1 B1) S1'). pose proof (mul_bound H2 y' (proj1 B2) S2'). pose proof (mul_bound H3 z' (proj1 B3) S3').
  replace (_ - _) with (G0 * t + (H1 / 2 * x + H2 / 8 * y + H3 / 6 * z - (H1 / 2 * x' + H2 / 8 * y' + H3 / 6 * z'))) by ring.
  eapply Rle_trans; [apply Rabs_triang|]. apply Rplus_le_compat; [|apply Rabs_le; lra]. rewrite Rabs_mult. assert (Rabs G0 <= / 20) by (apply Rabs_le; lra). pose proof (Rabs_pos t). nra.
Qed.
Lemma vlon t : Rabs (Rdlon f q s t t1 - bth t) <= f ^ 4 * (Rabs t / 20 + / 16) + 52 / 10 * f ^ 5 * Rabs t.
Proof.
  pose proof f_bound as Bf. pose proof (q01 be al) as Bq. assert (Bs : Rabs s <= 1) by (apply Rabs_le; nra).
  pose proof (compare (fun t => s * (f * (1 - RC f q) * (t + RC f q * (sin (1 * t) * cos (1 * (2 * t1 + t))) + RC f q * RC f q / 2 * (sin (2 * t) * cos (2 * (2 * t1 + t)))))) bth (fun t => s * f ^ 4 * losc t)
    (fun t => s * (f * RT f q (cos (2 * (t1 + t))))) (fun t => s * brate a b c (t1 + t)) (fun t => s * f ^ 4 * RG q (cos (2 * (t1 + t)))) (52 / 10 * f ^ 5)) as K.
  assert (EQ : Rdlon f q s t t1 = s * (f * (1 - RC f q) * (t + RC f q * (sin (1 * t) * cos (1 * (2 * t1 + t))) + RC f q * RC f q / 2 * (sin (2 * t) * cos (2 * (2 * t1 + t)))))).
  { unfold Rdlon. rewrite !Rmult_1_l, (sin_2a t), (cos_2a_cos (2 * t1 + t)). field. lra. }
  rewrite EQ, Rabs_minus_sym. eapply Rle_trans; [apply K; clear K|].
  - intros u. pose proof (wave_deriv 1 (2 * t1) u) as D1. pose proof (wave_deriv 2 (2 * t1) u) as D2.
    assert (DD : is_derive (fun t => t + RC f q * (sin (1 * t) * cos (1 * (2 * t1 + t))) + RC f q * RC f q / 2 * (sin (2 * t) * cos (2 * (2 * t1 + t)))) u (1 + RC f q * (1 * cos (1 * (2 * t1 + 2 * u))) + RC f q * RC f q / 2 * (2 * cos (2 * (2 * t1 + 2 * u))))).
    { apply (is_derive_plus (fun t => t + RC f q * (sin (1 * t) * cos (1 * (2 * t1 + t)))) (fun t => RC f q * RC f q / 2 * (sin (2 * t) * cos (2 * (2 * t1 + t))))); [|apply (is_derive_scal (fun t => sin (2 * t) * cos (2 * (2 * t1 + t)))); exact D2].
      apply (is_derive_plus (fun t : R => t) (fun t => RC f q * (sin (1 * t) * cos (1 * (2 * t1 + t)))) u 1); [apply (@is_derive_id R_AbsRing)|]. apply (is_derive_scal (fun t => sin (1 * t) * cos (1 * (2 * t1 + t)))). exact D1. }
    evar_last; [apply (is_derive_scal (fun t => f * (1 - RC f q) * (t + RC f q * (sin (1 * t) * cos (1 * (2 * t1 + t))) + RC f q * RC f q / 2 * (sin (2 * t) * cos (2 * (2 * t1 + t)))))); apply (is_derive_scal (fun t => t + RC f q * (sin (1 * t) * cos (1 * (2 * t1 + t))) + RC f q * RC f q / 2 * (sin (2 * t) * cos (2 * (2 * t1 + t))))); exact DD|].
    unfold RT. replace (1 * (2 * t1 + 2 * u)) with (2 * (t1 + u)) by ring. replace (2 * t1 + 2 * u) with (2 * (t1 + u)) by ring. rewrite (cos_2a_cos (2 * (t1 + u))). generalize (RC f q), (cos (2 * (t1 + u))). intros. field. lra.
  - intros u. apply (bth_deriv a b s c t1 Hab S0).
  - intros u. apply (is_derive_scal losc). apply losc_deriv.
  - intros u. set (C := cos (2 * (t1 + u))). assert (HC : -1 <= C <= 1) by apply COS_bound.
    pose proof (lon_res C q f HC Bq Bf) as A1. pose proof (lon_low C q f HC Bq Bf) as A2. pose proof (bw_ge a b s c Hab S0 (t1 + u)) as W1. pose proof (bw_le a b s c Hab S0 (t1 + u)) as W2. pose proof (bw_sq a b s c Hab S0 (t1 + u)) as W3.
    replace (1 - f * (2 - f) * (1 - q * (1 - C) / 2)) with (bw (t1 + u) * bw (t1 + u)) in A1.
    2: { rewrite W3. unfold C. rewrite cos2. rewrite <- (ca0_sq be al). field. lra. }
    unfold brate. assert (EE : (a * a - b * b) / (a * a) = f * (2 - f)) by (field; lra). rewrite EE. assert (BA : b / a = 1 - f) by (field; lra). rewrite BA in W1.
    set (w := bw (t1 + u)) in *. 
    replace (s * (f * (2 - f) / (1 + w)) - s * (f * RT f q C) - s * f ^ 4 * RG q C) with (s * (f * ((2 - f) / (1 + w) - (RT f q C + f ^ 3 * RG q C)))) by (field; lra).
    set (T := RT f q C + f ^ 3 * RG q C) in *. clearbody T w. set (g := f) in *. clearbody g. apply Rabs_le_between in A2.
    assert (NZ : 197 / 100 <= 2 - g - T + w * T) by nra.
    assert (DEN : 391 / 100 <= (1 + w) * (2 - g - T + w * T)) by nra.
    assert (F : Rabs ((2 - g) / (1 + w) - T) <= 52 / 10 * g ^ 4).
    { replace ((2 - g) / (1 + w) - T) with (((2 - g - T) * (2 - g - T) - w * w * (T * T)) / ((1 + w) * (2 - g - T + w * T))) by (field; repeat split; lra).
      unfold Rdiv. rewrite Rabs_mult, Rabs_inv, (Rabs_right ((1 + w) * (2 - g - T + w * T))) by lra. apply (Rmult_le_reg_r ((1 + w) * (2 - g - T + w * T))); [lra|]. rewrite Rmult_assoc, Rinv_l, Rmult_1_r by lra.
      assert (0 <= g ^ 4) by (apply pow_le; lra). eapply Rle_trans; [exact A1|]. nra. }
    rewrite !Rabs_mult, (Rabs_right g) by lra. pose proof (Rabs_pos ((2 - g) / (1 + w) - T)). assert (g * Rabs ((2 - g) / (1 + w) - T) <= 52 / 10 * g ^ 5) by (replace (52 / 10 * g ^ 5) with (g * (52 / 10 * g ^ 4)) by ring; apply Rmult_le_compat_l; lra).
    assert (0 <= g * Rabs ((2 - g) / (1 + w) - T)) by (apply Rmult_le_pos; lra). pose proof (Rabs_pos s). nra.
  - rewrite !Rmult_0_r, sin_0. ring.
  - apply (bth_0 a b s c t1).
  - rewrite <- Rmult_minus_distr_l, !Rabs_mult. assert (F4 : 0 <= f ^ 4) by (apply pow_le; lra). rewrite (Rabs_right (f ^ 4)) by lra. pose proof (losc_bound t) as LB. pose proof (Rabs_pos (losc t - losc 0)). pose proof (Rabs_pos s).
    assert (Rabs s * f ^ 4 * Rabs (losc t - losc 0) <= f ^ 4 * (Rabs t / 20 + / 16)); [|lra].
    apply (Rle_trans _ (f ^ 4 * Rabs (losc t - losc 0))); [|now apply Rmult_le_compat_l]. apply Rmult_le_compat_r; [lra|]. nra.
Qed.
End V.
