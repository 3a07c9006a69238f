(** Accuracy of Rapp's series. *)
From Coq Require Import Reals QArith Qreals Lra Psatz Lia List.
From Coquelicot Require Import Coquelicot.
From Verif.Num Require Import FOps RFun XR XRLemmas TMod.
From Verif.Model Require Import Fp Quantities Complex Cs Ellipsoid Geodesics.
From Verif.Spec Require Import Angles Axes Shape Frames Sphere Series Geodesic.
From Verif.Proofs Require Import AnglesX MathX SphereG SphereN GeoG GeoV GeoVD GeoR GeoRD Bessel BesselP GeoAcc VincAcc.
Import ListNotations.
Local Open Scope R_scope.

Section Ser.
Definition e0 : ex := (EZ 1 + vv * (qc 1 4 + vv * (qc (-3) 64 + vv * (qc 5 256 + vv * qc (-175) 16384))))%ex.
Definition e2 : ex := (vv * (qc (-1) 4 + vv * (qc 1 16 + vv * (qc (-15) 512 + vv * qc 35 2048))))%ex.
Definition e4 : ex := (vv * vv * (qc (-1) 128 + vv * (qc 3 512 + vv * qc (-35) 8192)))%ex.
Definition e6 : ex := (vv * vv * vv * (qc (-1) 1536 + vv * qc 5 6144))%ex.
Definition eC2 : ex := (EZ 2 * (vC * vC) - EZ 1)%ex.
Definition eC3 : ex := (EZ 4 * (vC * vC * vC) - EZ 3 * vC)%ex.
Definition eC4 : ex := (EZ 8 * (vC * vC * (vC * vC)) - EZ 8 * (vC * vC) + EZ 1)%ex.
Definition erP : ex := (e0 + e2 * vC + EZ 2 * e4 * eC2 + EZ 3 * e6 * eC3)%ex.
Definition erPO : ex := (erP + epow vv 4 * (qc (-5) 16384 * eC4))%ex.
Definition erS : ex := (erPO * erPO - (EZ 1 + qc (1) 2 * vv * (EZ 1 - vC)))%ex.
Definition rP (v C : R) : R := Rb0 v + Rb2 v * C + 2 * Rb4 v * (2 * (C * C) - 1) + 3 * Rb6 v * (4 * (C * C * C) - 3 * C).
Definition rO (C : R) : R := - 5 / 16384 * (8 * (C * C * (C * C)) - 8 * (C * C) + 1).
Lemma erPO_ev C v : eval (senv C v) nofe erPO = rP v C + v ^ 4 * rO C.
Proof. unfold erPO, erP, rP, rO, e0, e2, e4, e6, eC2, eC3, eC4, Rb0, Rb2, Rb4, Rb6, EZ, epow, qc. cbn [eval vC vv senv]. unfold Q2R. cbn [Qnum Qden inject_Z]. field. Qed.
Lemma erS_ev C v : eval (senv C v) nofe erS = (rP v C + v ^ 4 * rO C) * (rP v C + v ^ 4 * rO C) - (1 + v * (1 - C) / 2).
Proof. unfold erS. cbn [eval]. rewrite erPO_ev. unfold EZ, qc. cbn [eval vC vv senv]. unfold Q2R. cbn [Qnum Qden inject_Z]. field. Qed.
Lemma rspeed_res C v : -1 <= C <= 1 -> 0 <= v <= 21 / 1000 ->
  Rabs ((rP v C + v ^ 4 * rO C) * (rP v C + v ^ 4 * rO C) - (1 + v * (1 - C) / 2)) <= 96 / 1000 * v ^ 5.
Proof.
  intros HC Hv. rewrite <- erS_ev. replace (96 / 1000) with (Q2R (Qmake 96 1000)) by (unfold Q2R; cbn [Qnum Qden]; field).
  rewrite <- (Rabs_right v) at 2 by lra. apply (series_smallj 1 7 5 srad (senv C v)); [|vm_compute; reflexivity].
  intros [|[|i]] Hi; [| |lia]; unfold Q2R; cbn [senv srad Qnum Qden]; apply Rabs_le; lra.
Qed.
Lemma rspeed_low C v : -1 <= C <= 1 -> 0 <= v <= 21 / 1000 -> Rabs (rP v C + v ^ 4 * rO C - 1) <= 6 / 10 * v.
Proof.
  intros HC Hv. replace (rP v C + v ^ 4 * rO C - 1) with (eval (senv C v) nofe (erPO - EZ 1)%ex) by (cbn [eval]; rewrite erPO_ev; unfold EZ; cbn [eval]; unfold Q2R; cbn [Qnum Qden inject_Z]; field).
  replace (6 / 10) with (Q2R (Qmake 6 10)) by (unfold Q2R; cbn [Qnum Qden]; field).
  rewrite <- (pow_1 v) at 2. rewrite <- (Rabs_right v) at 2 by lra. apply (series_smallj 1 2 1 srad (senv C v)); [|vm_compute; reflexivity].
  intros [|[|i]] Hi; [| |lia]; unfold Q2R; cbn [senv srad Qnum Qden]; apply Rabs_le; lra.
Qed.
(** longitude: [y] the square of the sine of the reduced latitude, [y = (1 + z) / 2] *)
Definition yy : ex := (qc 1 2 + qc 1 2 * EV 0)%ex.
Definition erT : ex := (EZ 1 - qc 1 2 * vv * (EZ 1 + vv + vv * vv) * yy + qc 1 2 * (vv * vv) * (EZ 1 + qc 9 4 * vv) * (yy * yy) - qc 5 8 * (vv * vv * vv) * (yy * yy * yy))%ex.
Definition erD : ex := ((EZ 2 - vv - erT) * (EZ 2 - vv - erT) - (EZ 1 - vv * (EZ 2 - vv) * (EZ 1 - yy)) * (erT * erT))%ex.
Definition yrad (i : nat) : Q := match i with O => 1%Q | _ => Qmake 1 100 end.
Definition rTy (f y : R) : R := 1 - f / 2 * (1 + f + f * f) * y + f * f / 2 * (1 + 9 / 4 * f) * (y * y) - 5 / 8 * (f * f * f) * (y * y * y).
Definition rT (f q C : R) : R := let '(x0, x2, x4, x6) := rax f in
  polynomial x0 q + polynomial x2 q * C + 2 * polynomial x4 q * (2 * (C * C) - 1) + 3 * polynomial x6 q * (4 * (C * C * C) - 3 * C).
Lemma rT_y f q C : rT f q C = rTy f (q * (1 - C) / 2).
Proof. unfold rT, rTy, rax, polynomial. cbn. field. Qed.
Lemma erT_ev z f : eval (senv z f) nofe erT = rTy f ((1 + z) / 2).
Proof. unfold erT, rTy, yy, EZ, qc. cbn [eval vv senv]. unfold Q2R. cbn [Qnum Qden inject_Z]. field. Qed.
Lemma rlon_res y f : 0 <= y <= 1 -> 0 <= f <= / 100 ->
  Rabs ((2 - f - rTy f y) * (2 - f - rTy f y) - (1 - f * (2 - f) * (1 - y)) * (rTy f y * rTy f y)) <= 12 / 10 * f ^ 4.
Proof.
  intros Hy Hf. set (z := 2 * y - 1). replace y with ((1 + z) / 2) by (unfold z; field). rewrite <- erT_ev. match goal with |- Rabs ?x <= _ => replace x with (eval (senv z f) nofe erD) end.
  2: { unfold erD. cbn [eval]. generalize (eval (senv z f) nofe erT). intros tg. unfold yy, EZ, qc. cbn [eval vv senv]. unfold Q2R. cbn [Qnum Qden inject_Z]. field. }
  replace (12 / 10) with (Q2R (Qmake 12 10)) by (unfold Q2R; cbn [Qnum Qden]; field).
  rewrite <- (Rabs_right f) at 2 by lra. apply (series_smallj 1 6 4 yrad (senv z f)); [|vm_compute; reflexivity].
  intros [|[|i]] Hi; [| |lia]; unfold Q2R; cbn [senv yrad Qnum Qden]; apply Rabs_le; unfold z; lra.
Qed.
Lemma rlon_low y f : 0 <= y <= 1 -> 0 <= f <= / 100 -> Rabs (rTy f y - 1) <= 6 / 10 * f.
Proof. intros Hy Hf. unfold rTy. assert (0 <= y * y <= 1) by nra. assert (0 <= y * y * y <= 1) by nra. assert (0 <= f * f <= f / 100) by nra. assert (0 <= f * f * f <= f / 1000) by nra. apply Rabs_le. split; nra. Qed.
End Ser.

(** ** Length and longitude along the arc *)
Section V.
Context (a b be al : R) (Hab : 0 < b <= a) (Hf : 99 * a <= 100 * b) (Hbe : 0 < cos be).
Notation s := (sa be al).
Notation c := (ca0 be al).
Notation t1 := (arc1 be al).
Notation bw := (bw a b c).
Notation bth := (bth a b s c t1).
Notation len := (blen a b c t1).
Notation q := (1 - s * s).
Notation v := (q * ((a * a - b * b) / (b * b))).
Notation f := ((a - b) / a).
Let S0 := sc0 be al.
Lemma c3 x : cos (3 * x) = 4 * (cos x * cos x * cos x) - 3 * cos x.
Proof. replace (3 * x) with (2 * x + x) by ring. rewrite cos_plus, sin_2a, cos_2a_cos. pose proof (sc x). replace (2 * sin x * cos x * sin x) with (2 * cos x * (1 - cos x * cos x)) by (rewrite <- H; ring). ring. Qed.
Definition rser (c0 c2 c4 c6 t : R) : R := c0 * t + c2 * (sin (1 * t) * cos (1 * (2 * t1 + t))) + c4 * (sin (2 * t) * cos (2 * (2 * t1 + t))) + c6 * (sin (3 * t) * cos (3 * (2 * t1 + t))).
Lemma rser_deriv c0 c2 c4 c6 t : is_derive (rser c0 c2 c4 c6) t (let C := cos (2 * (t1 + t)) in c0 + c2 * C + 2 * c4 * (2 * (C * C) - 1) + 3 * c6 * (4 * (C * C * C) - 3 * C)).
Proof.
  evar_last. unfold rser. apply (is_derive_plus (fun t => c0 * t + c2 * (sin (1 * t) * cos (1 * (2 * t1 + t))) + c4 * (sin (2 * t) * cos (2 * (2 * t1 + t))))).
  apply (is_derive_plus (fun t => c0 * t + c2 * (sin (1 * t) * cos (1 * (2 * t1 + t))))). apply (is_derive_plus (fun t => c0 * t)).
  apply (is_derive_scal (fun t : R => t)). apply (@is_derive_id R_AbsRing).
  apply (is_derive_scal (fun t => sin (1 * t) * cos (1 * (2 * t1 + t)))). apply wave_deriv.
  apply (is_derive_scal (fun t => sin (2 * t) * cos (2 * (2 * t1 + t)))). apply wave_deriv.
  apply (is_derive_scal (fun t => sin (3 * t) * cos (3 * (2 * t1 + t)))). apply wave_deriv.
  cbv zeta. replace (1 * (2 * t1 + 2 * t)) with (2 * (t1 + t)) by ring. replace (2 * t1 + 2 * t) with (2 * (t1 + t)) by ring. rewrite (cos_2a_cos (2 * (t1 + t))), c3.
  generalize (cos (2 * (t1 + t))). intros C. unfold plus, one, scal. cbn. unfold mult. cbn. ring.
Qed.
Definition rosc (t : R) : R := - 5 * sin (8 * (t1 + t)) / 131072.
Lemma rosc_deriv t : is_derive rosc t (rO (cos (2 * (t1 + t)))).
Proof.
  unfold rosc. auto_derive; [easy|]. unfold rO. replace (8 * (t1 + t)) with (2 * (2 * (2 * (t1 + t)))) by ring. rewrite (cos_2a_cos (2 * (2 * (t1 + t)))), (cos_2a_cos (2 * (t1 + t))). field.
Qed.
Lemma rosc_bound t : Rabs (rosc t - rosc 0) <= / 13000.
Proof. unfold rosc. pose proof (SIN_bound (8 * (t1 + t))). pose proof (SIN_bound (8 * (t1 + 0))). apply Rabs_le. lra. Qed.
Lemma rlen t : Rabs (len t - b * rser (Rb0 v) (Rb2 v) (Rb4 v) (Rb6 v) t) <= b * (v ^ 4 / 13000 + v ^ 5 / 20 * Rabs t).
Proof.
  pose proof (v_bound a b be al Hab Hf) as Hv.
  pose proof (compare (rser (Rb0 v) (Rb2 v) (Rb4 v) (Rb6 v)) (fun t => len t / b) (fun t => v ^ 4 * rosc t)
    (fun t => rP v (cos (2 * (t1 + t)))) (fun t => a * bw (t1 + t) / b) (fun t => v ^ 4 * rO (cos (2 * (t1 + t)))) (v ^ 5 / 20)) as K.
  assert (R : Rabs (len t / b - rser (Rb0 v) (Rb2 v) (Rb4 v) (Rb6 v) t) <= v ^ 5 / 20 * Rabs t + Rabs (v ^ 4 * rosc t - v ^ 4 * rosc 0)).
  { apply K; clear K.
    - intros u. apply rser_deriv.
    - intros u. apply is_derive_ext with (fun t => / b * len t); [intros w; apply Rmult_comm|]. replace (a * bw (t1 + u) / b) with (/ b * (a * bw (t1 + u))) by (unfold Rdiv; ring). apply (is_derive_scal len). apply (blen_deriv a b s c t1 Hab S0).
    - intros u. apply (is_derive_scal rosc). apply rosc_deriv.
    - intros u. destruct (speed_exact a b be al Hab (t1 + u)) as [E G]. set (w := a * bw (t1 + u) / b) in *. set (C := cos (2 * (t1 + u))) in *. assert (HC : -1 <= C <= 1) by apply COS_bound.
      pose proof (rspeed_res C v HC Hv) as A1. pose proof (rspeed_low C v HC Hv) as A2. rewrite <- E in A1. replace (w - rP v C - v ^ 4 * rO C) with (w - (rP v C + v ^ 4 * rO C)) by ring.
      set (P := rP v C + v ^ 4 * rO C) in *. assert (P1 : 98 / 100 <= P) by (apply Rabs_le_between in A2; lra).
      apply (Rmult_le_reg_r (w + P)); [lra|]. rewrite <- (Rabs_right (w + P)) at 1 by lra. rewrite <- Rabs_mult. replace ((w - P) * (w + P)) with (- (P * P - w * w)) by ring. rewrite Rabs_Ropp.
      assert (V5 : 0 <= v ^ 5) by (apply pow_le; lra). eapply Rle_trans; [exact A1|]. nra.
    - unfold rser. rewrite !Rmult_0_r, sin_0. ring.
    - rewrite (blen_0 a b c t1). unfold Rdiv. ring. }
  assert (V4 : 0 <= v ^ 4) by (apply pow_le; lra).
  replace (len t - b * _) with (b * (len t / b - rser (Rb0 v) (Rb2 v) (Rb4 v) (Rb6 v) t)) by (field; lra).
  rewrite Rabs_mult, (Rabs_right b) by lra. apply Rmult_le_compat_l; [lra|]. eapply Rle_trans; [exact R|]. rewrite <- Rmult_minus_distr_l, Rabs_mult, (Rabs_right (v ^ 4)) by lra. pose proof (rosc_bound t). nra.
Qed.
Definition rlser (t : R) : R := let '(x0, x2, x4, x6) := rax f in rser (polynomial x0 q) (polynomial x2 q) (polynomial x4 q) (polynomial x6 q) t.
Lemma rlon t : Rabs (s * (f * rlser t) - bth t) <= f ^ 5 / 3 * Rabs t.
Proof.
  pose proof (f_bound a b Hab Hf) as Bf. pose proof (q01 be al) as Bq. assert (Bs : Rabs s <= 1) by (apply Rabs_le; nra).
  pose proof (compare (fun t => s * (f * rlser t)) bth (fun t => 0) (fun t => s * (f * rT f q (cos (2 * (t1 + t))))) (fun t => s * brate a b c (t1 + t)) (fun t => 0) (f ^ 5 / 3)) as K.
  rewrite Rabs_minus_sym. apply (Rle_trans _ (f ^ 5 / 3 * Rabs t + Rabs (0 - 0))); [apply K; clear K|rewrite Rminus_0_r, Rabs_R0; lra].
  - intros u. apply (is_derive_scal (fun t => f * rlser t)). apply (is_derive_scal rlser). apply rser_deriv.
  - intros u. apply (bth_deriv a b s c t1 Hab S0).
  - intros u. apply (@is_derive_const R_AbsRing).
  - intros u. rewrite rT_y. set (C := cos (2 * (t1 + u))). assert (HC : -1 <= C <= 1) by apply COS_bound. set (y := q * (1 - C) / 2). assert (Hy : 0 <= y <= 1) by (unfold y; nra).
    pose proof (rlon_res y f Hy Bf) as A1. pose proof (rlon_low y f Hy Bf) as A2. pose proof (bw_ge a b s c Hab S0 (t1 + u)) as W1. pose proof (bw_le a b s c Hab S0 (t1 + u)) as W2. pose proof (bw_sq a b s c Hab S0 (t1 + u)) as W3.
    replace (1 - f * (2 - f) * (1 - y)) with (bw (t1 + u) * bw (t1 + u)) in A1.
    2: { rewrite W3. unfold y, C. rewrite cos2. rewrite <- (ca0_sq be al). field. lra. }
    unfold brate. assert (EE : (a * a - b * b) / (a * a) = f * (2 - f)) by (field; lra). rewrite EE. assert (BA : b / a = 1 - f) by (field; lra). rewrite BA in W1.
    set (w := bw (t1 + u)) in *.
    replace (s * (f * (2 - f) / (1 + w)) - s * (f * rTy f y) - 0) with (s * (f * ((2 - f) / (1 + w) - rTy f y))) by (field; lra).
    set (T := rTy f y) in *. clearbody T w. set (g := f) in *. clearbody g. apply Rabs_le_between in A2.
    assert (NZ : 197 / 100 <= 2 - g - T + w * T) by nra.
    assert (DEN : 391 / 100 <= (1 + w) * (2 - g - T + w * T)) by nra.
    assert (F : Rabs ((2 - g) / (1 + w) - T) <= g ^ 4 / 3).
    { replace ((2 - g) / (1 + w) - T) with (((2 - g - T) * (2 - g - T) - w * w * (T * T)) / ((1 + w) * (2 - g - T + w * T))) by (field; repeat split; lra).
      unfold Rdiv at 1. rewrite Rabs_mult, Rabs_inv, (Rabs_right ((1 + w) * (2 - g - T + w * T))) by lra. apply (Rmult_le_reg_r ((1 + w) * (2 - g - T + w * T))); [lra|]. rewrite Rmult_assoc, Rinv_l, Rmult_1_r by lra.
      assert (0 <= g ^ 4) by (apply pow_le; lra). eapply Rle_trans; [exact A1|]. nra. }
    rewrite !Rabs_mult, (Rabs_right g) by lra. pose proof (Rabs_pos ((2 - g) / (1 + w) - T)). assert (g * Rabs ((2 - g) / (1 + w) - T) <= g ^ 5 / 3) by (replace (g ^ 5 / 3) with (g * (g ^ 4 / 3)) by field; apply Rmult_le_compat_l; lra).
    assert (0 <= g * Rabs ((2 - g) / (1 + w) - T)) by (apply Rmult_le_pos; lra). pose proof (Rabs_pos s). nra.
  - unfold rlser, rser, rax. rewrite !Rmult_0_r, sin_0. ring.
  - apply (bth_0 a b s c t1).
Qed.
(** the waves taken at two nearby arcs *)
Lemma wave_lip k t t' : 0 <= k -> Rabs (sin (k * t) * cos (k * (2 * t1 + t)) - sin (k * t') * cos (k * (2 * t1 + t'))) <= k * Rabs (t - t').
Proof.
  intros Hk. apply (lipschitz (fun t => sin (k * t) * cos (k * (2 * t1 + t))) (fun t => k * cos (k * (2 * t1 + 2 * t))) k); [intros x; apply wave_deriv|].
  intros x. pose proof (COS_bound (k * (2 * t1 + 2 * x))). apply Rabs_le. nra.
Qed.
Lemma rser_mix c0 c2 c4 c6 t t' k : Rabs c2 + 2 * Rabs c4 + 3 * Rabs c6 <= k ->
  Rabs (c0 * t + c2 * (sin (1 * t') * cos (1 * (2 * t1 + t'))) + c4 * (sin (2 * t') * cos (2 * (2 * t1 + t'))) + c6 * (sin (3 * t') * cos (3 * (2 * t1 + t'))) - rser c0 c2 c4 c6 t) <= k * Rabs (t - t').
Proof.
  intros K. unfold rser. pose proof (wave_lip 1 t' t ltac:(lra)) as W1. pose proof (wave_lip 2 t' t ltac:(lra)) as W2. pose proof (wave_lip 3 t' t ltac:(lra)) as W3. rewrite (Rabs_minus_sym t' t) in *.
  set (x1 := sin (1 * t') * _ - _) in *. set (x2 := sin (2 * t') * _ - _) in *. set (x3 := sin (3 * t') * _ - _) in *.
  replace (_ - _) with (c2 * x1 + (c4 * x2 + c6 * x3)) by (unfold x1, x2, x3; ring). clearbody x1 x2 x3. set (d := Rabs (t - t')) in *. assert (D : 0 <= d) by apply Rabs_pos.
  apply (Rle_trans _ (Rabs c2 * (1 * d) + (Rabs c4 * (2 * d) + Rabs c6 * (3 * d)))).
  - eapply Rle_trans; [apply Rabs_triang|]. rewrite Rabs_mult. apply Rplus_le_compat; [apply Rmult_le_compat_l; [apply Rabs_pos|exact W1]|]. eapply Rle_trans; [apply Rabs_triang|]. rewrite !Rabs_mult. apply Rplus_le_compat; (apply Rmult_le_compat_l; [apply Rabs_pos|assumption]).
  - nra.
Qed.
Lemma rdlon_mix sg old : Rabs (rdlon a b q s sg old t1 - s * (f * rlser sg)) <= / 10 * Rabs (sg - old).
Proof.
  pose proof (f_bound a b Hab Hf) as Bf. pose proof (q01 be al) as Bq. assert (Bs : Rabs s <= 1) by (apply Rabs_le; nra).
  unfold rdlon, rlser. destruct (rax f) as [[[x0 x2] x4] x6] eqn:EX. pose proof (rser_mix (polynomial x0 q) (polynomial x2 q) (polynomial x4 q) (polynomial x6 q) sg old 1) as M.
  assert (K : Rabs (polynomial x2 q) + 2 * Rabs (polynomial x4 q) + 3 * Rabs (polynomial x6 q) <= 1).
  { unfold rax in EX. injection EX as <- <- <- <-. unfold polynomial. cbn. set (g := f) in *. set (y := q) in *. clearbody g y. assert (0 <= g * g <= / 10000) by nra. assert (0 <= g * g * g <= / 1000000) by nra. assert (0 <= y * y <= 1) by nra. assert (0 <= y * y * y <= 1) by nra. 
    assert (L1 : forall u w m, 0 <= u <= 1 -> Rabs w <= m -> Rabs (w * u) <= m) by (intros u w m U W; rewrite Rabs_mult, (Rabs_right u) by lra; pose proof (Rabs_pos w); nra).
    match goal with |- Rabs ?p + 2 * Rabs ?r + 3 * Rabs ?t <= 1 => assert (Rabs p <= / 10); [|assert (Rabs r <= / 10); [|assert (Rabs t <= / 10); [|lra]]] end; apply Rabs_le; split; nra. }
  specialize (M K). set (w := _ - rser _ _ _ _ sg) in M. replace (_ - _) with (s * (f * w)) by (unfold w; rewrite !Rmult_1_l; ring). clearbody w. rewrite !Rabs_mult, (Rabs_right f) by lra.
  pose proof (Rabs_pos w). pose proof (Rabs_pos s). assert (0 <= f * Rabs w <= / 100 * Rabs w) by (split; [apply Rmult_le_pos; lra|apply Rmult_le_compat_r; lra]). pose proof (Rabs_pos (sg - old)). nra.
Qed.
End V.
