(** Exact arithmetic: Karney's direct solution follows a geodesic of the ellipsoid. *)
From Coq Require Import String Reals QArith Qreals Lra Psatz Lia List.
From Coquelicot Require Import Coquelicot.
From Flocq Require Import Core.Raux.
From Verif.Num Require Import FOps RFun XR XRLemmas TMod TModL.
From Verif.Model Require Import Fp Quantities Complex Cs Ellipsoid Geodesics.
From Verif.Spec Require Import Angles Axes Shape Frames Sphere Series Geodesic Maps.
From Verif.Proofs Require Import AnglesX EllX MathX SphereG SphereN GeoG GeoV GeoVD GeoK GeoKD Bessel BesselP GeoAcc GeoUniq VincAcc VincDir MercInv KarnSer.
Import ListNotations.
Local Open Scope R_scope.

(** ** Longitude: [EV 0] the cosine of twice the arc, [EV 1] the small parameter over [n], [EV 2] the third flattening *)
Definition hn := EV 2. Definition he : ex := (hn * EV 1)%ex. Definition hs : ex := (he * he)%ex.
Definition hA3 : ex := (EZ 1 - he * (qc 1 2 - qc 1 2 * hn) - hs * (qc 1 4 + qc 1 8 * hn - qc 3 8 * (hn * hn)) - hs * he * (qc 1 16 + qc 3 16 * hn + qc 1 16 * (hn * hn)) - hs * hs * (qc 3 64 + qc 1 32 * hn) - hs * hs * he * qc 3 128)%ex.
Definition h1 : ex := ((qc 1 4 - qc 1 4 * hn) + he * (qc 1 8 - qc 1 8 * (hn * hn)) + hs * (qc 3 64 + qc 3 64 * hn - qc 1 64 * (hn * hn)) + he * hs * (qc 5 128 + qc 1 64 * hn) + hs * hs * qc 3 128)%ex.
Definition h2 : ex := ((qc 1 16 - qc 3 32 * hn + qc 1 32 * (hn * hn)) + he * (qc 3 64 - qc 1 32 * hn - qc 3 64 * (hn * hn)) + hs * (qc 3 128 + qc 1 128 * hn) + hs * he * qc 5 256)%ex.
Definition h3 : ex := ((qc 5 192 - qc 3 64 * hn + qc 5 192 * (hn * hn)) + he * (qc 3 128 - qc 5 192 * hn) + hs * qc 7 512)%ex.
Definition h4 : ex := ((qc 7 512 - qc 7 256 * hn) + he * qc 7 512)%ex.
Definition h5 : ex := qc 21 2560.
Definition hT (y e2 : ex) : ex :=
  (EZ 1 + EZ 2 * (h1 * y) + EZ 4 * (h2 * (EZ 2 * (y * y) - e2)) + EZ 6 * (h3 * (y * (EZ 4 * (y * y) - EZ 3 * e2)))
   + EZ 8 * (h4 * (EZ 8 * (y * y * (y * y)) - EZ 8 * (e2 * (y * y)) + e2 * e2))
   + EZ 10 * (h5 * (y * (EZ 16 * (y * y * (y * y)) - EZ 20 * (e2 * (y * y)) + EZ 5 * (e2 * e2)))))%ex.
Definition L3 : list ex := [he * EV 0; hs; hA3 * hT (EF 0) (EF 1)]%ex.
Definition hR : ex := (epow ((EZ 1 - hn) * EF 2) 2 * (EZ 1 - EZ 2 * EF 0 + EF 1) - epow ((EZ 2 - (EZ 1 + hn) * EF 2) * (EZ 1 - he)) 2)%ex.
Definition hrad (i : nat) : Q := match i with 0%nat => 1%Q | 1%nat => Qmake 1 1 | _ => Qmake 1 190 end.
Definition henv (C x n : R) (i : nat) : R := match i with 0%nat => C | 1%nat => x | _ => n end.
Lemma henv_ok C x n : -1 <= C <= 1 -> 0 <= x <= 1 -> 0 <= n <= / 190 -> forall i, (i <= 2)%nat -> Rabs (henv C x n i) <= Q2R (hrad i).
Proof. intros HC H1 HE [|[|[|i]]] Hi; [| | |lia]; unfold Q2R; cbn [henv hrad Qnum Qden]; apply Rabs_le; lra. Qed.
Definition klon (n x C : R) : R := fvals (henv C x n) L3 2.
Lemma klon_res C x n : -1 <= C <= 1 -> 0 <= x <= 1 -> 0 <= n <= / 190 -> let e := n * x in let T := klon n x C in
  Rabs ((1 - n) * T * ((1 - n) * T) * (1 - 2 * e * C + e * e) - (2 - (1 + n) * T) * (1 - e) * ((2 - (1 + n) * T) * (1 - e))) <= 92 * n ^ 6.
Proof.
  intros HC Hx Hn e T. match goal with |- Rabs ?z <= _ => replace z with (eval (henv C x n) (fvals (henv C x n) L3) hR) end.
  2: { unfold hR, epow. cbn [eval]. change (fvals (henv C x n) L3 2) with T. change (fvals (henv C x n) L3 0) with (n * x * C). change (fvals (henv C x n) L3 1) with (n * x * (n * x)). clearbody T. unfold he, hn, EZ, e. cbn [eval henv]. unfold Q2R. cbn [Qnum Qden inject_Z]. field. }
  replace 92 with (Q2R (Qmake 92 1)) by (unfold Q2R; cbn [Qnum Qden]; field). replace (n ^ 6) with (Rabs n ^ 6) by (rewrite Rabs_right by lra; reflexivity).
  apply (let_smallj 2 8 hrad (henv C x n) (henv_ok C x n HC Hx Hn)). vm_compute. reflexivity.
Qed.
Lemma klon_low C x n : -1 <= C <= 1 -> 0 <= x <= 1 -> 0 <= n <= / 190 -> Rabs (klon n x C - 1) <= / 100.
Proof.
  intros HC Hx Hn. replace (klon n x C - 1) with (eval (henv C x n) (fvals (henv C x n) L3) (EF 2 - EZ 1)%ex).
  2: { cbn [eval]. change (fvals (henv C x n) L3 2) with (klon n x C). set (k := klon n x C). unfold EZ. cbn [eval]. unfold Q2R. cbn [Qnum Qden inject_Z]. field. }
  replace (/ 100) with (Q2R (Qmake 1 100) * Rabs n ^ 0) by (unfold Q2R; cbn [Qnum Qden pow]; field).
  apply (let_smallj 2 4 hrad (henv C x n) (henv_ok C x n HC Hx Hn)). vm_compute. reflexivity.
Qed.
Ltac hev := unfold klon; unfold fvals, L3, hT, hA3, h1, h2, h3, h4, h5, hs, he, hn, qc, EZ; cbn [vals app nth eval henv]; unfold Q2R; cbn [Qnum Qden inject_Z].
Lemma kI3_deriv n x s : is_derive (fun s => kI3 n (n * x) s) s (klon n x (cos (2 * s))).
Proof.
  unfold kI3, kA3, sine_series, evals, C3R, A3R, polynomial. series. auto_derive; [easy|].
  set (z := 2 * s). replace ((1 + 1) * z) with (2 * z) by ring. replace ((1 + 1 + 1) * z) with (3 * z) by ring. replace ((1 + 1 + 1 + 1) * z) with (4 * z) by ring. replace ((1 + 1 + 1 + 1 + 1) * z) with (5 * z) by ring.
  rewrite c5x, c4x, c3x, c2x. unfold polynomial. series. rewrite ?Rmult_1_l, ?Rmult_0_l. generalize (cos z). intros C. hev. field.
Qed.
Lemma fraction_diff n T w r : 0 <= n <= / 190 -> 99 / 100 <= T <= 101 / 100 -> 98 / 100 <= w -> 0 <= r ->
  Rabs ((1 - n) * T * ((1 - n) * T) * (w * w) - (2 - (1 + n) * T) * (2 - (1 + n) * T)) <= r ->
  Rabs (2 / (1 + n + (1 - n) * w) - T) <= 28 / 100 * r.
Proof.
  intros Hn HT Hw Hr H. assert (A : 96 / 100 <= (1 - n) * T * w). { assert (984 / 1000 <= (1 - n) * T) by nra. nra. }
  assert (B : 98 / 100 <= 2 - (1 + n) * T <= 102 / 100) by nra.
  assert (D : 196 / 100 <= 1 + n + (1 - n) * w) by nra.
  assert (E : 38 / 10 <= (1 + n + (1 - n) * w) * ((1 - n) * T * w + (2 - (1 + n) * T))) by nra.
  replace (2 / (1 + n + (1 - n) * w) - T) with (- (((1 - n) * T * ((1 - n) * T) * (w * w) - (2 - (1 + n) * T) * (2 - (1 + n) * T)) / ((1 + n + (1 - n) * w) * ((1 - n) * T * w + (2 - (1 + n) * T))))) by (field; lra).
  rewrite Rabs_Ropp. unfold Rdiv at 1. rewrite Rabs_mult, Rabs_inv, (Rabs_right ((1 + n + (1 - n) * w) * _)) by lra.
  set (d := (1 + n + (1 - n) * w) * _) in *. apply (Rmult_le_reg_r d); [lra|]. rewrite Rmult_assoc, Rinv_l, Rmult_1_r by lra. eapply Rle_trans; [exact H|]. nra.
Qed.

Section V.
Context (a b be al : R) (Hab : 0 < b <= a) (Hf : 99 * a <= 100 * b) (Hbe : 0 < cos be).
Notation s := (sa be al).
Notation c := (ca0 be al).
Notation t1 := (arc1 be al).
Notation bw := (bw a b c).
Notation bth := (bth a b s c t1).
Notation len := (blen a b c t1).
Notation v := ((1 - s * s) * ((a * a - b * b) / (b * b))).
Notation f := ((a - b) / a).
Notation n := ((a - b) / (a + b)).
Let S0 := sc0 be al.
Notation e := (keps v).
Lemma n_bound : 0 <= n <= / 190 /\ n <= 503 / 1000 * f.
Proof.
  assert (N0 : 0 <= n) by (apply Rdiv_le_0_compat; lra). split; [split; [exact N0|]|].
  - apply (Rmult_le_reg_r (a + b)); [lra|]. replace (n * (a + b)) with (a - b) by (field; lra). lra.
  - apply (Rmult_le_reg_r (a * (a + b))); [nra|]. replace (n * (a * (a + b))) with ((a - b) * a) by (field; lra). replace (503 / 1000 * f * (a * (a + b))) with ((a - b) * (503 / 1000 * (a + b))) by (field; lra).
    apply Rmult_le_compat_l; lra.
Qed.
Lemma keps_v : (1 - e) * (1 - e) * v = 4 * e /\ 0 <= e <= n.
Proof.
  assert (V0 : 0 <= v) by (apply (v_bound a b be al Hab Hf)). unfold keps. set (r := sqrt (1 + v)). assert (R2 : r * r = 1 + v) by (apply sqrt_sqrt; lra).
  assert (R1 : 1 <= r) by (unfold r; rewrite <- sqrt_1 at 1; apply sqrt_le_1; lra).
  split; [replace v with (r * r - 1) by lra; field; lra|]. split; [apply Rdiv_le_0_compat; lra|].
  assert (RA : r * b <= a).
  { apply Rsqr_incr_0_var; [|lra]. unfold Rsqr. replace (r * b * (r * b)) with (r * r * (b * b)) by ring. rewrite R2. replace ((1 + v) * (b * b)) with (b * b + (1 - s * s) * (a * a - b * b)) by (field; lra). pose proof (q01 be al) as Q. assert (A2 : 0 <= a * a - b * b) by nra. set (q := 1 - s * s) in *. assert (q * (a * a - b * b) <= 1 * (a * a - b * b)) by (apply Rmult_le_compat_r; lra). lra. }
  apply (Rmult_le_reg_r ((r + 1) * (a + b))); [nra|]. replace ((r - 1) / (r + 1) * ((r + 1) * (a + b))) with ((r - 1) * (a + b)) by (field; lra). replace (n * ((r + 1) * (a + b))) with ((a - b) * (r + 1)) by (field; lra). nra.
Qed.
Lemma speed_eps x : let w := a * bw x / b in 1 <= w /\ (1 - e) * w * ((1 - e) * w) = 1 - 2 * e * cos (2 * x) + e * e.
Proof.
  intros w. destruct (speed_exact a b be al Hab x) as [E G]. fold w in E, G. split; [exact G|]. destruct keps_v as [K _]. 
  replace ((1 - e) * w * ((1 - e) * w)) with ((1 - e) * (1 - e) * (w * w)) by ring. rewrite E. set (z := keps _) in *. set (vv := (1 - s * s) * _) in *.
  replace ((1 - z) * (1 - z) * (1 + vv * (1 - cos (2 * x)) / 2)) with ((1 - z) * (1 - z) + (1 - z) * (1 - z) * vv * (1 - cos (2 * x)) / 2) by field. rewrite K. field.
Qed.
Lemma kA1_bound : 1 <= kA1 e <= 101 / 100.
Proof.
  destruct keps_v as [_ K]. destruct n_bound as [N _]. set (z := keps _) in *. unfold kA1, polynomial, PA1R. cbn [length Rsum nth pow]. rewrite !Rmult_0_l, !Rmult_1_r, !Rplus_0_r, Rplus_0_l.
  assert (Z2 : 0 <= z * z <= z / 190) by nra. assert (0 <= z * (z * (z * z)) <= z) by (assert (0 <= z * (z * z) <= 1) by nra; nra). assert (0 <= z * (z * (z * (z * (z * z)))) <= z).
  { replace (z * (z * (z * (z * (z * z))))) with ((z * z) * (z * (z * (z * z)))) by ring. nra. }
  match goal with |- 1 <= ?u / (1 - z) <= _ => set (m := u); assert (M : 1 <= m <= 1 + z / 10) by (unfold m; lra) end. clearbody m.
  split; apply (Rmult_le_reg_r (1 - z)); try lra; replace (m / (1 - z) * (1 - z)) with m by (field; lra); lra.
Qed.
(** the distance *)
Lemma klen t : Rabs (len t - b * (kA1 e * (kI1 e (t1 + t) - kI1 e t1))) <= b * (10 * e ^ 7 * Rabs t).
Proof.
  destruct keps_v as [_ K]. destruct n_bound as [N _]. set (z := keps _) in *. assert (HZ : 0 <= z <= / 190) by lra. assert (Z7 : 0 <= z ^ 7) by (apply pow_le; lra).
  pose proof (compare (fun t => kA1 z * (1 - z) * kI1 z (t1 + t) - kA1 z * (1 - z) * kI1 z t1) (fun t => (1 - z) * (len t / b)) (fun _ => 0)
    (fun t => kdist z (cos (2 * (t1 + t)))) (fun t => (1 - z) * (a * bw (t1 + t) / b)) (fun _ => 0) (99 / 10 * z ^ 7)) as KK.
  assert (R : Rabs ((1 - z) * (len t / b) - (kA1 z * (1 - z) * kI1 z (t1 + t) - kA1 z * (1 - z) * kI1 z t1)) <= 99 / 10 * z ^ 7 * Rabs t + Rabs (0 - 0)).
  { apply KK; clear KK.
    - intros u. destruct (kI1_deriv z (t1 + u)) as [D|D]; [|lra]. evar_last.
      + apply (is_derive_minus (fun t => kA1 z * (1 - z) * kI1 z (t1 + t)) (fun _ => kA1 z * (1 - z) * kI1 z t1)); [|apply (@is_derive_const R_AbsRing R_NormedModule)].
        apply (is_derive_comp (fun s => kA1 z * (1 - z) * kI1 z s) (fun t => t1 + t) u); [exact D|]. apply (is_derive_plus (fun _ => t1) (fun t : R => t)); [apply (@is_derive_const R_AbsRing R_NormedModule)|apply (@is_derive_id R_AbsRing)].
      + match goal with |- context [kdist ?x ?y] => generalize (kdist x y) | |- context [klon ?x ?y ?z] => generalize (klon x y z) end. intros k. unfold minus, plus, opp, scal, zero, one. cbn. unfold mult. cbn. ring.
    - intros u. apply is_derive_ext with (fun t => (1 - z) * / b * len t); [intros w; change ((1 - z) * / b * len w = (1 - z) * (len w * / b) :> R); ring|]. replace ((1 - z) * (a * bw (t1 + u) / b)) with ((1 - z) * / b * (a * bw (t1 + u))) by (unfold Rdiv; ring). apply (is_derive_scal len). apply (blen_deriv a b s c t1 Hab S0).
    - intros u. apply (@is_derive_const R_AbsRing R_NormedModule).
    - intros u. destruct (speed_eps (t1 + u)) as [G E]. fold z in E. set (w := a * bw (t1 + u) / b) in *. set (C := cos (2 * (t1 + u))) in *. assert (HC : -1 <= C <= 1) by apply COS_bound.
      pose proof (kdist_res C z HC HZ) as A1. pose proof (kdist_low C z HC HZ) as A2. rewrite <- E in A1. rewrite Rminus_0_r. set (P := kdist z C) in *. apply Rabs_le_inv in A2. set (W := (1 - z) * w) in *.
      assert (W1 : 99 / 100 <= W) by (unfold W; nra).
      apply (Rmult_le_reg_r (W + P)); [lra|]. rewrite <- (Rabs_right (W + P)) at 1 by lra. rewrite <- Rabs_mult. replace ((W - P) * (W + P)) with (- (P * P - W * W)) by ring. rewrite Rabs_Ropp.
      eapply Rle_trans; [exact A1|]. nra.
    - rewrite Rplus_0_r. ring.
    - rewrite (blen_0 a b c t1). unfold Rdiv. ring. }
  rewrite Rminus_0_r, Rabs_R0, Rplus_0_r in R.
  replace (len t - b * _) with (b / (1 - z) * ((1 - z) * (len t / b) - (kA1 z * (1 - z) * kI1 z (t1 + t) - kA1 z * (1 - z) * kI1 z t1))) by (field; lra).
  rewrite Rabs_mult, (Rabs_right (b / (1 - z))) by (apply Rle_ge, Rdiv_le_0_compat; lra).
  apply (Rle_trans _ (b / (1 - z) * (99 / 10 * z ^ 7 * Rabs t))); [apply Rmult_le_compat_l; [apply Rdiv_le_0_compat; lra|exact R]|].
  unfold Rdiv. rewrite Rmult_assoc. apply Rmult_le_compat_l; [lra|]. rewrite <- Rmult_assoc. apply Rmult_le_compat_r; [apply Rabs_pos|]. rewrite <- Rmult_assoc. apply Rmult_le_compat_r; [exact Z7|].
  apply (Rmult_le_reg_r (1 - z)); [lra|]. rewrite (Rmult_comm (/ (1 - z))), Rmult_assoc, Rinv_l by lra. lra.
Qed.
(** the longitude *)
Lemma klon_acc t : Rabs (f * s * (kI3 n e (t1 + t) - kI3 n e t1) - bth t) <= f * (27 * n ^ 6) * Rabs t.
Proof.
  destruct keps_v as [_ K]. destruct n_bound as [N _]. pose proof (f_bound a b Hab Hf) as Bf. assert (Bs : Rabs s <= 1) by (pose proof (q01 be al); apply Rabs_le; nra).
  destruct (multiple e n 1 ltac:(lra)) as (x & X1 & X2). { rewrite !Rabs_right by lra. lra. }
  assert (HX : 0 <= x <= 1 \/ n = 0). { destruct (Req_dec n 0) as [Z|Z]; [now right|left]. apply Rabs_le_inv in X1. split; [|lra]. rewrite X2 in K. nra. }
  assert (EX : exists x, 0 <= x <= 1 /\ e = n * x). { destruct HX as [HX|HX]; [exists x; split; assumption|]. exists 0. split; [lra|]. rewrite HX in K |- *. lra. }
  clear x X1 X2 HX. destruct EX as (x & HX & EX).
  pose proof (compare (fun t => f * s * (kI3 n e (t1 + t) - kI3 n e t1)) bth (fun _ => 0)
    (fun t => f * s * klon n x (cos (2 * (t1 + t)))) (fun t => s * brate a b c (t1 + t)) (fun _ => 0) (f * (27 * n ^ 6))) as KK.
  rewrite Rabs_minus_sym. eapply Rle_trans; [apply KK; clear KK|].
  - intros u. rewrite EX. apply (is_derive_scal (fun t => kI3 n (n * x) (t1 + t) - kI3 n (n * x) t1)). evar_last.
    + apply (is_derive_minus (fun t => kI3 n (n * x) (t1 + t)) (fun _ => kI3 n (n * x) t1)); [|apply (@is_derive_const R_AbsRing R_NormedModule)].
      apply (is_derive_comp (fun s => kI3 n (n * x) s) (fun t => t1 + t) u); [apply kI3_deriv|]. apply (is_derive_plus (fun _ => t1) (fun t : R => t)); [apply (@is_derive_const R_AbsRing R_NormedModule)|apply (@is_derive_id R_AbsRing)].
    + match goal with |- context [kdist ?x ?y] => generalize (kdist x y) | |- context [klon ?x ?y ?z] => generalize (klon x y z) end. intros k. unfold minus, plus, opp, scal, zero, one. cbn. unfold mult. cbn. ring.
  - intros u. apply (bth_deriv a b s c t1 Hab S0).
  - intros u. apply (@is_derive_const R_AbsRing R_NormedModule).
  - intros u. rewrite Rminus_0_r. set (C := cos (2 * (t1 + u))). assert (HC : -1 <= C <= 1) by apply COS_bound.
    pose proof (klon_res C x n HC HX N) as A1. cbn zeta in A1. rewrite <- EX in A1. pose proof (klon_low C x n HC HX N) as A2. apply Rabs_le_inv in A2. destruct (speed_eps (t1 + u)) as [G E]. fold C in E. rewrite <- E in A1. clear E.
    unfold brate. set (T := klon n x C) in *. set (w := a * bw (t1 + u) / b) in *.
    replace ((a * a - b * b) / (a * a) / (1 + bw (t1 + u))) with (f * (2 / (1 + n + (1 - n) * w))).
    2: { pose proof (bw_pos a b s c Hab S0 (t1 + u)). replace (1 + n + (1 - n) * w) with (2 * a * (1 + bw (t1 + u)) / (a + b)) by (unfold w; field; lra). field. repeat split; lra. }
    clearbody T w. assert (N6 : 0 <= n ^ 6) by (apply pow_le; lra). set (z := e) in *. assert (HZ : 0 <= z <= / 190) by lra. clearbody z.
    assert (Q1 : 989 / 1000 <= (1 - z) * (1 - z)) by nra.
    assert (F : Rabs (2 / (1 + n + (1 - n) * w) - T) <= 28 / 100 * (93 * n ^ 6 + / 100 * n ^ 6)).
    { apply fraction_diff; [exact N|lra|lra|lra|].
      apply (Rmult_le_reg_r ((1 - z) * (1 - z))); [lra|]. rewrite <- (Rabs_right ((1 - z) * (1 - z))) at 1 by lra. rewrite <- Rabs_mult.
      match goal with |- Rabs ?u <= _ => match type of A1 with Rabs ?u' <= _ => replace u with u' by ring end end. eapply Rle_trans; [exact A1|]. nra. }
    replace (s * (f * (2 / (1 + n + (1 - n) * w))) - f * s * T) with (s * (f * (2 / (1 + n + (1 - n) * w) - T))) by ring.
    rewrite !Rabs_mult, (Rabs_right f) by lra. pose proof (Rabs_pos (2 / (1 + n + (1 - n) * w) - T)). pose proof (Rabs_pos s).
    assert (0 <= f * Rabs (2 / (1 + n + (1 - n) * w) - T)) by (apply Rmult_le_pos; lra).
    apply (Rle_trans _ (1 * (f * Rabs (2 / (1 + n + (1 - n) * w) - T)))); [apply Rmult_le_compat_r; assumption|rewrite Rmult_1_l]. apply Rmult_le_compat_l; lra.
  - rewrite Rplus_0_r. ring.
  - apply (bth_0 a b s c t1).
  - rewrite Rminus_0_r, Rabs_R0. lra.
Qed.
End V.

(** ** The end of the line *)
Lemma klat_any a b p al t : 0 < b <= a -> klat a b p al (arc1 (vbe a b p) al + t) = Fin (vlat a b (vbe a b p) al t).
Proof.
  intros Hab. destruct (Req_dec (end_cos (vbe a b p) al t) 0) as [Z|Z]; [|apply klat_fin; [exact Hab|now apply end_cos_pos]].
  unfold klat. cbv zeta. destruct (from_e_end (vbe a b p) al t) as (_ & -> & ->). set (be := vbe a b p) in *. pose proof (end_cos_z be al t) as Q. unfold vlat. rewrite Z, Rmult_0_r. rewrite Z, Rmult_0_l in Q.
  assert (0 < b / a) by (apply Rdiv_lt_0_compat; lra). pose proof PI_RGT_0.
  assert (HZ : qz be al t = 1 \/ qz be al t = -1). { assert (K : (qz be al t - 1) * (qz be al t + 1) = 0) by lra. apply Rmult_integral in K. lra. }
  assert (B1 : forall y, y = 1 -> Ratan2 y 0 = PI / 2) by (intros y ->; apply (Ratan2_unique 1 0 1); [lra|rewrite cos_PI2; ring|rewrite sin_PI2; ring|lra]).
  assert (B2 : forall y, y = -1 -> Ratan2 y 0 = - (PI / 2)) by (intros y ->; apply (Ratan2_unique (-1) 0 1); [lra|rewrite cos_neg, cos_PI2; ring|rewrite sin_neg, sin_PI2; ring|lra]).
  destruct HZ as [HZ|HZ].
  - rewrite !(B1 _ HZ). cbn [ftan fdiv fatan XRops]. unfold xtan. rewrite cos_PI2, Req_bool_t by reflexivity. rewrite sin_PI2. unfold xinf_sign. rewrite Rlt_bool_t by lra.
    replace (xdiv PInf (Fin (b / a))) with PInf by (cbn [xdiv]; rewrite Req_bool_f by lra; unfold xinf_sign; rewrite Rlt_bool_t by lra; reflexivity). cbn [xatan]. apply lat_new_id. lra.
  - rewrite !(B2 _ HZ). cbn [ftan fdiv fatan XRops]. unfold xtan. rewrite cos_neg, cos_PI2, Req_bool_t by reflexivity. rewrite sin_neg, sin_PI2. unfold xinf_sign. rewrite Rlt_bool_f, Rlt_bool_t by lra.
    replace (xdiv MInf (Fin (b / a))) with MInf by (cbn [xdiv]; rewrite Req_bool_f by lra; unfold xinf_sign; rewrite Rlt_bool_t by lra; reflexivity). cbn [xatan]. apply lat_new_id. lra.
Qed.

Lemma surface_pole a b p l l' Q : cos p = 0 -> surface_point a b p l Q -> surface_point a b p l' Q.
Proof. unfold surface_point, normal. intros C [H (t & T & K)]. split; [exact H|]. exists t. split; [exact T|]. destruct Q as [[x y] z]. rewrite C in *. rewrite !Rmult_0_l in *. exact K. Qed.
Lemma within_pole a b l p al d l2 l2' p2 al2 al2' e : cos p2 = 0 -> geodesic_within a b l p al d l2 p2 al2 e -> geodesic_within a b l p al d l2' p2 al2' e.
Proof. intros C [X K]. split; [exact X|]. intros g T len t G Ht. destruct (K g T len t G Ht) as [K1 _]. split; [|intros N; contradiction]. intros Q HQ. apply K1. now apply (surface_pole a b p2 l2' l2). Qed.

Lemma karn_total a b be al sg d : 0 < b <= a -> 99 * a <= 100 * b ->
  let v := (1 - sa be al * sa be al) * ((a * a - b * b) / (b * b)) in let f := (a - b) / a in let n := (a - b) / (a + b) in let e := keps v in
  let e1 := b * (204 * e ^ 7 + 10 * e ^ 7 * Rabs sg) in let e2 := f * (27 * n ^ 6) * Rabs sg in
  Rabs (blen a b (ca0 be al) (arc1 be al) sg - d) <= e1 -> e1 + a * e2 <= karney_error a b d.
Proof.
  intros Hab Hf v f n e e1 e2 H. pose proof (f_bound a b Hab Hf) as Bf. fold f in Bf. pose proof (arc_bound a b be al sg Hab) as AB. destruct (n_bound a b Hab Hf) as [N1 N2]. fold n f in N1, N2. destruct (keps_v a b be al Hab Hf) as [_ K]. fold v in K. fold e n in K.
  set (x := Rabs sg) in *. assert (X0 : 0 <= x) by apply Rabs_pos.
  assert (F7 : 0 <= f ^ 7 <= / 1000000).
  { split; [apply pow_le; lra|]. apply (Rle_trans _ ((/ 100) ^ 7)); [apply pow_incr; lra|]. cbn [pow]. lra. }
  assert (E7 : 0 <= e ^ 7 <= 816 / 100000 * f ^ 7).
  { split; [apply pow_le; lra|]. eapply Rle_trans; [apply (pow_incr e (503 / 1000 * f)); lra|]. rewrite Rpow_mult_distr. apply Rmult_le_compat_r; [lra|]. cbn [pow]. lra. }
  assert (N6 : 0 <= f * n ^ 6 <= 1621 / 100000 * f ^ 7).
  { split; [apply Rmult_le_pos; [lra|apply pow_le; lra]|]. replace (1621 / 100000 * f ^ 7) with (f * (1621 / 100000 * f ^ 6)) by ring. apply Rmult_le_compat_l; [lra|]. eapply Rle_trans; [apply (pow_incr n (503 / 1000 * f)); lra|]. rewrite Rpow_mult_distr. apply Rmult_le_compat_r; [apply pow_le; lra|]. cbn [pow]. lra. }
  assert (D0 : 0 <= Rabs d) by apply Rabs_pos. assert (LL : b * x <= Rabs d + e1).
  { eapply Rle_trans; [exact AB|]. replace (blen _ _ _ _ sg) with (d + (blen a b (ca0 be al) (arc1 be al) sg - d)) by ring. eapply Rle_trans; [apply Rabs_triang|]. lra. }
  unfold karney_error. fold f. unfold e1, e2 in *. replace (a * (f * (27 * n ^ 6) * x)) with (27 * (f * n ^ 6) * (a * x)) by ring. clear AB H e1 e2. set (g := f ^ 7) in *. set (e7 := e ^ 7) in *. set (n6 := f * n ^ 6) in *. clearbody g e7 n6. set (D := Rabs d) in *. clearbody D x.
  assert (BX0 : 0 <= b * x) by (apply Rmult_le_pos; lra). assert (AX0 : 0 <= a * x) by (apply Rmult_le_pos; lra).
  assert (AX : a * x <= 100 / 99 * (b * x)) by nra.
  assert (P1 : b * (204 * e7) <= a * (16647 / 10000 * g)) by (apply Rmult_le_compat; lra).
  assert (P2 : b * (10 * e7 * x) <= 816 / 10000 * g * (b * x)) by (replace (b * (10 * e7 * x)) with (10 * e7 * (b * x)) by ring; apply Rmult_le_compat_r; lra).
  assert (P3 : 27 * n6 * (a * x) <= 27 * (1621 / 100000 * g) * (100 / 99 * (b * x))) by (apply Rmult_le_compat; lra).
  rewrite Rmult_plus_distr_l in LL |- *.
  assert (P4 : g * (b * x) <= / 1000000 * (b * x)) by (apply Rmult_le_compat_r; lra).
  assert (P5 : b * x <= 1001 / 1000 * D + 1001 / 1000 * (a * (16647 / 10000 * g))) by lra.
  assert (P6 : g * (b * x) <= g * (1001 / 1000 * D + 1001 / 1000 * (a * (16647 / 10000 * g)))) by (apply Rmult_le_compat_l; lra).
  assert (P7 : g * (a * g) <= / 1000000 * (a * g)) by (apply Rmult_le_compat_r; [apply Rmult_le_pos; lra|lra]).
  assert (0 <= g * D) by (apply Rmult_le_pos; lra). assert (0 <= a * g) by (apply Rmult_le_pos; lra).
  lra.
Qed.
Lemma kdir_accuracy E a b l p al d : shape E a b -> 99 * a <= 100 * b -> - (PI / 2) < p < PI / 2 -> exists l2 p2 al2,
  karney_direct E (Fin l, Fin p) (Fin al) (Fin d) = mkGeodesic (Fin l, Fin p) (Fin al) (Fin l2, Fin p2) (Fin al2) (Fin d) /\
  - PI <= l2 <= PI /\ - (PI / 2) <= p2 <= PI / 2 /\ - PI < al2 <= PI /\
  geodesic_within a b l p al d l2 p2 al2 (karney_error a b d).
Proof.
  intros HE Hf Hp. assert (Hab : 0 < b <= a) by apply HE. set (be := vbe a b p). assert (Hbe : 0 < cos be) by apply cos_vbe_pos.
  assert (VU : vu a b p al = (1 - sa be al * sa be al) * ((a * a - b * b) / (b * b))) by reflexivity.
  pose proof (kA1_bound a b be al Hab Hf) as HA. rewrite <- VU in HA. destruct (keps_v a b be al Hab Hf) as [_ KB]. rewrite <- VU in KB. destruct (n_bound a b Hab Hf) as [NB _].
  rewrite (kdir_fin E a b HE l p al d Hp) by lra. fold be. set (e := keps (vu a b p al)) in *. set (s2 := kS e (ktau b e (arc1 be al) d)). set (sg := s2 - arc1 be al).
  assert (S2 : s2 = arc1 be al + sg) by (unfold sg; ring). unfold kout. cbv zeta. fold be e. rewrite S2. pose proof (klat_any a b p al sg Hab) as KL. fold be in KL. rewrite KL.
  do 3 eexists. split; [reflexivity|]. split; [apply Rwrap_spec|]. split; [apply Ratan2_range_pos, Rmult_le_pos; [apply Rlt_le, Rdiv_lt_0_compat; lra|apply Rhypot_ge_0]|]. split; [apply Ratan2_bound|].
  assert (E7 : 0 <= e ^ 7) by (apply pow_le; lra).
  assert (LEN : Rabs (blen a b (ca0 be al) (arc1 be al) sg - d) <= b * (204 * e ^ 7 + 10 * e ^ 7 * Rabs sg)).
  { pose proof (klen a b be al Hab Hf sg) as L. rewrite <- VU in L. fold e in L. pose proof (kS_rev e (ktau b e (arc1 be al) d) ltac:(lra)) as R. fold s2 in R. rewrite S2 in R.
    replace (_ - d) with (blen a b (ca0 be al) (arc1 be al) sg - b * (kA1 e * (kI1 e (arc1 be al + sg) - kI1 e (arc1 be al))) + b * (kA1 e * (kI1 e (arc1 be al + sg) - ktau b e (arc1 be al) d))) by (unfold ktau; field; lra).
    eapply Rle_trans; [apply Rabs_triang|]. rewrite Rplus_comm, Rmult_plus_distr_l. apply Rplus_le_compat; [|exact L]. rewrite !Rabs_mult, (Rabs_right b), (Rabs_right (kA1 e)) by lra. apply Rmult_le_compat_l; [lra|].
    apply (Rle_trans _ (101 / 100 * (201 * e ^ 7))); [apply Rmult_le_compat; [lra|apply Rabs_pos|lra|exact R]|lra]. }
  pose proof (klon_acc a b be al Hab Hf sg) as LON. rewrite <- VU in LON. fold e in LON.
  eapply within_weaken; [exact Hab|eapply (karn_total a b be al sg d Hab Hf); rewrite <- VU; exact LEN|]. rewrite <- VU. fold e.
  set (D := (a - b) / a * sa be al * _) in LON.
  pose proof (fun l2 al2 => within a b p al l sg d D _ _ l2 al2 Hab Hp LEN LON) as W. fold be in W. cbn zeta in W.
  destruct (Req_dec (end_cos be al sg) 0) as [Z|Z].
  - apply (within_pole a b l p al d (l + end_lon be al sg - D) _ _ (end_az be al sg)); [|apply W; apply same_angle_refl].
    destruct (vlat_trig a b be al Hab sg) as [X _]. rewrite Z, Rmult_0_r in X. apply Rmult_integral in X as [X|X]; [|exact X]. pose proof (bw_pos a b (sa be al) (ca0 be al) Hab (sc0 be al) (arc1 be al + sg)). lra.
  - destruct (from_e_end be al sg) as (-> & _ & _). apply W; [|apply same_angle_refl].
    match goal with |- same_angle (Rwrap ?x) _ => destruct (Rwrap_spec x) as (_ & R & _) end. eapply same_angle_trans; [exact R|].
    match goal with |- same_angle ?x _ => replace x with (l - D + (node_lon be al (arc1 be al + sg) - node_lon be al (arc1 be al))) by (unfold D; ring) end. replace (l + end_lon be al sg - D) with (l - D + end_lon be al sg) by ring.
    apply same_angle_add; [apply same_angle_refl|]. apply node_lon_diff; [exact Hbe|now apply end_cos_pos].
Qed.

(** ** The series against the integrals they stand for *)
Lemma eps_sqrt e x : 0 <= e <= / 190 -> let w := sqrt (1 + 4 * e / ((1 - e) * (1 - e)) * (sin x * sin x)) in
  1 <= w /\ (1 - e) * w * ((1 - e) * w) = 1 - 2 * e * cos (2 * x) + e * e.
Proof.
  intros He w. assert (K : 0 <= 4 * e / ((1 - e) * (1 - e)) * (sin x * sin x)) by (apply Rmult_le_pos; [apply Rdiv_le_0_compat; nra|apply Rle_0_sqr]).
  assert (W : w * w = 1 + 4 * e / ((1 - e) * (1 - e)) * (sin x * sin x)) by (apply sqrt_sqrt; lra).
  split; [unfold w; rewrite <- sqrt_1 at 1; apply sqrt_le_1; lra|]. replace ((1 - e) * w * ((1 - e) * w)) with ((1 - e) * (1 - e) * (w * w)) by ring. rewrite W, cos_2a_sin. field. lra.
Qed.
Lemma kA1_small e : 0 <= e <= / 190 -> 1 <= kA1 e <= 101 / 100 /\ kA1 e * (1 - e) <= 1001 / 1000.
Proof.
  intros HZ. unfold kA1, polynomial, PA1R. cbn [length Rsum nth pow]. rewrite !Rmult_0_l, !Rmult_1_r, !Rplus_0_r, Rplus_0_l. set (z := e) in *.
  assert (Z2 : 0 <= z * z <= z / 190) by nra. assert (0 <= z * (z * (z * z)) <= z / 190) by (assert (0 <= z * (z * z) <= / 190) by nra; nra). assert (0 <= z * (z * (z * (z * (z * z)))) <= z / 190).
  { replace (z * (z * (z * (z * (z * z))))) with ((z * z) * (z * (z * (z * z)))) by ring. nra. }
  match goal with |- 1 <= ?u / (1 - z) <= _ /\ _ => set (m := u); assert (M : 1 <= m <= 1 + z / 100) by (unfold m; lra) end. clearbody m.
  split; [split; apply (Rmult_le_reg_r (1 - z)); try lra|]; replace (m / (1 - z) * (1 - z)) with m by (field; lra); lra.
Qed.
Lemma kI1_integral e D : 0 <= e <= / 190 -> (forall x, derivable_pt_lim D x (sqrt (1 + 4 * e / ((1 - e) * (1 - e)) * (sin x * sin x)))) ->
  forall x y, Rabs (kA1 e * kI1 e x - kA1 e * kI1 e y - (D x - D y)) <= 10 * e ^ 7 * Rabs (x - y).
Proof.
  intros HZ HD x y. assert (Z7 : 0 <= e ^ 7) by (apply pow_le; lra).
  pose proof (lipschitz (fun t => kA1 e * (1 - e) * kI1 e t - (1 - e) * D t) (fun t => kdist e (cos (2 * t)) - (1 - e) * sqrt (1 + 4 * e / ((1 - e) * (1 - e)) * (sin t * sin t))) (99 / 10 * e ^ 7)) as L.
  assert (K : Rabs (kA1 e * (1 - e) * kI1 e x - (1 - e) * D x - (kA1 e * (1 - e) * kI1 e y - (1 - e) * D y)) <= 99 / 10 * e ^ 7 * Rabs (x - y)).
  { apply L; clear L.
    - intros u. apply (is_derive_minus (fun t => kA1 e * (1 - e) * kI1 e t) (fun t => (1 - e) * D t)).
      + destruct (kI1_deriv e u) as [K|K]; [exact K|lra].
      + apply (is_derive_scal D). apply is_derive_Reals, HD.
    - intros u. destruct (eps_sqrt e u HZ) as [G E]. set (w := sqrt _) in *. set (C := cos (2 * u)) in *. assert (HC : -1 <= C <= 1) by apply COS_bound.
      pose proof (kdist_res C e HC HZ) as A1. pose proof (kdist_low C e HC HZ) as A2. rewrite <- E in A1. set (P := kdist e C) in *. apply Rabs_le_inv in A2. set (W := (1 - e) * w) in *.
      assert (W1 : 99 / 100 <= W) by (unfold W; nra).
      apply (Rmult_le_reg_r (W + P)); [lra|]. rewrite <- (Rabs_right (W + P)) at 1 by lra. rewrite <- Rabs_mult. replace ((P - W) * (W + P)) with (P * P - W * W) by ring.
      eapply Rle_trans; [exact A1|]. nra. }
  replace (kA1 e * kI1 e x - kA1 e * kI1 e y - (D x - D y)) with (/ (1 - e) * (kA1 e * (1 - e) * kI1 e x - (1 - e) * D x - (kA1 e * (1 - e) * kI1 e y - (1 - e) * D y))) by (field; lra).
  assert (I : 0 < / (1 - e) <= 190 / 189). { split; [apply Rinv_0_lt_compat; lra|]. apply (Rmult_le_reg_r (1 - e)); [lra|]. rewrite Rinv_l by lra. lra. }
  rewrite Rabs_mult, (Rabs_right (/ (1 - e))) by lra. apply (Rle_trans _ (190 / 189 * (99 / 10 * e ^ 7 * Rabs (x - y)))); [apply Rmult_le_compat; [lra|apply Rabs_pos|lra|exact K]|].
  pose proof (Rabs_pos (x - y)). assert (0 <= e ^ 7 * Rabs (x - y)) by now apply Rmult_le_pos. lra.
Qed.
Lemma kI1_grows e x y : 0 <= e <= / 190 -> 98 / 100 * Rabs (x - y) <= Rabs (kI1 e x - kI1 e y).
Proof.
  intros HZ. destruct (MVT_gen (fun t => kA1 e * (1 - e) * kI1 e t) y x (fun t => kdist e (cos (2 * t)))) as (z & _ & M).
  - intros t _. destruct (kI1_deriv e t) as [K|K]; [exact K|lra].
  - intros t _. apply derivable_continuous_pt. eexists. apply is_derive_Reals. destruct (kI1_deriv e t) as [K|K]; [exact K|lra].
  - destruct (kA1_small e HZ) as [A B]. pose proof (kdist_low (cos (2 * z)) e (COS_bound _) HZ) as L. apply Rabs_le_inv in L.
    assert (M' : kA1 e * (1 - e) * Rabs (kI1 e x - kI1 e y) = kdist e (cos (2 * z)) * Rabs (x - y)).
    { assert (0 <= kA1 e * (1 - e)) by (apply Rmult_le_pos; lra). rewrite <- (Rabs_right (kA1 e * (1 - e))) by lra. rewrite <- Rabs_mult, Rmult_minus_distr_l, M, Rabs_mult, (Rabs_right (kdist _ _)) by lra. reflexivity. }
    pose proof (Rabs_pos (x - y)). pose proof (Rabs_pos (kI1 e x - kI1 e y)). nra.
Qed.
Lemma kI1_rev e x : 0 <= e <= / 190 -> Rabs (kS e (kI1 e x) - x) <= 206 * e ^ 7.
Proof. intros HZ. pose proof (kI1_grows e (kS e (kI1 e x)) x HZ) as G. pose proof (kS_rev e (kI1 e x) HZ) as R. assert (0 <= e ^ 7) by (apply pow_le; lra). lra. Qed.
Lemma kI3_integral a b e D : 0 < b <= a -> 99 * a <= 100 * b -> 0 <= e <= (a - b) / (a + b) ->
  (forall x, derivable_pt_lim D x ((2 - (a - b) / a) / (1 + b / a * sqrt (1 + 4 * e / ((1 - e) * (1 - e)) * (sin x * sin x))))) ->
  forall x y, Rabs (kI3 ((a - b) / (a + b)) e x - kI3 ((a - b) / (a + b)) e y - (D x - D y)) <= 27 * ((a - b) / (a + b)) ^ 6 * Rabs (x - y).
Proof.
  intros Hab Hf K HD x y. destruct (n_bound a b Hab Hf) as [N _]. set (n := (a - b) / (a + b)) in *.
  destruct (multiple e n 1 ltac:(lra)) as (r & X1 & X2). { rewrite !Rabs_right by lra. lra. }
  assert (EX : exists r, 0 <= r <= 1 /\ e = n * r).
  { destruct (Req_dec n 0) as [Z|Z]; [exists 0; split; [lra|]; rewrite Z in *; lra|]. exists r. apply Rabs_le_inv in X1. split; [|exact X2]. split; [|lra]. rewrite X2 in K. nra. }
  clear r X1 X2. destruct EX as (r & HX & EX).
  pose proof (lipschitz (fun t => kI3 n e t - D t) (fun t => klon n r (cos (2 * t)) - (2 - (a - b) / a) / (1 + b / a * sqrt (1 + 4 * e / ((1 - e) * (1 - e)) * (sin t * sin t)))) (27 * n ^ 6)) as L.
  replace (kI3 n e x - kI3 n e y - (D x - D y)) with (kI3 n e x - D x - (kI3 n e y - D y)) by ring. apply L; clear L.
  - intros u. apply (is_derive_minus (fun t => kI3 n e t) D); [rewrite EX; apply kI3_deriv|apply is_derive_Reals, HD].
  - intros u. set (C := cos (2 * u)). assert (HC : -1 <= C <= 1) by apply COS_bound. assert (HZ : 0 <= e <= / 190) by lra.
    pose proof (klon_res C r n HC HX N) as A1. cbn zeta in A1. rewrite <- EX in A1. pose proof (klon_low C r n HC HX N) as A2. apply Rabs_le_inv in A2. destruct (eps_sqrt e u HZ) as [G E]. fold C in E. rewrite <- E in A1. clear E.
    set (T := klon n r C) in *. set (w := sqrt _) in *.
    replace ((2 - (a - b) / a) / (1 + b / a * w)) with (2 / (1 + n + (1 - n) * w)).
    2: { unfold n. replace (1 + (a - b) / (a + b) + (1 - (a - b) / (a + b)) * w) with (2 * (a + b * w) / (a + b)) by (field; lra). assert (0 < a + b * w) by nra. field. repeat split; lra. }
    clearbody T w. assert (N6 : 0 <= n ^ 6) by (apply pow_le; lra).
    assert (Q1 : 989 / 1000 <= (1 - e) * (1 - e)) by nra. rewrite Rabs_minus_sym.
    assert (F : Rabs (2 / (1 + n + (1 - n) * w) - T) <= 28 / 100 * (93 * n ^ 6 + / 100 * n ^ 6)); [|lra].
    apply fraction_diff; [exact N|lra|lra|lra|].
    apply (Rmult_le_reg_r ((1 - e) * (1 - e))); [lra|]. rewrite <- (Rabs_right ((1 - e) * (1 - e))) at 1 by lra. rewrite <- Rabs_mult.
    match goal with |- Rabs ?u <= _ => match type of A1 with Rabs ?u' <= _ => replace u with u' by ring end end. eapply Rle_trans; [exact A1|]. nra.
Qed.
