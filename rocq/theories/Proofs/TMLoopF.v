(** Binary64: the iteration for the latitude in transverse Mercator back, and how many turns it takes. *)
From Coq Require Import ZArith Reals QArith Qreals Lra Lia Bool Psatz List.
From Flocq Require Import Core IEEE754.BinarySingleNaN.
From Verif.Num Require Import FOps RFun XR XRLemmas F64 F64Lemmas PIBounds Near.
From Verif.Model Require Import Fp Quantities Cs Ellipsoid Geodesics Projections.
From Verif.Spec Require Import Angles Axes Shape Maps Series Accurate Binary64 Maps64.
From Verif.Proofs Require Import AnglesX AnglesF EllX MathX ProjX MercX MercInv TMX TMInv TMConf NearX NearL LlhF LlhInvG TransB CtorF NearT MapF MercF MercG NearH TMNear TMFwd.
Local Open Scope R_scope.

Section F.
Context (lm : libm) (AC : accurate lm).
Local Notation O := (F64ops lm).
Ltac fin_near H := apply near_abs in H; nnorm H.
Lemma near_tanh x : is_finite x = true -> near (lm_tanh lm x) (tanh (B2R x)) (-1) 1 ulp4 tiny.
Proof.
  intros F. pose proof (near_four_abs _ _ (tanh (B2R x)) 0 (-1) 1 (ac_tanh lm AC x F Logic.I)) as N. assert (TB : -1 < tanh (B2R x) < 1) by apply tanh_bound.
  specialize (N ltac:(rewrite Rminus_diag_eq, Rabs_R0, Near.q0 by reflexivity; lra) ltac:(rewrite Near.q1; replace (Q2R (-1)) with (-1) by qr; lra)).
  refine (near_weak _ _ _ _ _ _ _ _ _ _ N (proj1 (proj2 N)) _ _); vm_compute; reflexivity.
Qed.
Section E.
Context (E : Ellipsoid f64) (a b : R) (HE : earth64 E a b) (Q : f64) (FQ : is_finite Q = true) (BQ : Rabs (B2R Q) <= 31 / 10).
Let ef := ecc (ops := O) E.
Let e := the_e a b.
Let G := g e (B2R Q).
Lemma iter_part q : Rabs (G q - B2R Q) <= 213 / 10000.
Proof.
  destruct (e_range E a b HE) as [_ ER]. fold e in ER. unfold G, g. replace (B2R Q + e * Ratanh (e * tanh q) - B2R Q) with (e * Ratanh (e * tanh q)) by ring. assert (TB : -1 < tanh q < 1) by apply tanh_bound.
  assert (ES : Rabs (e * tanh q) <= 142 / 1000) by (rewrite Rabs_mult, (Rabs_right e) by lra; assert (Rabs (tanh q) <= 1) by (apply Rabs_le; lra); pose proof (Rabs_pos (tanh q)); nra).
  pose proof (Ratanh_small _ ES) as RS. rewrite Rabs_mult, (Rabs_right e) by lra. pose proof (Rabs_pos (Ratanh (e * tanh q))). nra.
Qed.
Lemma near_iter q : is_finite q = true -> near (tm_iter_fn (ops := O) ef Q q) (G (B2R q)) (Qmake (-32) 10) (Qmake 32 10) 0 (Qmake 1 (10 ^ 15)).
Proof.
  intros Fq. pose proof (near_ecc lm E a b HE) as NE. fold ef in NE. fold e in NE. pose proof (near_tanh q Fq) as NT. apply Rabs_le_inv in BQ. pose proof (near_exact Q (Qmake (-31) 10) (Qmake 31 10) FQ ltac:(split; qr)) as NQ. nmul NE NT N1.
  destruct (e_range E a b HE) as [_ ER]. fold e in ER. assert (TB : -1 < tanh (B2R q) < 1) by apply tanh_bound.
  assert (ES : Rabs (e * tanh (B2R q)) <= 142 / 1000) by (rewrite Rabs_mult, (Rabs_right e) by lra; assert (Rabs (tanh (B2R q)) <= 1) by (apply Rabs_le; lra); pose proof (Rabs_pos (tanh (B2R q))); nra).
  pose proof (Ratanh_small _ ES) as RS. apply Rabs_le_inv in RS.
  pose proof (near_atanh lm AC _ _ _ _ _ _ (Qmake 2 10) (Qmake 105 100) (Qmake (-15) 100) (Qmake 15 100) N1 ltac:(vm_compute; reflexivity) ltac:(replace (Q2R (Qmake (-15) 100)) with (- (15 / 100)) by qr; replace (Q2R (Qmake 15 100)) with (15 / 100) by qr; exact RS)) as N2. nnorm N2.
  nmul NE N2 N3. nadd NQ N3 N4. fin_near N4. unfold tm_iter_fn. cbn [fadd fmul fatanh ftanh F64ops]. change (B2R Q + e * Ratanh (e * tanh (B2R q))) with (G (B2R q)) in N4.
  refine (near_weak _ _ _ _ _ _ _ _ _ _ N4 _ _ _); [|vm_compute; reflexivity|vm_compute; reflexivity]. pose proof (iter_part (B2R q)) as I. apply Rabs_le_inv in I. replace (Q2R (Qmake (-32) 10)) with (-32 / 10) by qr. replace (Q2R (Qmake 32 10)) with (32 / 10) by qr. lra.
Qed.
Lemma q_15 : Q2R (Qmake 1 (10 ^ 15)) = / 10 ^ 15. Proof. qmk. Qed.
Lemma iter_err q : is_finite q = true -> is_finite (tm_iter_fn (ops := O) ef Q q) = true /\ Rabs (B2R (tm_iter_fn (ops := O) ef Q q) - G (B2R q)) <= / 10 ^ 15.
Proof. intros F. destruct (near_iter q F) as (A & _ & _ & _ & H). rewrite Near.q0, q_15 in H. split; [exact A|lra]. Qed.
Lemma near_tol : near (flit (FOps := O) 1 12) (/ 10 ^ 12) 0 1 (Qmake 2 (2 ^ 53)) (Qmake 1 (2 ^ 120)).
Proof.
  change (flit (FOps := O) 1 12) with (Bdiv mode_NE (f64_ofZ 1) (f64_ofZ 1000000000000)). nZ 1%Z N1. nZ 1000000000000%Z N2. ndiv N1 N2 W. replace (IZR 1 / IZR 1000000000000) with (/ 10 ^ 12) in W by field.
  refine (near_weak _ _ _ _ _ _ _ _ _ _ W _ _ _); [rewrite Near.q0, Near.q1; lra|vm_compute; reflexivity|vm_compute; reflexivity].
Qed.
(** the test: taken when the step is below 0.999e-12, and only when it is below 1.001e-12 *)
Lemma step_test q q' : is_finite q = true -> is_finite q' = true -> Rabs (B2R q) <= 4 -> Rabs (B2R q') <= 4 ->
  (Rabs (B2R q' - B2R q) <= 999 / 1000 * / 10 ^ 12 -> flt (FOps := O) (fabs (FOps := O) (fsub (FOps := O) q' q)) (flit (FOps := O) 1 12) = true) /\
  (flt (FOps := O) (fabs (FOps := O) (fsub (FOps := O) q' q)) (flit (FOps := O) 1 12) = true -> Rabs (B2R q' - B2R q) <= / 10 ^ 12 + / 10 ^ 15).
Proof.
  intros F F' H H'. apply Rabs_le_inv in H, H'. pose proof (near_exact q (-4) 4 F ltac:(split; qr)) as N1. pose proof (near_exact q' (-4) 4 F' ltac:(split; qr)) as N2. nsub N2 N1 N3. destruct N3 as (F3 & R3 & _ & _ & E3). destruct near_tol as (F4 & _ & _ & _ & E4).
  cbn [flt fabs fsub F64ops]. rewrite Bltb_correct by (first [rewrite is_finite_Babs; exact F3|exact F4]). rewrite B2R_Babs. set (s := B2R (Bminus mode_NE q' q)) in *. set (tl := B2R (flit (FOps := O) 1 12)) in *. set (D := B2R q' - B2R q) in *.
  match type of E3 with _ <= Q2R ?d * _ + Q2R ?e => assert (Q1 : Q2R d <= / 10 ^ 10) by (assert (QE : Q2R (Qmake 1 (10 ^ 10)) = / 10 ^ 10) by qmk; rewrite <- QE; apply qle; vm_compute; reflexivity); assert (Q2 : Q2R e <= / 10 ^ 25) by (assert (QE : Q2R (Qmake 1 (10 ^ 25)) = / 10 ^ 25) by qmk; rewrite <- QE; apply qle; vm_compute; reflexivity); set (dq := Q2R d) in *; set (eq := Q2R e) in * end.
  match type of E4 with _ <= Q2R ?d * _ + Q2R ?e => assert (Q3 : Q2R d <= / 10 ^ 10) by (assert (QE : Q2R (Qmake 1 (10 ^ 10)) = / 10 ^ 10) by qmk; rewrite <- QE; apply qle; vm_compute; reflexivity); assert (Q4 : Q2R e <= / 10 ^ 25) by (assert (QE : Q2R (Qmake 1 (10 ^ 25)) = / 10 ^ 25) by qmk; rewrite <- QE; apply qle; vm_compute; reflexivity); set (dt := Q2R d) in *; set (et := Q2R e) in * end.
  rewrite (Rabs_right (/ 10 ^ 12)) in E4 by lra. assert (E4' : Rabs (tl - / 10 ^ 12) <= / 10 ^ 20) by lra. apply Rabs_le_inv in E4'. clear E4.
  pose proof (Rabs_pos D) as DP. assert (E3' : Rabs (s - D) <= / 10 ^ 10 * Rabs D + / 10 ^ 25) by (assert (dq * Rabs D <= / 10 ^ 10 * Rabs D) by (apply Rmult_le_compat_r; assumption); lra). clear E3.
  assert (T1 : Rabs s <= Rabs D + Rabs (s - D)) by (replace s with (D + (s - D)) at 1 by ring; apply Rabs_triang). assert (T2 : Rabs D <= Rabs s + Rabs (s - D)) by (replace D with (s - (s - D)) at 1 by ring; eapply Rle_trans; [apply Rabs_triang|]; rewrite Rabs_Ropp; lra).
  split; [intros HD; apply Rlt_bool_true; lra|]. destruct (Rlt_bool_spec (Rabs s) tl) as [L|L]; [|discriminate]. intros _. lra.
Qed.
Lemma loop_ok qs : G qs = qs -> forall k q, is_finite q = true -> Rabs (B2R q) <= 4 -> Rabs (G (B2R q) - B2R q) <= 9 / 10 ^ 13 * 33 ^ k -> forall fuel, (k < fuel)%nat ->
  exists r, tm_loop (ops := O) fuel ef Q q = Ret r /\ is_finite r = true /\ Rabs (B2R r) <= 4 /\ Rabs (B2R r - qs) <= e * e / (1 - e * e) * / 10 ^ 12 + 2 / 10 ^ 15.
Proof.
  intros HQ. destruct (e_fact lm E a b HE) as [E1 E2]. fold e in E1, E2. assert (BI : forall q, is_finite q = true -> Rabs (B2R (tm_iter_fn (ops := O) ef Q q)) <= 4).
  { intros q F. destruct (iter_err q F) as [_ H]. pose proof (iter_part (B2R q)) as I. clear - H I BQ. apply Rabs_le_inv in H, I, BQ. apply Rabs_le. lra. }
  induction k as [|k IH]; intros q F H D fuel L; (destruct fuel as [|fuel]; [lia|]); cbn [tm_loop]; destruct (iter_err q F) as [F' H']; pose proof (BI q F) as B'; set (q' := tm_iter_fn (ops := O) ef Q q) in *; destruct (step_test q q' F F' H B') as [S1 S2]; pose proof (g_contract e E1 (B2R Q) (B2R q) qs) as GC; fold G in GC; rewrite HQ in GC; pose proof (g_contract e E1 (B2R Q) (B2R q') (B2R q)) as GD; fold G in GD.
  all: assert (STOP : Rabs (B2R q' - B2R q) <= / 10 ^ 12 + / 10 ^ 15 -> Rabs (B2R q' - qs) <= e * e / (1 - e * e) * / 10 ^ 12 + 2 / 10 ^ 15) by
    (intros SS; assert (T1 : Rabs (B2R q' - qs) <= / 10 ^ 15 + e * e * Rabs (B2R q - qs)) by (replace (B2R q' - qs) with (B2R q' - G (B2R q) + (G (B2R q) - qs)) by ring; eapply Rle_trans; [apply Rabs_triang|]; lra);
     assert (T2 : Rabs (B2R q - qs) <= / 10 ^ 12 + / 10 ^ 15 + Rabs (B2R q' - qs)) by (replace (B2R q - qs) with (- (B2R q' - B2R q) + (B2R q' - qs)) by ring; eapply Rle_trans; [apply Rabs_triang|]; rewrite Rabs_Ropp; lra);
     clear - E1 E2 T1 T2; set (u := Rabs (B2R q' - qs)) in *; set (v := Rabs (B2R q - qs)) in *; set (w := e * e) in *; assert (T3 : w * v <= w * (/ 10 ^ 12 + / 10 ^ 15 + u)) by (apply Rmult_le_compat_l; lra);
     apply (Rmult_le_reg_r (1 - w)); [lra|]; replace ((w / (1 - w) * / 10 ^ 12 + 2 / 10 ^ 15) * (1 - w)) with (w * / 10 ^ 12 + 2 / 10 ^ 15 * (1 - w)) by (field; lra); lra).
  - cbn [pow] in D. rewrite Rmult_1_r in D. rewrite S1 by (replace (B2R q' - B2R q) with (B2R q' - G (B2R q) + (G (B2R q) - B2R q)) by ring; eapply Rle_trans; [apply Rabs_triang|]; lra). exists q'. split; [reflexivity|]. split; [exact F'|]. split; [exact B'|]. apply STOP.
    replace (B2R q' - B2R q) with (B2R q' - G (B2R q) + (G (B2R q) - B2R q)) by ring; eapply Rle_trans; [apply Rabs_triang|]; lra.
  - destruct (flt (FOps := O) (fabs (FOps := O) (fsub (FOps := O) q' q)) (flit (FOps := O) 1 12)); [exists q'; split; [reflexivity|]; split; [exact F'|]; split; [exact B'|]; apply STOP, S2; reflexivity|].
    apply IH; [exact F'|exact B'| |lia]. assert (P1 : 1 <= 33 ^ k) by (apply pow_R1_Rle; lra). cbn [pow] in D.
    assert (T1 : Rabs (B2R q' - B2R q) <= / 10 ^ 15 + 9 / 10 ^ 13 * (33 * 33 ^ k)) by (replace (B2R q' - B2R q) with (B2R q' - G (B2R q) + (G (B2R q) - B2R q)) by ring; eapply Rle_trans; [apply Rabs_triang|]; lra).
    assert (T2 : Rabs (G (B2R q') - B2R q') <= / 50 * Rabs (B2R q' - B2R q) + / 10 ^ 15).
    { replace (G (B2R q') - B2R q') with (G (B2R q') - G (B2R q) + - (B2R q' - G (B2R q))) by ring. eapply Rle_trans; [apply Rabs_triang|]. rewrite Rabs_Ropp. pose proof (Rabs_pos (B2R q' - B2R q)). assert (e * e * Rabs (B2R q' - B2R q) <= / 50 * Rabs (B2R q' - B2R q)) by (apply Rmult_le_compat_r; lra). lra. }
    lra.
Qed.
(** seven turns are enough *)
Lemma loop_seven : exists qs, G qs = qs /\ forall fuel, (7 <= fuel)%nat -> exists r, tm_loop (ops := O) fuel ef Q (tm_iter_fn (ops := O) ef Q Q) = Ret r /\ is_finite r = true /\ Rabs (B2R r) <= 4 /\ Rabs (B2R r - qs) <= e * e / (1 - e * e) * / 10 ^ 12 + 2 / 10 ^ 15.
Proof.
  destruct (e_fact lm E a b HE) as [E1 E2]. fold e in E1, E2. destruct (g_fixpoint e E1 (B2R Q)) as [qs HQ]. fold G in HQ. exists qs. split; [exact HQ|]. intros fuel L.
  destruct (iter_err Q FQ) as [F' H']. pose proof (iter_part (B2R Q)) as I. set (q := tm_iter_fn (ops := O) ef Q Q) in *. apply (loop_ok qs HQ 6); [exact F'| | |lia].
  - clear - H' I BQ. apply Rabs_le_inv in H', I, BQ. apply Rabs_le. lra.
  - pose proof (g_contract e E1 (B2R Q) (B2R q) (B2R Q)) as GD. fold G in GD. assert (T1 : Rabs (B2R q - B2R Q) <= 214 / 10000) by (clear - H' I; apply Rabs_le_inv in H', I; apply Rabs_le; lra). pose proof (Rabs_pos (B2R q - B2R Q)) as P0. assert (T3 : e * e * Rabs (B2R q - B2R Q) <= / 50 * Rabs (B2R q - B2R Q)) by (apply Rmult_le_compat_r; lra).
    replace (G (B2R q) - B2R q) with (G (B2R q) - G (B2R Q) + - (B2R q - G (B2R Q))) by ring. eapply Rle_trans; [apply Rabs_triang|]. rewrite Rabs_Ropp. lra.
Qed.
End E.
End F.
