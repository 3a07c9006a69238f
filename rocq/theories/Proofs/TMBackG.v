(** Binary64: transverse Mercator back, from the normalised coordinates to longitude and latitude. *)
From Coq Require Import ZArith Reals QArith Qreals Lra Lia Bool Psatz List.
From Flocq Require Import Core IEEE754.BinarySingleNaN.
From Verif.Num Require Import FOps RFun XR XRLemmas F64 F64Lemmas PIBounds Near.
From Verif.Model Require Import Fp Quantities Cs Ellipsoid Geodesics Projections.
From Verif.Spec Require Import Angles Axes Shape Sphere Maps Series Krueger Reach Accurate Binary64 Maps64.
From Verif.Proofs Require VincInv.
From Verif.Proofs Require Import AnglesX AnglesF AxesX EllX MathX ProjX MercX MercInv TMX TMInv TMConf TMScale TMRound TMBack TMTrip TMBackE NearX NearL LlhF LlhInvG TransB CtorF NearT MapF MercF MercG NearH TMNear TMFwd TMFwdM TMLoopF.
Local Open Scope R_scope.

Lemma sinh_305 : 10 <= sinh (305 / 100).
Proof.
  replace (305 / 100) with (3 + / 20) by field. rewrite sinh_add. pose proof sinh_3 as S. pose proof (sinh_le_cosh 3) as C. apply Rabs_le_inv in C. pose proof (cosh_ge_1 (/ 20)) as C1. pose proof (sinh_ge (/ 20) ltac:(lra)) as S1. nra.
Qed.
Lemma isom_10 p : nonpolar p -> Rabs (tan p) <= 10 -> Rabs (isom p) <= 305 / 100.
Proof.
  intros N H. apply Rnot_lt_le. intros L. assert (A : sinh (305 / 100) < sinh (Rabs (isom p))) by now apply sinh_lt. rewrite <- sinh_abs in A. replace (sinh (isom p)) with (tan p) in A; [pose proof sinh_305; lra|]. rewrite <- (isom_arcsinh p N). symmetry. apply sinh_arcsinh.
Qed.
Lemma cos_lip x y : Rabs (cos x - cos y) <= Rabs (x - y).
Proof.
  pose proof (VincInv.sin_lip (PI / 2 - x) (PI / 2 - y)) as SL. rewrite !sin_shift in SL. replace (PI / 2 - x - (PI / 2 - y)) with (- (x - y)) in SL by ring. rewrite Rabs_Ropp in SL. exact SL.
Qed.
Section F.
Context (lm : libm) (AC : accurate lm).
Local Notation O := (F64ops lm).
Ltac fin_near H := apply near_abs in H; nnorm H.
Section S.
Context (xf yf : f64) (Fx : is_finite xf = true) (Fy : is_finite yf = true).
Let zx := B2R xf.
Let zy := B2R yf.
Context (Bx : Rabs zx <= 18 / 10) (By : Rabs zy <= 95 / 100) (OP : off_pole zx zy) (SB : Rabs (sin zx / cosh zy) <= 9947 / 10000) (CB : 1027 / 10000 <= cos (back_beta zx zy)) (TB : Rabs (tanh zy / cos (back_beta zx zy)) <= 71 / 100).
Let be := lm_asin lm (Bdiv mode_NE (lm_sin lm xf) (lm_cosh lm yf)).
Let bs := back_beta zx zy.
Lemma near_be : near be bs (Qmake (-16) 10) (Qmake 16 10) 0 (Qmake 23 (10 ^ 15)).
Proof.
  pose proof Bx as Bx'. pose proof By as By'. apply Rabs_le_inv in Bx', By'. pose proof (near_exact xf (Qmake (-18) 10) (Qmake 18 10) Fx ltac:(fold zx; split; qr)) as NX. pose proof (near_exact yf (-1) 1 Fy ltac:(fold zy; split; qr)) as NY.
  assert (C2 : cosh zy <= 2). { eapply Rle_trans; [apply (cosh_abs zy 1); rewrite (Rabs_right 1) by lra; lra|]. unfold cosh. pose proof exp_le_3 as E3. assert (exp (Ropp 1) <= 1) by (apply Rle_trans with (exp 0); [left; apply exp_increasing; lra|rewrite exp_0; lra]). lra. }
  pose proof (near_sin lm AC _ _ _ _ _ _ NX ltac:(vm_compute; reflexivity)) as NS. nnorm NS. pose proof (near_cosh lm AC _ _ _ _ _ _ 2 NY ltac:(vm_compute; reflexivity) ltac:(replace (Q2R 2) with 2 by qr; exact C2)) as NC. nnorm NC. ndiv NS NC ND. fold zx zy in ND.
  pose proof SB as SB'. apply Rabs_le_inv in SB'. apply (near_range _ _ _ _ _ _ (Qmake (-9947) 10000) (Qmake 9947 10000)) in ND; [|split; qr].
  pose proof (asin_bound (sin zx / cosh zy)) as AB. pose proof PI_64_bounds as PB.
  pose proof (near_asin lm AC _ _ _ _ _ _ (Qmake 9948 10000) (Qmake 983 100) (Qmake (-16) 10) (Qmake 16 10) ND ltac:(vm_compute; reflexivity) ltac:(split; qr)) as NB. fin_near NB. fold be in NB. change (asin (sin zx / cosh zy)) with bs in NB.
  refine (near_weak _ _ _ _ _ _ _ _ _ _ NB (proj1 (proj2 NB)) _ _); vm_compute; reflexivity.
Qed.
Lemma be_err : is_finite be = true /\ Rabs (B2R be - bs) <= 23 / 10 ^ 15.
Proof. destruct near_be as (F & _ & _ & _ & H). rewrite Near.q0 in H. assert (QE : Q2R (Qmake 23 (10 ^ 15)) = 23 / 10 ^ 15) by qmk. rewrite QE in H. split; [exact F|lra]. Qed.
Lemma be_range : nonpolar (B2R be) /\ Rabs (B2R be) <= PI / 2 - / 10 /\ 1026 / 10000 <= cos (B2R be).
Proof.
  destruct be_err as [F H]. pose proof (cos_lip (B2R be) bs) as CL. apply Rabs_le_inv in CL. assert (CC : 1026 / 10000 <= cos (B2R be)) by (fold bs in CB; lra).
  assert (BB : Rabs bs <= PI / 2 - 1027 / 10000).
  { pose proof (back_beta_np zx zy OP) as NP. fold bs in NP. unfold nonpolar in NP. fold bs in CB. replace (cos bs) with (cos (Rabs bs)) in CB by (unfold Rabs; destruct Rcase_abs; [apply cos_neg|reflexivity]). assert (0 <= Rabs bs < PI / 2) by (split; [apply Rabs_pos|apply Rabs_def1; lra]).
    replace (cos (Rabs bs)) with (sin (PI / 2 - Rabs bs)) in CB by (apply sin_shift). pose proof (sin_lt_x (PI / 2 - Rabs bs) ltac:(lra)). lra. }
  destruct be_err as [_ H2]. apply Rabs_le_inv in H2, BB. assert (BE : Rabs (B2R be) <= PI / 2 - / 10) by (apply Rabs_le; lra). split; [unfold nonpolar; apply Rabs_le_inv in BE; lra|]. split; [exact BE|exact CC].
Qed.
Let Qf := lm_asinh lm (lm_tan lm be).
Lemma Q_ok : is_finite Qf = true /\ Rabs (B2R Qf) <= 31 / 10 /\ Rabs (gd (B2R Qf) - B2R be) <= 5 / 10 ^ 15.
Proof.
  destruct be_err as [F _]. destruct be_range as (NP & BB & CC). pose proof PI_64_bounds as PB.
  assert (FT : four_ulp (lm_tan lm be) (tan (B2R be))). { apply (ac_tan lm AC); [exact F|]. rewrite (proj1 PI_2_64_val). unfold m_pi. lra. }
  assert (TN : Rabs (tan (B2R be)) <= 10). { unfold tan, Rdiv. rewrite Rabs_mult, (Rabs_right (/ cos (B2R be))) by (apply Rle_ge; left; apply Rinv_0_lt_compat; lra). assert (Rabs (sin (B2R be)) <= 1) by (apply Rabs_le, SIN_bound). pose proof (Rabs_pos (sin (B2R be))). assert (/ cos (B2R be) <= 10) by (rewrite <- (Rinv_inv 10); apply Rinv_le_contravar; lra). assert (0 < / cos (B2R be)) by (apply Rinv_0_lt_compat; lra). nra. }
  pose proof (isom_10 _ NP TN) as I3. apply Rabs_le_inv in TN. assert (I3' := I3). apply Rabs_le_inv in I3'.
  pose proof (near_four_abs _ _ _ 0 (-10) 10 FT ltac:(rewrite Rminus_diag_eq, Rabs_R0, Near.q0 by reflexivity; lra) ltac:(replace (Q2R (-10)) with (-10) by qr; replace (Q2R 10) with 10 by qr; lra)) as NT. nnorm NT.
  pose proof (near_asinh lm AC _ _ _ _ _ _ (Qmake (-305) 100) (Qmake 305 100) NT ltac:(vm_compute; reflexivity) ltac:(rewrite (isom_arcsinh _ NP); split; qr)) as NA. fin_near NA. rewrite (isom_arcsinh _ NP) in NA. fold Qf in NA.
  pose proof (near_err _ _ _ _ _ _ NA) as E1. assert (E2 : Rabs (B2R Qf - isom (B2R be)) <= 5 / 10 ^ 15) by (eapply Rle_trans; [exact E1|]; assert (QE : Q2R (Qmake 5 (10 ^ 15)) = 5 / 10 ^ 15) by qmk; rewrite <- QE; apply qle; vm_compute; reflexivity).
  split; [exact (proj1 NA)|]. split; [apply Rabs_le; apply Rabs_le_inv in E2; lra|]. pose proof (gd_lipschitz (B2R Qf) (isom (B2R be))) as GL. rewrite (gd_isom _ NP) in GL. lra.
Qed.
Let df := lm_asin lm (Bdiv mode_NE (lm_tanh lm yf) (lm_cos lm be)).
Let ds := back_d zx zy.
Lemma d_ok : is_finite df = true /\ Rabs (B2R df) <= 2 /\ cos bs * Rabs (B2R df - ds) <= 29 / 10 ^ 15.
Proof.
  destruct be_err as [F EB]. destruct be_range as (NP & BB & CC). pose proof (COS_bound (B2R be)) as CU. pose proof (COS_bound bs) as CS. fold bs in CB, TB.
  assert (T7 : Rabs (tanh zy) <= 71 / 100 * cos bs). { unfold Rdiv in TB. rewrite Rabs_mult, (Rabs_right (/ cos bs)) in TB by (apply Rle_ge; left; apply Rinv_0_lt_compat; lra). apply (Rmult_le_compat_r (cos bs)) in TB; [|lra]. rewrite Rmult_assoc, Rinv_l, Rmult_1_r in TB by lra. exact TB. }
  pose proof (near_tanh lm AC yf Fy) as NT. fold zy in NT. apply (near_range _ _ _ _ _ _ (Qmake (-71) 100) (Qmake 71 100)) in NT; [|assert (Rabs (tanh zy) <= 71 / 100) as T8 by nra; apply Rabs_le_inv in T8; split; qr].
  assert (BB' := BB). apply Rabs_le_inv in BB'. pose proof PI_64_bounds as PB. pose proof (near_exact be (-2) 2 F ltac:(split; qr)) as N0. pose proof (near_cos lm AC _ _ _ _ _ _ N0 ltac:(vm_compute; reflexivity)) as NC. nnorm NC. apply (near_range _ _ _ _ _ _ (Qmake 1026 10000) 1) in NC; [|split; qr]. ndiv NT NC ND.
  pose proof (cos_lip (B2R be) bs) as CL. assert (CE : Rabs (cos (B2R be) - cos bs) <= 23 / 10 ^ 15) by lra. assert (CE' := CE). apply Rabs_le_inv in CE'.
  assert (R1' : Rabs (tanh zy / cos (B2R be)) <= 711 / 1000). { unfold Rdiv. rewrite Rabs_mult, (Rabs_right (/ cos (B2R be))) by (apply Rle_ge; left; apply Rinv_0_lt_compat; lra). apply (Rmult_le_reg_r (cos (B2R be))); [lra|]. rewrite Rmult_assoc, Rinv_l, Rmult_1_r by lra. lra. }
  assert (R2 := R1'). apply Rabs_le_inv in R2. apply (near_range _ _ _ _ _ _ (Qmake (-711) 1000) (Qmake 711 1000)) in ND; [|split; qr]. pose proof (asin_bound (tanh zy / cos (B2R be))) as AB.
  pose proof (near_asin lm AC _ _ _ _ _ _ (Qmake 712 1000) (Qmake 143 100) (Qmake (-16) 10) (Qmake 16 10) ND ltac:(vm_compute; reflexivity) ltac:(split; qr)) as NB. fin_near NB. fold df in NB.
  pose proof (near_err _ _ _ _ _ _ NB) as E1. assert (E2 : Rabs (B2R df - asin (tanh zy / cos (B2R be))) <= 5 / 10 ^ 15) by (eapply Rle_trans; [exact E1|]; assert (QE : Q2R (Qmake 5 (10 ^ 15)) = 5 / 10 ^ 15) by qmk; rewrite <- QE; apply qle; vm_compute; reflexivity). clear E1.
  split; [exact (proj1 NB)|]. split; [apply Rabs_le; apply Rabs_le_inv in E2; lra|].
  pose proof (asin_lip (tanh zy / cos bs) (tanh zy / cos (B2R be)) (711 / 1000) (143 / 100) ltac:(lra) ltac:(lra) ltac:(lra) ltac:(lra) ltac:(lra)) as AL. change (asin (tanh zy / cos bs)) with ds in AL.
  assert (DD : cos bs * Rabs (tanh zy / cos (B2R be) - tanh zy / cos bs) <= 711 / 1000 * (23 / 10 ^ 15)).
  { replace (tanh zy / cos (B2R be) - tanh zy / cos bs) with (tanh zy / cos (B2R be) * (cos bs - cos (B2R be)) * / cos bs) by (field; lra). rewrite !Rabs_mult, (Rabs_right (/ cos bs)) by (apply Rle_ge; left; apply Rinv_0_lt_compat; lra). rewrite (Rabs_minus_sym (cos bs)).
    replace (cos bs * (Rabs (tanh zy / cos (B2R be)) * Rabs (cos (B2R be) - cos bs) * / cos bs)) with (Rabs (tanh zy / cos (B2R be)) * Rabs (cos (B2R be) - cos bs)) by (field; lra). apply Rmult_le_compat; try apply Rabs_pos; assumption. }
  assert (TT : Rabs (B2R df - ds) <= 5 / 10 ^ 15 + 143 / 100 * Rabs (tanh zy / cos (B2R be) - tanh zy / cos bs)) by (replace (B2R df - ds) with (B2R df - asin (tanh zy / cos (B2R be)) + (asin (tanh zy / cos (B2R be)) - ds)) by ring; eapply Rle_trans; [apply Rabs_triang|]; lra).
  apply Rle_trans with (cos bs * (5 / 10 ^ 15 + 143 / 100 * Rabs (tanh zy / cos (B2R be) - tanh zy / cos bs))); [apply Rmult_le_compat_l; lra|]. set (w := Rabs (tanh zy / cos (B2R be) - tanh zy / cos bs)) in *. replace (cos bs * (5 / 10 ^ 15 + 143 / 100 * w)) with (5 / 10 ^ 15 * cos bs + 143 / 100 * (cos bs * w)) by ring. lra.
Qed.
Lemma sphere_near : edist (ball' zx zy) (position (B2R df) (gd (B2R Qf))) <= 57 / 10 ^ 15.
Proof.
  destruct be_err as [_ EB]. destruct Q_ok as (_ & _ & EQ). destruct d_ok as (_ & _ & ED). rewrite <- (back_position zx zy OP). fold ds bs. pose proof (pos_near ds bs (B2R df) (gd (B2R Qf))) as PN. rewrite (Rabs_right (cos bs)) in PN by (fold bs in CB; lra). rewrite (Rabs_minus_sym ds) in PN.
  assert (Rabs (bs - gd (B2R Qf)) <= 28 / 10 ^ 15) by (apply Rabs_le; apply Rabs_le_inv in EB, EQ; lra). lra.
Qed.
End S.
End F.
