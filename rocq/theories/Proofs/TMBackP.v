(** The statements of Props/TransverseBack64.v. *)
From Coq Require Import ZArith Reals QArith Qreals Lra Lia Bool Psatz List.
From Flocq Require Import Core IEEE754.BinarySingleNaN.
From Verif.Num Require Import FOps RFun XR XRLemmas F64 F64Lemmas PIBounds Near.
From Verif.Model Require Import Fp Quantities Cs Ellipsoid Geodesics Projections.
From Verif.Spec Require Import Angles Axes Shape Frames Sphere Maps Krueger Conformal Reach Accurate Binary64 Maps64 Transverse64.
From Verif.Proofs Require Import TMArc AnglesX AnglesF AxesX EllX MathX MercX MercInv TMX TMInv TMConf TMScale TMRound TMBack TMTrip TMBackE NearX NearL LlhF LlhInvG TransB CtorF NearT MapF MercF MercG NearH TMNear TMFwd TMFwdM TMLoopF TMBackF TMBackG TMFwdP Bin64P LibmOk.
Local Open Scope R_scope.

Lemma reach_half c w k : reach c w k -> / 2 <= c <= 1.
Proof. intros []; lra. Qed.
Lemma sin_half d : / 2 <= cos d * cos d -> Rabs (sin d) <= 70711 / 100000.
Proof. intros H. pose proof (sin2_cos2 d) as Q. unfold Rsqr in Q. apply Rabs_le. split; nra. Qed.
Section F.
Context (lm : libm) (AC : accurate lm) (E : Ellipsoid f64) (a b : R) (HE : earth64 E a b).
Local Notation O := (F64ops lm).
Let Hab : 0 < b <= a. Proof. destruct (e_range E a b HE) as [AB _]. lra. Qed.
Let Hf : 99 * a <= 100 * b. Proof. destruct HE as (_ & _ & _ & _ & _ & _ & H). exact H. Qed.
Let n := tn a b.
Let ee := the_e a b.
Section M.
Context (lon0 lat0 k0 fe fn : f64) (LON0 LAT0 K0 FE FN : R) (V0 : val64 lon0 LON0) (VP : val64 lat0 LAT0) (Vk : val64 k0 K0) (Ve : val64 fe FE) (Vn : val64 fn FN)
  (B0 : Rabs LON0 <= 4) (BP : Rabs LAT0 <= 84 * PI / 180) (Bk : 9 / 10 <= K0 <= 11 / 10) (Be : Rabs FE <= 100000000) (Bn : Rabs FN <= 100000000).
Let P := tm_new (ops := O) E lon0 lat0 k0 fe fn.
Lemma sin_gd_84 p : Rabs p <= 84 * PI / 180 -> Rabs (sin (gd (cq a b p))) <= 99459 / 100000 /\ 0 < cos (gd (cq a b p)).
Proof.
  intros Hp. destruct (e_fact lm E a b HE) as [E1 E2]. pose proof (sinh_q _ E1 E2 p Hp) as S. change (isom_e (the_e a b) p) with (cq a b p) in S. set (q := cq a b p) in *. rewrite sin_gd, cos_gd. pose proof (cosh_pos q) as C. pose proof (cosh_sq q) as Q. split; [|now apply Rinv_0_lt_compat].
  unfold tanh, Rdiv. rewrite Rabs_mult, (Rabs_right (/ cosh q)) by (apply Rle_ge; left; now apply Rinv_0_lt_compat). apply (Rmult_le_reg_r (cosh q)); [exact C|]. rewrite Rmult_assoc, Rinv_l, Rmult_1_r by lra.
  apply sq_le; [lra|]. rewrite <- Rabs_mult, Rabs_right by (apply Rle_ge, Rle_0_sqr). apply Rabs_le_inv in S. assert (sinh q * sinh q <= 957 / 100 * (957 / 100)) by nra. replace (99459 / 100000 * cosh q * (99459 / 100000 * cosh q)) with (99459 / 100000 * (99459 / 100000) * (cosh q * cosh q)) by ring. nra.
Qed.
Lemma q_4_14 : Q2R (Qmake 4 (10 ^ 14)) = 4 / 10 ^ 14. Proof. qmk. Qed.
Lemma lon_add_le (l m : f64) : is_finite l = true -> is_finite m = true -> Rabs (B2R l) <= 4 -> Rabs (B2R m) <= 4 -> Rabs (B2R (lon_add (ops := O) l m)) <= 4.
Proof.
  intros Fl Fm Hl Hm. apply Rabs_le_inv in Hl, Hm. pose proof (near_exact l (-4) 4 Fl ltac:(split; qr)) as N1. pose proof (near_exact m (-4) 4 Fm ltac:(split; qr)) as N2. nadd N1 N2 N3.
  pose proof (near_err _ _ _ _ _ _ N3) as E3. assert (QE : Q2R (Qmake 1 10) = 1 / 10) by qr. assert (E4 : Rabs (B2R (Bplus mode_NE l m) - (B2R l + B2R m)) <= 1 / 10) by (rewrite <- QE; eapply Rle_trans; [exact E3|apply qle; vm_compute; reflexivity]). clear E3 QE.
  destruct (near_wrap lm (Bplus mode_NE l m) _ _ 10 (proj1 N3) E4) as (k & _ & W & _); [apply Rabs_le; apply Rabs_le_inv in E4; lra|lra|]. change (lon_add (ops := O) l m) with (wrapped (ops := O) (Bplus mode_NE l m)). pose proof PI_64_bounds as PB. rewrite (proj1 PI64_val) in W. unfold m_pi in *. apply Rabs_le. lra.
Qed.
Lemma tm_back_le c w k x y h X Y t L B fuel : reach c w k -> val64 x X -> val64 y Y -> Rabs B <= 84 * PI / 180 -> 0 < cos (L - LON0) -> c <= cos (L - LON0) * cos (L - LON0) -> 0 <= t <= 1 ->
  Rabs (X - ceast a b LON0 K0 FE L B) <= t -> Rabs (Y - cnorth a b LON0 LAT0 K0 FN L B) <= t -> (7 <= fuel)%nat ->
  exists l p, tm_unproj (ops := O) fuel P (mkENH x y h) = Ret (Ok (mkLLH l p h)) /\ is_finite l = true /\ is_finite p = true /\ Rabs (B2R l) <= 4 /\ Rabs (B2R p) <= PI / 2 /\
    edist (position L B) (position (B2R l) (B2R p)) <= k * n ^ 5 + 2 * t / (K0 * b) + ee * ee / (1 - ee * ee) * / 10 ^ 12 + 2 * / 10 ^ 13.
Proof.
  intros RE Vx Vy HB C0 C2 Ht Ex Ey HF. pose proof (reach_half c w k RE) as RH. assert (Hd : / 2 <= cos (L - LON0) * cos (L - LON0)) by lra.
  destruct (near_z lm AC E a b HE lat0 k0 fe fn x y LON0 LAT0 K0 FE FN X Y L B t VP Vk Ve Vn Vx Vy BP Bk Be Bn Hd C0 Ht Ex Ey) as [NY NX]. destruct (v_range lm E a b HE LON0 LAT0 K0 FE FN X Y L B t Bk Hd C0 Ht Ex Ey) as (_ & _ & CV & CW).
  destruct (w_near lm E a b HE LON0 LAT0 K0 FE FN X Y L B t Bk Ex Ey) as [W1 W2]. pose proof (T_range lm E a b HE K0 t Bk Ht) as TR.
  match type of NX with near ?u _ _ _ _ _ => set (xf := u) in * end. match type of NY with near ?u _ _ _ _ _ => set (yf := u) in * end.
  assert (SHAPE : tm_unproj (ops := O) fuel P (mkENH x y h) = (let be := lm_asin lm (Bdiv mode_NE (lm_sin lm xf) (lm_cosh lm yf)) in let Qf := lm_asinh lm (lm_tan lm be) in
    let* Qpp := tm_loop (ops := O) fuel (ecc (ops := O) E) Qf (tm_iter_fn (ops := O) (ecc (ops := O) E) Qf Qf) in
    Ret (Ok (mkLLH (lon_add (ops := O) lon0 (angle_new (ops := O) (lm_asin lm (Bdiv mode_NE (lm_tanh lm yf) (lm_cos lm be))) (RAD (ops := O)))) (lat_new (ops := O) (angle_new (ops := O) (lm_atan lm (lm_sinh lm Qpp)) (RAD (ops := O)))) h)))) by reflexivity.
  rewrite SHAPE. clear SHAPE. clearbody xf yf. destruct NX as (Fx & RX & _ & _ & EX). destruct NY as (Fy & RY & _ & _ & EY). rewrite Near.q0, q_4_14, Rmult_0_l, Rplus_0_l in EX, EY.
  replace (Q2R (Qmake (-17) 10)) with (-17 / 10) in RX by qr. replace (Q2R (Qmake 17 10)) with (17 / 10) in RX by qr. replace (Q2R (Qmake (-94) 100)) with (-94 / 100) in RY by qr. replace (Q2R (Qmake 94 100)) with (94 / 100) in RY by qr.
  assert (TR' : 0 <= t / (K0 * tB a b) <= / 1000000) by lra. assert (DL : 0 <= 4 / 10 ^ 14 <= / 1000000) by lra.
  destruct (back_stable a b Hab Hf LON0 c w k L B (norm_x a b LAT0 K0 FN Y) (norm_y a b K0 FE X) (t / (K0 * tB a b)) (B2R xf) (B2R yf) (4 / 10 ^ 14) RE C0 C2 TR' DL W1 W2 (Rle_trans _ (32 / 10) 4 CV ltac:(lra)) (Rle_trans _ (32 / 10) 4 CW ltac:(lra)) EX EY) as (r & R0 & RK & ED). fold n in RK.
  set (T := t / (K0 * tB a b)) in *. set (s1 := 10001 / 10000 * (r + 3 / 2 * (11 / 10 * T + 4 / 10 ^ 14))) in *. assert (S1 : 0 <= s1 <= / 100000) by (unfold s1; lra).
  destruct (sin_gd_84 B HB) as [SG CG]. assert (EC : Rabs (cos (gd (cq a b B)) * sin (L - LON0) - tanh (B2R yf)) <= edist (position (L - LON0) (gd (cq a b B))) (ball' (B2R xf) (B2R yf)) /\ Rabs (sin (gd (cq a b B)) - sin (B2R xf) / cosh (B2R yf)) <= edist (position (L - LON0) (gd (cq a b B))) (ball' (B2R xf) (B2R yf))) by exact (edist_comp (position (L - LON0) (gd (cq a b B))) (ball' (B2R xf) (B2R yf))). destruct EC as [EC1 EC2]. 
  destruct (back_range (gd (cq a b B)) (L - LON0) (B2R xf) (B2R yf) s1 S1 SG CG (sin_half _ Hd) ltac:(lra) ltac:(lra)) as (OP & SB & CB & TB).
  assert (Bx : Rabs (B2R xf) <= 18 / 10) by (apply Rabs_le; apply Rabs_le_inv in EX; lra). assert (By : Rabs (B2R yf) <= 95 / 100) by (apply Rabs_le; apply Rabs_le_inv in EY; lra).
  pose proof (sphere_near lm AC xf yf Fx Fy Bx By OP SB CB TB) as SN. destruct (Q_ok lm AC xf yf Fx Fy Bx By OP SB CB) as (FQ & BQ & _). destruct (d_ok lm AC xf yf Fx Fy Bx By OP SB CB TB) as (Fd & Bd & _). cbv zeta.
  set (be := lm_asin lm (Bdiv mode_NE (lm_sin lm xf) (lm_cosh lm yf))) in *. set (Qf := lm_asinh lm (lm_tan lm be)) in *. set (df := lm_asin lm (Bdiv mode_NE (lm_tanh lm yf) (lm_cos lm be))) in *. clearbody be Qf df.
  destruct (loop_seven lm AC E a b HE Qf FQ BQ) as (qs & GQ & LS). destruct (LS fuel HF) as (Qpp & L1 & L2 & L3 & L4). rewrite L1. cbn [obind]. eexists _, _. split; [reflexivity|].
  destruct V0 as [Fl Wl]. rewrite <- Wl in *. destruct (rad_val lm df Fd) as [Fa Va]. destruct (near_lon_add lm lon0 (angle_new (ops := O) df (RAD (ops := O))) Fl Fa B0 ltac:(rewrite Va; lra)) as (m & NL). pose proof (lon_add_le lon0 (angle_new (ops := O) df (RAD (ops := O))) Fl Fa B0 ltac:(rewrite Va; lra)) as LA. rewrite Va in NL.
  split; [exact (proj1 NL)|]. apply near_err in NL. assert (L3' := L3). apply Rabs_le_inv in L3'. pose proof (near_gd lm AC _ _ _ _ _ _ (near_exact Qpp (-4) 4 L2 ltac:(split; qr)) ltac:(vm_compute; reflexivity)) as NG. apply (rad_near lm) in NG. pose proof (near_err _ _ _ _ _ _ NG) as EG.
  assert (EG2 : Rabs (B2R (angle_new (ops := O) (lm_atan lm (lm_sinh lm Qpp)) (RAD (ops := O))) - gd (B2R Qpp)) <= 4 / 10 ^ 15) by (eapply Rle_trans; [exact EG|]; assert (QE : Q2R (Qmake 4 (10 ^ 15)) = 4 / 10 ^ 15) by qmk; rewrite <- QE; apply qle; vm_compute; reflexivity). clear EG.
  pose proof (gd_nonpolar (B2R Qpp)) as GN. unfold nonpolar in GN. destruct (lat_clamp lm _ (gd (B2R Qpp)) _ (proj1 NG) EG2 ltac:(apply Rabs_le; lra)) as (P1 & P2 & P3). clear NG EG2. split; [exact P1|]. split; [exact LA|]. rewrite (proj1 PI_2_64_val) in P2. unfold m_pi in P2. pose proof PI_64_bounds as PB. split; [apply Rabs_le; lra|].
  set (lF := lon_add _ _) in *. set (pF := lat_new _) in *. clearbody lF pF. pose proof (gd_lipschitz (B2R Qpp) qs) as GL. assert (PE : Rabs (B2R pF - gd qs) <= ee * ee / (1 - ee * ee) * / 10 ^ 12 + 7 / 10 ^ 15) by (unfold ee; apply Rabs_le; apply Rabs_le_inv in P3; assert (GL' : Rabs (gd (B2R Qpp) - gd qs) <= the_e a b * the_e a b / (1 - the_e a b * the_e a b) * / 10 ^ 12 + 2 / 10 ^ 15) by lra; apply Rabs_le_inv in GL'; lra).
  assert (LE : Rabs (B2R lF - (B2R lon0 + B2R df + IZR (- m) * (2 * PI))) <= 6 / 10 ^ 15).
  { rewrite opp_IZR. replace (B2R lon0 + B2R df + - IZR m * (2 * PI)) with (B2R lon0 + B2R df - IZR m * (2 * PI)) by ring. eapply Rle_trans; [exact NL|]. assert (QE : Q2R (Qmake 6 (10 ^ 15)) = 6 / 10 ^ 15) by qmk. rewrite <- QE. apply qle. vm_compute. reflexivity. }
  pose proof (edist_triangle (position (L - B2R lon0) (gd (cq a b B))) (ball' (B2R xf) (B2R yf)) (position (B2R df) (gd (B2R Qf)))) as TRI.
  pose proof (back_final a b Hab Hf (B2R lon0) L B (B2R df) (B2R Qf) qs (B2R lF) (B2R pF) (s1 + 57 / 10 ^ 15) _ _ (- m) (np_84 B HB) ltac:(lra) ltac:(lra) GQ PE LE) as FIN.
  eapply Rle_trans; [exact FIN|]. assert (TB2 : T <= t / (K0 * b)). { unfold T, Rdiv. apply Rmult_le_compat_l; [lra|]. pose proof (B_b E a b HE) as BB. apply Rinv_le_contravar; [apply Rmult_lt_0_compat; lra|]. apply Rmult_le_compat_l; lra. }
  replace (2 * t / (K0 * b)) with (2 * (t / (K0 * b))) by (unfold Rdiv; ring). unfold s1. set (w2 := ee * ee / (1 - ee * ee) * / 10 ^ 12) in *. clearbody w2. clear - TB2 RK R0 TR. set (u := t / (K0 * b)) in *. clearbody u T. lra.
Qed.
Lemma tm_back c w k x y h X Y t L B fuel : reach c w k -> val64 x X -> val64 y Y -> Rabs B <= 84 * PI / 180 -> 0 < cos (L - LON0) -> c <= cos (L - LON0) * cos (L - LON0) -> 0 <= t <= 1 ->
  Rabs (X - ceast a b LON0 K0 FE L B) <= t -> Rabs (Y - cnorth a b LON0 LAT0 K0 FN L B) <= t -> (7 <= fuel)%nat ->
  exists l p, tm_unproj (ops := O) fuel P (mkENH x y h) = Ret (Ok (mkLLH l p h)) /\ is_finite l = true /\ is_finite p = true /\ Rabs (B2R p) <= PI / 2 /\
    edist (position L B) (position (B2R l) (B2R p)) <= k * n ^ 5 + 2 * t / (K0 * b) + ee * ee / (1 - ee * ee) * / 10 ^ 12 + 2 * / 10 ^ 13.
Proof.
  intros RE Vx Vy HB C0 C2 Ht Ex Ey HF. destruct (tm_back_le c w k x y h X Y t L B fuel RE Vx Vy HB C0 C2 Ht Ex Ey HF) as (l & p & H1 & H2 & H3 & _ & H4). exists l, p. repeat (split; [assumption|]). exact H4.
Qed.
End M.
End F.
Lemma cos_45_iff x : 0 < x -> / 2 <= x * x -> cos (PI / 4) <= x.
Proof. intros H H2. rewrite cos_PI4'. assert (Q : sqrt 2 * sqrt 2 = 2) by (apply sqrt_sqrt; lra). assert (0 < sqrt 2) by (apply sqrt_lt_R0; lra). destruct (Rle_or_lt (sqrt 2 / 2) x); [assumption|nra]. Qed.
Section F.
Context (lm : libm) (AC : accurate lm) (E : Ellipsoid f64) (a b : R) (HE : earth64 E a b).
Local Notation O := (F64ops lm).
Lemma trip_of P lon0 k0 east north : 9 / 10 <= k0 -> transverse64 lm P lon0 east north -> transverse64_back lm P a b lon0 k0 east north -> transverse64_trip lm P a b lon0.
Proof.
  intros Hk TF TB c w k RE l p h L B Vl Vp Bl Bp C0 C2. pose proof (reach_half c w k RE) as RH. destruct (TF l p h L B Vl Vp Bl Bp (cos_45_iff _ C0 ltac:(lra))) as (x & y & T1 & T2 & T3 & T4 & T5). exists x, y. split; [exact T1|]. intros fuel HF.
  destruct (TB c w k RE x y h (B2R x) (B2R y) (/ 10 ^ 6) L B (conj T2 eq_refl) (conj T3 eq_refl) Bp C0 C2 ltac:(lra) T4 T5 fuel HF) as (l' & p' & U1 & U2 & U3 & U4 & U5). exists l', p'. split; [exact U1|]. split; [exact U2|]. split; [exact U3|]. split; [exact U4|].
  eapply Rle_trans; [exact U5|]. assert (KB : 9 / 10 * 6300000 <= k0 * b) by (destruct HE as (_ & _ & _ & B1 & B2 & _); apply Rmult_le_compat; lra).
  assert (2 * / 10 ^ 6 / (k0 * b) <= 4 * / 10 ^ 13). { unfold Rdiv. apply (Rmult_le_reg_r (k0 * b)); [lra|]. rewrite Rmult_assoc, Rinv_l, Rmult_1_r by lra. lra. } lra.
Qed.
Lemma c63_tm (lon0 lat0 k0 fe fn : f64) LON0 LAT0 K0 FE FN : val64 lon0 LON0 -> val64 lat0 LAT0 -> val64 k0 K0 -> val64 fe FE -> val64 fn FN ->
  Rabs LON0 <= 4 -> Rabs LAT0 <= 84 * PI / 180 -> 9 / 10 <= K0 <= 11 / 10 -> Rabs FE <= 100000000 -> Rabs FN <= 100000000 ->
  let P := applied_to (ops := O) (STransverseMercator lon0 lat0 k0 fe fn) E in
  (exists east north, transverse_map a b LON0 LAT0 K0 FE FN east north /\ transverse64_back lm P a b LON0 K0 east north) /\ transverse64_trip lm P a b LON0.
Proof.
  intros V0 VP Vk Ve Vn B0 BP Bk Be Bn P. destruct (e_range E a b HE) as [AB _]. assert (BK : transverse64_back lm P a b LON0 K0 (ceast a b LON0 K0 FE) (cnorth a b LON0 LAT0 K0 FN)).
  { intros c w k RE x y h X Y t L B Vx Vy Bp C0 C2 Ht Ex Ey fuel HF. replace (eccentricity_squared a b) with (the_e a b * the_e a b) by (unfold the_e; apply sqrt_sqrt; apply (e2_bound a b AB)). exact (tm_back lm AC E a b HE lon0 lat0 k0 fe fn LON0 LAT0 K0 FE FN V0 VP Vk Ve Vn B0 BP Bk Be Bn c w k x y h X Y t L B fuel RE Vx Vy Bp C0 C2 Ht Ex Ey HF). }
  split.
  - exists (ceast a b LON0 K0 FE), (cnorth a b LON0 LAT0 K0 FN). split; [|exact BK]. destruct HE as (_ & _ & _ & _ & _ & _ & Hf). apply c_transverse; [lra|exact Hf|exact (np_84 _ BP)|lra].
  - refine (trip_of P LON0 K0 _ _ (proj1 Bk) _ BK). intros l p h L B Vl Vp Bl Bp Hc. destruct (cos_45 _ Hc) as [C1 C2]. destruct (tm_fwd lm AC E a b HE lon0 lat0 k0 fe fn l p LON0 LAT0 K0 FE FN L B V0 VP Vk Ve Vn Vl Vp B0 BP Bk Be Bn Bl Bp C1 C2 h) as (x & y & H). exists x, y. exact H.
Qed.
Lemma c63_utm z : (1 <= z <= 60)%Z -> exists lon0 k0, (exists k : Z, Rabs (lon0 - ((6 * IZR z - 180) * (PI / 180) + IZR k * (2 * PI))) <= / 10 ^ 14) /\ Rabs (k0 - 0.9996) <= / 10 ^ 15 /\
  (let P := applied_to (ops := O) (SUTMNorth z) E in (exists east north, transverse_map a b lon0 0 k0 500000 0 east north /\ transverse64_back lm P a b lon0 k0 east north) /\ transverse64_trip lm P a b lon0) /\
  (let P := applied_to (ops := O) (SUTMSouth z) E in (exists east north, transverse_map a b lon0 0 k0 500000 10000000 east north /\ transverse64_back lm P a b lon0 k0 east north) /\ transverse64_trip lm P a b lon0).
Proof.
  intros HZ. destruct (near_utm lm z HZ) as (k & N). destruct N as (F0 & R0 & _ & _ & E0). destruct (near_k0 lm) as (F1 & R1' & _ & _ & E1). exists (B2R (utm_lon0 (ops := O) z)), (B2R (UTM_K0 (ops := O))).
  rewrite Near.q0 in E0, E1. assert (QE : Q2R (Qmake 1 (10 ^ 14)) = 1 / 10 ^ 14) by qmk. rewrite QE in E0. clear QE. assert (QE : Q2R (Qmake 12 (10 ^ 17)) = 12 / 10 ^ 17) by qmk. rewrite QE in E1. clear QE. replace (Q2R (Qmake (-32) 10)) with (-32 / 10) in R0 by qr. replace (Q2R (Qmake 32 10)) with (32 / 10) in R0 by qr.
  apply Rabs_le_inv in E0, E1. pose proof PI_64_bounds as PB.
  split; [exists (- k)%Z; rewrite opp_IZR; apply Rabs_le; lra|]. split; [apply Rabs_le; lra|].
  assert (L4 : Rabs (B2R (utm_lon0 (ops := O) z)) <= 4) by (apply Rabs_le; lra).
  destruct (f64_Z 0 ltac:(vm_compute; discriminate)) as [FZ VZ]. pose proof (near_len lm 500000 ltac:(vm_compute; discriminate)) as VE. pose proof (near_len lm 10000000 ltac:(vm_compute; discriminate)) as VN.
  split; (eapply (c63_tm _ _ _ _ _ _ 0); [split; [exact F0|reflexivity]|split; [exact FZ|exact VZ]|split; [exact F1|reflexivity]|exact VE|first [exact (conj FZ VZ)|exact VN]|exact L4|rewrite Rabs_R0; lra|lra|apply Rabs_le; lra|apply Rabs_le; lra]).
Qed.
End F.
Lemma c63_ex : accurate libm_ex /\ (exists a b, earth64 (d_ellipsoid (DATUM_WGS84 (ops := F64ops libm_ex))) a b) /\
  val64 (f64_ofZ 0) 0 /\ val64 (f64_ofZ 1) 1 /\ val64 (f64_ofZ 500000) 500000 /\ val64 (f64_of 1 (-1)) 0.5 /\
  Rabs 0.5 <= 4 /\ Rabs 1 <= 84 * PI / 180 /\ 9 / 10 <= 1 <= 11 / 10 /\ Rabs 500000 <= 100000000 /\ (1 <= 33 <= 60)%Z /\
  reach (3 / 4) (/ 2) 180 /\ 0 < cos (0.5 - 0) /\ 3 / 4 <= cos (0.5 - 0) * cos (0.5 - 0) /\ (7 <= 7)%nat.
Proof.
  destruct c62_ex as (E1 & E2 & E3 & E4 & E5 & E6 & E7 & E8 & E9 & E10 & _ & E12). split; [exact E1|]. split; [exact E2|]. split; [exact E3|]. split; [exact E4|]. split; [exact E5|]. split; [exact E6|]. split; [exact E7|]. split; [exact E8|]. split; [exact E9|]. split; [exact E10|]. split; [exact E12|]. split; [constructor|]. rewrite Rminus_0_r.
  pose proof PI_64_bounds as PB. assert (H : cos (PI / 6) <= cos 0.5) by (left; apply cos_decreasing_1; lra). rewrite cos_PI6 in H. assert (Q : sqrt 3 * sqrt 3 = 3) by (apply sqrt_sqrt; lra). assert (0 < sqrt 3) by (apply sqrt_lt_R0; lra). split; [lra|]. split; [nra|lia].
Qed.
