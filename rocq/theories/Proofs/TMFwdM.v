(** Binary64: the transverse Mercator map, forward: the origin and the coordinates in metres. *)
From Coq Require Import ZArith Reals QArith Qreals Lra Lia Bool Psatz List.
From Flocq Require Import Core IEEE754.BinarySingleNaN.
From Verif.Num Require Import FOps RFun XR XRLemmas F64 F64Lemmas PIBounds Near.
From Verif.Model Require Import Fp Quantities Cs Ellipsoid Geodesics Projections.
From Verif.Spec Require Import Angles Axes Shape Maps Series Accurate Binary64 Maps64.
From Verif.Proofs Require Import AnglesX AnglesF EllX MathX ProjX MercX MercInv TMX TMInv TMConf NearX NearL LlhF LlhInvG TransB CtorF NearT MapF MercF MercG NearH TMNear TMFwd.
Import ListNotations.
Local Open Scope R_scope.

Lemma val_0 : val64 (f64_ofZ 0) 0.
Proof.
  pose proof (near_err _ _ _ _ _ _ (near_Z 0 ltac:(cbn; lia))) as E. destruct (near_Z 0 ltac:(cbn; lia)) as [F _]. rewrite Q2R_plus, Q2R_mult, q0 in E. apply Rabs_le_inv in E. split; [exact F|lra].
Qed.
Section F.
Context (lm : libm) (AC : accurate lm).
Local Notation O := (F64ops lm).
Ltac fin_near H := apply near_abs in H; nnorm H.
Section E.
Context (E : Ellipsoid f64) (a b : R) (HE : earth64 E a b).
Let Bf := tm_B_of (ops := O) (e_a E) (en (ops := O) E).
Let h := tm_h_of (ops := O) (en (ops := O) E).
(** The distance of the origin from the equator. *)
Lemma near_mu (p : f64) : is_finite p = true -> Rabs (B2R p) <= 84 * PI / 180 -> let be := tm_beta (ops := O) (tm_Q (ops := O) (ecc (ops := O) E) p) in
  near (let '(h1, h2, h3, h4) := h in fsum (ops := O) [be; Bmult mode_NE h1 (lm_sin lm (Bmult mode_NE (f64_ofZ 2) be)); Bmult mode_NE h2 (lm_sin lm (Bmult mode_NE (f64_ofZ 4) be)); Bmult mode_NE h3 (lm_sin lm (Bmult mode_NE (f64_ofZ 6) be)); Bmult mode_NE h4 (lm_sin lm (Bmult mode_NE (f64_ofZ 8) be))])
    (mu (the_e a b) (tn a b) (B2R p)) (Qmake (-16) 10) (Qmake 16 10) 0 (Qmake 1 (10 ^ 14)).
Proof.
  intros Fp Bp be. pose proof (near_beta lm AC E a b HE p Fp Bp) as NB. fold be in NB. pose proof (near_hs lm E a b HE) as NH. fold h in NH. revert NB NH. generalize be h. clear be. intros be [[[h1 h2] h3] h4] NB NH.
  unfold mu. rewrite beta_e_np by (now apply np_84). set (B := gd (isom_e (the_e a b) (B2R p))) in *. clearbody B. unfold near4 in NH. destruct (hs (tn a b)) as [[[H1 H2] H3] H4]. destruct NH as (N1 & N2 & N3 & N4). unfold sin_series. rewrite !Rmult_0_r, cosh_0, !Rmult_1_r.
  unfold fsum. cbn [fold_left fadd F64ops]. change (fofZ (FOps := O) 0) with (f64_ofZ 0). nZ 0%Z ZO. nZ 2%Z Z2. nZ 4%Z Z4. nZ 6%Z Z6. nZ 8%Z Z8. nmul Z2 NB A2. nmul Z4 NB A4. nmul Z6 NB A6. nmul Z8 NB A8.
  pose proof (near_sin lm AC _ _ _ _ _ _ A2 ltac:(vm_compute; reflexivity)) as S2. nnorm S2. pose proof (near_sin lm AC _ _ _ _ _ _ A4 ltac:(vm_compute; reflexivity)) as S4. nnorm S4. pose proof (near_sin lm AC _ _ _ _ _ _ A6 ltac:(vm_compute; reflexivity)) as S6. nnorm S6. pose proof (near_sin lm AC _ _ _ _ _ _ A8 ltac:(vm_compute; reflexivity)) as S8. nnorm S8.
  nmul N1 S2 P2. nmul N2 S4 P4. nmul N3 S6 P6. nmul N4 S8 P8. nadd ZO NB T0. nadd T0 P2 T2. nadd T2 P4 T4. nadd T4 P6 T6. nadd T6 P8 T8. fin_near T8.
  match type of T8 with near _ ?T _ _ _ _ => replace (B + _) with T by ring end.
  refine (near_weak _ _ _ _ _ _ _ _ _ _ T8 _ _ _); [|vm_compute; reflexivity|vm_compute; reflexivity].
  refine (near_in_q _ _ _ _ _ (proj1 (proj2 T8)) _ _); vm_compute; reflexivity.
Qed.
Lemma near_M0 (lat0 : f64) : is_finite lat0 = true -> Rabs (B2R lat0) <= 84 * PI / 180 ->
  near (tm_M0_of (ops := O) lat0 Bf (ecc (ops := O) E) h) (tm0 a b (B2R lat0)) (-11000000) 11000000 0 (Qmake 1 (10 ^ 7)).
Proof.
  intros F0 B0. unfold tm_M0_of. cbn [feq fabs F64ops]. unfold lat_abs, LAT_MAX. cbn [fabs fpi_2 F64ops]. change (fofZ (FOps := O) 0) with (f64_ofZ 0). destruct val_0 as [Z3 Z4]. rewrite (Beqb_correct 53 1024 _ _ F0 Z3), Z4. destruct (Req_bool_spec (B2R lat0) 0) as [EZ|NZ].
  - rewrite (tm0_0 a b (B2R lat0) EZ). unfold length_new, per_unit. cbn [fst snd M fmul fdiv F64ops]. change (fofZ (FOps := O) 1) with (f64_ofZ 1). nZ 0%Z ZO. nZ 1%Z Z1. ndiv Z1 Z1 D1. nmul ZO D1 RR. fin_near RR. replace (0 * (1 / 1)) with 0 in RR by field.
    refine (near_weak _ _ _ _ _ _ _ _ _ _ RR _ _ _); [|vm_compute; reflexivity|vm_compute; reflexivity]. refine (near_in_q _ _ _ _ _ (proj1 (proj2 RR)) _ _); vm_compute; reflexivity.
  - assert (FA : is_finite (Babs lat0) = true) by now rewrite is_finite_Babs. pose proof PI_64_bounds as PB. rewrite (Beqb_correct 53 1024 _ _ FA (proj2 PI_2_64_val)), B2R_Babs, (proj1 PI_2_64_val). unfold m_pi. rewrite Req_bool_false by lra.
    pose proof (near_mu lat0 F0 B0) as NM. pose proof (near_B lm E a b HE) as NB. fold Bf in NB. unfold tm0. rewrite (Rmult_comm (tB a b)). cbv zeta in NM |- *. unfold length_scale. cbn [fmul F64ops fsin]. change (fofZ (FOps := O) 2) with (f64_ofZ 2). change (fofZ (FOps := O) 4) with (f64_ofZ 4). change (fofZ (FOps := O) 6) with (f64_ofZ 6). change (fofZ (FOps := O) 8) with (f64_ofZ 8). revert NM. destruct h as [[[h1 h2] h3] h4]. intros NM. nmul NM NB RR. fin_near RR.
    refine (near_weak _ _ _ _ _ _ _ _ _ _ RR _ _ _); [|vm_compute; reflexivity|vm_compute; reflexivity]. refine (near_in_q _ _ _ _ _ (proj1 (proj2 RR)) _ _); vm_compute; reflexivity.
Qed.
(** Easting and northing. *)
Section M.
Context (lon0 lat0 k0 fe fn l p : f64) (LON0 LAT0 K0 FE FN L B : R) (V0 : val64 lon0 LON0) (VP : val64 lat0 LAT0) (Vk : val64 k0 K0) (Ve : val64 fe FE) (Vn : val64 fn FN) (Vl : val64 l L) (Vp : val64 p B)
  (B0 : Rabs LON0 <= 4) (BP : Rabs LAT0 <= 84 * PI / 180) (Bk : 9 / 10 <= K0 <= 11 / 10) (Be : Rabs FE <= 100000000) (Bn : Rabs FN <= 100000000) (Bl : Rabs L <= 4) (Bp : Rabs B <= 84 * PI / 180)
  (Hd : / 2 <= cos (L - LON0) * cos (L - LON0)) (Hc : 0 < cos (L - LON0)).
Lemma near_sin_lon : near (lm_sin lm (lon_sub (ops := O) l lon0)) (sin (L - LON0)) (-1) 1 0 (Qmake 65 (10 ^ 16)).
Proof.
  destruct Vl as [Fl Wl]. destruct V0 as [F0 W0]. rewrite <- Wl, <- W0 in *. destruct (near_lon_sub lm l lon0 Fl F0 Bl B0) as (k & N & _). pose proof (near_sin lm AC _ _ _ _ _ _ N ltac:(vm_compute; reflexivity)) as NS. fin_near NS.
  replace (B2R l - B2R lon0 - IZR k * (2 * PI)) with (B2R l - B2R lon0 + IZR (- k) * (2 * PI)) in NS by (rewrite opp_IZR; ring). rewrite sin_period_Z in NS.
  refine (near_weak _ _ _ _ _ _ _ _ _ _ NS (proj1 (proj2 NS)) _ _); vm_compute; reflexivity.
Qed.
Let P := tm_new (ops := O) E lon0 lat0 k0 fe fn.
Lemma tm_fwd hh : exists x y, tm_proj (ops := O) P (mkLLH l p hh) = Ok (mkENH x y hh) /\ is_finite x = true /\ is_finite y = true /\
  Rabs (B2R x - ceast a b LON0 K0 FE L B) <= / 10 ^ 6 /\ Rabs (B2R y - cnorth a b LON0 LAT0 K0 FN L B) <= / 10 ^ 6.
Proof.
  pose proof near_sin_lon as NS. destruct Vp as [Fp Wp]. destruct VP as [FP WP]. destruct Vk as [Fk Wk]. destruct Ve as [Fe We]. destruct Vn as [Fn Wn]. clear Vl V0 Vp VP Vk Ve Vn. rewrite <- Wp, <- WP, <- Wk, <- We, <- Wn in *. clear Wp WP Wk We Wn.
  pose proof (near_eta lm AC E a b HE p Fp Bp _ _ NS Hd Hc) as NT. pose proof (near_xi' lm AC E a b HE p Fp Bp _ _ NS Hd Hc) as NX. pose proof (near_M0 lat0 FP BP) as NM. pose proof (near_B lm E a b HE) as NB. fold Bf in NB. unfold Bf, h in *.
  apply Rabs_le_inv in Be, Bn. pose proof (near_exact k0 (Qmake 9 10) (Qmake 11 10) Fk ltac:(split; qr)) as NK. pose proof (near_exact fe (-100000000) 100000000 Fe ltac:(split; qr)) as NE. pose proof (near_exact fn (-100000000) 100000000 Fn ltac:(split; qr)) as NF.
  nmul NK NB KB. nmul NT KB T1. nadd NE T1 T2. nmul NX NB X1. nsub X1 NM X2. nmul NK X2 X3. nadd NF X3 X4.
  eexists _, _. split; [reflexivity|]. split; [exact (proj1 T2)|]. split; [exact (proj1 X4)|]. pose proof (near_err _ _ _ _ _ _ T2) as E1. pose proof (near_err _ _ _ _ _ _ X4) as E2.
  assert (QE : Q2R (Qmake 1 (10 ^ 6)) = / 10 ^ 6) by qmk. rewrite <- QE. split.
  - eapply Rle_trans; [|eapply Rle_trans; [exact E1|apply qle; vm_compute; reflexivity]]. right. f_equal. unfold Rminus at 1 2. f_equal. f_equal. unfold ceast, cq. ring.
  - eapply Rle_trans; [|eapply Rle_trans; [exact E2|apply qle; vm_compute; reflexivity]]. right. f_equal. unfold Rminus at 1 2. f_equal. f_equal. unfold cnorth, cq. ring.
Qed.
End M.
End E.
End F.
