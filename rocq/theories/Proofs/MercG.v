(** Web Mercator and Mercator in binary64: the series of the inverse, the constructors, and the
    statements. *)
From Coq Require Import ZArith Reals QArith Qreals Lra Lia Bool Psatz List.
From Coquelicot Require Derive.
From Flocq Require Import Core IEEE754.BinarySingleNaN.
From Verif.Num Require Import FOps RFun XR XRLemmas F64 F64Lemmas PIBounds Near.
From Verif.Model Require Import Fp Quantities Cs Ellipsoid Geodesics Projections.
From Verif.Spec Require Import Angles Axes Shape Maps Accurate Binary64 Maps64.
From Verif.Proofs Require Import AnglesX AnglesF EllX ProjX MercX MercInv NearX NearL LlhF LlhInvG TransB CtorF NearT MapF MercF.
Import ListNotations.
Local Open Scope R_scope.

Section F.
Context (lm : libm) (AC : accurate lm).
Local Notation O := (F64ops lm).

Section E.
Context (E : Ellipsoid f64) (a b : R) (HE : earth64 E a b).
Local Notation e2f := (e_sq (ops := O) E).
Local Notation E2 := ((a - b) * (a + b) / (a * a)).
Lemma near_mc : near (fast_eval_at (ops := O) [f64_ofZ 0; f64_lit 5 1; Bdiv mode_NE (f64_ofZ 5) (f64_ofZ 24); Bdiv mode_NE (f64_ofZ 1) (f64_ofZ 12); Bdiv mode_NE (f64_ofZ 13) (f64_ofZ 360)] e2f) (mc0 E2) 0 (Qmake 1 90) 0 (Qmake 1 (10 ^ 16)) /\
  near (fast_eval_at (ops := O) [f64_ofZ 0; f64_ofZ 0; Bdiv mode_NE (f64_ofZ 7) (f64_ofZ 48); Bdiv mode_NE (f64_ofZ 29) (f64_ofZ 240); Bdiv mode_NE (f64_ofZ 811) (f64_ofZ 11520)] e2f) (mc1 E2) 0 (Qmake 1 1000) 0 (Qmake 1 (10 ^ 16)) /\
  near (fast_eval_at (ops := O) [f64_ofZ 0; f64_ofZ 0; f64_ofZ 0; Bdiv mode_NE (f64_ofZ 7) (f64_ofZ 120); Bdiv mode_NE (f64_ofZ 81) (f64_ofZ 1120)] e2f) (mc2 E2) 0 (Qmake 1 100000) 0 (Qmake 1 (10 ^ 17)) /\
  near (fast_eval_at (ops := O) [f64_ofZ 0; f64_ofZ 0; f64_ofZ 0; f64_ofZ 0; Bdiv mode_NE (f64_ofZ 4279) (f64_ofZ 161280)] e2f) (mc3 E2) 0 (Qmake 1 10000000) 0 (Qmake 1 (10 ^ 17)).
Proof.
  pose proof (near_e2 lm E a b HE) as NE. unfold fast_eval_at. cbn [rev app fold_left].
  change (ffma (FOps := O)) with (fun x y z : f64 => Bfma mode_NE x y z). cbv beta. change (fofZ (FOps := O) 0) with (f64_ofZ 0). unfold f64_lit. revert NE. generalize (e_sq (ops := O) E). intros e2 NE. set (x := E2) in *. clearbody x.
  pose proof (proj1 (proj2 NE)) as XB. rewrite q0 in XB. replace (Q2R (Qmake 199 10000)) with (199 / 10000) in XB by qr.
  nZ 0%Z ZO. nZ 5%Z Z5. nZ 10%Z Z10. nZ 24%Z Z24. nZ 1%Z Z1. nZ 12%Z Z12. nZ 13%Z Z13. nZ 360%Z Z360. nZ 7%Z Z7. nZ 48%Z Z48. nZ 29%Z Z29. nZ 240%Z Z240. nZ 811%Z Z811. nZ 11520%Z Z11520. nZ 120%Z Z120. nZ 81%Z Z81. nZ 1120%Z Z1120. nZ 4279%Z Z4279. nZ 161280%Z Z161280.
  change (10 ^ 1)%Z with 10%Z.
  assert (P2 : 0 <= x * x <= 4 / 10000) by nra. assert (P3 : 0 <= x * x * x <= 8 / 1000000) by nra. assert (P4 : 0 <= x * x * x * x <= 2 / 10000000) by nra.
  split; [|split; [|split]].
  - ndiv Z5 Z10 D0. ndiv Z5 Z24 D1. ndiv Z1 Z12 D2. ndiv Z13 Z360 D3. nfma ZO NE D3 H3. nfma H3 NE D2 H2. nfma H2 NE D1 H1. nfma H1 NE D0 H0. nfma H0 NE ZO K0. apply near_abs in K0. nnorm K0. match type of K0 with near _ ?T _ _ _ _ => replace T with (mc0 x) in K0 by (unfold mc0; field) end. refine (near_weak _ _ _ _ _ _ _ _ _ _ K0 _ _ _); [|vm_compute; reflexivity|vm_compute; reflexivity]. rewrite q0. replace (Q2R (Qmake 1 90)) with (1 / 90) by qr.  unfold mc0. nra.
  - ndiv Z7 Z48 D0. ndiv Z29 Z240 D1. ndiv Z811 Z11520 D2. nfma ZO NE D2 H2. nfma H2 NE D1 H1. nfma H1 NE D0 H0. nfma H0 NE ZO K0. nfma K0 NE ZO K1. apply near_abs in K1. nnorm K1. match type of K1 with near _ ?T _ _ _ _ => replace T with (mc1 x) in K1 by (unfold mc1; field) end. refine (near_weak _ _ _ _ _ _ _ _ _ _ K1 _ _ _); [|vm_compute; reflexivity|vm_compute; reflexivity]. rewrite q0. replace (Q2R (Qmake 1 1000)) with (1 / 1000) by qr.  unfold mc1. nra.
  - ndiv Z7 Z120 D0. ndiv Z81 Z1120 D1. nfma ZO NE D1 H1. nfma H1 NE D0 H0. nfma H0 NE ZO K0. nfma K0 NE ZO K1. nfma K1 NE ZO K2. apply near_abs in K2. nnorm K2. match type of K2 with near _ ?T _ _ _ _ => replace T with (mc2 x) in K2 by (unfold mc2; field) end. refine (near_weak _ _ _ _ _ _ _ _ _ _ K2 _ _ _); [|vm_compute; reflexivity|vm_compute; reflexivity]. rewrite q0. replace (Q2R (Qmake 1 100000)) with (1 / 100000) by qr.  unfold mc2. nra.
  - ndiv Z4279 Z161280 D0. nfma ZO NE D0 H0. nfma H0 NE ZO K0. nfma K0 NE ZO K1. nfma K1 NE ZO K2. nfma K2 NE ZO K3. apply near_abs in K3. nnorm K3. match type of K3 with near _ ?T _ _ _ _ => replace T with (mc3 x) in K3 by (unfold mc3; field) end. refine (near_weak _ _ _ _ _ _ _ _ _ _ K3 _ _ _); [|vm_compute; reflexivity|vm_compute; reflexivity]. rewrite q0. replace (Q2R (Qmake 1 10000000)) with (1 / 10000000) by qr.  unfold mc3. nra.
Qed.
Lemma E2_b : 0 <= E2 <= / 50.
Proof. destruct (near_e2 lm E a b HE) as (_ & B & _). rewrite q0 in B. replace (Q2R (Qmake 199 10000)) with (199 / 10000) in B by qr. lra. Qed.
Lemma e_E2 : the_e a b * the_e a b = E2.
Proof. destruct (e_range E a b HE) as [R1 _]. rewrite (the_e_sq _ _ _ (xell_shape a b R1)). f_equal. ring. Qed.

Section C.
Context (cf : f64) (c : R) (NC : near cf c 3000000 13000000 (Qmake 20 (2 ^ 53)) (Qmake 1 (2 ^ 60))).
Section Y.
Context (y fn : f64) (Y FN : R) (Vy : val64 y Y) (Vf : val64 fn FN) (Bf : Rabs FN <= 100000000) (By : Rabs (Y - FN) <= 5 * c).
Let xi : f64 := Bminus mode_NE PI_2_64 (Bmult mode_NE (f64_ofZ 2) (lm_atan lm (lm_exp lm (Bdiv mode_NE (Bminus mode_NE fn y) cf)))).
Let XI : R := PI / 2 - 2 * atan (exp (- ((Y - FN) / c))).
Section K.
Context (c0 c1 c2 c3 : f64) (N0 : near c0 (mc0 E2) 0 (Qmake 1 90) 0 (Qmake 1 (10 ^ 16))) (N1 : near c1 (mc1 E2) 0 (Qmake 1 1000) 0 (Qmake 1 (10 ^ 16)))
  (N2 : near c2 (mc2 E2) 0 (Qmake 1 100000) 0 (Qmake 1 (10 ^ 17))) (N3 : near c3 (mc3 E2) 0 (Qmake 1 10000000) 0 (Qmake 1 (10 ^ 17))).
Lemma merc_lat : let p := lat_new (ops := O) (angle_new (ops := O) (Bplus mode_NE (Bplus mode_NE (Bplus mode_NE (Bplus mode_NE xi (Bmult mode_NE c0 (lm_sin lm (Bmult mode_NE (f64_ofZ 2) xi)))) (Bmult mode_NE c1 (lm_sin lm (Bmult mode_NE (f64_ofZ 4) xi)))) (Bmult mode_NE c2 (lm_sin lm (Bmult mode_NE (f64_ofZ 6) xi)))) (Bmult mode_NE c3 (lm_sin lm (Bmult mode_NE (f64_ofZ 8) xi)))) (RAD (ops := O))) in
  is_finite p = true /\ exists B, nonpolar B /\ isom_e (the_e a b) B = (Y - FN) / c /\ Rabs (B2R p - B) <= 3 / 10 ^ 14 + E2 ^ 5.
Proof.
  pose proof (near_xi lm AC cf c NC y fn Y FN Vy Vf Bf By) as NX. fold xi in NX. fold XI in NX.
  nZ 2%Z Z2. nZ 4%Z Z4. nZ 6%Z Z6. nZ 8%Z Z8. nZ 1%Z Z1. nmul Z2 NX M2. nmul Z4 NX M4. nmul Z6 NX M6. nmul Z8 NX M8.
  pose proof (near_sin lm AC _ _ _ _ _ _ M2 ltac:(vm_compute; reflexivity)) as S2. nnorm S2. pose proof (near_sin lm AC _ _ _ _ _ _ M4 ltac:(vm_compute; reflexivity)) as S4. nnorm S4.
  pose proof (near_sin lm AC _ _ _ _ _ _ M6 ltac:(vm_compute; reflexivity)) as S6. nnorm S6. pose proof (near_sin lm AC _ _ _ _ _ _ M8 ltac:(vm_compute; reflexivity)) as S8. nnorm S8.
  nmul N0 S2 T2. nmul N1 S4 T4. nmul N2 S6 T6. nmul N3 S8 T8. nadd NX T2 A2. nadd A2 T4 A4. nadd A4 T6 A6. nadd A6 T8 A8. ndiv Z1 Z1 D1. nmul A8 D1 RR.
  pose proof (near_err _ _ _ _ _ _ RR) as ER. unfold angle_new, per_unit. cbn [fst snd RAD fmul fdiv F64ops]. change (fofZ (FOps := O) 1) with (f64_ofZ 1). pose proof (proj1 RR) as FR. revert FR ER.
  match goal with |- is_finite ?T = true -> _ => generalize T end. intros w FR ER.
  match type of ER with Rabs (_ - ?T) <= _ => replace T with (mpsi E2 XI) in ER by (unfold mpsi; field) end.
  assert (EW : Rabs (B2R w - mpsi E2 XI) <= 25 / 10 ^ 15). { eapply Rle_trans; [exact ER|]. replace (25 / 10 ^ 15) with (Q2R (Qmake 25 (10 ^ 15))) by qmk. apply qle. vm_compute. reflexivity. }
  pose proof (isom_lat_range (- ((Y - FN) / c))) as XR. fold XI in XR. destruct (e_range E a b HE) as [AB ER']. pose proof e_E2 as EE. pose proof E2_b as EB.
  assert (EB' : 0 <= the_e a b * the_e a b <= / 50) by (rewrite EE; exact EB). assert (EB1 : 0 <= the_e a b < 1) by lra.
  pose proof (mpsi_np (the_e a b) EB' XI XR) as NP. rewrite EE in NP.
  destruct (lat_clamp lm w (mpsi E2 XI) _ FR EW ltac:(unfold nonpolar in NP; apply Rabs_le; lra)) as (C1 & _ & C3). cbv zeta. split; [exact C1|].
  destruct (isom_e_onto (the_e a b) ((Y - FN) / c) EB1 ltac:(lra)) as (B & NB & IB). exists B. split; [exact NB|]. split; [exact IB|].
  pose proof (mback (the_e a b) EB1 EB' B NB) as MB. rewrite IB, EE in MB. fold XI in MB. cbv zeta in C3. revert C3 MB. generalize (lat_new (ops := O) w). intros v C3 MB. apply Rabs_le_inv in C3, MB. assert (0 <= E2 ^ 5) by (apply pow_le; lra). apply Rabs_le. lra.
Qed.
End K.
End Y.
End C.
Section M.
Context (lon0 lat0 k0 fe fn : f64) (LON0 FE FN c : R) (V0 : val64 lon0 LON0) (Ve : val64 fe FE) (Vn : val64 fn FN)
  (B0 : Rabs LON0 <= 4) (Be : Rabs FE <= 100000000) (Bn : Rabs FN <= 100000000)
  (NC : near (Bmult mode_NE k0 (e_a E)) c 3000000 13000000 (Qmake 20 (2 ^ 53)) (Qmake 1 (2 ^ 60))).
Let north := (fun p => FN + c * isom_e (the_e a b) p).
Lemma merc_projects : projects64 lm (PMercator (merc_new (ops := O) E lon0 lat0 k0 fe fn)) LON0 FE c north.
Proof.
  intros l p h L B Vl [Fp Vp] Bl Bp. rewrite <- Vp in Bp. destruct (map_east lm _ c NC l lon0 fe L LON0 FE Vl V0 Ve Bl B0 Be) as (X1 & d & D1 & D2 & D3).
  destruct (map_north _ c NC _ fn _ FN (near_isom_e lm AC p Fp Bp E a b HE) Vn Bn) as (Y1 & Y2). rewrite Vp in Y2.
  eexists _, _, d. split; [reflexivity|]. split; [exact X1|]. split; [exact Y1|]. split; [exact D1|]. split; [exact D2|]. split; [exact D3|exact Y2].
Qed.
Lemma merc_unprojects : unprojects64 lm (PMercator (merc_new (ops := O) E lon0 lat0 k0 fe fn)) LON0 FE FN c north (3 / 10 ^ 14 + E2 ^ 5).
Proof.
  intros fuel x y h X Y Vx Vy Bx By. pose proof (c_pos _ c NC) as CP. destruct (unmap_lon lm _ c NC x fe lon0 X FE LON0 Vx Ve V0 B0 Be Bx) as (L1 & m & M1 & M2). destruct near_mc as (N0 & N1 & N2 & N3).
  destruct (merc_lat _ c NC y fn Y FN Vy Vn Bn By _ _ _ _ N0 N1 N2 N3) as (P1 & B & P2 & P3 & P4).
  eexists _, _, m, B. split; [reflexivity|]. split; [exact L1|]. split; [exact P1|]. split; [exact M1|]. split; [exact M2|]. split; [exact P2|]. split; [|exact P4]. unfold north. rewrite P3. field. lra.
Qed.
End M.
Section W.
Context (lon0 lat0 fe fn : f64) (LON0 FE FN : R) (V0 : val64 lon0 LON0) (Ve : val64 fe FE) (Vn : val64 fn FN)
  (B0 : Rabs LON0 <= 4) (Be : Rabs FE <= 100000000) (Bn : Rabs FN <= 100000000).
Let north := (fun p => FN + a * isom p).
Lemma near_ca : near (e_a E) a 3000000 13000000 (Qmake 20 (2 ^ 53)) (Qmake 1 (2 ^ 60)).
Proof.
  destruct (near_axes E a b HE) as [NA _]. refine (near_weak _ _ _ _ _ _ _ _ _ _ NA _ _ _); [|vm_compute; reflexivity|vm_compute; reflexivity]. destruct HE as (_ & _ & _ & H1 & H2 & H3 & _). replace (Q2R 3000000) with 3000000 by qr. replace (Q2R 13000000) with 13000000 by qr. lra.
Qed.
Lemma web_projects : projects64 lm (PWebMercator (wm_new E lon0 lat0 fe fn)) LON0 FE a north.
Proof.
  intros l p h L B Vl [Fp Vp] Bl Bp. rewrite <- Vp in Bp. destruct (map_east lm _ a near_ca l lon0 fe L LON0 FE Vl V0 Ve Bl B0 Be) as (X1 & d & D1 & D2 & D3).
  destruct (map_north _ a near_ca _ fn _ FN (near_isom lm AC p Fp Bp) Vn Bn) as (Y1 & Y2). rewrite Vp in Y2.
  eexists _, _, d. split; [reflexivity|]. split; [exact X1|]. split; [exact Y1|]. split; [exact D1|]. split; [exact D2|]. split; [exact D3|exact Y2].
Qed.
Lemma web_unprojects : unprojects64 lm (PWebMercator (wm_new E lon0 lat0 fe fn)) LON0 FE FN a north (3 / 10 ^ 14).
Proof.
  intros fuel x y h X Y Vx Vy Bx By. pose proof (c_pos _ a near_ca) as CP. destruct (unmap_lon lm _ a near_ca x fe lon0 X FE LON0 Vx Ve V0 B0 Be Bx) as (L1 & m & M1 & M2).
  destruct (web_lat lm AC _ a near_ca y fn Y FN Vy Vn Bn By) as (P1 & P2).
  eexists _, _, m, _. split; [reflexivity|]. split; [exact L1|]. split; [exact P1|]. split; [exact M1|]. split; [exact M2|]. split; [exact (isom_lat_range (- ((Y - FN) / a)))|]. split; [|exact P2]. unfold north. rewrite isom_of. field. lra.
Qed.
End W.
(** The factor of scale of the variant with two standard parallels. *)
Lemma near_2sp (lat0 : f64) P0 : val64 lat0 P0 -> Rabs P0 <= PI / 3 ->
  near (Bmult mode_NE (Bdiv mode_NE (lm_cos lm (Babs lat0)) (Bsqrt mode_NE (Bminus mode_NE (f64_ofZ 1) (Bmult mode_NE (Bmult mode_NE e2f (lm_sin lm (Babs lat0))) (lm_sin lm (Babs lat0)))))) (e_a E)) (mer_x a b P0) 3000000 13000000 (Qmake 20 (2 ^ 53)) (Qmake 1 (2 ^ 60)).
Proof.
  intros [F0 V0] B0. rewrite <- V0 in *. clear V0 P0. set (q := Babs lat0). assert (Fq : is_finite q = true) by (unfold q; now rewrite is_finite_Babs). assert (Vq : B2R q = Rabs (B2R lat0)) by (unfold q; apply B2R_Babs).
  assert (Bq : 0 <= B2R q <= PI / 3) by (rewrite Vq; split; [apply Rabs_pos|exact B0]). pose proof PI_64_bounds as PB. pose proof (near_exact q 0 2 Fq ltac:(split; rewrite ?q0; try (replace (Q2R 2) with 2 by qr); lra)) as NQ.
  pose proof (near_sin lm AC _ _ _ _ _ _ NQ ltac:(vm_compute; reflexivity)) as NS. nnorm NS. pose proof (near_cos lm AC _ _ _ _ _ _ NQ ltac:(vm_compute; reflexivity)) as NK. nnorm NK.
  pose proof (near_e2 lm E a b HE) as NE. nmul NE NS N1. nmul N1 NS N2. nZ 1%Z Z1. nsub Z1 N2 N3.
  pose proof E2_b as EB. pose proof (SIN_bound (B2R q)) as SB. set (s := sin (B2R q)) in *. assert (S2 : 0 <= s * s <= 1) by nra. assert (ES : 0 <= E2 * (s * s) <= / 50) by nra.
  assert (CB : / 2 <= cos (B2R q) <= 1). { split; [|apply COS_bound]. replace (/ 2) with (1 / 2) by lra. rewrite <- cos_PI3. apply cos_decr_1; lra. }
  apply (near_range _ _ _ _ _ _ (Qmake 98 100) 1) in N3; [|replace (Q2R (Qmake 98 100)) with (98 / 100) by qr; rewrite q1; lra].
  apply (near_range _ _ _ _ _ _ (Qmake 1 2) 1) in NK; [|replace (Q2R (Qmake 1 2)) with (/ 2) by qr; rewrite q1; lra]. nsqrt N3 N4. ndiv NK N4 N5. destruct (near_axes E a b HE) as [NA _]. nmul N5 NA N6.
  destruct (e_range E a b HE) as [AB _]. pose proof (xell_shape a b AB) as SH. pose proof (gell_pos _ a b SH (B2R lat0)) as G. pose proof (gell_sq a b AB (B2R lat0)) as GS.
  assert (K1 : cos (B2R q) = cos (B2R lat0)) by (rewrite Vq; unfold Rabs; destruct Rcase_abs; [apply cos_neg|reflexivity]).
  assert (K2 : s * s = sin (B2R lat0) * sin (B2R lat0)) by (unfold s; rewrite Vq; unfold Rabs; destruct Rcase_abs; [rewrite sin_neg; ring|reflexivity]).
  assert (K3 : sqrt (1 - E2 * s * s) = gell a b (B2R lat0) / a).
  { replace (1 - E2 * s * s) with ((gell a b (B2R lat0) / a) * (gell a b (B2R lat0) / a)); [apply sqrt_square; left; apply Rdiv_lt_0_compat; lra|].
    replace (gell a b (B2R lat0) / a * (gell a b (B2R lat0) / a)) with (gell a b (B2R lat0) * gell a b (B2R lat0) / (a * a)) by (field; lra). rewrite GS, (Rmult_assoc _ s), K2. pose proof (sin2_cos2 (B2R lat0)) as Q. unfold Rsqr in Q. replace (cos (B2R lat0) * cos (B2R lat0)) with (1 - sin (B2R lat0) * sin (B2R lat0)) by lra. field. lra. }
  assert (VE : cos (B2R q) / sqrt (1 - E2 * s * s) * a = mer_x a b (B2R lat0)). { rewrite K3, K1. unfold mer_x. field. lra. }
  assert (BV : 3000000 <= cos (B2R q) / sqrt (1 - E2 * s * s) * a <= 13000000).
  { assert (ES1 : 0 <= E2 * s * s <= / 50) by (rewrite (Rmult_assoc E2 s s); exact ES). destruct HE as (_ & _ & _ & H1 & H2 & H3 & _). assert (SQ : 9 / 10 <= sqrt (1 - E2 * s * s) <= 1). { split; [rewrite <- (sqrt_square (9 / 10)) by lra; apply sqrt_le_1_alt; lra|]. apply Rle_trans with (sqrt 1); [apply sqrt_le_1_alt; lra|rewrite sqrt_1; lra]. }
    set (r := sqrt (1 - E2 * s * s)) in *. assert (KB : / 2 <= cos (B2R q) / r <= 10 / 9). { split; apply (Rmult_le_reg_r r); try lra; replace (cos (B2R q) / r * r) with (cos (B2R q)) by (field; lra); lra. } nra. }
  rewrite <- VE. refine (near_weak _ _ _ _ _ _ _ _ _ _ N6 _ _ _); [|vm_compute; reflexivity|vm_compute; reflexivity]. replace (Q2R 3000000) with 3000000 by qr. replace (Q2R 13000000) with 13000000 by qr. exact BV.
Qed.
Lemma near_1sp (k0 : f64) K : val64 k0 K -> / 2 <= K <= 2 ->
  near (Bmult mode_NE k0 (e_a E)) (K * a) 3000000 13000000 (Qmake 20 (2 ^ 53)) (Qmake 1 (2 ^ 60)).
Proof.
  intros [F0 V0] B0. rewrite <- V0 in *. clear V0 K. pose proof (near_exact k0 (Qmake 1 2) 2 F0 ltac:(split; qr)) as NK. destruct (near_axes E a b HE) as [NA _]. nmul NK NA N6.
  refine (near_weak _ _ _ _ _ _ _ _ _ _ N6 _ _ _); [|vm_compute; reflexivity|vm_compute; reflexivity]. replace (Q2R 3000000) with 3000000 by qr. replace (Q2R 13000000) with 13000000 by qr. destruct HE as (_ & _ & _ & H1 & H2 & H3 & _). nra.
Qed.
End E.

(** ** There and back *)
Lemma isom_e_expand e p q : 0 <= e < 1 -> e * e <= / 50 -> nonpolar p -> nonpolar q -> Rabs (q - p) <= 103 / 100 * Rabs (isom_e e q - isom_e e p).
Proof.
  intros He HE2 H Np. assert (HE' : 0 <= e * e <= / 50) by nra.
  destruct (Derive.MVT_gen (isom_e e) p q (fun p => (1 - e * e) / ((1 - e * e * (sin p * sin p)) * cos p))) as (c & Hc & Q).
  - intros t Ht. apply isom_e_deriv; [exact He|]. unfold nonpolar in *; unfold Rmin, Rmax in Ht; destruct (Rle_dec p q); lra.
  - intros t Ht. assert (N9 : nonpolar t) by (unfold nonpolar in *; unfold Rmin, Rmax in Ht; destruct (Rle_dec p q); lra).
    apply derivable_continuous_pt. eexists. apply Derive.is_derive_Reals. now apply isom_e_deriv.
  - assert (N9 : nonpolar c) by (unfold nonpolar in *; unfold Rmin, Rmax in Hc; destruct (Rle_dec p q); lra).
    pose proof (np_cos c N9) as Cc. pose proof (COS_bound c) as CB. pose proof (mw_pos e HE' c) as W. rewrite Q, Rabs_mult. set (w := 1 - e * e * _) in *.
    assert (D : 98 / 100 <= (1 - e * e) / (w * cos c)). { apply (Rmult_le_reg_r (w * cos c)); [apply Rmult_lt_0_compat; lra|]. replace ((1 - e * e) / (w * cos c) * (w * cos c)) with (1 - e * e) by (field; lra). assert (w * cos c <= 1) by nra. lra. }
    rewrite (Rabs_right ((1 - e * e) / (w * cos c))) by lra. pose proof (Rabs_pos (q - p)). nra.
Qed.
Lemma isom_e_5 e (p : f64) : 0 <= e < 1 -> e * e <= / 50 -> is_finite p = true -> Rabs (B2R p) <= 89 * PI / 180 -> Rabs (isom_e e (B2R p)) <= 492 / 100.
Proof.
  intros He HE2 Fp Bp. pose proof (np_89 p Bp) as NP. eapply Rle_trans; [apply (isom_e_le e He ltac:(nra)); exact NP|].
  destruct (near_tan1 lm AC p Fp Bp) as (_ & B & _). replace (Q2R (Qmake 1 115)) with (/ 115) in B by qr. replace (Q2R 115) with 115 in B by qr. unfold isom. set (q := tan _) in *.
  assert (K : forall x, 0 < x <= 115 -> ln x <= 492 / 100). { intros x Hx. destruct (ln_125 125 ltac:(lra)) as [_ L5]. replace x with (125 * (1 + (x / 125 - 1))) by field. rewrite ln_mult by lra. pose proof (exp_ineq1_le (ln (1 + (x / 125 - 1)))) as EI. rewrite exp_ln in EI by lra. lra. }
  pose proof (K q ltac:(lra)) as K1. pose proof (K (/ q) ltac:(split; [apply Rinv_0_lt_compat; lra|rewrite <- (Rinv_inv 115); apply Rinv_le_contravar; lra])) as K2. rewrite ln_Rinv in K2 by lra. apply Rabs_le. lra.
Qed.
Lemma trip (P : projection f64) lon0 fe fn c e tol : 0 <= e < 1 -> e * e <= / 50 -> 3000000 <= c ->
  projects64 lm P lon0 fe c (fun p => fn + c * isom_e e p) -> unprojects64 lm P lon0 fe fn c (fun p => fn + c * isom_e e p) tol ->
  round_trips64 lm P (4 / 10 ^ 13 + tol).
Proof.
  intros He HE2 HC HP HU fuel l p h L B Vl Vp Bl Bp. destruct (HP l p h L B Vl Vp Bl Bp) as (x & y & d & P1 & Fx & Fy & D1 & D2 & D3 & D4). destruct Vp as [Fp Vp]. rewrite <- Vp in *.
  pose proof (isom_e_5 e p He HE2 Fp Bp) as I5. pose proof PI_64_bounds as PB. apply Rabs_le_inv in D2, D3, D4, I5.
  assert (X1 : Rabs (B2R x - fe) <= 39 / 10 * c). { assert (- (320 / 100) * c <= c * d <= 320 / 100 * c) by nra. apply Rabs_le. lra. }
  assert (Y1 : Rabs (B2R y - fn) <= 5 * c). { assert (- (492 / 100) * c <= c * isom_e e (B2R p) <= 492 / 100 * c) by nra. apply Rabs_le. lra. }
  destruct (HU fuel x y h (B2R x) (B2R y) (conj Fx eq_refl) (conj Fy eq_refl) X1 Y1) as (l' & p' & m & B' & U1 & Fl' & Fp' & M1 & M2 & NB & NB' & T).
  assert (DL : Rabs ((B2R x - fe) / c - d) <= 34 / 10 ^ 14). { replace ((B2R x - fe) / c - d) with ((B2R x - (fe + c * d)) / c) by (field; lra). unfold Rdiv. rewrite Rabs_mult, (Rabs_right (/ c)) by (apply Rle_ge; left; apply Rinv_0_lt_compat; lra). apply (Rmult_le_reg_r c); [lra|]. rewrite Rmult_assoc, Rinv_l, Rmult_1_r by lra. apply Rle_trans with (/ 10 ^ 6); [apply Rabs_le; lra|]. lra. }
  assert (DB : Rabs (isom_e e B' - isom_e e (B2R p)) <= 34 / 10 ^ 14). { assert (Q : c * (isom_e e B' - isom_e e (B2R p)) = B2R y - (fn + c * isom_e e (B2R p))) by lra. apply (Rmult_le_reg_r c); [lra|]. rewrite <- (Rabs_right c) at 1 by lra. rewrite <- Rabs_mult, (Rmult_comm _ c), Q. apply Rle_trans with (/ 10 ^ 6); [apply Rabs_le; lra|]. lra. }
  pose proof (isom_e_expand e (B2R p) B' He HE2 (np_89 p Bp) NB) as EX.
  exists (mkENH x y h), l', p'. exists (m - ((B2R x - fe) / c - d)). split; [exact P1|]. split; [exact U1|]. split; [exact Fl'|]. split; [exact Fp'|]. split.
  { destruct M1 as (k & K). destruct D1 as (j & J). exists (k + j)%Z. rewrite plus_IZR. lra. }
  apply Rabs_le_inv in DL, M2. split; [apply Rabs_le; lra|]. assert (EX' : Rabs (B' - B2R p) <= 36 / 10 ^ 14) by lra. apply Rabs_le_inv in EX', T. apply Rabs_le. lra.
Qed.
End F.
