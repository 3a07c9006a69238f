(** Binary64: geodetic coordinates of a geocentric position. *)
From Coq Require Import ZArith Reals QArith Qreals Lra Lia Bool Psatz.
From Flocq Require Import Core IEEE754.BinarySingleNaN.
From Verif.Num Require Import FOps RFun XR XRLemmas F64 F64Lemmas PIBounds Near.
From Verif.Model Require Import Fp Quantities Cs Ellipsoid.
From Verif.Spec Require Import Angles Axes Shape Accurate Binary64.
From Verif.Proofs Require Import AnglesX AnglesF EllX DatumX MathF NearX NearL LlhF LlhInvF LlhInvG.
Local Open Scope R_scope.

Lemma one_cos t k : 0 <= 1 - cos t <= (t - IZR k * (2 * PI)) * (t - IZR k * (2 * PI)) / 2.
Proof.
  split; [pose proof (COS_bound t); lra|]. rewrite <- (cos_turns t k). set (u := t - IZR k * (2 * PI)). replace u with (2 * (u / 2)) at 1 by field. rewrite cos_2a_sin. pose proof (sin_lip (u / 2) 0) as S. rewrite sin_0, !Rminus_0_r in S.
  pose proof (Rsqr_le_abs_1 _ _ S) as Q. unfold Rsqr in Q. lra.
Qed.
Lemma planar rho r L th : (rho * cos L - r * cos th) * (rho * cos L - r * cos th) + (rho * sin L - r * sin th) * (rho * sin L - r * sin th) = (rho - r) * (rho - r) + 2 * (rho * r) * (1 - cos (L - th)).
Proof.
  rewrite cos_minus. pose proof (sin2_cos2 L) as A. pose proof (sin2_cos2 th) as B. unfold Rsqr in A, B.
  replace ((rho * cos L - r * cos th) * (rho * cos L - r * cos th) + (rho * sin L - r * sin th) * (rho * sin L - r * sin th)) with (rho * rho * (sin L * sin L + cos L * cos L) + r * r * (sin th * sin th + cos th * cos th) - 2 * (rho * r) * (cos L * cos th + sin L * sin th)) by ring. rewrite A, B. ring.
Qed.
Lemma near_end X Y Z rho zz r th Lm : 0 <= r -> r <= 6500000 -> r * cos th = X -> r * sin th = Y -> Rabs (rho - r) <= 119 / 10 ^ 9 -> Rabs (zz - Z) <= 119 / 10 ^ 9 ->
  (bpow radix2 (-900) <= r -> exists k : BinNums.Z, Rabs (Lm - (th - IZR k * (2 * PI))) <= 14 / 2 ^ 50) ->
  sqrt ((X - rho * cos Lm) * (X - rho * cos Lm) + (Y - rho * sin Lm) * (Y - rho * sin Lm) + (Z - zz) * (Z - zz)) <= 2 / 10 ^ 7.
Proof.
  intros R0 RB RC RS DR DZ LE.
  assert (PL : (X - rho * cos Lm) * (X - rho * cos Lm) + (Y - rho * sin Lm) * (Y - rho * sin Lm) = (rho - r) * (rho - r) + 2 * (rho * r) * (1 - cos (Lm - th))) by (rewrite <- planar, RC, RS; ring).
  rewrite PL. apply Rabs_le_inv in DR. apply Rabs_le_inv in DZ.
  assert (C2 : 2 * (rho * r) * (1 - cos (Lm - th)) <= 7 / 10 ^ 15).
  { destruct (Rle_or_lt rho 0) as [N|N].
    { pose proof (COS_bound (Lm - th)). assert (0 <= (- rho * r) * (1 - cos (Lm - th))) by (apply Rmult_le_pos; [apply Rmult_le_pos|]; lra). lra. }
    destruct (Rle_or_lt (bpow radix2 (-900)) r) as [G|G].
    - destruct (LE G) as (k & K'). pose proof (one_cos (Lm - th) (- k)) as [O1 O2]. rewrite opp_IZR in O2. set (t := Lm - th - - IZR k * (2 * PI)) in *. replace (Lm - (th - IZR k * (2 * PI))) with t in K' by (unfold t; ring).
      assert (T2 : t * t <= (14 / 2 ^ 50) * (14 / 2 ^ 50)) by (apply Rabs_le_inv in K'; nra).
      assert (Q0 : 0 <= rho * r) by (apply Rmult_le_pos; lra). assert (Q1 : rho * r <= 6500001 * 6500000) by (apply Rmult_le_compat; lra).
      assert (2 * (rho * r) * (1 - cos (Lm - th)) <= 2 * (6500001 * 6500000) * (14 / 2 ^ 50 * (14 / 2 ^ 50) / 2)) by (apply Rmult_le_compat; lra). lra.
    - assert (B9 : bpow radix2 (-900) <= bpow radix2 (-100)) by (apply bpow_le; lia). assert (B1' : bpow radix2 (-100) = / 2 ^ 100) by (change (-100)%Z with (- Z.of_nat 100)%Z; rewrite bpow_opp, bpow_powerRZ, <- pow_powerRZ; reflexivity).
      pose proof (COS_bound (Lm - th)). assert (Q0 : 0 <= rho * r) by (apply Rmult_le_pos; lra). assert (B2' : / 2 ^ 100 <= / 10 ^ 20) by (apply Rinv_le_contravar; lra). assert (Q1 : rho * r <= 1 * / 10 ^ 20) by (apply Rmult_le_compat; lra).
      assert (2 * (rho * r) * (1 - cos (Lm - th)) <= 2 * (1 * / 10 ^ 20) * 2) by (apply Rmult_le_compat; lra). lra. }
  assert (D1 : (rho - r) * (rho - r) <= 119 / 10 ^ 9 * (119 / 10 ^ 9)) by nra. assert (D2 : (Z - zz) * (Z - zz) <= 119 / 10 ^ 9 * (119 / 10 ^ 9)) by nra.
  rewrite <- (sqrt_square (2 / 10 ^ 7)) by lra. apply sqrt_le_1_alt. lra.
Qed.
Lemma near_tail a b X Y Z r th Lm p0 p h0 hh : 6300000 <= b -> b < a -> a <= 6400000 -> 99 * a <= 100 * b -> 0 <= r -> r <= 6500000 -> r * cos th = X -> r * sin th = Y -> Rabs (p - p0) <= 64 / 2 ^ 53 -> -1000000 <= h0 <= 1000000 -> Rabs (hh - h0) <= 65 / 10 ^ 9 -> mr a b p0 h0 = r -> mz a b p0 h0 = Z ->
  (bpow radix2 (-900) <= r -> exists k : BinNums.Z, Rabs (Lm - (th - IZR k * (2 * PI))) <= 14 / 2 ^ 50) ->
  sqrt ((X - (a * a / gell a b p * cos p * cos Lm + hh * (cos p * cos Lm))) * (X - (a * a / gell a b p * cos p * cos Lm + hh * (cos p * cos Lm))) + (Y - (a * a / gell a b p * cos p * sin Lm + hh * (cos p * sin Lm))) * (Y - (a * a / gell a b p * cos p * sin Lm + hh * (cos p * sin Lm))) + (Z - (b * b / gell a b p * sin p + hh * sin p)) * (Z - (b * b / gell a b p * sin p + hh * sin p))) <= 2 / 10 ^ 7.
Proof.
  intros B1 B2 B3 B4 R0 RB RC RS PE HB HE' MR MZ LE.
  assert (SP : a * a / b + Rabs h0 <= 7470000). { assert (Rabs h0 <= 1000000) by (apply Rabs_le; lra). assert (XX : a * a / b * b = a * a) by (field; lra). assert (a * a / b <= 6466000) by (apply (Rmult_le_reg_r b); [lra|]; rewrite XX; nra). lra. }
  pose proof (mr_lip a b ltac:(lra) p0 p h0 hh) as LR. pose proof (mz_lip a b ltac:(lra) p0 p h0 hh) as LZ. rewrite MR in LR. rewrite MZ in LZ.
  assert (SE : (a * a / b + Rabs h0) * Rabs (p - p0) <= 7470000 * (64 / 2 ^ 53)) by (apply Rmult_le_compat; [assert (0 <= a * a / b) by (apply Rmult_le_pos; [nra|left; apply Rinv_0_lt_compat; lra]); pose proof (Rabs_pos h0); lra|apply Rabs_pos|exact SP|exact PE]).
  assert (DR : Rabs (mr a b p hh - r) <= 119 / 10 ^ 9) by lra. assert (DZ : Rabs (mz a b p hh - Z) <= 119 / 10 ^ 9) by lra. clear LR LZ SE.
  set (rho := mr a b p hh) in *. set (zz := mz a b p hh) in *.
  replace (a * a / gell a b p * cos p * cos Lm + hh * (cos p * cos Lm)) with (rho * cos Lm) by (unfold rho, mr; ring).
  replace (a * a / gell a b p * cos p * sin Lm + hh * (cos p * sin Lm)) with (rho * sin Lm) by (unfold rho, mr; ring).
  replace (b * b / gell a b p * sin p + hh * sin p) with zz by (unfold zz, mz; ring).
  exact (near_end X Y Z rho zz r th Lm R0 RB RC RS DR DZ LE).
Qed.
Section Lm.
Context (lm : libm) (AC : accurate lm).
Context (d : GeodeticDatum f64) (a b : R) (HE : earth64 (d_ellipsoid d) a b).
Notation O := (F64ops lm).
Notation E := (d_ellipsoid d).
Notation m := (pm_lon (d_pm d)).
Notation e2 := (e2r a b).
Context (FM : is_finite m = true) (BM : Rabs (B2R m) <= 4).
Lemma xyz_to_llh_within (x y z : f64) : is_finite x = true -> is_finite y = true -> is_finite z = true -> 6200000 <= edist (B2R x, B2R y, B2R z) (0, 0, 0) <= 6500000 ->
  let Q := xyz_to_llh (ops := O) d (mkXYZ x y z) in
  is_finite (lon Q) = true /\ is_finite (lat Q) = true /\ is_finite (height Q) = true /\ - B2R PI64 <= B2R (lon Q) <= B2R PI64 + / 2 ^ 47 /\ - B2R PI_2_64 <= B2R (lat Q) <= B2R PI_2_64 /\ Rabs (B2R (height Q)) <= 1000001 /\
  exists P, geodetic_point a b (B2R (lat Q)) (B2R (lon Q) + B2R m) (B2R (height Q)) P /\ within64 (mkXYZ x y z) (2 / 10 ^ 7) P.
Proof.
  intros FX FY FZ R. cbn [edist] in R. rewrite !Rminus_0_r in R. set (X := B2R x) in *. set (Y := B2R y) in *. set (Z := B2R z) in *. pose proof (e2r_range E a b HE) as E2. pose proof HE as (_ & _ & _ & B1 & B2 & B3 & B4).
  set (S := X * X + Y * Y + Z * Z) in *. assert (S0 : 0 <= S) by (unfold S; pose proof (Rle_0_sqr X); pose proof (Rle_0_sqr Y); pose proof (Rle_0_sqr Z); unfold Rsqr in *; lra). pose proof (sqrt_sqrt S S0) as SS.
  assert (SB : 6200000 * 6200000 <= S <= 6500000 * 6500000) by (rewrite <- SS; split; apply Rmult_le_compat; lra).
  assert (AB : forall t, t * t <= S -> Rabs t <= 6500000). { intros t H. apply Rabs_le. split; apply Rnot_lt_le; intros C; nra. }
  pose proof (Rle_0_sqr X) as X2. pose proof (Rle_0_sqr Y) as Y2. pose proof (Rle_0_sqr Z) as Z2. unfold Rsqr in X2, Y2, Z2.
  assert (BX : Rabs X <= 6500000) by (apply AB; unfold S; lra). assert (BY : Rabs Y <= 6500000) by (apply AB; unfold S; lra). assert (BZ : Rabs Z <= 6500000) by (apply AB; unfold S; lra).
  set (r := Rhypot X Y). assert (R2 : r * r = X * X + Y * Y) by apply Rhypot_sq. assert (R0 : 0 <= r) by apply sqrt_pos. assert (RB : r <= 6500000) by (pose proof (AB r ltac:(unfold S; lra)) as Q; apply Rabs_le_inv in Q; lra).
  assert (HR : 6200000 * 6200000 <= r * r + Z * Z <= 6500000 * 6500000) by (rewrite R2; exact SB).
  destruct (hyp_ok lm AC x y FX FY BX BY (lm_hypot lm x y) eq_refl) as (FR & ER & _). fold X Y in ER. fold r in ER. set (rf := lm_hypot lm x y) in *.
  assert (NR : near rf r 0 6500000 (Qmake 1 (2 ^ 50)) (Qmake 1 (2 ^ 117))).
  { split; [exact FR|]. replace (Q2R 6500000) with 6500000 by qv. rewrite q0, !q2r_make. assert (T : bpow radix2 (-1000) <= 1 / IZR (Zpos (2 ^ 117))) by (apply Rle_trans with (bpow radix2 (-117)); [apply bpow_le; lia|unfold Rdiv; rewrite Rmult_1_l; right; cbn [bpow]; f_equal]).
    pose proof (bpow_gt_0 radix2 (-1000)). replace (IZR (Zpos (2 ^ 50))) with (2 ^ 50) by (cbn; lra). split; [lra|]. split; [lra|]. split; [lra|]. rewrite (Rabs_right r) by lra. lra. }
  intros Q. subst Q. unfold xyz_to_llh. rewrite (not_spherical lm E a b HE). cbn [x_ y_ z_ lon lat height]. cbv zeta.
  change (fhypot (FOps := O) x y) with rf. change (e_a E) with (e_a E).
  set (kf := vermeille_k (ops := O) (e_sq (ops := O) E) (e_a E) rf z).
  set (Df := Bdiv mode_NE (Bmult mode_NE kf rf) (Bplus mode_NE kf (e_sq (ops := O) E))). set (Hf := lm_hypot lm Df z).
  match goal with |- is_finite ?lo = true /\ is_finite ?la = true /\ is_finite ?he = true /\ _ =>
    assert (EL : lo = wrapped (ops := O) (Bminus mode_NE (wrapped (ops := O) (lonf lm x y rf)) m)) by (unfold lon_sub_angle, lon_new; rewrite (proj1 (base_unit_exact lm _)); reflexivity);
    assert (EP : la = lat_new (ops := O) (Bmult mode_NE (f64_ofZ 2) (lm_atan2 lm z (Bplus mode_NE Df Hf)))) by (rewrite (proj1 (base_unit_exact lm _)); reflexivity);
    assert (EH : he = Bmult mode_NE (Bdiv mode_NE (Bminus mode_NE (Bplus mode_NE kf (e_sq (ops := O) E)) (f64_ofZ 1)) kf) Hf) by (rewrite (proj1 (proj2 (proj2 (base_unit_exact lm _)))); reflexivity) end.
  rewrite EL, EP, EH. clear EL EP EH.
  set (k0 := vk e2 (r / a * (r / a)) ((1 - e2) * (B2R z / a) * (B2R z / a))).
  destruct (near_lat_new lm AC E a b HE rf z r NR FZ BZ HR k0 kf Df Hf eq_refl eq_refl eq_refl eq_refl) as (FP & PB & PE).
  pose proof (near_h lm AC E a b HE rf z r NR FZ BZ HR k0 kf Df Hf eq_refl eq_refl eq_refl eq_refl) as NH.
  destruct (ranges lm AC E a b HE rf z r NR FZ BZ HR k0 eq_refl) as (K & _ & D & H).
  destruct (k_root lm AC E a b HE rf z r NR FZ BZ HR k0 eq_refl) as [K0 KE].
  destruct (inv_exact a b r Z k0 ltac:(lra) R0 K0 KE) as (_ & _ & PR & MR & MZ). fold Z in PE, NH, H.
  destruct (lon_ok lm AC x y FX FY BX BY rf eq_refl m FM BM) as (FL & LB & LE). fold X Y in LE. fold r in LE.
  match type of FP with is_finite ?t = true => set (P := t) in * end. match type of FL with is_finite ?t = true => set (L := t) in * end.
  pose proof (near_err _ _ _ _ _ _ NH) as HE'. destruct NH as (FH & HB & _). match type of FH with is_finite ?t = true => set (h := t) in * end.
  replace (Q2R (Qmake 65 (10 ^ 9) + 0 * mag (-1000000) 1000000)) with (65 / 10 ^ 9) in HE' by (rewrite Q2R_plus, Q2R_mult, q0, q2r_make; cbn; lra). replace (Q2R (-1000000)) with (-1000000) in HB by qv. replace (Q2R 1000000) with 1000000 in HB by qv.
  clearbody P L h. clear FR NR. set (p0 := iP e2 k0 r Z) in *. set (h0 := ih e2 k0 r Z) in *. 
  change ((a * a / gell a b p0 + h0) * cos p0) with (mr a b p0 h0) in MR. change ((b * b / gell a b p0 + h0) * sin p0) with (mz a b p0 h0) in MZ. clearbody p0 h0.
  split; [exact FL|]. split; [exact FP|]. split; [exact FH|]. split; [exact LB|]. split; [exact PB|]. split; [apply Rabs_le_inv in HE'; apply Rabs_le; lra|].
  eexists. split; [do 3 eexists; split; [apply (surface_the a b ltac:(lra)); repeat split; reflexivity|unfold normal; cbv beta iota; reflexivity]|].
  split; [exact FX|]. split; [exact FY|]. split; [exact FZ|]. cbn [x_ y_ z_]. fold X Y Z. cbn [edist].
  set (p := B2R P) in *. set (hh := B2R h) in *. set (Lm := B2R L + B2R m) in *. clearbody p hh Lm.
  destruct (Rlon_spec X Y) as [RC RS].
  exact (near_tail a b X Y Z r (Rlon X Y) Lm p0 p h0 hh B1 B2 B3 B4 R0 RB RC RS PE HB HE' MR MZ LE).
Qed.
End Lm.

(** ** Round trips *)
Lemma gp_sq a b p l h : 0 < b <= a -> (a * a / gell a b p * cos p * cos l + h * (cos p * cos l)) * (a * a / gell a b p * cos p * cos l + h * (cos p * cos l)) + (a * a / gell a b p * cos p * sin l + h * (cos p * sin l)) * (a * a / gell a b p * cos p * sin l + h * (cos p * sin l)) + (b * b / gell a b p * sin p + h * sin p) * (b * b / gell a b p * sin p + h * sin p) =
  (a * a * (a * a) * (cos p * cos p) + b * b * (b * b) * (sin p * sin p)) / (gell a b p * gell a b p) + 2 * h * gell a b p + h * h.
Proof.
  intros HAB. pose proof (gell_bound a b HAB p) as G. pose proof (gell_sq a b HAB p) as GS. set (g := gell a b p) in *. set (c := cos p) in *. set (s := sin p) in *.
  pose proof (sin2_cos2 p) as T. pose proof (sin2_cos2 l) as U. unfold Rsqr in T, U. fold c s in T.
  replace ((a * a / g * c * cos l + h * (c * cos l)) * (a * a / g * c * cos l + h * (c * cos l)) + (a * a / g * c * sin l + h * (c * sin l)) * (a * a / g * c * sin l + h * (c * sin l)) + (b * b / g * s + h * s) * (b * b / g * s + h * s))
    with ((a * a / g * c + h * c) * (a * a / g * c + h * c) * (sin l * sin l + cos l * cos l) + (b * b / g * s + h * s) * (b * b / g * s + h * s)) by ring. rewrite U, Rmult_1_r.
  assert (N : (a * a / g * c + h * c) * (a * a / g * c + h * c) + (b * b / g * s + h * s) * (b * b / g * s + h * s) = (a * a * (a * a) * (c * c) + b * b * (b * b) * (s * s)) / (g * g) + 2 * h * ((a * a * (c * c) + b * b * (s * s)) / g) + h * h * (s * s + c * c)) by (field; lra).
  rewrite N, T, <- GS. replace (g * g / g) with g by (field; lra). ring.
Qed.
Lemma gp_q a b p : 0 < b <= a -> let g := gell a b p in g * g <= (a * a * (a * a) * (cos p * cos p) + b * b * (b * b) * (sin p * sin p)) / (g * g) <= a * a.
Proof.
  intros HAB g. pose proof (gell_bound a b HAB p) as G. pose proof (gell_sq a b HAB p) as GS. fold g in G, GS. set (c := cos p) in *. set (s := sin p) in *.
  pose proof (sin2_cos2 p) as T. unfold Rsqr in T. fold c s in T.
  set (q := (a * a * (a * a) * (c * c) + b * b * (b * b) * (s * s)) / (g * g)).
  assert (c2 : 0 <= c * c) by nra. assert (s2 : 0 <= s * s) by nra.
  assert (Q2 : q * (g * g) = a * a * (a * a) * (c * c) + b * b * (b * b) * (s * s)) by (unfold q; field; lra).
  split; apply (Rmult_le_reg_r (g * g)); try nra; rewrite Q2.
  - rewrite GS. replace (a * a * (a * a) * (c * c) + b * b * (b * b) * (s * s)) with ((a * a * (a * a) * (c * c) + b * b * (b * b) * (s * s)) * (s * s + c * c)) by (rewrite T; ring).
    assert (0 <= (c * c) * (s * s) * ((a * a - b * b) * (a * a - b * b))) by (apply Rmult_le_pos; [apply Rmult_le_pos; assumption|apply (Rle_0_sqr (a * a - b * b))]). lra.
  - rewrite GS. assert (0 <= a * a - b * b) by nra. assert (0 <= (b * b) * (s * s) * (a * a - b * b)) by (apply Rmult_le_pos; [apply Rmult_le_pos; [nra|assumption]|assumption]). lra.
Qed.
Lemma gp_norm a b p l h P : 0 < b <= a -> geodetic_point a b p l h P -> b + h <= edist P (0, 0, 0) <= a + Rabs h.
Proof.
  intros HAB (x & y & z & S & Q). apply (surface_the a b HAB) in S. destruct S as (-> & -> & ->). unfold normal in Q. cbv beta iota in Q. subst P.
  cbn [edist]. rewrite !Rminus_0_r, gp_sq by exact HAB. pose proof (gell_bound a b HAB p) as G. pose proof (gp_q a b p HAB) as Q1. cbv zeta in Q1. set (g := gell a b p) in *. set (q := (_ + _) / (g * g)) in *.
  clearbody q. split.
  - destruct (Rle_or_lt (g + h) 0) as [N|N]; [eapply Rle_trans; [|apply sqrt_pos]; lra|].
    apply Rle_trans with (g + h); [lra|]. rewrite <- (sqrt_square (g + h)) by lra. apply sqrt_le_1_alt. nra.
  - pose proof (Rabs_pos h) as H0. rewrite <- (sqrt_square (a + Rabs h)) by lra. apply sqrt_le_1_alt.
    assert (HH : Rabs h * Rabs h = h * h) by (rewrite <- Rabs_mult; apply Rabs_right; nra). assert (h <= Rabs h) by apply Rle_abs. nra.
Qed.
Lemma gp_height a b p l h P : 6300000 <= b -> b < a -> a <= 6400000 -> 99 * a <= 100 * b -> geodetic_point a b p l h P -> Rabs h <= 1000001 -> 6199999 <= edist P (0, 0, 0) <= 6500001 -> Rabs h <= 210000.
Proof.
  intros B1 B2 B3 B4 GP H1 N. pose proof (gp_norm a b p l h P ltac:(lra) GP) as [N1 _]. apply Rabs_le_inv in H1. apply Rabs_le. split; [|lra]. apply Rnot_lt_le. intros C.
  assert (U : edist P (0, 0, 0) <= sqrt (a * a + 2 * h * b + h * h)).
  { clear N N1. destruct GP as (x & y & z & S & Q). apply (surface_the a b ltac:(lra)) in S. destruct S as (-> & -> & ->). unfold normal in Q. cbv beta iota in Q. subst P.
    cbn [edist]. rewrite !Rminus_0_r. rewrite gp_sq by lra. apply sqrt_le_1_alt. pose proof (gell_bound a b ltac:(lra) p) as G. pose proof (gp_q a b p ltac:(lra)) as G2. cbv zeta in G2. nra. }
  assert (V : a * a + 2 * h * b + h * h <= 6199000 * 6199000).
  { assert (h * b <= h * (99 / 100 * a)) by (apply Ropp_le_cancel; rewrite !Ropp_mult_distr_l; apply Rmult_le_compat_l; lra). nra. }
  apply sqrt_le_1_alt in V. rewrite sqrt_square in V by lra. lra.
Qed.
