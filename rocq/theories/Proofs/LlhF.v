(** Binary64: rounding errors of the conversion from geodetic to geocentric coordinates. *)
From Coq Require Import ZArith Reals QArith Qreals Lra Lia Bool Psatz Qround Qabs.
From Flocq Require Import Core IEEE754.BinarySingleNaN.
From Verif.Num Require Import FOps RFun XR XRLemmas F64 F64Lemmas Near.
From Verif.Model Require Import Fp Quantities Cs Ellipsoid.
From Verif.Spec Require Import Angles Axes Shape Accurate Binary64.
From Verif.Proofs Require Import AnglesX AnglesF EllX DatumX NearX.
Local Open Scope R_scope.

Lemma cos_lip x y : Rabs (cos x - cos y) <= Rabs (x - y).
Proof.
  destruct (MVT_abs cos (fun t => - sin t) y x ltac:(intros c Hc; apply derivable_pt_lim_cos)) as (c & Hc & _). rewrite Hc, Rabs_Ropp. pose proof (SIN_bound c). pose proof (Rabs_pos (x - y)). assert (Rabs (sin c) <= 1) by (apply Rabs_le; lra). nra.
Qed.
Lemma sin_lip x y : Rabs (sin x - sin y) <= Rabs (x - y).
Proof.
  destruct (MVT_abs sin cos y x ltac:(intros c Hc; apply derivable_pt_lim_sin)) as (c & Hc & _). rewrite Hc. pose proof (COS_bound c). pose proof (Rabs_pos (x - y)). assert (Rabs (cos c) <= 1) by (apply Rabs_le; lra). nra.
Qed.
Lemma qn1 : Q2R (-1) = -1. Proof. unfold Q2R. cbn. lra. Qed.
(** The value of a rational literal. *)
Ltac qv := unfold Q2R; cbn -[IZR]; lra.

Lemma near_in_q X (l h l' h' : Q) : Q2R l <= X <= Q2R h -> Qle_bool l' l = true -> Qle_bool h h' = true -> Q2R l' <= X <= Q2R h'.
Proof. intros R A B. apply qle in A, B. lra. Qed.

Lemma sqrt3_le x y z p q r e : Rabs x <= p -> Rabs y <= q -> Rabs z <= r -> 0 <= e -> p * p + q * q + r * r <= e * e -> sqrt (x * x + y * y + z * z) <= e.
Proof.
  intros X Y Z E H. rewrite <- (sqrt_square e E). apply sqrt_le_1_alt. assert (S : forall u v, Rabs u <= v -> u * u <= v * v) by (intros u v K; replace (u * u) with (Rabs u * Rabs u) by (rewrite <- Rabs_mult; apply Rabs_right; nra); pose proof (Rabs_pos u); nra).
  pose proof (S _ _ X). pose proof (S _ _ Y). pose proof (S _ _ Z). lra.
Qed.

Section Lm.
Context (lm : libm) (AC : accurate lm).
Notation near_in x X lo hi := (near x X lo hi 0 0).

Lemma near_sin x X lo hi d e : near x X lo hi d e -> Qle_bool (e + d * mag lo hi + mag lo hi) 1000 = true -> near (lm_sin lm x) (sin X) (-1) 1 ulp4 (fun_e 1 lo hi d e).
Proof.
  intros H C. apply (near_fun _ sin _ 1 _ _ _ _ _ _ _ _ (ac_sin lm AC) H).
  - pose proof (near_err _ _ _ _ _ _ H) as E. destruct H as (_ & B & _). pose proof (mag_ge _ _ _ B) as M. apply qle in C. rewrite Q2R_plus in C. replace (Q2R 1000) with 1000 in C by qv. replace (B2R x) with (X + (B2R x - X)) by ring. eapply Rle_trans; [apply Rabs_triang|]. lra.
  - rewrite q1, Rmult_1_l. apply sin_lip.
  - rewrite q1. lra.
  - rewrite q1, qn1. apply SIN_bound.
Qed.
Lemma near_cos x X lo hi d e : near x X lo hi d e -> Qle_bool (e + d * mag lo hi + mag lo hi) 1000 = true -> near (lm_cos lm x) (cos X) (-1) 1 ulp4 (fun_e 1 lo hi d e).
Proof.
  intros H C. apply (near_fun _ cos _ 1 _ _ _ _ _ _ _ _ (ac_cos lm AC) H).
  - pose proof (near_err _ _ _ _ _ _ H) as E. destruct H as (_ & B & _). pose proof (mag_ge _ _ _ B) as M. apply qle in C. rewrite Q2R_plus in C. replace (Q2R 1000) with 1000 in C by qv. replace (B2R x) with (X + (B2R x - X)) by ring. eapply Rle_trans; [apply Rabs_triang|]. lra.
  - rewrite q1, Rmult_1_l. apply cos_lip.
  - rewrite q1. lra.
  - rewrite q1, qn1. apply COS_bound.
Qed.
(** Sums of longitudes. *)
Lemma near_lon_add (l m : f64) : is_finite l = true -> is_finite m = true -> Rabs (B2R l) <= 4 -> Rabs (B2R m) <= 4 -> exists k : Z, near (lon_add (ops := F64ops lm) l m) (B2R l + B2R m - IZR k * (2 * PI)) (-4) 4 0 (Qmake 6 (2 ^ 50)).
Proof.
  intros Fl Fm Hl Hm. apply Rabs_le_inv in Hl, Hm. pose proof (near_exact l (-4) 4 Fl ltac:(split; unfold Q2R; cbn; lra)) as N1. pose proof (near_exact m (-4) 4 Fm ltac:(split; unfold Q2R; cbn; lra)) as N2. nadd N1 N2 N3.
  pose proof (near_err _ _ _ _ _ _ N3) as E. destruct N3 as (F3 & _). set (s := Bplus mode_NE l m) in *.
  assert (E' : Rabs (B2R s - (B2R l + B2R m)) <= / 2 ^ 50 * (5 / 4)). { eapply Rle_trans; [exact E|]. replace (/ 2 ^ 50 * (5 / 4)) with (Q2R (Qmake 5 (2 ^ 52))); [apply qle; vm_compute; reflexivity|]. rewrite q2r_make. replace (2 ^ 50) with (IZR (2 ^ 50)) by (rewrite pow_IZR; reflexivity). cbn. lra. } clear E.
  assert (U : / 2 ^ 50 <= / 100) by (apply Rinv_le_contravar; [lra|]; replace (2 ^ 50) with (IZR (2 ^ 50)) by (rewrite pow_IZR; reflexivity); apply IZR_le; cbn; lia). apply Rabs_le_inv in E'.
  assert (AS : Rabs (B2R s) <= 81 / 10) by (apply Rabs_le; lra).
  destruct (wrapped_error lm s F3 ltac:(eapply Rle_trans; [exact AS|]; replace (2 ^ 50) with (IZR (2 ^ 50)) by (rewrite pow_IZR; reflexivity); cbn; lra)) as (W1 & W2 & k & W3). exists k.
  match type of W1 with is_finite ?t = true => change (lon_add (ops := F64ops lm) l m) with t; set (w := t) in * end. set (u := / 2 ^ 50) in *. assert (U2 : / 2 ^ 52 = u / 4) by (unfold u; replace (2 ^ 52) with (2 ^ 50 * 4) by ring; field). rewrite U2 in W2, W3. assert (U0 : 0 < u) by (unfold u; apply Rinv_0_lt_compat, pow_lt; lra).
  assert (W3' : Rabs (B2R w - (B2R s - IZR k * (2 * PI))) <= u / 4 * (161 / 10)) by (eapply Rle_trans; [exact W3|]; apply Rmult_le_compat_l; lra).
  assert (V : Rabs (B2R w - (B2R l + B2R m - IZR k * (2 * PI))) <= 6 * u). { apply Rabs_le_inv in W3'. apply Rabs_le. lra. }
  assert (P4 : B2R PI64 <= 3.15) by (rewrite (proj1 PI64_val); unfold m_pi; replace (2 ^ 51) with (IZR (2 ^ 51)) by (rewrite pow_IZR; reflexivity); cbn; lra).
  assert (WB : - 3.15 <= B2R w <= 3.2). { assert (u / 4 * (Rabs (B2R s) + 8) <= u / 4 * (161 / 10)) by (apply Rmult_le_compat_l; lra). lra. }
  assert (QE : Q2R (Qmake 6 (2 ^ 50)) = 6 * u). { rewrite q2r_make. unfold u. replace (2 ^ 50) with (IZR (2 ^ 50)) by (rewrite pow_IZR; reflexivity). reflexivity. }
  split; [exact W1|]. split; [apply Rabs_le_inv in V; replace (Q2R (-4)) with (-4) by qv; replace (Q2R 4) with 4 by qv; lra|]. rewrite q0, QE. split; [lra|]. split; [lra|]. lra.
Qed.
Lemma cos_turns x k : cos (x - IZR k * (2 * PI)) = cos x.
Proof. symmetry. apply same_angle_cos. exists k. lra. Qed.
Lemma sin_turns x k : sin (x - IZR k * (2 * PI)) = sin x.
Proof. symmetry. apply same_angle_sin. exists k. lra. Qed.

Section Earth.
Context (E : Ellipsoid f64) (a b : R) (HE : earth64 E a b).

Lemma near_axes : near_in (e_a E) a 6300000 6400000 /\ near_in (e_b E) b 6300000 6400000.
Proof.
  destruct HE as ((F1 & V1) & (F2 & V2) & _ & B1 & B2 & B3 & _). split; [rewrite <- V1|rewrite <- V2]; apply near_exact; auto; [rewrite V1|rewrite V2]; split; unfold Q2R; cbn; lra.
Qed.
Lemma near_e2 : near (e_sq (ops := F64ops lm) E) ((a - b) * (a + b) / (a * a)) 0 (Qmake 199 10000) (Qmake 7 (2 ^ 53)) (Qmake 1 (2 ^ 116)).
Proof.
  destruct near_axes as [NA NB]. nsub NA NB N1. nadd NA NB N2. nmul N1 N2 N3. nmul NA NA N4. ndiv N3 N4 N5.
  destruct HE as (_ & _ & _ & B1 & B2 & B3 & B4). refine (near_weak _ _ _ _ _ _ _ _ _ _ N5 _ _ _); [|vm_compute; reflexivity|vm_compute; reflexivity].
  replace (Q2R 0) with 0 by qv. replace (Q2R (Qmake 199 10000)) with (199 / 10000) by qv. assert (AP : 0 < a * a) by nra. split; [apply Rmult_le_pos; [nra|left; now apply Rinv_0_lt_compat]|].
  apply (Rmult_le_reg_r (a * a)); [exact AP|]. unfold Rdiv. rewrite Rmult_assoc, Rinv_l by lra. nra.
Qed.
Lemma not_spherical : is_spherical (ops := F64ops lm) E = false.
Proof.
  destruct HE as ((F1 & V1) & (F2 & V2) & F3 & B1 & B2 & _). unfold is_spherical. apply orb_false_iff. split.
  - change (Beqb (e_a E) (e_b E) = false). rewrite (Beqb_correct 53 1024 _ _ F1 F2), V1, V2. apply Req_bool_false. lra.
  - cbn. destruct (e_invf E); try discriminate; reflexivity.
Qed.
Lemma near_pvr (p : f64) : is_finite p = true -> Rabs (B2R p) <= 2 -> near (prime_vertical_radius (ops := F64ops lm) E p) (a * a / gell a b (B2R p)) 6300000 6500000 (Qmake 3 (2 ^ 53)) (Qmake 1 (2 ^ 100)).
Proof.
  intros Fp Hp. apply Rabs_le_inv in Hp. pose proof (near_exact p (-2) 2 Fp ltac:(split; unfold Q2R; cbn; lra)) as N1. pose proof (near_sin _ _ _ _ _ _ N1 ltac:(vm_compute; reflexivity)) as N2. nnorm N2.
  nmul N2 N2 N3. assert (S2 : 0 <= sin (B2R p) * sin (B2R p) <= 1) by (pose proof (SIN_bound (B2R p)); nra). apply (near_range _ _ _ _ _ _ 0 1) in N3; [|rewrite q0, q1; exact S2].
  pose proof near_e2 as N4. nmul N4 N3 N5. nZ 1%Z N6. nsub N6 N5 N7. nsqrt N7 N8. destruct near_axes as [NA NB]. ndiv NA N8 N9.
  destruct HE as (_ & _ & _ & B1 & B2 & B3 & B4). pose proof (gell_bound a b ltac:(lra) (B2R p)) as G.
  assert (X : a / sqrt (1 - (a - b) * (a + b) / (a * a) * (sin (B2R p) * sin (B2R p))) = a * a / gell a b (B2R p)).
  { replace ((a - b) * (a + b)) with (a * a - b * b) by ring. rewrite (gell_w a b ltac:(lra)). field. lra. }
  rewrite X in N9. refine (near_weak _ _ _ _ _ _ _ _ _ _ N9 _ _ _); [|vm_compute; reflexivity|vm_compute; reflexivity].
  replace (Q2R 6300000) with 6300000 by qv. replace (Q2R 6500000) with 6500000 by qv. set (g := gell a b (B2R p)) in *. split; apply (Rmult_le_reg_r g); try lra; unfold Rdiv; rewrite ?Rmult_assoc, Rinv_l by lra; nra.
Qed.

Lemma llh_to_xyz_near (d : GeodeticDatum f64) (l p h : f64) : d_ellipsoid d = E -> is_finite (pm_lon (d_pm d)) = true -> Rabs (B2R (pm_lon (d_pm d))) <= 4 ->
  is_finite l = true -> Rabs (B2R l) <= 4 -> is_finite p = true -> Rabs (B2R p) <= 2 -> is_finite h = true -> Rabs (B2R h) <= 210000 ->
  let X := llh_to_xyz (ops := F64ops lm) d (mkLLH l p h) in let L := B2R l + B2R (pm_lon (d_pm d)) in let g := gell a b (B2R p) in
  near (x_ X) ((a * a / g + B2R h) * cos (B2R p) * cos L) (-7000000) 7000000 0 (Qmake 54 (10 ^ 9)) /\ near (y_ X) ((a * a / g + B2R h) * cos (B2R p) * sin L) (-7000000) 7000000 0 (Qmake 54 (10 ^ 9)) /\
  near (z_ X) ((b * b / g + B2R h) * sin (B2R p)) (-7000000) 7000000 0 (Qmake 12 (10 ^ 9)).
Proof.
  intros DE Fm Bm Fl Bl Fp Bp Fh Bh X L g. destruct (near_lon_add l (pm_lon (d_pm d)) Fl Fm Bl Bm) as [k NL]. pose proof (near_pvr p Fp Bp) as NV. pose proof near_e2 as N2.
  subst X. unfold llh_to_xyz. rewrite DE, not_spherical. cbn [lon lat height x_ y_ z_].
  apply Rabs_le_inv in Bp, Bh. pose proof (near_exact p (-2) 2 Fp ltac:(split; unfold Q2R; cbn; lra)) as NP. pose proof (near_exact h (-210000) 210000 Fh ltac:(split; unfold Q2R; cbn; lra)) as NH.
  pose proof (near_sin _ _ _ _ _ _ NP ltac:(vm_compute; reflexivity)) as NS. nnorm NS. pose proof (near_cos _ _ _ _ _ _ NP ltac:(vm_compute; reflexivity)) as NC. nnorm NC.
  pose proof (near_sin _ _ _ _ _ _ NL ltac:(vm_compute; reflexivity)) as NSL. nnorm NSL. pose proof (near_cos _ _ _ _ _ _ NL ltac:(vm_compute; reflexivity)) as NCL. nnorm NCL. rewrite sin_turns in NSL. rewrite cos_turns in NCL. fold L in NSL, NCL.
  nadd NV NH N3. nmul NC N3 N4. nmul NCL N4 NX. nmul NSL N4 NY. nZ 1%Z N1. nsub N1 N2 N5. nmul N5 NV N6. nadd N6 NH N7. nmul NS N7 NZ.

  destruct HE as (_ & _ & _ & B1 & B2 & B3 & B4). pose proof (gell_bound a b ltac:(lra) (B2R p)) as G. fold g in G, NX, NY, NZ.
  assert (XE : cos L * (cos (B2R p) * (a * a / g + B2R h)) = (a * a / g + B2R h) * cos (B2R p) * cos L) by ring.
  assert (YE : sin L * (cos (B2R p) * (a * a / g + B2R h)) = (a * a / g + B2R h) * cos (B2R p) * sin L) by ring.
  assert (ZE : sin (B2R p) * ((1 - (a - b) * (a + b) / (a * a)) * (a * a / g) + B2R h) = (b * b / g + B2R h) * sin (B2R p)) by (field; lra).
  rewrite XE in NX. rewrite YE in NY. rewrite ZE in NZ. clear XE YE ZE. apply near_abs in NX, NY, NZ. nnorm NX. nnorm NY. nnorm NZ.
  split; [|split].
  - refine (near_weak _ _ _ _ _ _ _ _ _ _ NX _ _ _); [|vm_compute; reflexivity|vm_compute; reflexivity]. destruct NX as (_ & R & _). eapply near_in_q; [exact R| |]; vm_compute; reflexivity.
  - refine (near_weak _ _ _ _ _ _ _ _ _ _ NY _ _ _); [|vm_compute; reflexivity|vm_compute; reflexivity]. destruct NY as (_ & R & _). eapply near_in_q; [exact R| |]; vm_compute; reflexivity.
  - refine (near_weak _ _ _ _ _ _ _ _ _ _ NZ _ _ _); [|vm_compute; reflexivity|vm_compute; reflexivity]. destruct NZ as (_ & R & _). eapply near_in_q; [exact R| |]; vm_compute; reflexivity.
Qed.
(** The point within 80 nanometres. *)
Lemma llh_to_xyz_within (d : GeodeticDatum f64) (l p h : f64) : d_ellipsoid d = E -> is_finite (pm_lon (d_pm d)) = true -> Rabs (B2R (pm_lon (d_pm d))) <= 4 ->
  is_finite l = true -> Rabs (B2R l) <= 4 -> is_finite p = true -> Rabs (B2R p) <= 2 -> is_finite h = true -> Rabs (B2R h) <= 210000 ->
  exists P, geodetic_point a b (B2R p) (B2R l + B2R (pm_lon (d_pm d))) (B2R h) P /\ within64 (llh_to_xyz (ops := F64ops lm) d (mkLLH l p h)) (8 / 10 ^ 8) P.
Proof.
  intros DE Fm Bm Fl Bl Fp Bp Fh Bh. destruct (llh_to_xyz_near d l p h DE Fm Bm Fl Bl Fp Bp Fh Bh) as (NX & NY & NZ).
  set (W := llh_to_xyz (ops := F64ops lm) d (mkLLH l p h)) in *. set (L := B2R l + B2R (pm_lon (d_pm d))) in *. destruct HE as (_ & _ & _ & B1 & B2 & B3 & B4).
  pose proof (near_err _ _ _ _ _ _ NX) as EX. pose proof (near_err _ _ _ _ _ _ NY) as EY. pose proof (near_err _ _ _ _ _ _ NZ) as EZ. destruct NX as [FX _]. destruct NY as [FY _]. destruct NZ as [FZ _].
  replace (Q2R (Qmake 54 (10 ^ 9) + 0 * mag (-7000000) 7000000)) with (54 / 10 ^ 9) in EX, EY by (rewrite Q2R_plus, Q2R_mult, q0, q2r_make; cbn; lra).
  replace (Q2R (Qmake 12 (10 ^ 9) + 0 * mag (-7000000) 7000000)) with (12 / 10 ^ 9) in EZ by (rewrite Q2R_plus, Q2R_mult, q0, q2r_make; cbn; lra).
  eexists. split; [do 3 eexists; split; [apply (surface_the a b ltac:(lra)); repeat split; reflexivity|unfold normal; cbv beta iota; reflexivity]|].
  split; [exact FX|]. split; [exact FY|]. split; [exact FZ|].
  cbn [edist]. match goal with |- sqrt (?x * ?x + ?y * ?y + ?z * ?z) <= _ => apply (sqrt3_le x y z (54 / 10 ^ 9) (54 / 10 ^ 9) (12 / 10 ^ 9)) end.
  - eapply Rle_trans; [|exact EX]. right. f_equal. ring.
  - eapply Rle_trans; [|exact EY]. right. f_equal. ring.
  - eapply Rle_trans; [|exact EZ]. right. f_equal. ring.
  - lra.
  - lra.
Qed.
End Earth.
End Lm.

(** ** The predefined ellipsoids *)
Definition earthb (E : Ellipsoid f64) : bool :=
  is_finite (e_a E) && is_finite (e_b E) && is_finite (e_invf E) && Bleb (f64_ofZ 6340000) (e_b E) && Bltb (e_b E) (e_a E) && Bleb (e_a E) (f64_ofZ 6400000).
Lemma earthb_ok E : earthb E = true -> earth64 E (B2R (e_a E)) (B2R (e_b E)).
Proof.
  unfold earthb. rewrite !andb_true_iff. intros (((((A & B) & C) & D) & L) & G).
  destruct (near_Z 6340000 ltac:(cbn; lia)) as (F1 & _). destruct (near_Z 6400000 ltac:(cbn; lia)) as (F2 & _). pose proof (near_err _ _ _ _ _ _ (near_Z 6340000 ltac:(cbn; lia))) as E1. pose proof (near_err _ _ _ _ _ _ (near_Z 6400000 ltac:(cbn; lia))) as E2. rewrite Q2R_plus, Q2R_mult, q0 in E1, E2. apply Rabs_le_inv in E1, E2.
  rewrite Bleb_correct in D, G by easy. rewrite Bltb_correct in L by easy. destruct (Rle_bool_spec (B2R (f64_ofZ 6340000)) (B2R (e_b E))); [|discriminate]. destruct (Rle_bool_spec (B2R (e_a E)) (B2R (f64_ofZ 6400000))); [|discriminate]. destruct (Rlt_bool_spec (B2R (e_b E)) (B2R (e_a E))); [|discriminate].
  split; [now split|]. split; [now split|]. split; [exact C|]. lra.
Qed.
Lemma consts_earth lm : List.forallb earthb (ellipsoid_consts (ops := F64ops lm)) = true.
Proof. vm_compute. reflexivity. Qed.
Lemma consts_earth64 lm E : List.In E (ellipsoid_consts (ops := F64ops lm)) -> exists a b, earth64 E a b.
Proof. intros H. pose proof (proj1 (List.forallb_forall _ _) (consts_earth lm) E H) as K. do 2 eexists. exact (earthb_ok _ K). Qed.
