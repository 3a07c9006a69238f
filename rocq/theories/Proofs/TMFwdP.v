(** The statements of Props/Transverse64.v. *)
From Coq Require Import ZArith Reals QArith Qreals Lra Lia Bool Psatz List.
From Flocq Require Import Core IEEE754.BinarySingleNaN.
From Verif.Num Require Import FOps RFun XR XRLemmas F64 F64Lemmas PIBounds Near.
From Verif.Model Require Import Fp Quantities Cs Ellipsoid Geodesics Projections.
From Verif.Spec Require Import Angles Axes Shape Maps Krueger Conformal Accurate Binary64 Maps64 Transverse64.
From Verif.Proofs Require Import AnglesX AnglesF EllX MercX TMX TMConf TMScale TMArc NearX NearL LlhF LlhInvG TransB CtorF NearT MapF MercF MercG NearH TMNear TMFwd TMFwdM Bin64P LibmOk.
Import ListNotations.
Local Open Scope R_scope.

Section E.
Context (a b : R) (AB : 0 < b <= a) (Hf : 99 * a <= 100 * b) (lon0 lat0 k0 fe fn : R) (HP : nonpolar lat0) (Hk : 0 < k0).
Lemma c_transverse : transverse_map a b lon0 lat0 k0 fe fn (ceast a b lon0 k0 fe) (cnorth a b lon0 lat0 k0 fn).
Proof.
  pose proof (xell_shape a b AB) as SH. split; [intros p _; apply ceast_same; exists 0%Z; ring|]. split.
  - unfold cnorth, tm0, mu. rewrite beta_e_np by exact HP. fold (cq a b lat0). set (q := cq a b lat0). replace (lon0 - lon0) with 0 by ring.
    assert (T : te q 0 = 0) by (unfold te; rewrite sin_0; unfold Rdiv; rewrite Rmult_0_l; apply Ratanh_0). assert (X : tx q 0 = gd q) by (unfold tx; rewrite cos_0; unfold Rdiv; rewrite Rinv_1, Rmult_1_r; reflexivity). rewrite T, X. ring.
  - exists (mer_x a b), (mer_z a b). split; [apply (mer_meridian _ a b SH)|]. intros l p Hp Hc. exists (cscale a b lon0 k0 l p), (cturn a b lon0 l p). split; [apply (cscale_pos _ a b SH lon0 k0 l p Hk Hp)|]. split; [apply Ratan2_bound|]. split; [now apply (cconf _ a b SH lon0 lat0 k0 fe fn)|]. split; [intros H2; now apply (conf_positive _ a b SH Hf lon0 k0 Hk)|].
    intros SA. destruct (central_scale _ a b SH Hf lon0 k0 Hk l p Hp SA) as [A B]. split; [exact B|exact A].
Qed.
End E.
Lemma cos_45 c : cos (PI / 4) <= c -> / 2 <= c * c /\ 0 < c.
Proof. rewrite cos_PI4'. intros H. assert (Q : sqrt 2 * sqrt 2 = 2) by (apply sqrt_sqrt; lra). assert (0 < sqrt 2) by (apply sqrt_lt_R0; lra). split; [nra|lra]. Qed.
Section F.
Context (lm : libm) (AC : accurate lm) (E : Ellipsoid f64) (a b : R) (HE : earth64 E a b).
Local Notation O := (F64ops lm).
Lemma c62_tm (lon0 lat0 k0 fe fn : f64) LON0 LAT0 K0 FE FN : val64 lon0 LON0 -> val64 lat0 LAT0 -> val64 k0 K0 -> val64 fe FE -> val64 fn FN ->
  Rabs LON0 <= 4 -> Rabs LAT0 <= 84 * PI / 180 -> 9 / 10 <= K0 <= 11 / 10 -> Rabs FE <= 100000000 -> Rabs FN <= 100000000 ->
  exists east north, transverse_map a b LON0 LAT0 K0 FE FN east north /\ transverse64 lm (applied_to (ops := O) (STransverseMercator lon0 lat0 k0 fe fn) E) LON0 east north.
Proof.
  intros V0 VP Vk Ve Vn B0 BP Bk Be Bn. destruct (e_range E a b HE) as [AB _]. exists (ceast a b LON0 K0 FE), (cnorth a b LON0 LAT0 K0 FN). split.
  - destruct HE as (_ & _ & _ & _ & _ & _ & Hf). apply c_transverse; [lra|exact Hf|exact (np_84 _ BP)|lra].
  - intros l p h L B Vl Vp Bl Bp Hc. destruct (cos_45 _ Hc) as [C1 C2]. destruct (tm_fwd lm AC E a b HE lon0 lat0 k0 fe fn l p LON0 LAT0 K0 FE FN L B V0 VP Vk Ve Vn Vl Vp B0 BP Bk Be Bn Bl Bp C1 C2 h) as (x & y & H). exists x, y. exact H.
Qed.
(** UTM *)
Lemma near_utm z : (1 <= z <= 60)%Z -> exists k : Z, near (utm_lon0 (ops := O) z) ((6 * IZR z - 180) * (PI / 180) - IZR k * (2 * PI)) (Qmake (-32) 10) (Qmake 32 10) 0 (Qmake 1 (10 ^ 14)).
Proof.
  intros HZ. pose proof (near_Z z ltac:(lia)) as NZ. assert (1 <= IZR z <= 60) as ZB by (split; apply IZR_le; lia).
  apply (near_range _ _ _ _ _ _ 1 60) in NZ; [|rewrite Near.q1; replace (Q2R 60) with 60 by qr; exact ZB].
  pose proof near_pi as NP. nrel NP. nZ 177%Z N177. nZ 6%Z N6. nZ 2%Z N2. nZ 180%Z N180. pose proof (near_opp _ _ _ _ _ _ N177) as M177. nmul NZ N6 W1. nadd M177 W1 W2. ndiv N6 N2 W3. nsub W2 W3 W4. ndiv NP N180 U. nmul W4 U W5.
  unfold utm_lon0, lon_new, angle_new, per_unit, DEG, UTM_ZONE_1_WEST_LIMIT_DEG, UTM_ZONE_WIDTH_DEG. cbn [fst snd]. cbn [fadd fsub fmul fdiv fneg fofZ fpi F64ops].
  pose proof (near_err _ _ _ _ _ _ W5) as E5. pose proof (proj1 W5) as F5. revert F5 E5. match goal with |- is_finite ?t = true -> _ => generalize t end. intros t F5 E5.
  set (D := (6 * IZR z - 180) * (PI / 180)) in *. match type of E5 with Rabs (_ - ?T) <= _ => replace T with D in E5 by (unfold D; field) end.
  assert (E6 : Rabs (B2R t - D) <= 4 / 10 ^ 15). { eapply Rle_trans; [exact E5|]. assert (QE : Q2R (Qmake 4 (10 ^ 15)) = 4 / 10 ^ 15) by qmk. rewrite <- QE. apply qle. vm_compute. reflexivity. } clear E5.
  pose proof PI_64_bounds as PB. assert (DB : Rabs D <= PI) by (apply Rabs_le; unfold D; split; nra). assert (TB : Rabs (B2R t) <= 32 / 10) by (apply Rabs_le_inv in E6, DB; apply Rabs_le; lra).
  destruct (near_wrap lm t D _ _ F5 E6 TB ltac:(lra)) as (k & K1 & K2 & K3). exists k. split; [exact K1|]. destruct PI64_val as [PV PF]. rewrite PV in K2. unfold m_pi in K2. apply Rabs_le_inv in K3. rewrite Near.q0. assert (QE : Q2R (Qmake 1 (10 ^ 14)) = 1 / 10 ^ 14) by qmk. rewrite QE. replace (Q2R (Qmake (-32) 10)) with (-32 / 10) by qr. replace (Q2R (Qmake 32 10)) with (32 / 10) by qr.
  split; [lra|]. split; [lra|]. split; [lra|]. apply Rabs_le. lra.
Qed.
Lemma near_k0 : near (UTM_K0 (ops := O)) (9996 / 10000) (Qmake 9 10) (Qmake 11 10) 0 (Qmake 12 (10 ^ 17)).
Proof.
  unfold UTM_K0. change (flit (FOps := O) 9996 4) with (Bdiv mode_NE (f64_ofZ 9996) (f64_ofZ 10000)). nZ 9996%Z N1. nZ 10000%Z N2. ndiv N1 N2 W. apply near_abs in W. nnorm W. refine (near_weak _ _ _ _ _ _ _ _ _ _ W _ _ _); [split; qr|vm_compute; reflexivity|vm_compute; reflexivity].
Qed.
Lemma near_len z : (Z.abs z <= 2 ^ 53)%Z -> val64 (length_new (ops := O) (f64_ofZ z) (M (ops := O))) (IZR z).
Proof.
  intros H. unfold length_new, per_unit, M. cbn [fst snd fmul fdiv F64ops fofZ].
  destruct (f64_Z 1 ltac:(vm_compute; discriminate)) as [F1 V1]. assert (F2 : is_finite (Bdiv mode_NE (f64_ofZ 1) (f64_ofZ 1)) = true) by (vm_compute; reflexivity). assert (N1 : Beqb (Bdiv mode_NE (f64_ofZ 1) (f64_ofZ 1)) (f64_ofZ 1) = true) by (vm_compute; reflexivity).
  rewrite (Beqb_correct 53 1024 _ _ F2 F1), V1 in N1. revert F2 N1. generalize (Bdiv mode_NE (f64_ofZ 1) (f64_ofZ 1)). intros u F2 N1. destruct (Req_bool_spec (B2R u) 1) as [V2|]; [|discriminate N1]. destruct (f64_Z z H) as [FZ VZ].
  pose proof (Bmult_correct 53 1024 _ _ mode_NE (f64_ofZ z) u) as Q. rewrite V2, Rmult_1_r, (round_generic _ _ _ (B2R (f64_ofZ z)) (generic_format_B2R 53 1024 (f64_ofZ z))) in Q.
  rewrite Rlt_bool_true in Q by apply (abs_B2R_lt_emax 53 1024). destruct Q as (Q1 & Q2 & _). rewrite FZ, F2 in Q2. split; [exact Q2|]. rewrite <- VZ. exact Q1.
Qed.
Lemma c62_utm z : (1 <= z <= 60)%Z -> exists lon0 k0, (exists k : Z, Rabs (lon0 - ((6 * IZR z - 180) * (PI / 180) + IZR k * (2 * PI))) <= / 10 ^ 14) /\ Rabs (k0 - 0.9996) <= / 10 ^ 15 /\
  (exists east north, transverse_map a b lon0 0 k0 500000 0 east north /\ transverse64 lm (applied_to (ops := O) (SUTMNorth z) E) lon0 east north) /\
  (exists east north, transverse_map a b lon0 0 k0 500000 10000000 east north /\ transverse64 lm (applied_to (ops := O) (SUTMSouth z) E) lon0 east north).
Proof.
  intros HZ. destruct (near_utm z HZ) as (k & N). destruct N as (F0 & R0 & _ & _ & E0). destruct near_k0 as (F1 & R1' & _ & _ & E1). exists (B2R (utm_lon0 (ops := O) z)), (B2R (UTM_K0 (ops := O))).
  rewrite Near.q0 in E0, E1. assert (QE : Q2R (Qmake 1 (10 ^ 14)) = 1 / 10 ^ 14) by qmk. rewrite QE in E0. clear QE. assert (QE : Q2R (Qmake 12 (10 ^ 17)) = 12 / 10 ^ 17) by qmk. rewrite QE in E1. clear QE. replace (Q2R (Qmake (-32) 10)) with (-32 / 10) in R0 by qr. replace (Q2R (Qmake 32 10)) with (32 / 10) in R0 by qr.
  apply Rabs_le_inv in E0, E1. pose proof PI_64_bounds as PB.
  split; [exists (- k)%Z; rewrite opp_IZR; apply Rabs_le; lra|]. split; [apply Rabs_le; lra|].
  assert (L4 : Rabs (B2R (utm_lon0 (ops := O) z)) <= 4) by (apply Rabs_le; lra).
  destruct (f64_Z 0 ltac:(vm_compute; discriminate)) as [FZ VZ]. pose proof (near_len 500000 ltac:(vm_compute; discriminate)) as VE. pose proof (near_len 10000000 ltac:(vm_compute; discriminate)) as VN.
  split; (eapply (c62_tm _ _ _ _ _ _ 0); [split; [exact F0|reflexivity]|split; [exact FZ|exact VZ]|split; [exact F1|reflexivity]|exact VE|first [exact (conj FZ VZ)|exact VN]|exact L4|rewrite Rabs_R0; lra|lra|apply Rabs_le; lra|apply Rabs_le; lra]).
Qed.
End F.
Lemma c62_ex : accurate libm_ex /\ (exists a b, earth64 (d_ellipsoid (DATUM_WGS84 (ops := F64ops libm_ex))) a b) /\
  val64 (f64_ofZ 0) 0 /\ val64 (f64_ofZ 1) 1 /\ val64 (f64_ofZ 500000) 500000 /\ val64 (f64_of 1 (-1)) 0.5 /\
  Rabs 0.5 <= 4 /\ Rabs 1 <= 84 * PI / 180 /\ 9 / 10 <= 1 <= 11 / 10 /\ Rabs 500000 <= 100000000 /\ cos (PI / 4) <= cos (0.5 - 0) /\ (1 <= 33 <= 60)%Z.
Proof.
  destruct c57_ex as (E1 & E2 & E3 & _ & E5 & _). pose proof PI_64_bounds as PB. split; [exact E1|]. split; [exact E2|]. split; [apply val_Z; cbn; lia|]. split; [apply val_Z; cbn; lia|]. split; [apply val_Z; cbn; lia|]. split; [exact E5|]. split; [apply Rabs_le; lra|]. split; [apply Rabs_le; lra|]. split; [lra|]. split; [apply Rabs_le; lra|]. split; [|lia].
  left. apply cos_decreasing_1; lra.
Qed.
