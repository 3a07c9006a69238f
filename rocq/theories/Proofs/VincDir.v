(** Vincenty's direct solution follows a geodesic of the ellipsoid. *)
From Coq Require Import String Reals Lra Psatz Lia.
From Coquelicot Require Import Coquelicot.
From Verif.Num Require Import FOps RFun XR XRLemmas TMod.
From Verif.Model Require Import Fp Quantities Complex Cs Ellipsoid Geodesics.
From Verif.Spec Require Import Angles Axes Shape Frames Sphere Geodesic Maps.
From Verif.Proofs Require Import AnglesX EllX SphereG SphereN GeoG GeoV GeoVD Bessel BesselP GeoAcc GeoUniq VincAcc.
Local Open Scope R_scope.

Lemma vs1_arc1 a b p al : vs1 a b p al = arc1 (vbe a b p) al.
Proof.
  unfold vs1, arc1. pose proof (cos_vbe_pos a b p) as C. replace (sin (vbe a b p)) with (cos (vbe a b p) * (b / a * tan p)).
  - symmetry. apply Ratan2_scale. exact C.
  - rewrite sin_vbe, cos_vbe. ring.
Qed.
Lemma vlat_start_ab a b : 0 < b <= a -> forall p al, - (PI / 2) < p < PI / 2 -> vlat a b (vbe a b p) al 0 = p.
Proof. intros Hab. destruct (from_ab_ok ""%string a b Hab) as (E & _ & HE). exact (vlat_start E a b HE). Qed.
Lemma within a b p al l sg d D e1 e2 l2 al2 : 0 < b <= a -> - (PI / 2) < p < PI / 2 ->
  let be := vbe a b p in
  Rabs (blen a b (ca0 be al) (arc1 be al) sg - d) <= e1 -> Rabs (D - bth a b (sa be al) (ca0 be al) (arc1 be al) sg) <= e2 ->
  same_angle l2 (l + end_lon be al sg - D) -> same_angle al2 (end_az be al sg) ->
  geodesic_within a b l p al d l2 (vlat a b be al sg) al2 (e1 + a * e2).
Proof.
  intros Hab Hp be H1 H2 A B. pose proof (cos_vbe_pos a b p : 0 < cos be) as Hbe.
  destruct (accuracy a b be al l Hab Hbe sg d D e1 e2 H1 H2) as (t & Lt & K1 & K2).
  destruct (curve_start a b be al l Hab Hbe) as [C1 C2].
  assert (VS : vlat a b be al 0 = p) by (unfold be, vlat; apply (vlat_start_ab a b Hab p al Hp)).
  rewrite VS in C1, C2.
  pose proof (curve_geodesic a b be al l Hab) as CG. set (h := bpt a b (sa be al) (ca0 be al) (arc1 be al) (l - node_lon be al (arc1 be al))) in *. set (S := bdir a b (sa be al) (ca0 be al) (arc1 be al) (l - node_lon be al (arc1 be al))) in *. set (ln := blen a b (ca0 be al) (arc1 be al)) in *.
  assert (L0 : ln 0 = 0) by apply blen_0. split; [exists h, S, ln, t; split; [repeat (split; [assumption|]); assumption|exact Lt]|].
  intros g T len u (G & Z0 & P0 & T0) Hu.
  destruct (geodesic_follows a b Hab h S ln g T len u b ltac:(lra) (len_grows a b be al Hab) (len_onto a b be al Hab) CG L0 G Z0 ltac:(apply (surface_unique a b Hab p l); assumption) ltac:(rewrite T0, C2; reflexivity) t ltac:(rewrite Lt; symmetry; exact Hu)) as [-> ->].
  split.
  - intros Q HQ. now apply (K1 l2 Q A).
  - intros NZ. assert (EC : 0 < end_cos be al sg).
    { apply end_cos_pos. intros Z. apply NZ. destruct (vlat_trig a b be al Hab sg) as [X _]. rewrite Z, Rmult_0_r in X. apply Rmult_integral in X as [X|X]; [|exact X].
      pose proof (bw_pos a b (sa be al) (ca0 be al) Hab (sc0 be al) (arc1 be al + sg)). lra. }
    eapply Rle_trans; [apply (K2 EC l2 al2 A B)|]. rewrite Rmult_plus_distr_l. apply Rplus_le_compat_l.
    assert (0 <= e2) by (eapply Rle_trans; [apply Rabs_pos|exact H2]). replace (a * a / (b * b * b) * (a * e2)) with (a / b * (a / b) * (a / b) * e2) by (field; lra).
    assert (1 <= a / b) by (apply (Rmult_le_reg_r b); [lra|]; replace (a / b * b) with a by (field; lra); lra).
    assert (1 <= a / b * (a / b)) by nra. assert (1 <= a / b * (a / b) * (a / b)) by nra. nra.
Qed.
Lemma within_weaken a b l p al s l2 p2 al2 e e' : 0 < b <= a -> e <= e' -> geodesic_within a b l p al s l2 p2 al2 e -> geodesic_within a b l p al s l2 p2 al2 e'.
Proof.
  intros Hab L [X K]. split; [exact X|]. intros g T len t G Ht. destruct (K g T len t G Ht) as [K1 K2]. split; [intros Q HQ; specialize (K1 Q HQ); lra|].
  intros N. eapply Rle_trans; [apply K2; exact N|]. apply Rmult_le_compat_l; [|exact L]. apply Rdiv_le_0_compat; [nra|]. repeat apply Rmult_lt_0_compat; lra.
Qed.
(** the arc and the distance *)
Lemma arc_bound a b be al t : 0 < b <= a -> b * Rabs t <= Rabs (blen a b (ca0 be al) (arc1 be al) t).
Proof.
  intros Hab. pose proof (len_grows a b be al Hab) as G. pose proof (blen_0 a b (ca0 be al) (arc1 be al)) as Z. destruct (Rle_dec 0 t) as [H|H].
  - pose proof (G 0 t H) as K. rewrite Z in K. rewrite (Rabs_right t) by lra. eapply Rle_trans; [|apply Rle_abs]. lra.
  - pose proof (G t 0 ltac:(lra)) as K. rewrite Z in K. rewrite (Rabs_left t) by lra. rewrite <- Rabs_Ropp. eapply Rle_trans; [|apply Rle_abs]. lra.
Qed.
(** the error in terms of the flattening *)
Lemma vinc_total a b be al sg d k k2 : 0 < b <= a -> 99 * a <= 100 * b -> 0 <= k <= 15 * / 10 ^ 13 -> 0 <= k2 <= 3 * / 10 ^ 13 ->
  let v := (1 - sa be al * sa be al) * ((a * a - b * b) / (b * b)) in let f := (a - b) / a in
  let e1 := b * (v ^ 4 / 5000 + v ^ 5 / 20 * Rabs sg + k) in let e2 := f ^ 4 * (Rabs sg / 20 + / 16) + 52 / 10 * f ^ 5 * Rabs sg + k2 in
  Rabs (blen a b (ca0 be al) (arc1 be al) sg - d) <= e1 -> e1 + a * e2 <= vincenty_error a b d.
Proof.
  intros Hab Hf Hk Hk2 v f e1 e2 H. pose proof (v_bound a b be al Hab Hf) as Bv. fold v in Bv. pose proof (f_bound a b Hab Hf) as Bf. fold f in Bf. pose proof (arc_bound a b be al sg Hab) as AB.
  set (x := Rabs sg) in *. assert (X0 : 0 <= x) by apply Rabs_pos.
  assert (VF : v <= 2031 / 1000 * f).
  { apply (Rle_trans _ ((a * a - b * b) / (b * b))); [unfold v; pose proof (q01 be al); pose proof (ep2_bound a b Hab Hf); nra|].
    replace ((a * a - b * b) / (b * b)) with (f * ((a / b) * ((a + b) / b))) by (unfold f; field; lra).
    assert (AB1 : a / b <= 100 / 99) by (apply (Rmult_le_reg_r b); [lra|]; replace (a / b * b) with a by (field; lra); lra).
    assert (AB0 : 0 <= a / b) by (apply Rdiv_le_0_compat; lra). replace ((a + b) / b) with (a / b + 1) by (field; lra). set (r := a / b) in *. assert (r * (r + 1) <= 2031 / 1000) by nra. rewrite Rmult_comm. apply Rmult_le_compat_r; lra. }
  assert (V4 : 0 <= v ^ 4 <= 17016 / 1000 * f ^ 4).
  { split; [apply pow_le; lra|]. eapply Rle_trans; [apply pow_incr; split; [apply Bv|exact VF]|]. rewrite Rpow_mult_distr. apply Rmult_le_compat_r; [apply pow_le; lra|]. cbn [pow]. lra. }
  assert (F4 : 0 <= f ^ 4 <= / 100000000).
  { split; [apply pow_le; lra|]. replace (/ 100000000) with ((/ 100) ^ 4) by (cbn [pow]; lra). apply pow_incr. lra. }
  assert (F5 : f ^ 5 = f * f ^ 4) by ring. assert (F5' : 0 <= f ^ 5 <= f ^ 4 / 100) by (rewrite F5; nra).
  assert (V5 : 0 <= v ^ 5 <= 3457 / 100 * f ^ 5).
  { split; [apply pow_le; lra|]. eapply Rle_trans; [apply pow_incr; split; [apply Bv|exact VF]|]. rewrite Rpow_mult_distr. apply Rmult_le_compat_r; [apply pow_le; lra|]. cbn [pow]. lra. }
  assert (T13 : 0 < / 10 ^ 13) by (apply Rinv_0_lt_compat, pow_lt; lra). assert (T12 : / 10 ^ 12 = 10 * / 10 ^ 13) by (cbn [pow]; field).
  assert (D0 : 0 <= Rabs d) by apply Rabs_pos. assert (LL : b * x <= Rabs d + e1).
  { eapply Rle_trans; [exact AB|]. replace (blen _ _ _ _ sg) with (d + (blen a b (ca0 be al) (arc1 be al) sg - d)) by ring. eapply Rle_trans; [apply Rabs_triang|]. lra. }
  unfold vincenty_error. fold f. replace (2 / 10 ^ 12) with (20 * / 10 ^ 13) by (cbn [pow]; field). unfold e1 in *. unfold e2. clear AB H e1 e2. set (g4 := f ^ 4) in *. set (g5 := f ^ 5) in *. set (v4 := v ^ 4) in *. set (v5 := v ^ 5) in *. clearbody g4 g5 v4 v5.
  set (D := Rabs d) in *. clearbody D x. set (e := / 10 ^ 13) in *. assert (E : e <= / 1000) by (unfold e; apply Rinv_le_contravar; [lra|]; cbn [pow]; lra). clearbody e.
  assert (BX0 : 0 <= b * x) by (apply Rmult_le_pos; lra).
  assert (BX : b * x <= 1001 / 1000 * D + b * (4 / 1000 * g4 + 16 * e)).
  { assert (b * (v5 / 20 * x) <= / 10000 * (b * x)) by (replace (b * (v5 / 20 * x)) with (v5 / 20 * (b * x)) by ring; apply Rmult_le_compat_r; [exact BX0|lra]). nra. }
  assert (AX : a * x <= 1012 / 1000 * D + a * (5 / 1000 * g4 + 17 * e)).
  { apply (Rle_trans _ (100 / 99 * (b * x))); [nra|]. assert (0 <= 4 / 1000 * g4 + 16 * e) by lra. nra. }
  assert (BA1 : b * (v4 / 5000 + v5 / 20 * x + k) <= a * (34035 / 10000000 * g4 + 17285 / 10000 * g5 * x + 15 * e)).
  { assert (0 <= v5 / 20 * x) by (apply Rmult_le_pos; lra). assert (v5 / 20 * x <= 17285 / 10000 * g5 * x) by (apply Rmult_le_compat_r; lra). apply Rmult_le_compat; lra. }
  eapply Rle_trans; [apply Rplus_le_compat_r; exact BA1|].
  replace (a * (34035 / 10000000 * g4 + 17285 / 10000 * g5 * x + 15 * e) + a * (g4 * (x / 20 + / 16) + 52 / 10 * g5 * x + k2)) with (a * ((34035 / 10000000 + / 16) * g4 + (15 * e + k2)) + (g4 / 20 + 69285 / 10000 * g5) * (a * x)) by field.
  assert (C0 : 0 <= g4 / 20 + 69285 / 10000 * g5 <= / 1000) by lra.
  apply (Rle_trans _ (a * ((34035 / 10000000 + / 16) * g4 + (15 * e + k2)) + (g4 / 20 + 69285 / 10000 * g5) * (1012 / 1000 * D + a * (5 / 1000 * g4 + 17 * e)))); [apply Rplus_le_compat_l, Rmult_le_compat_l; lra|].
  assert ((g4 / 20 + 69285 / 10000 * g5) * (a * (5 / 1000 * g4 + 17 * e)) <= / 1000 * (a * (5 / 1000 * g4 + 17 * e))) by (apply Rmult_le_compat_r; [apply Rmult_le_pos; lra|lra]).
  assert ((g4 / 20 + 69285 / 10000 * g5) * (1012 / 1000 * D) <= D * (g4 / 19 + 8 * g5)) by nra.
  assert (0 <= a * g4) by (apply Rmult_le_pos; lra). assert (0 <= a * e) by (apply Rmult_le_pos; lra). assert (a * k2 <= a * (3 * e)) by (apply Rmult_le_compat_l; lra). nra.
Qed.
Lemma vdir_accuracy E a b l p al d : shape E a b -> 99 * a <= 100 * b -> - (PI / 2) < p < PI / 2 -> exists l2 p2 al2,
  vincenty_direct E (Fin l, Fin p) (Fin al) (Fin d) = Ok (mkGeodesic (Fin l, Fin p) (Fin al) (Fin l2, Fin p2) (Fin al2) (Fin d)) /\
  - PI <= l2 <= PI /\ - (PI / 2) <= p2 <= PI / 2 /\ - PI < al2 <= PI /\
  geodesic_within a b l p al d l2 p2 al2 (vincenty_error a b d).
Proof.
  intros HE Hf Hp. assert (Hab : 0 < b <= a) by apply HE. pose proof (v_bound a b (vbe a b p) al Hab Hf) as Bv.
  assert (VU : vu a b p al = (1 - sa (vbe a b p) al * sa (vbe a b p) al) * ((a * a - b * b) / (b * b))) by reflexivity. rewrite <- VU in Bv.
  pose proof (RA_small (vu a b p al) ltac:(lra)) as HA. pose proof (RB_small (vu a b p al) ltac:(lra)) as HB.
  assert (HA' : RA (vu a b p al) <= 101 / 100). { unfold RA. set (u := vu a b p al) in *. assert (0 <= u * u <= / 1000) by nra. assert (0 <= u * u * u <= / 1000) by nra. assert (0 <= u * u * u * u) by nra. nra. }
  rewrite (vdir_fin E a b HE) by (assumption || lra).
  destruct (vd_converges (RB (vu a b p al)) (vs1 a b p al) (d / (RA (vu a b p al) * b)) HB) as (sg & -> & CV).
  do 3 eexists. split; [reflexivity|]. split; [apply Rwrap_spec|]. split; [apply Ratan2_range_pos, Rmult_le_pos; [apply Rlt_le, Rdiv_lt_0_compat; lra|apply Rhypot_ge_0]|]. split; [apply Rnorm_spec|].
  set (be := vbe a b p) in *.
  set (k := 2 * / 10 ^ 13).
  assert (LEN : Rabs (blen a b (ca0 be al) (arc1 be al) sg - d) <= b * (vu a b p al ^ 4 / 5000 + vu a b p al ^ 5 / 20 * Rabs sg + k)).
  { pose proof (vlen a b be al Hab Hf sg) as L. rewrite <- VU in L. rewrite vs1_arc1 in CV. fold be in CV. unfold Rvd in CV. set (A := RA (vu a b p al)) in *. set (De := Rdelta _ _ _ _) in *.
    replace (_ - d) with (blen a b (ca0 be al) (arc1 be al) sg - b * (A * (sg - De)) + b * A * (sg - (d / (A * b) + De))) by (field; lra).
    eapply Rle_trans; [apply Rabs_triang|]. rewrite (Rmult_plus_distr_l b (_ + _) k). apply Rplus_le_compat; [exact L|]. rewrite !Rabs_mult, (Rabs_right b), (Rabs_right A) by lra. rewrite Rmult_assoc. apply Rmult_le_compat_l; [lra|].
    assert (T : / 10 ^ 12 = 10 * / 10 ^ 13) by (cbn [pow]; field). rewrite T in CV. assert (T13 : 0 < / 10 ^ 13) by (apply Rinv_0_lt_compat, pow_lt; lra). unfold k. pose proof (Rabs_pos (sg - (d / (A * b) + De))). nra. }
  pose proof (vlon a b be al Hab Hf sg) as LON.
  eapply within_weaken; [exact Hab| |eapply (within a b p al l sg d _ _ _ _ _ Hab Hp LEN LON)].
  - rewrite <- (Rplus_0_r (_ ^ 4 * _ + _)). apply (vinc_total a b be al sg d k 0 Hab Hf ltac:(unfold k; assert (0 < / 10 ^ 13) by (apply Rinv_0_lt_compat, pow_lt; lra); lra) ltac:(assert (0 < / 10 ^ 13) by (apply Rinv_0_lt_compat, pow_lt; lra); lra) LEN).
  - destruct (Rwrap_spec (l + (end_lon be al sg - Rdlon ((a - b) / a) (vq a b p al) (sa be al) sg (vs1 a b p al)))) as (_ & W & _). rewrite vs1_arc1 in *. fold be in W |- *.
    unfold vq in W |- *. fold be in W |- *. unfold Rminus in W |- *. rewrite Rplus_assoc. exact W.
  - apply (Rnorm_spec (end_az be al sg)).
Qed.
