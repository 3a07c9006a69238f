(** Rapp's direct solution follows a geodesic of the ellipsoid. *)
From Coq Require Import String Reals Lra Psatz Lia.
From Coquelicot Require Import Coquelicot.
From Verif.Num Require Import FOps RFun XR XRLemmas TMod.
From Verif.Model Require Import Fp Quantities Complex Cs Ellipsoid Geodesics.
From Verif.Spec Require Import Angles Axes Shape Frames Sphere Geodesic Maps Rapp.
From Verif.Proofs Require Import AnglesX AxesX EllX SphereG SphereN GeoG GeoV GeoVD GeoR GeoRD Bessel BesselP GeoAcc GeoUniq VincAcc VincDir RappAcc.
Local Open Scope R_scope.

(** ** The direction of a vector moves little when the vector does *)
Lemma dir_change x y x' y' : Rhypot x y * Rhypot x y * (2 - 2 * cos (Ratan2 y' x' - Ratan2 y x)) <= 4 * ((x' - x) * (x' - x) + (y' - y) * (y' - y)).
Proof.
  destruct (Ratan2_spec y x) as [X Y]. destruct (Ratan2_spec y' x') as [X' Y'].
  set (r := Rhypot x y) in *. set (r' := Rhypot x' y') in *. set (u := Ratan2 y x) in *. set (w := Ratan2 y' x') in *.
  assert (0 <= r) by apply Rhypot_ge_0. assert (0 <= r') by apply Rhypot_ge_0. rewrite cos_minus. pose proof (sc u) as Cu. pose proof (sc w) as Cw.
  set (d := cos w * cos u + sin w * sin u).
  assert (D1 : -1 <= d <= 1) by (unfold d; rewrite <- cos_minus; apply COS_bound).
  assert (E : (x' - x) * (x' - x) + (y' - y) * (y' - y) = r * r + r' * r' - 2 * (r * r') * d).
  { rewrite <- X, <- Y, <- X', <- Y'. unfold d. transitivity (r' * r' * (sin w * sin w + cos w * cos w) + r * r * (sin u * sin u + cos u * cos u) - 2 * (r * r') * (cos w * cos u + sin w * sin u)); [ring|rewrite Cu, Cw; ring]. }
  rewrite E. clearbody d. clear E. assert (0 <= r * r') by (apply Rmult_le_pos; assumption). pose proof (Rle_0_sqr (r - r')) as Q. unfold Rsqr in Q.
  assert (Q1 : 0 <= (1 + d) * (2 * ((r - r') * (r - r')))) by (apply Rmult_le_pos; lra). assert (Q2 : 0 <= (1 - d) * (2 * (r' * r') + 4 * (r * r'))) by (apply Rmult_le_pos; nra). lra.
Qed.

Section R.
Context (a b be al l : R) (Hab : 0 < b <= a) (Hbe : 0 < cos be).
Notation s := (sa be al).
Notation c := (ca0 be al).
Notation t1 := (arc1 be al).
Notation l0 := (l - node_lon be al t1).
Notation bw := (bw a b c).
Notation g := (bpt a b s c t1 l0).
Notation len := (blen a b c t1).
(** the points of the parallel *)
Definition par (t L : R) : R3 := (a * (end_cos be al t * cos L), a * (end_cos be al t * sin L), b * (c * sin (t1 + t))).
Lemma par_point t L : surface_point a b (vlat a b be al t) L (par t L).
Proof.
  pose proof (end_cos_z be al t) as EZ. rewrite qz_node in EZ. destruct (vlat_trig a b be al Hab t) as [C S].
  assert (W : 0 < bw (t1 + t)) by (apply (bw_pos a b s c Hab (sc0 be al))). split.
  - unfold par, on_ellipsoid. transitivity (end_cos be al t * end_cos be al t * (sin L * sin L + cos L * cos L) + c * sin (t1 + t) * (c * sin (t1 + t))); [field; lra|]. rewrite sc. lra.
  - exists (bw (t1 + t) / b). split; [apply Rdiv_lt_0_compat; lra|]. unfold par, normal.
    replace (bw (t1 + t) / b * (cos (vlat a b be al t) * cos L)) with (bw (t1 + t) * cos (vlat a b be al t) * cos L / b) by (field; lra).
    replace (bw (t1 + t) / b * (cos (vlat a b be al t) * sin L)) with (bw (t1 + t) * cos (vlat a b be al t) * sin L / b) by (field; lra).
    replace (bw (t1 + t) / b * sin (vlat a b be al t)) with (bw (t1 + t) * sin (vlat a b be al t) / b) by (field; lra). rewrite C, S. repeat split; field; lra.
Qed.
Lemma par_dist t L L' m : 0 <= m -> end_cos be al t * end_cos be al t * (2 - 2 * cos (L' - L)) <= m * m -> edist (par t L) (par t L') <= a * m.
Proof.
  intros M H. unfold par, edist. rewrite <- (sqrt_Rsqr (a * m)) by (apply Rmult_le_pos; lra). apply sqrt_le_1_alt. unfold Rsqr.
  set (r := end_cos be al t) in *. rewrite cos_minus in H. pose proof (sc L). pose proof (sc L').
  replace (_ + _) with (a * a * (r * r * ((sin L * sin L + cos L * cos L) + (sin L' * sin L' + cos L' * cos L') - 2 * (cos L' * cos L + sin L' * sin L)))) by ring. rewrite !sc.
  replace (a * m * (a * m)) with (a * a * (m * m)) by ring. apply Rmult_le_compat_l; [nra|]. lra.
Qed.
(** Rapp's spherical longitude, with the sines and cosines of the last iterate *)
Lemma rlon_move sg old : -1 < qz be al sg < 1 -> let b2 := asin (qz be al sg) in
  end_cos be al sg * end_cos be al sg * (2 - 2 * cos (Ratan2 (rsl al old b2) (rcl be old b2) - end_lon be al sg)) <= 3 * Rabs (sg - old) / cos be * (3 * Rabs (sg - old) / cos be).
Proof.
  intros Q b2. pose proof (re_pos be al sg Q) as P. unfold rsl, rcl. unfold b2. rewrite (re_sin be al sg Q), (re_cos be al sg Q).
  rewrite <- (Ratan2_scale _ _ (end_cos be al sg) P). set (y' := end_cos be al sg * (sin old * sin al / end_cos be al sg)). set (x' := end_cos be al sg * ((cos old - sin be * qz be al sg) / (cos be * end_cos be al sg))).
  assert (Y' : y' = sin old * sin al) by (unfold y'; field; lra). assert (X' : x' = (cos old - sin be * qz be al sg) / cos be) by (unfold x'; field; lra).
  unfold end_lon. eapply Rle_trans; [apply dir_change|]. 
  assert (X : qx be al sg = (cos sg - sin be * qz be al sg) / cos be) by (rewrite <- node_qx; field; lra).
  assert (DX : x' - qx be al sg = (cos old - cos sg) / cos be) by (rewrite X, X'; field; lra). assert (DY : y' - qy al sg = (sin old - sin sg) * sin al) by (rewrite Y'; unfold qy; ring).
  rewrite DX, DY. set (d := Rabs (sg - old)). assert (D : 0 <= d) by apply Rabs_pos.
  assert (A : Rabs (cos old - cos sg) <= d).
  { rewrite <- (Rmult_1_l d). unfold d. rewrite (Rabs_minus_sym sg). apply (lipschitz cos (fun x => - sin x)); [intros x; auto_derive; [easy|ring]|]. intros x. apply Rabs_le. pose proof (SIN_bound x). lra. }
  assert (B : Rabs (sin old - sin sg) <= d).
  { rewrite <- (Rmult_1_l d). unfold d. rewrite (Rabs_minus_sym sg). apply (lipschitz sin cos); [intros x; auto_derive; [easy|ring]|]. intros x. apply Rabs_le. pose proof (COS_bound x). lra. }
  assert (A2 : (cos old - cos sg) * (cos old - cos sg) <= d * d) by (apply Rabs_le_between in A; nra).
  assert (B2 : (sin old - sin sg) * (sin old - sin sg) <= d * d) by (apply Rabs_le_between in B; nra).
  assert (S2 : 0 <= sin al * sin al <= 1) by (pose proof (SIN_bound al); nra).
  assert (I1 : 1 <= / cos be) by (rewrite <- Rinv_1; apply Rinv_le_contravar; [exact Hbe|apply COS_bound]). assert (I2 : 1 <= / cos be * / cos be) by nra.
  replace ((cos old - cos sg) / cos be * ((cos old - cos sg) / cos be)) with ((cos old - cos sg) * (cos old - cos sg) * (/ cos be * / cos be)) by (field; lra).
  replace (3 * d / cos be * (3 * d / cos be)) with (9 * (d * d * (/ cos be * / cos be))) by (field; lra).
  replace ((sin old - sin sg) * sin al * ((sin old - sin sg) * sin al)) with ((sin old - sin sg) * (sin old - sin sg) * (sin al * sin al)) by ring.
  set (k := / cos be * / cos be) in *. set (p := (cos old - cos sg) * (cos old - cos sg)) in *. set (q := (sin old - sin sg) * (sin old - sin sg)) in *. set (z := sin al * sin al) in *.
  assert (0 <= q) by apply Rle_0_sqr. assert (0 <= d * d) by (apply Rmult_le_pos; exact D). clearbody k p q z. assert (p * k <= d * d * k) by (apply Rmult_le_compat_r; lra). assert (q * z <= d * d * 1) by (apply Rmult_le_compat; lra). assert (d * d * 1 <= d * d * k) by (apply Rmult_le_compat_l; lra). assert (0 <= d * d * k) by (apply Rmult_le_pos; lra). lra.
Qed.
(** distance from the axis along the curve *)
Lemma axis_curve t : axis_dist (g t) = a * end_cos be al t.
Proof.
  destruct (horiz a b be al l Hbe t) as [X Y]. unfold axis_dist, bpt, bps, xcoord, ycoord. rewrite X, Y.
  rewrite <- (sqrt_Rsqr (a * end_cos be al t)) by (apply Rmult_le_pos; [lra|apply Rhypot_ge_0]). f_equal. unfold Rsqr.
  set (L := lon_at _ _ _ _ _ _). transitivity (a * end_cos be al t * (a * end_cos be al t) * (sin L * sin L + cos L * cos L)); [ring|rewrite sc; ring].
Qed.
Lemma axis_clairaut t : a * Rabs s <= axis_dist (g t).
Proof.
  rewrite axis_curve. apply Rmult_le_compat_l; [lra|]. rewrite end_cos_sa, <- (sqrt_Rsqr_abs s). unfold Rhypot. apply sqrt_le_1_alt. unfold Rsqr. pose proof (Rle_0_sqr (wz be al t)) as Q. unfold Rsqr in Q. lra.
Qed.
End R.

(** the error in terms of the flattening *)
Lemma rapp_total a b be al sg d p : 0 < b <= a -> 99 * a <= 100 * b -> 0 < cos p -> cos p <= cos be ->
  let v := (1 - sa be al * sa be al) * ((a * a - b * b) / (b * b)) in let f := (a - b) / a in
  let e1 := b * (v ^ 4 / 13000 + v ^ 5 / 20 * Rabs sg + / 10 ^ 15) in let e2 := f ^ 5 / 3 * Rabs sg + / 10 ^ 15 in
  Rabs (blen a b (ca0 be al) (arc1 be al) sg - d) <= e1 -> e1 + a * e2 + a * (3 * (5 / 10 ^ 15) / cos be) <= rapp_error a b p d.
Proof.
  intros Hab Hf Cp Cb v f e1 e2 H. pose proof (v_bound a b be al Hab Hf) as Bv. fold v in Bv. pose proof (f_bound a b Hab Hf) as Bf. fold f in Bf. pose proof (arc_bound a b be al sg Hab) as AB.
  set (x := Rabs sg) in *. assert (X0 : 0 <= x) by apply Rabs_pos.
  assert (VF : v <= 2031 / 1000 * f).
  { apply (Rle_trans _ ((a * a - b * b) / (b * b))); [unfold v; pose proof (q01 be al); pose proof (ep2_bound a b Hab Hf); nra|].
    replace ((a * a - b * b) / (b * b)) with (f * ((a / b) * ((a + b) / b))) by (unfold f; field; lra).
    assert (AB1 : a / b <= 100 / 99) by (apply (Rmult_le_reg_r b); [lra|]; replace (a / b * b) with a by (field; lra); lra).
    assert (AB0 : 0 <= a / b) by (apply Rdiv_le_0_compat; lra). replace ((a + b) / b) with (a / b + 1) by (field; lra). set (r := a / b) in *. assert (r * (r + 1) <= 2031 / 1000) by nra. rewrite Rmult_comm. apply Rmult_le_compat_r; lra. }
  assert (V4 : 0 <= v ^ 4 <= 17016 / 1000 * f ^ 4).
  { split; [apply pow_le; lra|]. eapply Rle_trans; [apply pow_incr; split; [apply Bv|exact VF]|]. rewrite Rpow_mult_distr. apply Rmult_le_compat_r; [apply pow_le; lra|]. cbn [pow]. lra. }
  assert (F4 : 0 <= f ^ 4 <= / 100000000).
  { split; [apply pow_le; lra|]. replace (/ 100000000) with ((/ 100) ^ 4) by (cbn [pow]; lra). apply pow_incr. lra. }
  assert (F5 : f ^ 5 = f * f ^ 4) by ring. assert (F5' : 0 <= f ^ 5 <= f ^ 4 / 100) by (rewrite F5; nra).
  assert (V5 : 0 <= v ^ 5 <= 3457 / 100 * f ^ 5).
  { split; [apply pow_le; lra|]. eapply Rle_trans; [apply pow_incr; split; [apply Bv|exact VF]|]. rewrite Rpow_mult_distr. apply Rmult_le_compat_r; [apply pow_le; lra|]. cbn [pow]. lra. }
  assert (T15 : 0 < / 10 ^ 15) by (apply Rinv_0_lt_compat, pow_lt; lra).
  assert (D0 : 0 <= Rabs d) by apply Rabs_pos. assert (LL : b * x <= Rabs d + e1).
  { eapply Rle_trans; [exact AB|]. replace (blen _ _ _ _ sg) with (d + (blen a b (ca0 be al) (arc1 be al) sg - d)) by ring. eapply Rle_trans; [apply Rabs_triang|]. lra. }
  unfold rapp_error. fold f. replace (3 / 10 ^ 14 / cos p) with (30 * / 10 ^ 15 * / cos p) by (field; lra). replace (3 * (5 / 10 ^ 15) / cos be) with (15 * / 10 ^ 15 * / cos be) by (field; lra).
  assert (I1 : 1 <= / cos p) by (rewrite <- Rinv_1; apply Rinv_le_contravar; [exact Cp|apply COS_bound]). assert (I2 : / cos be <= / cos p) by (apply Rinv_le_contravar; assumption).
  unfold e1 in *. unfold e2. clear AB H e1 e2. set (g4 := f ^ 4) in *. set (g5 := f ^ 5) in *. set (v4 := v ^ 4) in *. set (v5 := v ^ 5) in *. clearbody g4 g5 v4 v5.
  set (D := Rabs d) in *. clearbody D x. set (e := / 10 ^ 15) in *. assert (E : e <= / 1000) by (unfold e; apply Rinv_le_contravar; [lra|]; cbn [pow]; lra). clearbody e. set (ip := / cos p) in *. set (ib := / cos be) in *. clearbody ip ib.
  assert (BX0 : 0 <= b * x) by (apply Rmult_le_pos; lra).
  assert (BX : b * x <= 1001 / 1000 * D + b * (2 / 1000 * g4 + 2 * e)).
  { assert (b * (v5 / 20 * x) <= / 10000 * (b * x)) by (replace (b * (v5 / 20 * x)) with (v5 / 20 * (b * x)) by ring; apply Rmult_le_compat_r; [exact BX0|lra]). nra. }
  assert (AX : a * x <= 1012 / 1000 * D + a * (3 / 1000 * g4 + 3 * e)).
  { apply (Rle_trans _ (100 / 99 * (b * x))); [nra|]. assert (0 <= 2 / 1000 * g4 + 2 * e) by lra. nra. }
  assert (BA1 : b * (v4 / 13000 + v5 / 20 * x + e) <= a * (13090 / 10000000 * g4 + 17285 / 10000 * g5 * x + e)).
  { assert (0 <= v5 / 20 * x) by (apply Rmult_le_pos; lra). assert (v5 / 20 * x <= 17285 / 10000 * g5 * x) by (apply Rmult_le_compat_r; lra). apply Rmult_le_compat; lra. }
  assert (EP : e <= e * ip) by nra. assert (EB : 15 * e * ib <= 15 * (e * ip)) by nra.
  apply (Rle_trans _ (a * (13090 / 10000000 * g4 + 17 * (e * ip)) + 20619 / 10000 * g5 * (a * x))).
  { assert (a * (15 * e * ib) <= a * (15 * (e * ip))) by (apply Rmult_le_compat_l; lra). assert (a * e <= a * (e * ip)) by (apply Rmult_le_compat_l; lra).
    assert (0 <= g5 * (a * x)) by (apply Rmult_le_pos; [lra|apply Rmult_le_pos; lra]). lra. }
  assert (20619 / 10000 * g5 * (a * x) <= 20619 / 10000 * g5 * (1012 / 1000 * D + a * (3 / 1000 * g4 + 3 * e))) by (apply Rmult_le_compat_l; lra).
  assert (AE : 0 <= a * (3 / 1000 * g4 + 3 * (e * ip))) by (apply Rmult_le_pos; lra). assert (AE2 : a * (3 / 1000 * g4 + 3 * e) <= a * (3 / 1000 * g4 + 3 * (e * ip))) by (apply Rmult_le_compat_l; lra).
  assert (G5 : g5 <= / 1000000) by lra. assert (0 <= a * (3 / 1000 * g4 + 3 * e)) by (apply Rmult_le_pos; lra).
  assert (20619 / 10000 * g5 * (a * (3 / 1000 * g4 + 3 * e)) <= / 1000 * (a * (3 / 1000 * g4 + 3 * (e * ip)))) by (apply Rmult_le_compat; lra).
  assert (0 <= g5 * D) by (apply Rmult_le_pos; lra). assert (0 <= a * g4) by (apply Rmult_le_pos; lra). assert (0 <= a * (e * ip)) by (apply Rmult_le_pos; nra). nra.
Qed.
Lemma cos_vbe_ge a b p : 0 < b <= a -> - (PI / 2) < p < PI / 2 -> 0 < cos p <= cos (vbe a b p).
Proof.
  intros Hab Hp. assert (C : 0 < cos p) by (apply cos_gt_0; lra). split; [exact C|]. pose proof (cos_vbe_pos a b p) as B. pose proof (sc (vbe a b p)) as S. pose proof (sc p) as S'. assert (SV : sin (vbe a b p) = cos (vbe a b p) * (b / a * tan p)) by (rewrite sin_vbe, cos_vbe; ring). rewrite SV in S.
  assert (T : cos p * tan p = sin p) by (unfold tan; field; lra). set (x := cos (vbe a b p)) in *. set (t := tan p) in *.
  assert (K : x * x * (1 + b / a * t * (b / a * t)) = 1) by lra.
  assert (K2 : cos p * cos p * (1 + t * t) = 1) by (rewrite <- T in S'; lra).
  assert (R : 0 < b / a <= 1) by (split; [apply Rdiv_lt_0_compat; lra|apply (Rmult_le_reg_r a); [lra|]; replace (b / a * a) with b by (field; lra); lra]).
  assert (L : b / a * t * (b / a * t) <= t * t) by (replace (b / a * t * (b / a * t)) with (b / a * (b / a) * (t * t)) by ring; assert (0 <= t * t) by nra; assert (b / a * (b / a) <= 1) by nra; nra).
  apply Rsqr_incr_0; try lra. unfold Rsqr. assert (0 <= t * t) by nra. assert (0 < x * x) by nra. assert (x * x * (1 + b / a * t * (b / a * t)) <= x * x * (1 + t * t)) by (apply Rmult_le_compat_l; lra).
  apply (Rmult_le_reg_r (1 + t * t)); lra.
Qed.

Lemma rdir_accuracy E a b l p al d : shape E a b -> 99 * a <= 100 * b -> - (PI / 2) < p < PI / 2 -> ends_off_axis a b l p al d (rapp_error a b p d) -> exists l2 p2 al2,
  rapp_direct E (Fin l, Fin p) (Fin al) (Fin d) = Ok (mkGeodesic (Fin l, Fin p) (Fin al) (Fin l2, Fin p2) (Fin al2) (Fin d)) /\
  - PI <= l2 <= PI /\ - (PI / 2) < p2 < PI / 2 /\ - PI < al2 <= PI /\
  ends_within a b l p al d l2 p2 (rapp_error a b p d).
Proof.
  intros HE Hf Hp OFF. assert (Hab : 0 < b <= a) by apply HE. pose proof (v_bound a b (vbe a b p) al Hab Hf) as Bv.
  assert (VU : vu a b p al = (1 - sa (vbe a b p) al * sa (vbe a b p) al) * ((a * a - b * b) / (b * b))) by reflexivity. rewrite <- VU in Bv.
  destruct (Rb_small (vu a b p al) ltac:(lra)) as [HB HC].
  assert (HB' : Rb0 (vu a b p al) <= 101 / 100). { unfold Rb0. set (u := vu a b p al) in *. assert (0 <= u * u <= / 1000) by nra. assert (0 <= u * u * u <= / 1000) by nra. assert (0 <= u * u * u * u) by nra. nra. }
  pose proof (rdir_fin E a b HE l p al d Hp ltac:(lra)) as RF.
  destruct (rd_converges (Rb0 (vu a b p al)) (Rb2 (vu a b p al)) (Rb4 (vu a b p al)) (Rb6 (vu a b p al)) (arc1 (vbe a b p) al) (d / (Rb0 (vu a b p al) * b)) ltac:(lra) HC) as (sg & old & EL & FX & CV).
  rewrite EL in RF. destruct (cos_vbe_ge a b p Hab Hp) as [Cp Cb]. pose proof (cos_vbe_pos a b p) as Hbe.
  set (be := vbe a b p) in *. set (v := vu a b p al) in *. set (f := (a - b) / a).
  set (e1 := b * (v ^ 4 / 13000 + v ^ 5 / 20 * Rabs sg + / 10 ^ 15)). set (e2 := f ^ 5 / 3 * Rabs sg + / 10 ^ 15).
  assert (T15 : 0 < / 10 ^ 15) by (apply Rinv_0_lt_compat, pow_lt; lra). assert (T5 : 5 / 10 ^ 15 = 5 * / 10 ^ 15) by reflexivity.
  assert (LEN : Rabs (blen a b (ca0 be al) (arc1 be al) sg - d) <= e1).
  { pose proof (rlen a b be al Hab Hf sg) as L. rewrite <- VU in L.
    pose proof (rser_mix be al (Rb0 v) (Rb2 v) (Rb4 v) (Rb6 v) sg old (101 / 900)) as M.
    assert (K : Rabs (Rb2 v) + 2 * Rabs (Rb4 v) + 3 * Rabs (Rb6 v) <= 101 / 900).
    { unfold Rdiv in HC. rewrite !Rabs_mult, Rabs_inv, (Rabs_right (Rb0 v)) in HC by lra. apply (Rmult_le_compat_r (Rb0 v)) in HC; [|lra].
      replace ((Rabs (Rb2 v) * / Rb0 v + 2 * (Rabs (Rb4 v) * / Rb0 v) + 3 * (Rabs (Rb6 v) * / Rb0 v)) * Rb0 v) with (Rabs (Rb2 v) + 2 * Rabs (Rb4 v) + 3 * Rabs (Rb6 v)) in HC by (field; lra). lra. }
    specialize (M K). set (w := _ - rser _ _ _ _ _ _ sg) in M.
    assert (W : w = d / b - rser be al (Rb0 v) (Rb2 v) (Rb4 v) (Rb6 v) sg).
    { unfold w. f_equal. rewrite FX at 1. unfold Rrd. rewrite !Rmult_1_l. field. lra. }
    replace (_ - d) with (blen a b (ca0 be al) (arc1 be al) sg - b * rser be al (Rb0 v) (Rb2 v) (Rb4 v) (Rb6 v) sg + - (b * w)) by (rewrite W; field; lra).
    eapply Rle_trans; [apply Rabs_triang|]. unfold e1. rewrite (Rmult_plus_distr_l b (_ + _) (/ 10 ^ 15)). apply Rplus_le_compat; [exact L|]. rewrite Rabs_Ropp, Rabs_mult, (Rabs_right b) by lra. apply Rmult_le_compat_l; [lra|]. eapply Rle_trans; [exact M|]. rewrite T5 in CV. lra. }
  set (D := rdlon a b (vq a b p al) (sa be al) sg old (arc1 be al)).
  assert (LON : Rabs (D - bth a b (sa be al) (ca0 be al) (arc1 be al) sg) <= e2).
  { pose proof (rlon a b be al Hab Hf sg) as L. pose proof (rdlon_mix a b be al Hab Hf sg old) as M. change (rdlon a b (1 - sa be al * sa be al) (sa be al) sg old (arc1 be al)) with D in M.
    replace (D - _) with (D - sa be al * (f * rlser a b be al sg) + (sa be al * (f * rlser a b be al sg) - bth a b (sa be al) (ca0 be al) (arc1 be al) sg)) by ring.
    eapply Rle_trans; [apply Rabs_triang|]. unfold e2. rewrite Rplus_comm. apply Rplus_le_compat; [exact L|]. eapply Rle_trans; [exact M|]. rewrite T5 in CV. lra. }
  pose proof (rapp_total a b be al sg d p Hab Hf Cp Cb LEN) as TOT. rewrite <- VU in TOT. fold f e1 e2 in TOT.
  assert (P1 : 0 <= e1) by (eapply Rle_trans; [apply Rabs_pos|exact LEN]). assert (P2 : 0 <= e2) by (eapply Rle_trans; [apply Rabs_pos|exact LON]).
  assert (P3 : 0 <= a * (3 * (5 / 10 ^ 15) / cos be)) by (apply Rmult_le_pos; [lra|]; apply Rdiv_le_0_compat; lra). assert (P4 : 0 <= a * e2) by (apply Rmult_le_pos; lra).
  (* the geodesic *)
  destruct (accuracy a b be al l Hab Hbe sg d D e1 e2 LEN LON) as (t & Lt & K1 & _).
  destruct (curve_start a b be al l Hab Hbe) as [C1 C2].
  assert (VS : vlat a b be al 0 = p) by (unfold be; apply (vlat_start_ab a b Hab p al Hp)).
  rewrite VS in C1, C2.
  pose proof (curve_geodesic a b be al l Hab) as CG. pose proof (curve_chord a b be al l Hab t sg) as CH. rewrite Lt, Rabs_minus_sym in CH. pose proof (axis_curve a b be al l Hab Hbe sg) as AX.
  set (h := bpt a b (sa be al) (ca0 be al) (arc1 be al) (l - node_lon be al (arc1 be al))) in *. set (S := bdir a b (sa be al) (ca0 be al) (arc1 be al) (l - node_lon be al (arc1 be al))) in *. set (ln := blen a b (ca0 be al) (arc1 be al)) in *.
  assert (L0 : ln 0 = 0) by apply blen_0. assert (LV : leaves a b l p al h S ln) by (repeat (split; [assumption|]); assumption).
  (* not at a pole *)
  assert (Q : -1 < qz be al sg < 1).
  { assert (NZ : end_cos be al sg <> 0).
    { intros Z. specialize (OFF h S ln t LV Lt). rewrite Z, Rmult_0_r in AX.
      assert (axis_dist (h t) <= edist (h t) (h sg)).
      { unfold axis_dist in *. unfold edist. destruct (h t) as [[x y] z]. destruct (h sg) as [[x' y'] z']. cbn [xcoord ycoord] in *. apply sqrt_eq_0 in AX; [|nra]. assert (x' = 0) by nra. assert (y' = 0) by nra. subst x' y'. apply sqrt_le_1_alt. pose proof (Rle_0_sqr (z - z')) as ZZ. unfold Rsqr in ZZ. lra. }
      lra. }
    apply end_cos_pos in NZ. pose proof (end_cos_z be al sg) as EZ. nra. }
  specialize (RF Q). unfold rout in RF. cbv zeta in RF. fold be in RF. fold D in RF.
  do 3 eexists. split; [exact RF|]. split; [apply Rwrap_spec|]. pose proof (re_pos be al sg Q) as EP. pose proof (re_cos be al sg Q) as RC. pose proof (re_sin be al sg Q) as RS.
  assert (LAT : Ratan2 (tan (rbe2 a b p al sg)) (b / a) = vlat a b be al sg).
  { unfold vlat, rbe2. fold be. rewrite <- (Ratan2_scale _ _ (end_cos be al sg) EP). unfold tan. rewrite RC, RS. f_equal; field; lra. }
  assert (LR : - (PI / 2) < Ratan2 (tan (rbe2 a b p al sg)) (b / a) < PI / 2). { rewrite Ratan2_pos by (apply Rdiv_lt_0_compat; lra). apply atan_bound'. }
  split; [exact LR|]. split; [apply Rnorm_spec|]. rewrite LAT. clear LAT LR RF.
  split; [exists h, S, ln, t; split; assumption|].
  intros g T len u (G & Z0 & P0 & T0) Hu Qp HQ.
  destruct (geodesic_follows a b Hab h S ln g T len u b ltac:(lra) (len_grows a b be al Hab) (len_onto a b be al Hab) CG L0 G Z0 ltac:(apply (surface_unique a b Hab p l); assumption) ltac:(rewrite T0, C2; reflexivity) t ltac:(rewrite Lt; symmetry; exact Hu)) as [-> _].
  set (L1 := l + end_lon be al sg - D). set (b2 := rbe2 a b p al sg) in *. set (La := Ratan2 (rsl al old b2) (rcl be old b2)) in *. set (L2 := l + La - D).
  specialize (K1 L1 (par a b be al sg L1) (same_angle_refl _) (par_point a b be al Hab sg L1)).
  assert (SQ : Qp = par a b be al sg L2).
  { apply (surface_unique a b Hab (vlat a b be al sg) L2); [|apply par_point; exact Hab]. destruct HQ as [O1 (m & M & N)]. split; [exact O1|]. exists m. split; [exact M|]. destruct (Rwrap_spec (l + (La - D))) as (_ & W & _).
    assert (W' : same_angle (Rwrap (l + (La - D))) L2) by (unfold L2, Rminus in W |- *; rewrite Rplus_assoc; exact W). unfold normal in *. rewrite <- (same_angle_cos _ _ W'), <- (same_angle_sin _ _ W'). exact N. }
  subst Qp. eapply Rle_trans; [apply (edist_triangle _ (par a b be al sg L1))|]. eapply Rle_trans; [|exact TOT]. apply Rplus_le_compat; [exact K1|].
  eapply Rle_trans; [apply (par_dist a b be al Hab sg L1 L2 (3 * Rabs (sg - old) / cos be))|].
  - apply Rdiv_le_0_compat; [|exact Hbe]. pose proof (Rabs_pos (sg - old)). lra.
  - replace (L2 - L1) with (La - end_lon be al sg) by (unfold L1, L2; ring). apply rlon_move; assumption.
  - apply Rmult_le_compat_l; [lra|]. apply Rmult_le_compat_r; [left; apply Rinv_0_lt_compat; exact Hbe|]. lra.
Qed.
