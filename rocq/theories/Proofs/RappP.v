(** Rapp's direct solution on the ellipsoid: property C64. *)
From Coq Require Import String Reals Lra Psatz.
From Verif.Num Require Import FOps RFun XR XRLemmas.
From Verif.Model Require Import Fp Quantities Complex Cs Ellipsoid Geodesics.
From Verif.Spec Require Import Angles Axes Shape Frames Sphere Maps Geodesic Rapp.
From Verif.Proofs Require Import EllX AnglesX SphereG SphereN GeoV Bessel BesselP GeoAcc GeoUniq VincDir RappDir Wgs84 AccP.
Local Open Scope R_scope.

Lemma c64_rapp_direct : forall E a b l p al s, shape E a b -> 99 * a <= 100 * b -> nonpolar p ->
  ends_off_axis a b l p al s (rapp_error a b p s) -> exists l2 p2 al2,
  solve_direct Rapp E (Fin l, Fin p) (Fin al) (Fin s)
  = Ret (Ok (mkGeodesic (Fin l, Fin p) (Fin al) (Fin l2, Fin p2) (Fin al2) (Fin s))) /\
  - PI <= l2 <= PI /\ - (PI / 2) < p2 < PI / 2 /\ - PI < al2 <= PI /\
  ends_within a b l p al s l2 p2 (rapp_error a b p s).
Proof.
  intros E a b l p al s HE Hf Hp OFF. destruct (rdir_accuracy E a b l p al s HE Hf Hp OFF) as (l2 & p2 & al2 & R & K). exists l2, p2, al2. split; [|exact K]. cbn [solve_direct]. now rewrite R.
Qed.
(** a geodesic keeps its distance from the axis (Clairaut) *)
Lemma off_axis a b l p al s e : 0 < b <= a -> nonpolar p -> e < a * cos p * Rabs (sin al) -> ends_off_axis a b l p al s e.
Proof.
  intros Hab Hp He g T len u (G & Z0 & P0 & T0) Hu. set (be := vbe a b p). pose proof (cos_vbe_pos a b p : 0 < cos be) as Hbe. destruct (cos_vbe_ge a b p Hab Hp) as [Cp Cb]. fold be in Cb.
  destruct (curve_start a b be al l Hab Hbe) as [C1 C2]. assert (VS : vlat a b be al 0 = p) by (unfold be; apply (vlat_start_ab a b Hab p al Hp)). rewrite VS in C1, C2.
  pose proof (curve_geodesic a b be al l Hab) as CG. destruct (len_onto a b be al Hab s) as [t Lt]. pose proof (axis_clairaut a b be al l Hab Hbe t) as AX.
  set (h := bpt a b (sa be al) (ca0 be al) (arc1 be al) (l - node_lon be al (arc1 be al))) in *. set (S := bdir a b (sa be al) (ca0 be al) (arc1 be al) (l - node_lon be al (arc1 be al))) in *. set (ln := blen a b (ca0 be al) (arc1 be al)) in *.
  assert (L0 : ln 0 = 0) by apply blen_0.
  destruct (geodesic_follows a b Hab h S ln g T len u b ltac:(lra) (len_grows a b be al Hab) (len_onto a b be al Hab) CG L0 G Z0 ltac:(apply (surface_unique a b Hab p l); assumption) ltac:(rewrite T0, C2; reflexivity) t ltac:(rewrite Lt; symmetry; exact Hu)) as [-> _].
  eapply Rlt_le_trans; [exact He|]. eapply Rle_trans; [|exact AX]. rewrite Rmult_assoc. apply Rmult_le_compat_l; [lra|]. unfold sa. rewrite Rabs_mult, (Rabs_right (cos be)) by lra. pose proof (Rabs_pos (sin al)). nra.
Qed.
Lemma c64_rapp_direct_oblique : forall E a b l p al s, shape E a b -> 99 * a <= 100 * b -> nonpolar p ->
  rapp_error a b p s < a * cos p * Rabs (sin al) -> exists l2 p2 al2,
  solve_direct Rapp E (Fin l, Fin p) (Fin al) (Fin s)
  = Ret (Ok (mkGeodesic (Fin l, Fin p) (Fin al) (Fin l2, Fin p2) (Fin al2) (Fin s))) /\
  - PI <= l2 <= PI /\ - (PI / 2) < p2 < PI / 2 /\ - PI < al2 <= PI /\
  ends_within a b l p al s l2 p2 (rapp_error a b p s).
Proof. intros E a b l p al s HE Hf Hp K. apply c64_rapp_direct; try assumption. apply off_axis; [apply HE|assumption|assumption]. Qed.
Lemma wgs84_rerror a b p s : shape WGS84 a b -> / 6 <= cos p -> Rabs s <= 20000000 -> rapp_error a b p s <= 25 / 10 ^ 6.
Proof.
  intros S Hp Hs. destruct (wgs84_shape a b S) as [-> ->]. unfold rapp_error. replace ((6378137 - _) / 6378137) with (/ (298257223563 / 1000000000)) by field. set (f := / _).
  assert (F0 : 0 < f <= / 298) by (unfold f; split; [apply Rinv_0_lt_compat; lra|apply Rinv_le_contravar; lra]).
  assert (F4 : 0 <= f ^ 4 <= / 298 ^ 4) by (split; [apply pow_le; lra|rewrite <- pow_inv; apply pow_incr; lra]). assert (F5 : 0 <= f ^ 5 <= / 298 ^ 5) by (split; [apply pow_le; lra|rewrite <- pow_inv; apply pow_incr; lra]).
  assert (I : / cos p <= 6) by (rewrite <- (Rinv_inv 6); apply Rinv_le_contravar; lra).
  assert (K : Rabs s * (11 / 5 * f ^ 5) <= 20000000 * (11 / 5 * / 298 ^ 5)) by (apply Rmult_le_compat; [apply Rabs_pos|lra|exact Hs|lra]).
  replace (3 / 10 ^ 14 / cos p) with (3 / 10 ^ 14 * / cos p) by (unfold Rdiv; ring). assert (3 / 10 ^ 14 * / cos p <= 3 / 10 ^ 14 * 6) by (apply Rmult_le_compat_l; lra). clearbody f. set (g4 := f ^ 4) in *. set (g5 := f ^ 5) in *. clearbody g4 g5. lra.
Qed.
Lemma ends_weaken a b l p al s l2 p2 e e' : e <= e' -> ends_within a b l p al s l2 p2 e -> ends_within a b l p al s l2 p2 e'.
Proof. intros L [X K]. split; [exact X|]. intros g T len t G Ht Q HQ. eapply Rle_trans; [apply (K g T len t G Ht Q HQ)|exact L]. Qed.
Lemma c64_rapp_direct_wgs84 : forall l p al s, nonpolar p -> / 6 <= cos p -> / 10 ^ 9 <= Rabs (sin al) -> Rabs s <= 20000000 ->
  exists a b l2 p2 al2, shape WGS84 a b /\ solve_direct Rapp WGS84 (Fin l, Fin p) (Fin al) (Fin s)
  = Ret (Ok (mkGeodesic (Fin l, Fin p) (Fin al) (Fin l2, Fin p2) (Fin al2) (Fin s))) /\
  ends_within a b l p al s l2 p2 (25 / 10 ^ 6).
Proof.
  intros l p al s Hp Hc Ha Hs. destruct wgs84_has as (a & b & S & F). pose proof (wgs84_rerror a b p s S Hc Hs) as B.
  assert (K : rapp_error a b p s < a * cos p * Rabs (sin al)).
  { eapply Rle_lt_trans; [exact B|]. destruct (wgs84_shape a b S) as [-> _]. apply (Rlt_le_trans _ (1000000 * / 10 ^ 9)); [lra|]. apply Rmult_le_compat; lra. }
  destruct (c64_rapp_direct_oblique WGS84 a b l p al s S F Hp K) as (l2 & p2 & al2 & R & _ & _ & _ & W). exists a, b, l2, p2, al2. split; [exact S|]. split; [exact R|]. eapply ends_weaken; [exact B|exact W].
Qed.
Lemma c64_ex : (exists a b, shape WGS84 a b /\ 99 * a <= 100 * b /\ b < a) /\ nonpolar (PI / 4) /\ / 6 <= cos (PI / 4) /\ / 10 ^ 9 <= Rabs (sin (PI / 3)).
Proof.
  destruct wgs84_has as (a & b & S & F). pose proof PI_RGT_0. split; [exists a, b; destruct (wgs84_shape a b S) as [-> ->]; split; [exact S|]; split; [exact F|lra]|]. split; [unfold nonpolar; lra|].
  assert (A : 1 <= sqrt 2) by (rewrite <- sqrt_1 at 1; apply sqrt_le_1_alt; lra). assert (A2 : sqrt 2 * sqrt 2 = 2) by (apply sqrt_sqrt; lra). assert (B : 1 <= sqrt 3) by (rewrite <- sqrt_1 at 1; apply sqrt_le_1_alt; lra).
  split; [rewrite cos_PI4|rewrite sin_PI3, Rabs_right by lra; lra].
  apply (Rmult_le_reg_r (sqrt 2)); [lra|]. replace (1 / sqrt 2 * sqrt 2) with 1 by (field; lra). nra.
Qed.
