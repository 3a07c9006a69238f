(** The statements of Props/Accuracy.v. *)
From Coq Require Import String Reals Lra Psatz ZArith List Bool.
From Verif.Num Require Import FOps RFun XR XRLemmas.
From Verif.Model Require Import Fp Quantities Complex Cs Ellipsoid Geodesics Projections Crs Geometry.
From Verif.Spec Require Import Angles Axes Shape Frames Sphere Maps Geodesic.
From Verif.Proofs Require Import AnglesX AxesX AxesEx EllX EllEx Wgs84 GeoEx VincDir VincInvA GeoK KarnSer KarnAcc.
Import ListNotations.
Local Open Scope R_scope.
Lemma wgs84_error a b s : shape WGS84 a b -> Rabs s <= 20000000 -> vincenty_error a b s <= 3 / 10000.
Proof.
  intros S Hs. destruct (wgs84_shape a b S) as [-> ->]. unfold vincenty_error. replace ((6378137 - _) / 6378137) with (/ (298257223563 / 1000000000)) by field. set (f := / _).
  assert (F : 0 <= f <= 33529 / 10000000) by (unfold f; lra). assert (F4 : 0 <= f ^ 4 <= (33529 / 10000000) ^ 4) by (split; [apply pow_le; lra|apply pow_incr; lra]). assert (F5 : 0 <= f ^ 5 <= (33529 / 10000000) ^ 5) by (split; [apply pow_le; lra|apply pow_incr; lra]).
  replace ((33529 / 10000000) ^ 4) with (33529 * 33529 * 33529 * 33529 / (10000000 * 10000000 * 10000000 * 10000000)) in F4 by (cbn [pow]; field). replace ((33529 / 10000000) ^ 5) with (33529 * 33529 * 33529 * 33529 * 33529 / (10000000 * 10000000 * 10000000 * 10000000 * 10000000)) in F5 by (cbn [pow]; field).
  replace (2 / 10 ^ 12) with (2 / 1000000000000) by (cbn [pow]; field). pose proof (Rabs_pos s). assert (Rabs s * (f ^ 4 / 19 + 8 * f ^ 5) <= 20000000 * (f ^ 4 / 19 + 8 * f ^ 5)) by (apply Rmult_le_compat_r; lra). lra.
Qed.
Lemma c52_vincenty_direct : forall E a b l p al s, shape E a b -> 99 * a <= 100 * b -> nonpolar p -> exists l2 p2 al2,
  solve_direct Vincenty E (Fin l, Fin p) (Fin al) (Fin s)
  = Ret (Ok (mkGeodesic (Fin l, Fin p) (Fin al) (Fin l2, Fin p2) (Fin al2) (Fin s))) /\
  - PI <= l2 <= PI /\ - (PI / 2) <= p2 <= PI / 2 /\ - PI < al2 <= PI /\
  geodesic_within a b l p al s l2 p2 al2 (vincenty_error a b s).
Proof.
  intros E a b l p al s HE Hf Hp. destruct (vdir_accuracy E a b l p al s HE Hf Hp) as (l2 & p2 & al2 & R & K). exists l2, p2, al2. split; [cbn [solve_direct]; now rewrite R|]. exact K.
Qed.
Lemma c52_vincenty_direct_wgs84 : forall l p al s, nonpolar p -> Rabs s <= 20000000 -> exists a b l2 p2 al2, shape WGS84 a b /\
  solve_direct Vincenty WGS84 (Fin l, Fin p) (Fin al) (Fin s)
  = Ret (Ok (mkGeodesic (Fin l, Fin p) (Fin al) (Fin l2, Fin p2) (Fin al2) (Fin s))) /\
  geodesic_within a b l p al s l2 p2 al2 (3 / 10000).
Proof.
  intros l p al s Hp Hs. destruct wgs84_has as (a & b & S & F). destruct (c52_vincenty_direct WGS84 a b l p al s S F Hp) as (l2 & p2 & al2 & R & _ & _ & _ & K). exists a, b, l2, p2, al2. split; [exact S|]. split; [exact R|]. eapply within_weaken; [apply S|apply (wgs84_error a b s S Hs)|exact K].
Qed.
Lemma c52_ex : exists a b, shape WGS84 a b /\ 99 * a <= 100 * b /\ b < a /\ nonpolar (PI / 4).
Proof.
  destruct wgs84_has as (a & b & S & F). exists a, b. destruct (wgs84_shape a b S) as [-> ->]. pose proof PI_RGT_0. split; [exact S|]. split; [exact F|]. split; [lra|unfold nonpolar; lra].
Qed.
Lemma c53_vincenty_inverse : forall E a b l1 p1 l2 p2, shape E a b -> 99 * a <= 100 * b -> nonpolar p1 -> nonpolar p2 ->
  position l1 p1 <> position l2 p2 -> - (17 / 20) <= pdot (position l1 p1) (position l2 p2) ->
  exists al1 al2 s, solve_inverse Vincenty E (Fin l1, Fin p1) (Fin l2, Fin p2)
  = Ret (Ok (mkGeodesic (Fin l1, Fin p1) (Fin al1) (Fin l2, Fin p2) (Fin al2) (Fin s))) /\
  0 < s /\ - PI < al1 <= PI /\ - PI < al2 <= PI /\
  geodesic_within a b l1 p1 al1 s l2 p2 al2 (vincenty_error a b s).
Proof.
  intros E a b l1 p1 l2 p2 HE Hf H1 H2 N D. destruct (vinv_accuracy E a b l1 p1 l2 p2 HE Hf H1 H2 N D) as (x & y & s & R & K). exists x, y, s. split; [cbn [solve_inverse]; now rewrite R|exact K].
Qed.
Lemma c53_crs_dist : forall id d ax a b q1 q2 l1 p1 l2 p2 h1 h2, shape (d_ellipsoid d) a b -> 99 * a <= 100 * b ->
  gaxes_dim ax = 2%nat -> geo_reads ax q1 l1 p1 h1 -> geo_reads ax q2 l2 p2 h2 ->
  - PI <= l1 <= PI -> - PI <= l2 <= PI -> nonpolar p1 -> nonpolar p2 ->
  position l1 p1 <> position l2 p2 -> - (17 / 20) <= pdot (position l1 p1) (position l2 p2) ->
  exists al1 al2 s, crs_dist (GeographicCrs id d ax) (map Fin q1) (map Fin q2) = Ret (Ok (Fin s)) /\
  0 < s /\ geodesic_within a b l1 p1 al1 s l2 p2 al2 (vincenty_error a b s).
Proof.
  intros id d ax a b q1 q2 l1 p1 l2 p2 h1 h2 HE Hf HD R1 R2 L1 L2 H1 H2 N D. destruct (vinv_accuracy (d_ellipsoid d) a b l1 p1 l2 p2 HE Hf H1 H2 N D) as (x & y & s & R & S0 & _ & _ & K). exists x, y, s. split; [|split; assumption].
  pose proof (geo_normalize_in_range ax q1 l1 p1 h1 [] R1 L1 ltac:(unfold nonpolar in H1; lra)) as N1. pose proof (geo_normalize_in_range ax q2 l2 p2 h2 [] R2 L2 ltac:(unfold nonpolar in H2; lra)) as N2. rewrite app_nil_r in N1, N2.
  assert (LL : forall q l p h, geo_reads ax q l p h -> List.length (map Fin q) = 2%nat) by (intros q l p h HR; rewrite map_length; destruct HR; try discriminate HD; reflexivity).
  unfold crs_dist. change (crs_dim (GeographicCrs id d ax)) with (gaxes_dim ax). rewrite (LL _ _ _ _ R1), (LL _ _ _ _ R2), HD. cbn [Nat.eqb rassert]. rewrite N1, N2. cbn [obind]. cbn [Nat.eqb solve_inverse obind lon lat]. rewrite R. reflexivity.
Qed.
Lemma c53_vincenty_inverse_wgs84 : forall l1 p1 l2 p2, nonpolar p1 -> nonpolar p2 ->
  position l1 p1 <> position l2 p2 -> - (17 / 20) <= pdot (position l1 p1) (position l2 p2) ->
  exists a b al1 al2 s, shape WGS84 a b /\ solve_inverse Vincenty WGS84 (Fin l1, Fin p1) (Fin l2, Fin p2)
  = Ret (Ok (mkGeodesic (Fin l1, Fin p1) (Fin al1) (Fin l2, Fin p2) (Fin al2) (Fin s))) /\
  0 < s /\ (s <= 20000000 -> geodesic_within a b l1 p1 al1 s l2 p2 al2 (3 / 10000)).
Proof.
  intros l1 p1 l2 p2 H1 H2 N D. destruct wgs84_has as (a & b & S & F). destruct (c53_vincenty_inverse WGS84 a b l1 p1 l2 p2 S F H1 H2 N D) as (x & y & s & R & S0 & _ & _ & K). exists a, b, x, y, s. split; [exact S|]. split; [exact R|]. split; [exact S0|]. intros Hs. eapply within_weaken; [apply S|apply (wgs84_error a b s S)|exact K]. rewrite Rabs_right; lra.
Qed.
Lemma c53_ex : (exists a b, shape WGS84 a b /\ 99 * a <= 100 * b /\ b < a) /\ nonpolar 0 /\ nonpolar (45 * (PI / 180)) /\
  geo_reads (GEastNorth DEG) [0; 0] (0 * (PI / 180)) (0 * (PI / 180)) None /\
  geo_reads (GEastNorth DEG) [90; 45] (90 * (PI / 180)) (45 * (PI / 180)) None /\
  position 0 0 <> position (90 * (PI / 180)) (45 * (PI / 180)) /\
  - (17 / 20) <= pdot (position 0 0) (position (90 * (PI / 180)) (45 * (PI / 180))).
Proof.
  destruct c52_ex as (a & b & S & F & L & _). pose proof PI_RGT_0. split; [exists a, b; tauto|]. split; [unfold nonpolar; lra|]. split; [unfold nonpolar; lra|].
  split; [constructor; apply worth_DEG|]. split; [constructor; apply worth_DEG|]. replace (90 * (PI / 180)) with (PI / 2) by field. replace (45 * (PI / 180)) with (PI / 4) by field.
  unfold position, pdot. rewrite cos_PI2, sin_PI2, cos_0, sin_0. split; [intros E; injection E; intros; lra|lra].
Qed.
Lemma wgs84_kerror a b s : shape WGS84 a b -> Rabs s <= 20000000 -> karney_error a b s <= / 10 ^ 9.
Proof.
  intros S Hs. destruct (wgs84_shape a b S) as [-> ->]. unfold karney_error. replace ((6378137 - _) / 6378137) with (/ (298257223563 / 1000000000)) by field. set (f := / _).
  assert (F : 0 <= f <= 3353 / 1000000) by (unfold f; lra). assert (F7 : 0 <= f ^ 7 <= (3353 / 1000000) ^ 7) by (split; [apply pow_le; lra|apply pow_incr; lra]).
  replace ((3353 / 1000000) ^ 7) with (3353 * 3353 * 3353 * 3353 * 3353 * 3353 * 3353 / (1000000 * 1000000 * 1000000 * 1000000 * 1000000 * 1000000 * 1000000)) in F7 by (cbn [pow]; field).
  replace (/ 10 ^ 9) with (/ 1000000000) by (cbn [pow]; field). pose proof (Rabs_pos s). assert (f ^ 7 * (2 * 6378137 + Rabs s) <= f ^ 7 * (2 * 6378137 + 20000000)) by (apply Rmult_le_compat_l; lra). lra.
Qed.
Lemma c51_distance_series : forall e D, 0 <= e <= / 190 ->
  (forall x, derivable_pt_lim D x (sqrt (1 + 4 * e / ((1 - e) * (1 - e)) * (sin x * sin x)))) ->
  exists A I, karney_fA1 (Fin e) = Fin A /\ (forall x, karney_fI1 (Fin e) (Fin A) (Fin x) = Fin (I x)) /\
  forall x y, Rabs (I x - I y - (D x - D y)) <= 10 * e ^ 7 * Rabs (x - y).
Proof.
  intros e D He HD. exists (kA1 e), (fun x => kA1 e * kI1 e x). split; [apply kA1_fin; lra|]. split; [intros; apply kI1_fin|]. now apply kI1_integral.
Qed.
Lemma c51_reversion : forall e, 0 <= e <= / 190 -> exists A I T, karney_fA1 (Fin e) = Fin A /\ 1 <= A <= 101 / 100 /\
  (forall x, karney_fI1 (Fin e) (Fin A) (Fin x) = Fin (I x)) /\ (forall t, karney_Sigma (Fin e) (Fin t) = Fin (T t)) /\
  (forall t, Rabs (I (T t) - A * t) <= 204 * e ^ 7) /\ (forall x, Rabs (T (I x / A) - x) <= 206 * e ^ 7).
Proof.
  intros e He. exists (kA1 e), (fun x => kA1 e * kI1 e x), (kS e). destruct (kA1_small e He) as [HA _]. split; [apply kA1_fin; lra|]. split; [exact HA|]. split; [intros; apply kI1_fin|]. split; [intros; apply kS_fin|]. split.
  - intros t. rewrite <- Rmult_minus_distr_l, Rabs_mult, (Rabs_right (kA1 e)) by lra. pose proof (kS_rev e t He). pose proof (Rabs_pos (kI1 e (kS e t) - t)). assert (0 <= e ^ 7) by (apply pow_le; lra).
    apply (Rle_trans _ (101 / 100 * (201 * e ^ 7))); [apply Rmult_le_compat; lra|lra].
  - intros x. replace (kA1 e * kI1 e x / kA1 e) with (kI1 e x) by (field; lra). now apply kI1_rev.
Qed.
Lemma c51_longitude_series : forall E a b e D, shape E a b -> 99 * a <= 100 * b -> let n := (a - b) / (a + b) in 0 <= e <= n ->
  (forall x, derivable_pt_lim D x
    ((2 - (a - b) / a) / (1 + b / a * sqrt (1 + 4 * e / ((1 - e) * (1 - e)) * (sin x * sin x))))) ->
  exists A I, karney_fA3 E (Fin e) = Fin A /\ (forall x, karney_fI3 E (Fin A) (Fin e) (Fin x) = Fin (I x)) /\
  forall x y, Rabs (I x - I y - (D x - D y)) <= 27 * n ^ 6 * Rabs (x - y).
Proof.
  intros E a b e D HE Hf n He HD. pose proof (en_fin E a b HE) as HN. fold n in HN. exists (kA3 n e), (fun x => kI3 n e x). split; [now apply kA3_fin|]. split; [intros x; now rewrite (kI3_fin E n) by exact HN|].
  apply kI3_integral; [apply HE|exact Hf|exact He|exact HD].
Qed.
Lemma c51_ex : (exists a b, shape WGS84 a b /\ 99 * a <= 100 * b /\ 0 < (a - b) / (a + b) / 2 <= (a - b) / (a + b) /\ (a - b) / (a + b) <= / 190) /\
  (forall x, derivable_pt_lim (fun x => x) x (sqrt (1 + 4 * 0 / ((1 - 0) * (1 - 0)) * (sin x * sin x)))).
Proof.
  split.
  - destruct wgs84_has as (a & b & S & F). exists a, b. split; [exact S|]. split; [exact F|]. destruct (wgs84_shape a b S) as [-> ->]. lra.
  - intros x. replace (1 + 4 * 0 / ((1 - 0) * (1 - 0)) * (sin x * sin x)) with 1 by field. rewrite sqrt_1. apply derivable_pt_lim_id.
Qed.
Lemma c54_karney_direct : forall E a b l p al s, shape E a b -> 99 * a <= 100 * b -> nonpolar p -> exists l2 p2 al2,
  solve_direct Karney E (Fin l, Fin p) (Fin al) (Fin s)
  = Ret (Ok (mkGeodesic (Fin l, Fin p) (Fin al) (Fin l2, Fin p2) (Fin al2) (Fin s))) /\
  - PI <= l2 <= PI /\ - (PI / 2) <= p2 <= PI / 2 /\ - PI < al2 <= PI /\
  geodesic_within a b l p al s l2 p2 al2 (karney_error a b s).
Proof.
  intros E a b l p al s HE Hf Hp. destruct (kdir_accuracy E a b l p al s HE Hf Hp) as (l2 & p2 & al2 & R & K). exists l2, p2, al2. split; [cbn [solve_direct]; now rewrite R|]. exact K.
Qed.
Lemma c54_karney_direct_wgs84 : forall l p al s, nonpolar p -> Rabs s <= 20000000 -> exists a b l2 p2 al2, shape WGS84 a b /\
  solve_direct Karney WGS84 (Fin l, Fin p) (Fin al) (Fin s)
  = Ret (Ok (mkGeodesic (Fin l, Fin p) (Fin al) (Fin l2, Fin p2) (Fin al2) (Fin s))) /\
  geodesic_within a b l p al s l2 p2 al2 (/ 10 ^ 9).
Proof.
  intros l p al s Hp Hs. destruct wgs84_has as (a & b & S & F). destruct (c54_karney_direct WGS84 a b l p al s S F Hp) as (l2 & p2 & al2 & R & _ & _ & _ & K). exists a, b, l2, p2, al2. split; [exact S|]. split; [exact R|]. eapply within_weaken; [apply S|apply (wgs84_kerror a b s S Hs)|exact K].
Qed.
Lemma c54_ex : exists a b, shape WGS84 a b /\ 99 * a <= 100 * b /\ b < a /\ nonpolar (- (PI / 4)).
Proof.
  destruct wgs84_has as (a & b & S & F). exists a, b. destruct (wgs84_shape a b S) as [-> ->]. pose proof PI_RGT_0. split; [exact S|]. split; [exact F|]. split; [lra|unfold nonpolar; lra].
Qed.
