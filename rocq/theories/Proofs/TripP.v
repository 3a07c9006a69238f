(** The statements of Props/RoundTrip.v. *)
From Coq Require Import String Reals Lra Psatz ZArith List Bool.
From Verif.Num Require Import FOps RFun XR XRLemmas.
From Verif.Model Require Import Fp Quantities Complex Cs Ellipsoid Geodesics Projections Crs Geometry.
From Verif.Spec Require Import Angles Axes Shape Frames Sphere Maps Krueger Reach.
From Verif.Proofs Require Import AnglesX AxesX AxesEx EllX EllEx Wgs84 MercX TMX TMInv TMConf TMScale TMBack TMTrip.
Import ListNotations.
Local Open Scope R_scope.
Lemma c56_position : forall E a b lon0 lat0 k0 fe fn c w k, shape E a b -> 99 * a <= 100 * b -> latitude lat0 -> 0 < k0 -> reach c w k ->
  let P := applied_to (STransverseMercator (Fin lon0) (Fin lat0) (Fin k0) (Fin fe) (Fin fn)) E in
  let e2 := eccentricity_squared a b in
  forall l p h, nonpolar p -> 0 < cos (l - lon0) -> c <= cos (l - lon0) * cos (l - lon0) ->
  exists x y N l' p', proj P (llh3 l p h) = Ok (enh (x, y, h)) /\ - PI <= l' <= PI /\ nonpolar p' /\
  (forall fuel, (N <= fuel)%nat -> unproj fuel P (enh (x, y, h)) = Ret (Ok (llh3 l' p' h))) /\
  edist (position l p) (position l' p') <= k * third_flattening a b ^ 5 + e2 / (1 - e2) * / 10 ^ 12.
Proof.
  intros E a b lon0 lat0 k0 fe fn c w k HE Hf Hl Hk RE P e2 l p h Hp Hc Hcc. destruct (trip_position E a b HE Hf lon0 lat0 k0 fe fn Hl Hk c w k l p h RE Hp Hc Hcc) as (x & y & N & l' & p' & A1 & A2 & A3 & A4 & A5).
  exists x, y, N, l', p'. split; [exact A1|]. split; [exact A2|]. split; [exact A3|]. split; [exact A4|]. unfold e2. rewrite (e2_the_e E a b HE). exact A5.
Qed.
Lemma pole_north E a b lon0 lat0 k0 fe fn (HE : shape E a b) (Hl : latitude lat0) p y h : p = PI / 2 \/ p = - (PI / 2) ->
  tm_proj (tm_new E (Fin lon0) (Fin lat0) (Fin k0) (Fin fe) (Fin fn)) (llh3 lon0 p h) = Ok (enh (fe, y, h)) <-> (p = PI / 2 \/ p = - (PI / 2)) /\ y = fn - k0 * tm0 a b lat0 + k0 * tB a b * p.
Proof.
  intros Hp. pose proof PI_RGT_0 as PP. assert (LP : latitude p) by (unfold latitude; destruct Hp as [-> | ->]; lra).
  pose proof (tm_central E a b HE lon0 lat0 k0 fe fn Hl lon0 p h LP ltac:(exists 0%Z; lra)) as T.
  assert (M : mu (the_e a b) (tn a b) p = p). { unfold mu. rewrite beta_e_pole by (destruct Hp as [-> | ->]; [|rewrite Rabs_Ropp]; apply Rabs_pos_eq; lra). destruct Hp as [-> | ->]; [rewrite sin_series_half_turn|rewrite sin_series_opp_x, sin_series_half_turn]; ring. }
  rewrite T, M. unfold tm0. set (m := mu _ _ lat0). split.
  - intros H. split; [exact Hp|]. unfold enh in H. injection H. intros <-. ring.
  - intros [_ ->]. do 4 f_equal. ring.
Qed.
Lemma c56_map : forall E a b lon0 lat0 k0 fe fn c w k, shape E a b -> 99 * a <= 100 * b -> latitude lat0 -> 0 < k0 -> reach c w k ->
  let P := applied_to (STransverseMercator (Fin lon0) (Fin lat0) (Fin k0) (Fin fe) (Fin fn)) E in
  let e2 := eccentricity_squared a b in
  let r := k0 * kr_radius a (third_flattening a b) in
  forall south north x y h, proj P (llh3 lon0 (- (PI / 2)) 0) = Ok (enh (fe, south, 0)) -> proj P (llh3 lon0 (PI / 2) 0) = Ok (enh (fe, north, 0)) ->
  south < y < north -> Rabs (x - fe) <= w * r ->
  exists N l p x' y', - PI <= l <= PI /\ nonpolar p /\
  (forall fuel, (N <= fuel)%nat -> unproj fuel P (enh (x, y, h)) = Ret (Ok (llh3 l p h))) /\
  proj P (llh3 l p h) = Ok (enh (x', y', h)) /\
  edist (x, y, h) (x', y', h) <= (k * third_flattening a b ^ 5 + 3 * (e2 / (1 - e2) * / 10 ^ 12)) * r.
Proof.
  intros E a b lon0 lat0 k0 fe fn c w k HE Hf Hl Hk RE P e2 r so no x y h HS HN HY HX. pose proof (tB_pos E a b HE) as HB. unfold r in *. rewrite (kr_radius_B E a b HE) in HX |- *. assert (KB : 0 < k0 * tB a b) by (now apply Rmult_lt_0_compat).
  apply (pole_north E a b lon0 lat0 k0 fe fn HE Hl) in HS; [|now right]. apply (pole_north E a b lon0 lat0 k0 fe fn HE Hl) in HN; [|now left]. destruct HS as [_ HS]. destruct HN as [_ HN].
  assert (WX : Rabs (norm_y a b k0 fe x) <= w). { unfold norm_y, Rdiv. rewrite Rabs_mult, Rabs_inv, (Rabs_right (k0 * tB a b)) by lra. apply (Rmult_le_reg_r (k0 * tB a b)); [exact KB|]. rewrite Rmult_assoc, Rinv_l by lra. lra. }
  assert (WY : - (PI / 2) < norm_x a b lat0 k0 fn y < PI / 2). { unfold norm_x. split; apply (Rmult_lt_reg_r (k0 * tB a b)); try exact KB; unfold Rdiv; rewrite (Rmult_assoc _ (/ _)), Rinv_l by lra; lra. }
  destruct (trip_map E a b HE Hf lon0 lat0 k0 fe fn Hl Hk c w k x y h RE WX WY) as (N & l & p & x' & y' & A1 & A2 & A3 & A4 & A5).
  exists N, l, p, x', y'. split; [exact A1|]. split; [exact A2|]. split; [exact A3|]. split; [exact A4|]. unfold e2. rewrite (e2_the_e E a b HE). exact A5.
Qed.
Lemma c56_wgs84 : forall a b, shape WGS84 a b -> let n := third_flattening a b in let e2 := eccentricity_squared a b in 99 * a <= 100 * b /\
  2500 * n ^ 5 + 3 * (e2 / (1 - e2) * / 10 ^ 12) <= 34 / 10 ^ 12 /\
  180 * n ^ 5 + 3 * (e2 / (1 - e2) * / 10 ^ 12) <= 25 / 10 ^ 13 /\
  27 * n ^ 5 + 3 * (e2 / (1 - e2) * / 10 ^ 12) <= 4 / 10 ^ 13.
Proof.
  intros a b S n e2. destruct (wgs84_shape a b S) as [Ha Hb]. assert (N : 0 <= n <= 16793 / 10000000) by (unfold n, third_flattening; rewrite Ha, Hb; lra). assert (N5 : n ^ 5 <= (16793 / 10000000) ^ 5) by (apply pow_incr; lra).
  assert (E2 : 0 <= e2 <= 67 / 10000) by (unfold e2, eccentricity_squared; rewrite Ha, Hb; lra). assert (X : e2 / (1 - e2) <= 68 / 10000). { apply (Rmult_le_reg_r (1 - e2)); [lra|]. unfold Rdiv. rewrite Rmult_assoc, Rinv_l by lra. lra. }
  assert (Y : e2 / (1 - e2) * / 10 ^ 12 <= 68 / 10000 * / 10 ^ 12) by (apply Rmult_le_compat_r; [lra|exact X]). split; [rewrite Ha, Hb; lra|]. clearbody n. set (z := e2 / (1 - e2) * / 10 ^ 12) in *. clearbody z. cbn [pow] in *. repeat split; lra.
Qed.
Lemma c56_ex : let P := applied_to (STransverseMercator (Fin (9 * (PI / 180))) (Fin 0) (Fin 0.9996) (Fin 500000) (Fin 0)) WGS84 in
  (exists a b, shape WGS84 a b /\ 99 * a <= 100 * b /\ b < a /\ Rabs (720000 - 500000) <= / 11 * (0.9996 * kr_radius a (third_flattening a b))) /\
  nonpolar (48 * (PI / 180)) /\ 0 < cos (12 * (PI / 180) - 9 * (PI / 180)) /\ 100 / 101 <= cos (12 * (PI / 180) - 9 * (PI / 180)) * cos (12 * (PI / 180) - 9 * (PI / 180)) /\
  exists south north, proj P (llh3 (9 * (PI / 180)) (- (PI / 2)) 0) = Ok (enh (500000, south, 0)) /\ proj P (llh3 (9 * (PI / 180)) (PI / 2) 0) = Ok (enh (500000, north, 0)) /\ south < 5300000 < north.
Proof.
  destruct wgs84_has as (a & b & S & F). intros P. pose proof PI_RGT_0 as PP. pose proof PI_4 as P4. pose proof PI2_3_2 as P3. assert (HL : latitude 0) by (unfold latitude; lra).
  assert (RB : 6360000 <= tB a b <= 6370000). { rewrite <- (kr_radius_B WGS84 a b S). destruct (wgs84_shape a b S) as [-> ->]. unfold kr_radius. match goal with |- context [third_flattening ?u ?v] => set (n := third_flattening u v) end. assert (N : 1679 / 1000000 <= n <= 1680 / 1000000) by (unfold n, third_flattening; lra). clearbody n.
    assert (N2 : 0 <= n ^ 2 / 4 + n ^ 4 / 64 <= 1 / 1000000). { assert (N0 : 0 <= n ^ 2 <= 4 / 1000000) by (cbn [pow]; nra). assert (0 <= n ^ 4 <= 4 / 1000000) by (replace (n ^ 4) with (n ^ 2 * n ^ 2) by ring; nra). nra. }
    set (u := n ^ 2 / 4 + n ^ 4 / 64) in *. replace (1 + n ^ 2 / 4 + n ^ 4 / 64) with (1 + u) by (unfold u; ring). clearbody u. split; apply (Rmult_le_reg_r (1 + n)); try lra; (match goal with |- context [?x / (1 + n) * (1 + u) * (1 + n)] => replace (x / (1 + n) * (1 + u) * (1 + n)) with (x * (1 + u)) by (field; lra) end); nra. }
  split; [exists a, b; split; [exact S|]; split; [exact F|]; split; [destruct (wgs84_shape a b S) as [-> ->]; lra|]; rewrite (kr_radius_B WGS84 a b S), Rabs_right by lra; lra|].
  split; [unfold nonpolar; lra|]. replace (12 * (PI / 180) - 9 * (PI / 180)) with (PI / 60) by field.
  assert (CC : 997 / 1000 <= cos (PI / 60)). { pose proof (cos_low (PI / 60)) as CB. assert (PI / 60 <= 1 / 15) by lra. assert (0 <= PI / 60) by lra. nra. } split; [lra|]. split; [nra|].
  exists (0 - 0.9996 * tm0 a b 0 + 0.9996 * tB a b * (- (PI / 2))), (0 - 0.9996 * tm0 a b 0 + 0.9996 * tB a b * (PI / 2)). split; [|split].
  - apply (pole_north WGS84 a b (9 * (PI / 180)) 0 0.9996 500000 0 S HL); [now right|split; [now right|reflexivity]].
  - apply (pole_north WGS84 a b (9 * (PI / 180)) 0 0.9996 500000 0 S HL); [now left|split; [now left|reflexivity]].
  - assert (T0 : tm0 a b 0 = 0) by (unfold tm0, mu; rewrite beta_e_0, sin_series_0; ring). rewrite T0. nra.
Qed.
