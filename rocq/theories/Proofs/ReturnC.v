(** Property C68 assembled. *)
From Coq Require Import ZArith Reals QArith Qreals Lra Lia Bool Psatz List String.
From Flocq Require Import Core IEEE754.BinarySingleNaN.
From Verif.Num Require Import FOps RFun XR XRLemmas F64 F64Lemmas PIBounds Near.
From Verif.Model Require Import Fp Quantities Cs Ellipsoid Geodesics Projections Crs.
From Verif.Spec Require Import Angles Axes Shape Frames Sphere Maps Krueger Reach Accurate Binary64 Routes64 Maps64 Transverse64 MapRoutes64 GridRoutes64 Return64.
From Verif.Proofs Require Import AxesX TransX AnglesX AnglesF EllX DatumX MathF NearX NearL LlhF LlhInvF LlhInvG LlhInvH LibmOk Bin64P TransB ProjX MercX MercInv TMX TMConf TMScale TMInv TMFwdM TMFwdP TMBackE TMBackF TMBackP TMArc SphereG MapF MercF MercG MercP NearH CtorF NearT MapRoute MapRouteA MapRouteB MapRouteC MapRouteD ReturnA ReturnB.
Import ListNotations.
Local Open Scope R_scope.

Lemma tm_error_small a b k0 c w k : 6300000 <= b -> b < a -> a <= 6400000 -> 99 * a <= 100 * b -> 9 / 10 <= k0 -> reach c w k -> tm_error a b k0 k (11 / 10 ^ 7) <= / 7 * / 10 ^ 7.
Proof.
  intros B1 B2 B3 B4 K RE. unfold tm_error. assert (AB : 0 < b <= a) by lra. pose proof (tn_small _ a b (xell_shape a b AB) B4) as N. change (tn a b) with (third_flattening a b) in N.
  assert (N5 : third_flattening a b ^ 5 <= (/ 190) ^ 5) by (apply pow_incr; lra). assert (N0 : 0 <= third_flattening a b ^ 5) by (apply pow_le; lra).
  assert (k <= 2500 /\ 0 <= k) as [K1 K2] by (destruct RE; lra). assert (A1 : k * third_flattening a b ^ 5 <= 2500 * (/ 190) ^ 5) by (apply Rmult_le_compat; lra).
  assert (A2 : 2 * (11 / 10 ^ 7) / (k0 * b) <= 2 * (11 / 10 ^ 7) / 5000000). { assert (5000000 <= k0 * b) by nra. unfold Rdiv. apply Rmult_le_compat; [lra|left; apply Rinv_0_lt_compat; lra|lra|apply Rinv_le_contravar; lra]. }
  assert (A3 : eccentricity_squared a b / (1 - eccentricity_squared a b) <= 1).
  { pose proof (e2_bound a b AB) as EB. change ((a * a - b * b) / (a * a)) with (eccentricity_squared a b) in EB. assert (E2 : eccentricity_squared a b <= 2 / 100). { assert (X : eccentricity_squared a b * (a * a) = a * a - b * b) by (unfold eccentricity_squared; field; lra). apply (Rmult_le_reg_r (a * a)); [nra|]. rewrite X. assert (99 / 100 * a * (99 / 100 * a) <= b * b) by (apply Rmult_le_compat; lra). nra. }
    apply (Rmult_le_reg_r (1 - eccentricity_squared a b)); [lra|]. unfold Rdiv. rewrite Rmult_assoc, Rinv_l by lra. lra. }
  lra.
Qed.
Lemma grid_error_small c tol : 3000000 <= c -> 0 <= tol <= / 10 ^ 8 -> 0 <= grid_error c tol (11 / 10 ^ 7) <= / 7 * / 10 ^ 7.
Proof.
  intros C T. unfold grid_error. assert (0 <= 21 / 10 * (11 / 10 ^ 7) / c <= / 10 ^ 12); [|lra]. split; [apply Rmult_le_pos; [lra|left; apply Rinv_0_lt_compat; lra]|]. apply (Rmult_le_reg_r c); [lra|]. unfold Rdiv. rewrite Rmult_assoc, Rinv_l by lra. lra.
Qed.
Section Lm.
Context (lm : libm) (AC : accurate lm).
Notation O := (F64ops lm).
Lemma every_map_small (E : Ellipsoid f64) a b spec c w k : earth64 E a b -> in_range64 spec -> reach c w k -> exists ch reads draws tol, maps64 a b c k spec ch reads draws tol /\ map_ok lm spec E a b ch reads draws tol /\ 0 <= tol (11 / 10 ^ 7) <= / 7 * / 10 ^ 7.
Proof.
  intros HE IR RE. destruct (e_range E a b HE) as [AB _]. pose proof HE as (_ & _ & _ & B1 & B2 & B3 & B4).
  assert (T5 : 0 <= ((a - b) * (a + b) / (a * a)) ^ 5 <= / 10 ^ 8). { pose proof (E2_b lm E a b HE) as EB. split; [apply pow_le; lra|]. eapply Rle_trans; [apply (pow_incr _ (/ 50)); lra|lra]. }
  assert (TE : forall s, 9 / 10 <= s -> 0 <= tm_error a b s k (11 / 10 ^ 7) <= / 7 * / 10 ^ 7) by (intros s Hs; split; [apply (tm_error_pos a b s c w k); auto; lra|apply (tm_error_small a b s c w k); auto]).
  destruct IR as [lon0 lat0 k0 fe fn l0 p0 s e n V0 VP Vk Ve Vn B0 BP Bk Be Bn|south z HZ|lon0 lat0 fe fn l0 e n V0 Ve Vn B0 Be Bn|lon0 k0 fe fn l0 s e n V0 Vk Ve Vn B0 Bk Be Bn|lon0 lat0 fe fn l0 p0 e n V0 VP Ve Vn B0 BP Be Bn].
  - destruct (tm_tm_ok lm AC E a b lon0 lat0 k0 fe fn l0 p0 s e n HE V0 VP Vk Ve Vn B0 BP Bk Be Bn) as (east & north & OK). do 4 eexists. split; [exact (a_transverse_mercator a b c k lon0 lat0 k0 fe fn l0 p0 s e n east north V0 VP Vk Ve Vn (proj1 OK))|]. split; [exact (tm_map_ok lm _ E a b l0 p0 s e n east north c w k HE (proj1 Bk) RE OK)|exact (TE s (proj1 Bk))].
  - destruct (utm_vals lm AC z HZ) as (A1 & A2 & OK). destruct (OK E a b HE) as [N S]. assert (U : exists east north, tm_ok lm (utm64 south z) E a b (B2R (utm_lon0 (ops := O) z)) 0 (B2R (UTM_K0 (ops := O))) 500000 (utm_northing south) east north) by (destruct south; [exact S|exact N]).
    destruct U as (east & north & U). do 4 eexists. split; [exact (a_utm a b c k south z _ _ east north A1 A2 (proj1 U))|]. apply Rabs_le_inv in A2. assert (K9 : 9 / 10 <= B2R (UTM_K0 (ops := O))) by lra. split; [exact (tm_map_ok lm _ E a b _ _ _ _ _ east north c w k HE K9 RE U)|exact (TE _ K9)].
  - do 4 eexists. split; [exact (a_web_mercator a b c k lon0 lat0 fe fn l0 e n _ V0 Ve Vn (web_sphere a n))|]. split; [exact (web_map_ok lm AC E a b HE lon0 fe fn l0 e n V0 Ve Vn B0 Be Bn lat0)|apply grid_error_small; lra].
  - pose proof (near_1sp E a b HE k0 s Vk Bk) as NC. pose proof (c_pos _ _ NC) as CP. do 4 eexists. split; [exact (a_mercator_1sp a b c k lon0 k0 fe fn l0 s e n (s * a) _ V0 Vk Ve Vn (merc_1sp _ a b s (xell_shape a b AB)) (merc_north a b _ _ AB))|]. split; [exact (merc_map_ok lm AC E a b HE lon0 fe fn l0 e n V0 Ve Vn B0 Be Bn (SMercator1SP lon0 k0 fe fn) _ _ (s * a) NC eq_refl)|apply grid_error_small; [lra|exact T5]].
  - pose proof (near_2sp lm AC E a b HE lat0 p0 VP BP) as NC. pose proof (c_pos _ _ NC) as CP. assert (SC : scale_at a b (mer_x a b p0) p0 1). { exists (mer_x a b p0), (mer_z a b p0). split; [apply (mer_meridian _ a b (xell_shape a b AB))|]. split; [lra|]. field. lra. }
    do 4 eexists. split; [exact (a_mercator_2sp a b c k lon0 lat0 fe fn l0 p0 e n (mer_x a b p0) _ V0 VP Ve Vn SC (merc_north a b _ _ AB))|]. split; [exact (merc_map_ok lm AC E a b HE lon0 fe fn l0 e n V0 Ve Vn B0 Be Bn (SMercator2SP lon0 lat0 fe fn) _ _ (mer_x a b p0) NC eq_refl)|apply grid_error_small; [lra|exact T5]].
Qed.
Lemma every_station C c w k : reach c w k -> system64 lm C -> exists names visits err, station64 lm c k C names visits err /\ station_ok lm C names visits err.
Proof.
  intros RE [id d|id d ax a b m u v ku kv HE VM BM UA UL AX|id d a b m u v ku kv spec HE VM BM U1 U2 IR].
  - do 3 eexists. split; [constructor|apply (xyz_ok lm AC)].
  - do 3 eexists. split; [exact (st_geo lm c k id d ax a b m HE VM)|exact (geo_ok lm AC id d ax a b m u v ku kv HE VM BM UA UL AX)].
  - destruct (every_map_small _ a b spec c w k HE IR RE) as (ch & reads & draws & tol & MP & OK & TS). do 3 eexists. split; [exact (st_map lm c k id d (PEastNorthUp u v) a b m spec ch reads draws tol HE VM MP)|]. apply (station_map lm AC id d a b m u v ku kv spec ch reads draws tol HE VM BM U1 U2 OK); lra.
Qed.
End Lm.

Lemma c68_back : forall lm, accurate lm -> forall c1 c2 c w k, reach c w k -> system64 lm c1 -> system64 lm c2 ->
  exists names1 visits1 err1 names2 visits2 err2, station64 lm c k c1 names1 visits1 err1 /\ station64 lm c k c2 names2 visits2 err2 /\
  there_and_back64 lm c1 names1 visits1 err1 c2 names2 visits2 err2.
Proof.
  intros lm AC c1 c2 c w k RE S1 S2. destruct (every_station lm AC c1 c w k RE S1) as (n1 & v1 & e1 & ST1 & OK1). destruct (every_station lm AC c2 c w k RE S2) as (n2 & v2 & e2 & ST2 & OK2).
  exists n1, v1, e1, n2, v2, e2. split; [exact ST1|]. split; [exact ST2|]. now apply (there_back lm).
Qed.
Lemma shift_back lm T f g : shifts T -> moves64 lm T f g -> (forall P, g (f P) = P) /\ (forall P, f (g P) = P).
Proof.
  intros S M. destruct M as [|tx ty tz X Y Z V1 V2 V3 W1 W2 W3|cc rx ry rz tx ty tz ppm A B C X Y Z S0]; [split; reflexivity| |inversion S].
  split; intros [[x y] z]; cbn [vadd]; repeat f_equal; ring.
Qed.
Lemma c68_shift : forall lm T1 f1 g1 T2 f2 g2, shifts T1 -> shifts T2 -> moves64 lm T1 f1 g1 -> moves64 lm T2 f2 g2 -> forall P, g1 (f2 (g2 (f1 P))) = P.
Proof. intros lm T1 f1 g1 T2 f2 g2 S1 S2 M1 M2 P. destruct (shift_back lm T1 f1 g1 S1 M1) as [G1 _]. destruct (shift_back lm T2 f2 g2 S2 M2) as [_ G2]. rewrite G2. apply G1. Qed.
Lemma c68_close : forall a b p l h P p' l' h' Q, 6300000 <= b -> b < a -> a <= 6400000 -> 99 * a <= 100 * b -> geodetic_point a b p l h P -> geodetic_point a b p' l' h' Q -> Rabs h <= 210000 -> Rabs h' <= 210000 -> edist P Q <= 1000 ->
  edist (position l p) (position l' p') <= edist P Q / 6000000 /\ Rabs (h - h') <= 1001 / 1000 * edist P Q.
Proof. intros a b p l h P p' l' h' Q B1 B2 B3 B4 G G' H H' D. apply (gp_close a b p l h P p' l' h' Q 0); auto; now rewrite Rplus_0_r. Qed.

Local Open Scope string_scope.
Local Open Scope R_scope.
Lemma c68_ex : let O := F64ops libm_ex in let d := DATUM_WGS84 (ops := O) in let geo := GeographicCrs "WGS 84" d (GEastNorthUp (DEG (ops := O)) (M (ops := O))) in
  let web := ProjectedCrs "web" d (PEastNorthUp (M (ops := O)) (FT (ops := O))) (SWebMercator (f64_ofZ 0) (f64_ofZ 0) (f64_ofZ 0) (f64_ofZ 0)) in
  accurate libm_ex /\ system64 libm_ex geo /\ system64 libm_ex web /\ reach (100 / 101) (/ 11) 27 /\ (7 <= 7)%nat /\ moves64 libm_ex XYZIdentity (fun P => P) (fun P => P) /\ shifts XYZIdentity /\
  exists a b P, earth64 (d_ellipsoid d) a b /\ source64 libm_ex geo [f64_ofZ 10; f64_ofZ 45; f64_ofZ 100] P /\
  exists l p h, geodetic_point a b p (l + 0) h P /\ grid_draws l p /\ all_around grid_reads l p /\ Rabs p <= PI / 2 - / 10 ^ 6 /\ Rabs h <= 98000.
Proof.
  intros O d geo web. destruct c57_ex as (E1 & (a & b & E2) & E3 & _). assert (Z : forall z, (Z.abs z <= 2 ^ 53)%Z -> val64 (f64_ofZ z) (IZR z)) by (intros; now apply val_Z). pose proof pi_pos as PP.
  assert (R4 : Rabs 0 <= 4) by (rewrite Rabs_R0; lra).
  split; [exact E1|]. split; [eapply (sys_geo libm_ex _ _ _ a b 0); [exact E2|exact E3|exact R4|constructor|constructor|left; reflexivity]|].
  split; [eapply (sys_map libm_ex _ _ a b 0); [exact E2|exact E3|exact R4|constructor|constructor|apply (r_web _ _ _ _ 0 0 0); try (apply Z; cbn; lia); rewrite Rabs_R0; lra]|].
  split; [constructor|]. split; [lia|]. split; [constructor|]. split; [constructor|]. pose proof E2 as (_ & _ & _ & B1 & B2 & B3 & B4).
  set (P := (mr a b (45 * (PI / 180)) 100 * cos (10 * (PI / 180) + 0), mr a b (45 * (PI / 180)) 100 * sin (10 * (PI / 180) + 0), mz a b (45 * (PI / 180)) 100)).
  assert (GP : geodetic_point a b (45 * (PI / 180)) (10 * (PI / 180) + 0) 100 P) by (apply gp_at; lra). exists a, b, P. split; [exact E2|]. split.
  - apply (src_geo libm_ex _ _ _ _ a b 0 (10 * (PI / 180)) (45 * (PI / 180)) (100 * 1)); auto; try (apply Rabs_le; lra).
    + constructor; try (apply Z; cbn; lia); constructor.
    + now rewrite Rmult_1_r.
  - exists (10 * (PI / 180)), (45 * (PI / 180)), 100. split; [exact GP|]. split; [apply Rabs_le; lra|]. split; [|split; apply Rabs_le; lra].
    intros l' p' P' D. unfold grid_reads. set (l := 10 * (PI / 180)) in *. replace (45 * (PI / 180)) with (PI / 4) in D by field.
    pose proof (project_le (cos (PI / 4) * cos l) (cos (PI / 4) * sin l) (sin (PI / 4)) (cos p' * cos l') (cos p' * sin l') (sin p') l) as J. change (edist (cos (PI / 4) * cos l, cos (PI / 4) * sin l, sin (PI / 4)) (cos p' * cos l', cos p' * sin l', sin p')) with (edist (position l (PI / 4)) (position l' p')) in J.
    assert (E : (cos (PI / 4) * cos l - cos p' * cos l') * cos l + (cos (PI / 4) * sin l - cos p' * sin l') * sin l = cos (PI / 4) - cos p' * cos (l' - l)). { rewrite (cos_minus l' l). pose proof (sc1 l) as K. transitivity (cos (PI / 4) * (sin l * sin l + cos l * cos l) - cos p' * (cos l' * cos l + sin l' * sin l)); [ring|]. rewrite K. ring. }
    rewrite E in J. assert (J2 : Rabs (cos (PI / 4) - cos p' * cos (l' - l)) <= / 10 ^ 6) by (eapply Rle_trans; [exact J|exact D]). apply Rabs_le_inv in J2. pose proof (COS_bound (l' - l)) as CB. assert (C0 : 0 <= cos p') by (apply Rabs_le_inv in P'; apply cos_ge_0; lra).
    assert (K1 : cos p' * cos (l' - l) <= cos p' * 1) by (apply Rmult_le_compat_l; lra). assert (C4 : / 2 <= cos (PI / 4)). { pose proof (cos_decr_1 (PI / 4) (PI / 3) ltac:(lra) ltac:(lra) ltac:(lra) ltac:(lra) ltac:(lra)) as K3. rewrite cos_PI3 in K3. lra. }
    destruct (Rle_dec (Rabs p') (89 * PI / 180)) as [Y|N]; [exact Y|exfalso]. assert (CC : cos (Rabs p') = cos p') by (unfold Rabs; destruct (Rcase_abs p'); [apply cos_neg|reflexivity]). assert (C89 : cos (Rabs p') <= cos (89 * PI / 180)) by (apply cos_decr_1; lra).
    replace (89 * PI / 180) with (PI / 2 - 1 * PI / 180) in C89 by field. rewrite cos_shift in C89. pose proof (sin_lt_x (1 * PI / 180) ltac:(lra)) as S6. lra.
Qed.
