(** Property C67 assembled. *)
From Coq Require Import ZArith Reals QArith Qreals Lra Lia Bool Psatz List String.
From Flocq Require Import Core IEEE754.BinarySingleNaN.
From Verif.Num Require Import FOps RFun XR XRLemmas F64 F64Lemmas PIBounds Near.
From Verif.Model Require Import Fp Quantities Cs Ellipsoid Geodesics Projections Crs.
From Verif.Spec Require Import Angles Axes Shape Frames Sphere Maps Krueger Reach Accurate Binary64 Routes64 Maps64 Transverse64 MapRoutes64 GridRoutes64.
From Verif.Proofs Require Import AxesX TransX AnglesX AnglesF EllX DatumX MathF NearX NearL LlhF LlhInvF LlhInvG LlhInvH LibmOk Bin64P TransB ProjX MercX MercInv TMX TMConf TMScale TMInv TMFwdM TMFwdP TMBackE TMBackF TMBackP TMArc SphereG MapF MercF MercG MercP NearH CtorF NearT MapRoute MapRouteA MapRouteB MapRouteC.
Import ListNotations.
Local Open Scope R_scope.

Section Lm.
Context (lm : libm) (AC : accurate lm).
Notation O := (F64ops lm).
Section G.
Context (E : Ellipsoid f64) (a b : R) (HE : earth64 E a b).
Context (lon0 fe fn : f64) (LON0 FE FN : R) (V0 : val64 lon0 LON0) (Ve : val64 fe FE) (Vn : val64 fn FN)
  (B0 : Rabs LON0 <= 4) (Be : Rabs FE <= 100000000) (Bn : Rabs FN <= 100000000).
Local Notation e2 := ((a - b) * (a + b) / (a * a)).
Lemma web_lon_small lat0 : lon_small lm (PWebMercator (wm_new E lon0 lat0 fe fn)) FE a.
Proof.
  intros fuel x y h X l p h' Vx Bx EU. rewrite <- (ret_ok_lon _ _ _ _ _ _ EU). exact (unmap_lon_le lm _ a (near_ca E a b HE) x fe lon0 X FE LON0 Vx Ve V0 B0 Be Bx).
Qed.
Lemma web_map_ok lat0 : map_ok lm (SWebMercator lon0 lat0 fe fn) E a b (grid_chart LON0 FE a (fun p => FN + a * isom_e 0 p)) grid_reads grid_draws (grid_error a 0).
Proof.
  pose proof (c_pos _ a (near_ca E a b HE)) as CP.
  apply (grid_map_ok lm (SWebMercator lon0 lat0 fe fn) E a b LON0 FE FN a 0 0 HE); [lra|lra|exact CP|exact Be|exact Bn|lra| | |exact (web_lon_small lat0)].
  - intros l p h L B G1 G2 G3 G4. destruct (web_projects lm AC E a b HE lon0 lat0 fe fn LON0 FE FN V0 Ve Vn B0 Be Bn l p h L B G1 G2 G3 G4) as (x & y & d & D). exists x, y, d. rewrite isom_e_00. exact D.
  - intros fuel x y h X Y G1 G2 G3 G4. destruct (web_unprojects lm AC E a b HE lon0 lat0 fe fn LON0 FE FN V0 Ve Vn B0 Be Bn fuel x y h X Y G1 G2 G3 G4) as (l & p & m & B & D). exists l, p, m, B. rewrite isom_e_00, Rplus_0_r. exact D.
Qed.
Lemma web_sphere : sphere_north a FN (fun p => FN + a * isom_e 0 p).
Proof.
  destruct (web_north a FN) as [W1 W2]. split; [rewrite isom_e_00; exact W1|]. intros p NP eps He. destruct (W2 p NP eps He) as (del & D). exists del. intros h. rewrite !isom_e_00. apply D.
Qed.
Lemma merc_map_ok spec lat0 k0 c : near (Bmult mode_NE k0 (e_a E)) c 3000000 13000000 (Qmake 20 (2 ^ 53)) (Qmake 1 (2 ^ 60)) -> applied_to (ops := O) spec E = PMercator (merc_new (ops := O) E lon0 lat0 k0 fe fn) ->
  map_ok lm spec E a b (grid_chart LON0 FE c (fun p => FN + c * isom_e (the_e a b) p)) grid_reads grid_draws (grid_error c (e2 ^ 5)).
Proof.
  intros NC SP. pose proof (c_pos _ c NC) as CP. destruct (e_range E a b HE) as [AB ER]. pose proof (E2_b lm E a b HE) as EB. assert (T5 : 0 <= e2 ^ 5 <= / 10 ^ 5). { split; [apply pow_le; lra|]. eapply Rle_trans; [apply (pow_incr _ (/ 50)); lra|lra]. }
  rewrite <- (e_E2 E a b HE) in EB.
  apply (grid_map_ok lm spec E a b LON0 FE FN c (the_e a b) (e2 ^ 5) HE); [lra|lra|exact CP|exact Be|exact Bn|exact T5| | |]; rewrite SP.
  - exact (merc_projects lm AC E a b HE lon0 lat0 k0 fe fn LON0 FE FN c V0 Ve Vn B0 Be Bn NC).
  - exact (merc_unprojects lm AC E a b HE lon0 lat0 k0 fe fn LON0 FE FN c V0 Ve Vn B0 Be Bn NC).
  - intros fuel x y h X l p h' Vx Bx EU. rewrite <- (ret_ok_lon _ _ _ _ _ _ EU). exact (unmap_lon_le lm _ c NC x fe lon0 X FE LON0 Vx Ve V0 B0 Be Bx).
Qed.
End G.

Lemma every_map (E : Ellipsoid f64) a b spec c w k : earth64 E a b -> in_range64 spec -> reach c w k -> exists ch reads draws tol, maps64 a b c k spec ch reads draws tol /\ map_ok lm spec E a b ch reads draws tol.
Proof.
  intros HE IR RE. destruct (e_range E a b HE) as [AB _]. destruct IR as [lon0 lat0 k0 fe fn l0 p0 s e n V0 VP Vk Ve Vn B0 BP Bk Be Bn|south z HZ|lon0 lat0 fe fn l0 e n V0 Ve Vn B0 Be Bn|lon0 k0 fe fn l0 s e n V0 Vk Ve Vn B0 Bk Be Bn|lon0 lat0 fe fn l0 p0 e n V0 VP Ve Vn B0 BP Be Bn].
  - destruct (tm_tm_ok lm AC E a b lon0 lat0 k0 fe fn l0 p0 s e n HE V0 VP Vk Ve Vn B0 BP Bk Be Bn) as (east & north & OK). do 4 eexists. split; [exact (a_transverse_mercator a b c k lon0 lat0 k0 fe fn l0 p0 s e n east north V0 VP Vk Ve Vn (proj1 OK))|]. exact (tm_map_ok lm _ E a b l0 p0 s e n east north c w k HE (proj1 Bk) RE OK).
  - destruct (utm_vals lm AC z HZ) as (A1 & A2 & OK). destruct (OK E a b HE) as [N S]. assert (U : exists east north, tm_ok lm (utm64 south z) E a b (B2R (utm_lon0 (ops := O) z)) 0 (B2R (UTM_K0 (ops := O))) 500000 (utm_northing south) east north) by (destruct south; [exact S|exact N]).
    destruct U as (east & north & U). do 4 eexists. split; [exact (a_utm a b c k south z _ _ east north A1 A2 (proj1 U))|]. apply Rabs_le_inv in A2. refine (tm_map_ok lm _ E a b _ _ _ _ _ east north c w k HE _ RE U). lra.
  - do 4 eexists. split; [exact (a_web_mercator a b c k lon0 lat0 fe fn l0 e n _ V0 Ve Vn (web_sphere a n))|]. exact (web_map_ok E a b HE lon0 fe fn l0 e n V0 Ve Vn B0 Be Bn lat0).
  - do 4 eexists. split; [exact (a_mercator_1sp a b c k lon0 k0 fe fn l0 s e n (s * a) _ V0 Vk Ve Vn (merc_1sp _ a b s (xell_shape a b AB)) (merc_north a b _ _ AB))|]. exact (merc_map_ok E a b HE lon0 fe fn l0 e n V0 Ve Vn B0 Be Bn (SMercator1SP lon0 k0 fe fn) _ _ (s * a) (near_1sp E a b HE k0 s Vk Bk) eq_refl).
  - pose proof (near_2sp lm AC E a b HE lat0 p0 VP BP) as NC. pose proof (c_pos _ _ NC) as CP. assert (SC : scale_at a b (mer_x a b p0) p0 1). { exists (mer_x a b p0), (mer_z a b p0). split; [apply (mer_meridian _ a b (xell_shape a b AB))|]. split; [lra|]. field. lra. }
    do 4 eexists. split; [exact (a_mercator_2sp a b c k lon0 lat0 fe fn l0 p0 e n (mer_x a b p0) _ V0 VP Ve Vn SC (merc_north a b _ _ AB))|]. exact (merc_map_ok E a b HE lon0 fe fn l0 e n V0 Ve Vn B0 Be Bn (SMercator2SP lon0 lat0 fe fn) _ _ (mer_x a b p0) NC eq_refl).
Qed.
End Lm.

Lemma c67_routes : forall lm, accurate lm -> forall (d : GeodeticDatum f64) a b m spec c w k, earth64 (d_ellipsoid d) a b -> in_range64 spec -> reach c w k ->
  exists ch reads draws tol, maps64 a b c k spec ch reads draws tol /\ to_map64 lm d spec a b m ch draws /\ from_map64 lm d spec a b m ch reads tol.
Proof.
  intros lm AC d a b m spec c w k HE IR RE. destruct (every_map lm AC _ a b spec c w k HE IR RE) as (ch & reads & draws & tol & MP & OK). exists ch, reads, draws, tol. split; [exact MP|]. split; [exact (any_to lm AC spec d a b m ch reads draws tol OK)|exact (any_from lm AC spec d a b m ch reads draws tol OK)].
Qed.
Lemma c67_between : forall lm, accurate lm -> forall (d d' : GeodeticDatum f64) a b m a' b' m' spec spec' c w k, earth64 (d_ellipsoid d) a b -> earth64 (d_ellipsoid d') a' b' -> in_range64 spec -> in_range64 spec' -> reach c w k ->
  exists ch reads draws tol ch' reads' draws' tol', maps64 a b c k spec ch reads draws tol /\ maps64 a' b' c k spec' ch' reads' draws' tol' /\ map_to_map64 lm d spec a b m ch reads tol d' spec' a' b' m' ch' draws'.
Proof.
  intros lm AC d d' a b m a' b' m' spec spec' c w k HE HE' IR IR' RE. destruct (every_map lm AC _ a b spec c w k HE IR RE) as (ch & reads & draws & tol & MP & OK). destruct (every_map lm AC _ a' b' spec' c w k HE' IR' RE) as (ch' & reads' & draws' & tol' & MP' & OK').
  exists ch, reads, draws, tol, ch', reads', draws', tol'. split; [exact MP|]. split; [exact MP'|]. exact (any_between lm AC spec d a b m ch reads draws tol spec' d' a' b' m' ch' reads' draws' tol' OK OK').
Qed.

Local Open Scope string_scope.
Local Open Scope R_scope.
(** Beside the theorems: from Web Mercator to UTM and back, and from both to geographic coordinates. *)
Lemma c67_ex : let O := F64ops libm_ex in let d := DATUM_WGS84 (ops := O) in let geo := GeographicCrs "WGS 84" d (GEastNorthUp (DEG (ops := O)) (M (ops := O))) in
  let web := SWebMercator (f64_ofZ 0) (f64_ofZ 0) (f64_ofZ 0) (f64_ofZ 0) in
  accurate libm_ex /\ in_range64 web /\ in_range64 (utm64 false 30) /\ in_range64 (SMercator1SP (f64_ofZ 2) (f64_ofZ 1) (f64_ofZ 500000) (f64_ofZ 0)) /\ in_range64 (SMercator2SP (f64_ofZ 2) (f64_of 1 (-1)) (f64_ofZ 500000) (f64_ofZ 0)) /\ reach (100 / 101) (/ 11) 27 /\ (7 <= 7)%nat /\
  moves64 libm_ex XYZIdentity (fun P => P) (fun P => P) /\ exists a b, earth64 (d_ellipsoid d) a b /\
  (exists P, source64 libm_ex geo [f64_ofZ 10; f64_ofZ 45; f64_ofZ 100] P /\ ends64 libm_ex d a b 0 grid_draws (PEastNorthUp (M (ops := O)) (FT (ops := O))) P) /\
  forall north, sphere_north a 0 north -> exists P, starts64 libm_ex d a b 0 (grid_chart 0 0 a north) grid_reads (/ 2) (PEastNorth (M (ops := O))) [f64_ofZ 500000; f64_ofZ 0] P /\
    target64 libm_ex geo P /\ ends64 libm_ex d a b 0 (tm_draws 0) (PEastNorth (US_FT (ops := O))) P.
Proof.
  intros O d geo web. destruct c57_ex as (E1 & (a & b & E2) & E3 & _ & E5 & _). assert (Z : forall z, (Z.abs z <= 2 ^ 53)%Z -> val64 (f64_ofZ z) (IZR z)) by (intros; now apply val_Z). pose proof PI_64_bounds as PB.
  split; [exact E1|]. split; [apply (r_web _ _ _ _ 0 0 0); try (apply Z; cbn; lia); rewrite Rabs_R0; lra|]. split; [constructor; lia|].
  split; [apply (r_1sp _ _ _ _ 2 1 500000 0); try (apply Z; cbn; lia); try (apply Rabs_le; lra); lra|]. split; [apply (r_2sp _ _ _ _ 2 0.5 500000 0); try (apply Z; cbn; lia); try (apply Rabs_le; lra); exact E5|].
  split; [constructor|]. split; [lia|]. split; [constructor|]. exists a, b. split; [exact E2|]. pose proof E2 as (_ & _ & _ & B1 & B2 & B3 & B4). split.
  - set (P := (mr a b (45 * (PI / 180)) 100 * cos (10 * (PI / 180) + 0), mr a b (45 * (PI / 180)) 100 * sin (10 * (PI / 180) + 0), mz a b (45 * (PI / 180)) 100)).
    assert (GP : geodetic_point a b (45 * (PI / 180)) (10 * (PI / 180) + 0) 100 P) by (apply gp_at; lra). exists P. split.
    + apply (src_geo libm_ex _ _ _ _ a b 0 (10 * (PI / 180)) (45 * (PI / 180)) (100 * 1)); auto; try (apply Rabs_le; lra).
      * constructor; try (apply Z; cbn; lia); constructor.
      * now rewrite Rmult_1_r.
    + split; [exact E2|]. split; [exact E3|]. split; [apply Rabs_le; lra|]. split; [apply (units_enu libm_ex _ _ 1 (3048 / 10000)); constructor|].
      exists (10 * (PI / 180)), (45 * (PI / 180)), 100. split; [exact GP|]. split; [|apply Rabs_le; lra]. apply Rabs_le; lra.
  - intros north [N0 _]. set (l := 500000 / a). assert (L : 0 <= l <= / 10). { unfold l. split; [apply Rmult_le_pos; [lra|left; apply Rinv_0_lt_compat; lra]|]. apply (Rmult_le_reg_r a); [lra|]. unfold Rdiv. rewrite Rmult_assoc, Rinv_l by lra. lra. }
    set (P := (mr a b 0 0 * cos (l + 0), mr a b 0 0 * sin (l + 0), mz a b 0 0)). assert (GP : geodetic_point a b 0 (l + 0) 0 P) by (apply gp_at; lra). pose proof (gp_norm a b _ _ _ P ltac:(lra) GP) as N. rewrite Rabs_R0 in N. exists P. split; [|split].
    + split; [exact E2|]. split; [exact E3|]. split; [apply Rabs_le; lra|]. split; [lra|]. exists (500000 * 1), (0 * 1), None, l, 0, 0, 500000, 0.
      split; [constructor; [constructor|apply Z; cbn; lia|apply Z; cbn; lia]|]. split; [exists l; split; [exists 0%Z; lra|]; split; [apply Rabs_le; lra|]; split; [unfold l; field; lra|now rewrite N0]|].
      split; [unfold grid_reads; rewrite Rabs_R0; lra|]. split; [apply Rabs_le; lra|]. split; [apply Rabs_le; lra|]. split; [reflexivity|]. split; [rewrite Rabs_R0; lra|exact GP].
    + apply (tgt_geo libm_ex _ _ _ a b 0 (DEG (ops := O)) (M (ops := O)) (PI / 180) 1); auto; try (apply Rabs_le; lra); try constructor; try reflexivity; lra.
    + split; [exact E2|]. split; [exact E3|]. split; [apply Rabs_le; lra|]. split; [apply (units_en libm_ex _ (1200 / 3937)); constructor|]. exists l, 0, 0. split; [exact GP|]. split; [split; [rewrite Rabs_R0; lra|]|rewrite Rabs_R0; lra].
      rewrite Rminus_0_r. destruct (cos_bound l 0 ltac:(lra) ltac:(lra)) as [C _]. unfold cos_approx, cos_term in C. cbn in C. nra.
Qed.
