(** Property C61 assembled. *)
From Coq Require Import ZArith Reals QArith Qreals Lra Lia Bool List.
From Flocq Require Import Core IEEE754.BinarySingleNaN.
From Verif.Num Require Import FOps RFun F64 F64Lemmas PIBounds Near.
From Verif.Model Require Import Fp Quantities Cs Ellipsoid Geodesics Projections.
From Verif.Spec Require Import Angles Axes Shape Maps Accurate Binary64 Maps64.
From Verif.Proofs Require Import AxesX AnglesF EllX ProjX MercX MercInv NearX LlhF MapF MercF MercG Bin64P LibmOk.
Local Open Scope R_scope.

Lemma trip_weak lm P t u : t <= u -> round_trips64 lm P t -> round_trips64 lm P u.
Proof.
  intros H T fuel l p h L B V1 V2 B1 B2. destruct (T fuel l p h L B V1 V2 B1 B2) as (c & l' & p' & m & T1 & T2 & T3 & T4 & T5 & T6 & T7). exists c, l', p', m. repeat (split; [assumption|]). lra.
Qed.
Lemma isom_e_00 p : isom_e 0 p = isom p.
Proof. unfold isom_e. ring. Qed.
Section C61.
Context (lm : libm) (AC : accurate lm) (E : Ellipsoid f64) (a b : R) (HE : earth64 E a b).
Context (lon0 fe fn : f64) (LON0 FE FN : R) (V0 : val64 lon0 LON0) (Ve : val64 fe FE) (Vn : val64 fn FN)
  (B0 : Rabs LON0 <= 4) (Be : Rabs FE <= 100000000) (Bn : Rabs FN <= 100000000).
Lemma c61_web lat0 : let P := applied_to (ops := F64ops lm) (SWebMercator lon0 lat0 fe fn) E in
  exists north, sphere_north a FN north /\ projects64 lm P LON0 FE a north /\ unprojects64 lm P LON0 FE FN a north (3 / 10 ^ 14) /\ round_trips64 lm P (5 / 10 ^ 13).
Proof.
  cbv zeta. cbn [applied_to]. exists (fun p => FN + a * isom p). split; [apply web_north|].
  pose proof (web_projects lm AC E a b HE lon0 lat0 fe fn LON0 FE FN V0 Ve Vn B0 Be Bn) as PJ. pose proof (web_unprojects lm AC E a b HE lon0 lat0 fe fn LON0 FE FN V0 Ve Vn B0 Be Bn) as UJ. split; [exact PJ|]. split; [exact UJ|].
  apply (trip_weak lm _ (4 / 10 ^ 13 + 3 / 10 ^ 14)); [lra|]. pose proof (c_pos _ a (near_ca E a b HE)) as CP. apply (trip lm AC _ LON0 FE FN a 0); [lra|lra|lra| |].
  - intros l p h L B G1 G2 G3 G4. destruct (PJ l p h L B G1 G2 G3 G4) as (x & y & d & D). exists x, y, d. rewrite isom_e_00. exact D.
  - intros fuel x y h X Y G1 G2 G3 G4. destruct (UJ fuel x y h X Y G1 G2 G3 G4) as (l & p & m & B & D). exists l, p, m, B. rewrite isom_e_00. exact D.
Qed.
Local Notation e2 := ((a - b) * (a + b) / (a * a)).
Lemma c61_any lat0 k0 c : near (Bmult mode_NE k0 (e_a E)) c 3000000 13000000 (Qmake 20 (2 ^ 53)) (Qmake 1 (2 ^ 60)) -> let P := PMercator (merc_new (ops := F64ops lm) E lon0 lat0 k0 fe fn) in
  exists north, conformal_north a b FN c north /\ projects64 lm P LON0 FE c north /\ unprojects64 lm P LON0 FE FN c north (3 / 10 ^ 14 + e2 ^ 5) /\ round_trips64 lm P (5 / 10 ^ 13 + e2 ^ 5).
Proof.
  intros NC. cbv zeta. exists (fun p => FN + c * isom_e (the_e a b) p). destruct (e_range E a b HE) as [AB ER]. split; [now apply merc_north|].
  pose proof (merc_projects lm AC E a b HE lon0 lat0 k0 fe fn LON0 FE FN c V0 Ve Vn B0 Be Bn NC) as PJ. pose proof (merc_unprojects lm AC E a b HE lon0 lat0 k0 fe fn LON0 FE FN c V0 Ve Vn B0 Be Bn NC) as UJ. split; [exact PJ|]. split; [exact UJ|].
  apply (trip_weak lm _ (4 / 10 ^ 13 + (3 / 10 ^ 14 + e2 ^ 5))); [lra|]. pose proof (c_pos _ c NC) as CP. pose proof (E2_b lm E a b HE) as EB. rewrite <- (e_E2 E a b HE) in EB. apply (trip lm AC _ LON0 FE FN c (the_e a b)); [lra|lra|lra|exact PJ|exact UJ].
Qed.
Lemma c61_1sp (k0 : f64) K : val64 k0 K -> / 2 <= K <= 2 -> let P := applied_to (ops := F64ops lm) (SMercator1SP lon0 k0 fe fn) E in
  exists c north, scale_at a b c 0 K /\ conformal_north a b FN c north /\ projects64 lm P LON0 FE c north /\ unprojects64 lm P LON0 FE FN c north (3 / 10 ^ 14 + e2 ^ 5) /\ round_trips64 lm P (5 / 10 ^ 13 + e2 ^ 5).
Proof.
  intros VK BK. cbv zeta. exists (K * a). destruct (e_range E a b HE) as [AB _]. destruct (c61_any (f64_ofZ 0) k0 (K * a) (near_1sp E a b HE k0 K VK BK)) as (north & H). exists north. split; [apply (merc_1sp _ a b K (xell_shape a b AB))|exact H].
Qed.
Lemma c61_2sp (lat0 : f64) P0 : val64 lat0 P0 -> Rabs P0 <= PI / 3 -> let P := applied_to (ops := F64ops lm) (SMercator2SP lon0 lat0 fe fn) E in
  exists c north, scale_at a b c P0 1 /\ conformal_north a b FN c north /\ projects64 lm P LON0 FE c north /\ unprojects64 lm P LON0 FE FN c north (3 / 10 ^ 14 + e2 ^ 5) /\ round_trips64 lm P (5 / 10 ^ 13 + e2 ^ 5).
Proof.
  intros VK BK. cbv zeta. exists (mer_x a b P0). destruct (e_range E a b HE) as [AB _]. pose proof (near_2sp lm AC E a b HE lat0 P0 VK BK) as NC. pose proof (c_pos _ _ NC) as CP. destruct (c61_any lat0 _ (mer_x a b P0) NC) as (north & H). exists north. split; [|exact H].
  exists (mer_x a b P0), (mer_z a b P0). split; [apply (mer_meridian _ a b (xell_shape a b AB))|]. split; [lra|]. field. lra.
Qed.
End C61.

Lemma c61_ex : accurate libm_ex /\ (exists a b, earth64 (d_ellipsoid (DATUM_WGS84 (ops := F64ops libm_ex))) a b) /\
  val64 (f64_ofZ 2) 2 /\ Rabs 2 <= 4 /\ val64 (f64_ofZ 500000) 500000 /\ Rabs 500000 <= 100000000 /\
  val64 (f64_ofZ 1) 1 /\ / 2 <= 1 <= 2 /\ val64 (f64_of 1 (-1)) 0.5 /\ Rabs 0.5 <= PI / 3 /\ Rabs 1 <= 89 * PI / 180.
Proof.
  destruct c57_ex as (E1 & E2 & E3 & _ & E5 & _). pose proof PI_64_bounds as PB. split; [exact E1|]. split; [exact E2|]. split; [apply val_Z; cbn; lia|]. split; [apply Rabs_le; lra|]. split; [apply val_Z; cbn; lia|]. split; [apply Rabs_le; lra|]. split; [apply val_Z; cbn; lia|]. split; [lra|]. split; [exact E5|]. split; apply Rabs_le; lra.
Qed.
