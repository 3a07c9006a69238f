(** Binary64: there and back. *)
From Coq Require Import ZArith Reals QArith Qreals Lra Lia Bool Psatz List String.
From Flocq Require Import Core IEEE754.BinarySingleNaN.
From Verif.Num Require Import FOps RFun XR XRLemmas F64 F64Lemmas PIBounds Near.
From Verif.Model Require Import Fp Quantities Cs Ellipsoid Geodesics Projections Crs.
From Verif.Spec Require Import Angles Axes Shape Frames Sphere Maps Krueger Reach Accurate Binary64 Routes64 Maps64 Transverse64 MapRoutes64 GridRoutes64 Return64.
From Verif.Proofs Require Import AxesX TransX AnglesX AnglesF EllX DatumX MathF NearX NearL LlhF LlhInvF LlhInvG LlhInvH LibmOk Bin64P TransB ProjX MercX MercInv TMX TMConf TMScale TMInv TMFwdM TMFwdP TMBackE TMBackF TMBackP TMArc SphereG MapF MercF MercG MercP NearH CtorF NearT MapRoute MapRouteA MapRouteB MapRouteC MapRouteD ReturnA.
Import ListNotations.
Local Open Scope R_scope.

Lemma off_pole l p l' p' : Rabs p <= PI / 2 - / 10 ^ 6 -> Rabs p' <= PI / 2 -> edist (position l p) (position l' p') <= / 5900000 -> Rabs p' <= PI / 2 - 8 / 10 ^ 7.
Proof.
  intros HP HP' D. pose proof pi_pos as PP. assert (T : 0 <= / 10 ^ 6 <= PI / 2) by lra. pose proof (cos_from_pole p (/ 10 ^ 6) T HP) as C1.
  assert (S : 99 / 10 ^ 8 <= sin (/ 10 ^ 6)). { assert (S3 : forall t, 0 <= t <= 1 -> t - t * t * t / 6 <= sin t) by (intros t Ht; destruct (sin_bound t 0 ltac:(lra) ltac:(lra)) as [S _]; unfold sin_approx, sin_term in S; cbn in S; lra). pose proof (S3 (/ 10 ^ 6) ltac:(lra)) as S. lra. }
  pose proof (project_le (cos p * cos l) (cos p * sin l) (sin p) (cos p' * cos l') (cos p' * sin l') (sin p') l) as J. change (edist (cos p * cos l, cos p * sin l, sin p) (cos p' * cos l', cos p' * sin l', sin p')) with (edist (position l p) (position l' p')) in J.
  assert (E : (cos p * cos l - cos p' * cos l') * cos l + (cos p * sin l - cos p' * sin l') * sin l = cos p - cos p' * cos (l' - l)). { rewrite cos_minus. pose proof (sc1 l) as K. transitivity (cos p * (sin l * sin l + cos l * cos l) - cos p' * (cos l' * cos l + sin l' * sin l)); [ring|]. rewrite K. ring. }
  rewrite E in J. assert (J2 : Rabs (cos p - cos p' * cos (l' - l)) <= / 5900000) by (eapply Rle_trans; [exact J|exact D]). apply Rabs_le_inv in J2. pose proof (COS_bound (l' - l)) as CB. assert (C0 : 0 <= cos p') by (apply Rabs_le_inv in HP'; apply cos_ge_0; lra).
  assert (K1 : cos p' * cos (l' - l) <= cos p' * 1) by (apply Rmult_le_compat_l; lra). assert (CP : 81 / 10 ^ 8 <= cos p') by lra.
  assert (CC : cos (Rabs p') = cos p') by (unfold Rabs; destruct (Rcase_abs p'); [apply cos_neg|reflexivity]). rewrite <- CC in CP. pose proof (Rabs_pos p') as RP. set (q := Rabs p') in *. replace q with (PI / 2 - (PI / 2 - q)) in CP by ring. rewrite cos_shift in CP.
  destruct (Req_dec (PI / 2 - q) 0) as [Z|NZ]; [rewrite Z, sin_0 in CP; lra|]. pose proof (sin_lt_x (PI / 2 - q) ltac:(lra)). lra.
Qed.

Section Lm.
Context (lm : libm) (AC : accurate lm).
Notation O := (F64ops lm).

(** ** What reading and writing must do *)
Definition station_ok (c : Crs f64) (names : list f64 -> R3 -> Prop) (visits : R3 -> Prop) (err : R) : Prop :=
  0 <= err <= / 10 /\
  (forall fuel buf rest P, (7 <= fuel)%nat -> names buf P -> exists X, to_xyz (ops := O) fuel c (buf ++ rest) = Ret (Ok X) /\ within64 X (68 / 70 * err + 14 / 10 ^ 8) P /\ edist P (0, 0, 0) <= 7000000) /\
  (forall X dst P, visits P -> is_finite (x_ X) = true -> is_finite (y_ X) = true -> is_finite (z_ X) = true -> edist (pt X) P <= / 2 -> (3 <= List.length dst)%nat ->
    exists out Q, from_xyz (ops := O) c X dst = Ret (Ok (out ++ skipn 3 dst)) /\ names out Q /\ edist (pt X) Q <= 22 / 10 ^ 8).

Lemma leg fuel c1 n1 v1 e1 T1 f1 g1 T2 f2 g2 c2 n2 v2 e2 src rest dst P P' t : station_ok c1 n1 v1 e1 -> station_ok c2 n2 v2 e2 -> (7 <= fuel)%nat -> moves64 lm T1 f1 g1 -> moves64 lm T2 f2 g2 -> n1 src P -> v2 P' -> edist (g2 (f1 P)) P' <= t -> t <= / 5 -> (3 <= List.length dst)%nat ->
  exists out Q, runs64 lm fuel c1 T1 T2 c2 (src ++ rest) dst (out ++ skipn 3 dst) /\ n2 out Q /\ edist Q P' <= t + 1007 / 1000 * (68 / 70 * e1 + 14 / 10 ^ 8) + 33 / 10 ^ 8.
Proof.
  intros (E1 & RD & _) (_ & _ & WR) HF M1 M2 N V D T LD. destruct (RD fuel src rest P HF N) as (X & EX & W & B). assert (S8 : 68 / 70 * e1 + 14 / 10 ^ 8 <= 800) by lra.
  destruct (through_any lm _ _ _ _ _ _ X P _ M1 M2 W S8 B) as (F1 & F2 & F3 & W2). set (Y := from_ref (ops := O) T2 (to_ref (ops := O) T1 X)) in *. change (edist (pt Y) (g2 (f1 P)) <= 1007 / 1000 * (68 / 70 * e1 + 14 / 10 ^ 8) + 11 / 10 ^ 8) in W2.
  assert (W3 : edist (pt Y) P' <= t + 1007 / 1000 * (68 / 70 * e1 + 14 / 10 ^ 8) + 11 / 10 ^ 8). { eapply Rle_trans; [apply (edist_triangle _ (g2 (f1 P)))|]. eapply Rle_trans; [apply Rplus_le_compat; [exact W2|exact D]|]. lra. }
  assert (W4 : edist (pt Y) P' <= / 2) by (eapply Rle_trans; [exact W3|]; lra).
  destruct (WR Y dst P' V F1 F2 F3 W4 LD) as (out & Q & E & GQ & DQ). exists out, Q. split; [apply run_route; rewrite EX; exact E|]. split; [exact GQ|].
  rewrite edist_sym in DQ. eapply Rle_trans; [eapply edist_triangle|]. eapply Rle_trans; [apply Rplus_le_compat; [exact DQ|exact W3]|]. lra.
Qed.
Lemma there_back c1 n1 v1 e1 c2 n2 v2 e2 : station_ok c1 n1 v1 e1 -> station_ok c2 n2 v2 e2 -> there_and_back64 lm c1 n1 v1 e1 c2 n2 v2 e2.
Proof.
  intros S1 S2 fuel T1 f1 g1 T2 f2 g2 src rest dst back P HF M1 M2 N V2 V1 LD LB. pose proof (proj1 S1) as B1. pose proof (proj1 S2) as B2.
  assert (Z : edist (g2 (f1 P)) (g2 (f1 P)) <= 0) by (right; now apply edist_0). destruct (leg fuel c1 n1 v1 e1 T1 f1 g1 T2 f2 g2 c2 n2 v2 e2 src rest dst P _ 0 S1 S2 HF M1 M2 N V2 Z ltac:(lra) LD) as (mid & MM & R1 & N2 & D1).
  set (R0 := g2 (f1 P)) in *. assert (L : edist (g1 (f2 MM)) (g1 (f2 R0)) <= 1007 / 1000 * edist MM R0). { destruct (move_lip lm T1 f1 g1 M1 (f2 MM) (f2 R0)) as [_ [L1 _]]. destruct (move_lip lm T2 f2 g2 M2 MM R0) as [[L2 _] _]. pose proof (edist_ge0 MM R0). lra. }
  assert (L' : edist (g1 (f2 MM)) (g1 (f2 R0)) <= 1007 / 1000 * (0 + 1007 / 1000 * (68 / 70 * e1 + 14 / 10 ^ 8) + 33 / 10 ^ 8)) by (eapply Rle_trans; [exact L|apply Rmult_le_compat_l; [lra|exact D1]]).
  destruct (leg fuel c2 n2 v2 e2 T2 f2 g2 T1 f1 g1 c1 n1 v1 e1 mid (skipn 3 dst) back MM _ _ S2 S1 HF M2 M1 N2 V1 L' ltac:(lra) LB) as (out & Q & R2 & N1 & D2).
  exists mid, MM, out, Q. split; [exact R1|]. split; [exact N2|]. split; [lra|]. split; [exact R2|]. split; [exact N1|]. lra.
Qed.

(** ** The stations *)
Lemma xyz_ok id d : station_ok (GeocentricCrs id d) (source64 lm (GeocentricCrs id d)) (fun P => edist P (0, 0, 0) <= 6999000) 0.
Proof.
  split; [lra|]. split.
  - intros fuel buf rest P HF S. replace (68 / 70 * 0 + 14 / 10 ^ 8) with (14 / 10 ^ 8) by lra. exact (to_xyz64 lm AC fuel _ buf rest P S).
  - intros [x y z] dst P V F1 F2 F3 D LD. cbn [x_ y_ z_] in *. destruct dst as [|d0 [|d1 [|d2 dst]]]; cbn in LD; try lia. exists [x; y; z], (B2R x, B2R y, B2R z). split; [reflexivity|].
    split; [constructor; try (split; auto)|unfold pt; cbn [x_ y_ z_]; rewrite (proj2 (edist_0 _ _) eq_refl); lra]. eapply Rle_trans; [apply (edist_triangle _ P)|]. eapply Rle_trans; [apply Rplus_le_compat; [exact D|exact V]|]. lra.
Qed.

(** The position found by [xyz_to_llh] near a point whose coordinates are known. *)
Lemma found d a b m X l p h T : earth64 (d_ellipsoid d) a b -> val64 (pm_lon (d_pm d)) m -> Rabs m <= 4 -> geodetic_point a b p (l + m) h T -> Rabs h <= 98000 ->
  is_finite (x_ X) = true -> is_finite (y_ X) = true -> is_finite (z_ X) = true -> edist (pt X) T <= / 2 -> let G := xyz_to_llh (ops := O) d X in
  exists Q, is_finite (lon G) = true /\ is_finite (lat G) = true /\ is_finite (height G) = true /\ Rabs (B2R (lon G)) <= 3.2 /\ Rabs (B2R (lat G)) <= PI / 2 /\ Rabs (B2R (height G)) <= 98002 /\
  geodetic_point a b (B2R (lat G)) (B2R (lon G) + m) (B2R (height G)) Q /\ edist (pt X) Q <= 2 / 10 ^ 7 /\ edist T Q <= 501 / 1000 /\ edist (position l p) (position (B2R (lon G)) (B2R (lat G))) <= / 5900000.
Proof.
  intros HE VM BM GT HT F1 F2 F3 D G. destruct X as [x y z]. unfold pt in *. cbn [x_ y_ z_] in *. pose proof HE as (_ & _ & _ & B1 & B2 & B3 & B4). pose proof (gp_norm a b _ _ _ T ltac:(lra) GT) as NT. apply Rabs_le_inv in HT as HT'.
  assert (N : 6200000 <= edist (B2R x, B2R y, B2R z) (0, 0, 0) <= 6500000).
  { pose proof (edist_triangle (B2R x, B2R y, B2R z) T (0, 0, 0)) as T1. pose proof (edist_triangle T (B2R x, B2R y, B2R z) (0, 0, 0)) as T2. rewrite (edist_sym T (B2R x, B2R y, B2R z)) in T2. lra. }
  destruct (c58_xyz_to_llh lm AC d a b HE m _ _ _ x y z VM (conj F1 eq_refl) (conj F2 eq_refl) (conj F3 eq_refl) BM N) as (l' & p' & h' & Q & VL & VP & VH & LB & PP & HB & GP & W). fold G in VL, VP, VH.
  destruct VL as [FL VL], VP as [FP VP], VH as [FH VH]. exists Q. pose proof pi_pos as PI1. assert (L3 : Rabs l' <= 3.2) by (apply Rabs_le; lra).
  assert (TQ : edist T Q <= 501 / 1000). { eapply Rle_trans; [apply (edist_triangle T (B2R x, B2R y, B2R z) Q)|]. rewrite edist_sym in D. eapply Rle_trans; [apply Rplus_le_compat; [exact D|exact W]|]. lra. }
  assert (HT2 : Rabs h <= 210000) by lra. assert (TQ1 : edist T Q <= 1000) by lra. destruct (gp_close a b _ _ _ T _ _ _ Q m B1 B2 B3 B4 GT GP HT2 HB TQ1) as [CP CH].
  assert (H2 : Rabs h' <= 98002). { apply Rabs_le. assert (CH2 : Rabs (h - h') <= 1) by (eapply Rle_trans; [exact CH|]; lra). apply Rabs_le_inv in CH2. lra. }
  assert (CP2 : edist (position l p) (position l' p') <= / 5900000) by (eapply Rle_trans; [exact CP|]; lra). subst l' p' h'.
  split; [exact FL|]. split; [exact FP|]. split; [exact FH|]. split; [exact L3|]. split; [exact PP|]. split; [exact H2|]. split; [exact GP|]. split; [exact W|]. split; [exact TQ|exact CP2].
Qed.
Lemma geo_ok id d ax a b m u v ku kv : earth64 (d_ellipsoid d) a b -> val64 (pm_lon (d_pm d)) m -> Rabs m <= 4 -> angle_unit64 lm u ku -> length_unit64 lm v kv -> ax = GEastNorthUp u v \/ ax = GNorthEastUp u v ->
  station_ok (GeographicCrs id d ax) (source64 lm (GeographicCrs id d ax)) (fun P => exists l p h, geodetic_point a b p (l + m) h P /\ Rabs p <= PI / 2 - / 10 ^ 6 /\ Rabs h <= 98000) 0.
Proof.
  intros HE VM BM UA UL AX. split; [lra|]. split.
  - intros fuel buf rest P HF S. replace (68 / 70 * 0 + 14 / 10 ^ 8) with (14 / 10 ^ 8) by lra. exact (to_xyz64 lm AC fuel _ buf rest P S).
  - intros X dst T (l & p & h & GT & PT & HT) F1 F2 F3 D LD. destruct (found d a b m X l p h T HE VM BM GT HT F1 F2 F3 D) as (Q & FL & FP & FH & L3 & PP & HB & GP & W & TQ & CP). destruct X as [x y z]. unfold pt in *. cbn [x_ y_ z_] in *.
    destruct dst as [|d0 [|d1 [|d2 dst]]]; cbn in LD; try lia. set (G := xyz_to_llh (ops := F64ops lm) d (mkXYZ x y z)) in *. pose proof pi_pos as PI1. pose proof HE as (_ & _ & _ & B1 & B2 & B3 & B4).
    pose proof (off_pole l p _ _ PT PP CP) as OP. assert (L4 : Rabs (B2R (lon G)) <= 4) by lra. assert (P4 : Rabs (B2R (lat G)) <= 4) by lra. assert (H4 : Rabs (B2R (height G)) <= 210000) by lra.
    destruct (angle_out lm u ku (lon G) UA FL L4) as [O1 O1']. destruct (angle_out lm u ku (lat G) UA FP P4) as [O2 O2']. destruct (length_out lm v kv (height G) UL FH H4) as [O3 O3'].
    set (o1 := angle_val (ops := O) (lon G) u) in *. set (o2 := angle_val (ops := O) (lat G) u) in *. set (o3 := length_val (ops := O) (height G) v) in *.
    assert (GQ : geodetic_point a b (B2R o2 * ku) (B2R o1 * ku + m) (B2R o3 * kv) (mr a b (B2R o2 * ku) (B2R o3 * kv) * cos (B2R o1 * ku + m), mr a b (B2R o2 * ku) (B2R o3 * kv) * sin (B2R o1 * ku + m), mz a b (B2R o2 * ku) (B2R o3 * kv))) by (apply gp_at; lra).
    pose proof (c58_write a b (B2R (lon G)) (B2R (lat G)) (B2R (height G)) m _ _ _ Q _ (B2R x, B2R y, B2R z) B1 B2 B3 B4 L3 PP H4 O1' O2' O3' GP GQ W) as WW. cbv zeta in WW.
    assert (R1 : Rabs (B2R o1 * ku) <= 7). { replace (B2R o1 * ku) with (B2R o1 * ku - B2R (lon G) + B2R (lon G)) by ring. eapply Rle_trans; [apply Rabs_triang|]. lra. }
    assert (R2 : Rabs (B2R o2 * ku) <= PI / 2). { replace (B2R o2 * ku) with (B2R o2 * ku - B2R (lat G) + B2R (lat G)) by ring. eapply Rle_trans; [apply Rabs_triang|]. lra. }
    assert (R3 : Rabs (B2R o3 * kv) <= 99999). { replace (B2R o3 * kv) with (B2R o3 * kv - B2R (height G) + B2R (height G)) by ring. eapply Rle_trans; [apply Rabs_triang|]. lra. }
    destruct AX as [-> | ->]; [exists [o1; o2; o3]|exists [o2; o1; o3]]; eexists; (split; [reflexivity|split; [eapply (src_geo lm _ _ _ _ a b m (B2R o1 * ku) (B2R o2 * ku) (B2R o3 * kv)); eauto; econstructor; eauto; split; auto|exact WW]]).
Qed.
Lemma station_map id d a b m u v ku kv spec ch reads draws tol : earth64 (d_ellipsoid d) a b -> val64 (pm_lon (d_pm d)) m -> Rabs m <= 4 -> length_unit64 lm u ku -> length_unit64 lm v kv -> map_ok lm spec (d_ellipsoid d) a b ch reads draws tol -> 7000000 * tol (11 / 10 ^ 7) <= / 10 ->
  0 <= tol (11 / 10 ^ 7) ->
  station_ok (ProjectedCrs id d (PEastNorthUp u v) spec) (starts64 lm d a b m ch reads (11 / 10 ^ 7) (PEastNorthUp u v))
    (fun P => exists l p h, geodetic_point a b p (l + m) h P /\ draws l p /\ all_around reads l p /\ Rabs h <= 98000) (7000000 * tol (11 / 10 ^ 7)).
Proof.
  intros HE VM BM U1 U2 OK TL T0. split; [lra|]. split.
  - intros fuel buf rest P HF S. destruct (any_read lm AC fuel spec d a b m ch reads draws tol _ _ buf rest P id OK HF S) as [(X & EX & (F1 & F2 & F3 & W) & B) _]. exists X. split; [exact EX|]. split; [|exact B]. split; [exact F1|]. split; [exact F2|]. split; [exact F3|]. eapply Rle_trans; [exact W|]. lra.
  - intros X dst T (l & p & h & GT & DT & AT & HT) F1 F2 F3 D LD. destruct (found d a b m X l p h T HE VM BM GT HT F1 F2 F3 D) as (Q & FL & FP & FH & L3 & PP & HB & GP & W & TQ & CP). destruct X as [x y z]. unfold pt in *. cbn [x_ y_ z_] in *.
    set (G := xyz_to_llh (ops := F64ops lm) d (mkXYZ x y z)) in *. pose proof pi_pos as PI1. pose proof HE as (_ & _ & _ & B1 & B2 & B3 & B4).
    assert (RG : reads (B2R (lon G)) (B2R (lat G))) by (apply AT; [exact PP|]; eapply Rle_trans; [exact CP|]; lra). destruct OK as ((dom & DR & TR) & _).
    assert (L4 : Rabs (B2R (lon G)) <= 4) by lra. assert (H4 : Rabs (B2R (height G)) <= 210000) by lra. assert (HT1 : Rabs h <= 99000) by lra. assert (QT : edist Q T <= 901) by (rewrite edist_sym; lra).
    pose proof (TR p l h T _ _ _ Q m GT GP HT1 H4 DT PP QT) as DM.
    destruct (DR (lon G) (lat G) (height G) FL FP L4 DM) as (e & n & X & Y & EP & Fe & Fn & CH & EX & EY & BX & BY).
    assert (EG : G = mkLLH (lon G) (lat G) (height G)) by (destruct G; reflexivity). assert (EP' : proj (ops := O) (applied_to (ops := O) spec (d_ellipsoid d)) G = Ok (mkENH e n (height G))) by (rewrite EG; exact EP).
    assert (FR : from_xyz (ops := O) (ProjectedCrs id d (PEastNorthUp u v) spec) (mkXYZ x y z) dst = obind (paxes_denormalize (ops := O) (PEastNorthUp u v) (mkENH e n (height G)) dst) (fun b => Ret (Ok b))) by exact (f_equal (fun r => match lift_proj_err r with Err e => Ret (Err e) | Ok enh => obind (paxes_denormalize (ops := O) (PEastNorthUp u v) enh dst) (fun b => Ret (Ok b)) end) EP').
    rewrite FR. clear FR EP' EG EP.
    assert (Be : Rabs (B2R e) <= 200000000) by (apply Rabs_le; apply Rabs_le_inv in EX, BX; lra). assert (Bn : Rabs (B2R n) <= 200000000) by (apply Rabs_le; apply Rabs_le_inv in EY, BY; lra).
    destruct dst as [|d0 [|d1 [|d2 dst]]]; cbn in LD; try lia. destruct (map_out lm u ku e U1 Fe Be) as [O1 E1]. destruct (map_out lm u ku n U1 Fn Bn) as [O2 E2]. destruct (length_out lm v kv (height G) U2 FH H4) as [O3 E3].
    set (o1 := length_val (ops := O) e u) in *. set (o2 := length_val (ops := O) n u) in *. set (o3 := length_val (ops := O) (height G) v) in *.
    pose proof (gp_at a b (B2R (lat G)) (B2R (lon G) + m) (B2R o3 * kv) ltac:(lra)) as GQ. match type of GQ with geodetic_point _ _ _ _ _ ?q => set (Q' := q) in * end.
    exists [o1; o2; o3], Q'. split; [reflexivity|]. assert (M3 : Rabs (B2R o3 * kv - B2R (height G)) <= 4 / 2 ^ 53 * 98002 + / 2 ^ 60) by (eapply Rle_trans; [exact E3|]; apply Rplus_le_compat_r, Rmult_le_compat_l; [lra|exact HB]).
    assert (H' : Rabs (B2R o3 * kv) <= 99999). { replace (B2R o3 * kv) with (B2R o3 * kv - B2R (height G) + B2R (height G)) by ring. eapply Rle_trans; [apply Rabs_triang|]. eapply Rle_trans; [apply Rplus_le_compat; [exact M3|exact HB]|]. lra. }
    split.
    + split; [exact HE|]. split; [exact VM|]. split; [exact BM|]. split; [lra|]. exists (B2R o1 * ku), (B2R o2 * ku), (Some (B2R o3 * kv)), (B2R (lon G)), (B2R (lat G)), (B2R o3 * kv), X, Y.
      split; [constructor; try assumption; split; auto|]. split; [exact CH|]. split; [exact RG|]. split; [apply Rabs_le; apply Rabs_le_inv in E1, EX; lra|]. split; [apply Rabs_le; apply Rabs_le_inv in E2, EY; lra|]. split; [reflexivity|]. split; [exact H'|exact GQ].
    + assert (H0 : Rabs (B2R (height G)) <= 211000) by lra. assert (H1 : Rabs (B2R o3 * kv) <= 211000) by lra. pose proof (gp_lift a b _ _ _ Q _ Q' B1 B2 B3 B4 GP GQ H0 H1) as MV.
      eapply Rle_trans; [apply (edist_triangle _ Q)|]. eapply Rle_trans; [apply Rplus_le_compat; [exact W|eapply Rle_trans; [exact MV|apply Rmult_le_compat_l; [lra|exact M3]]]|]. lra.
Qed.
End Lm.
