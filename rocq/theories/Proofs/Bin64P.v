(** Properties C57 and C58 assembled. *)
From Coq Require Import ZArith Reals QArith Qreals Lra Lia List.
From Flocq Require Import Core IEEE754.BinarySingleNaN.
From Verif.Num Require Import FOps RFun F64 F64Lemmas Near.
From Verif.Model Require Import Fp Quantities Cs Ellipsoid.
From Verif.Spec Require Import Axes Shape Accurate Binary64.
From Verif.Proofs Require Import AxesX AnglesF EllX LlhF LlhInvH LibmOk.
Local Open Scope R_scope.

Lemma c57_llh_to_xyz : forall lm, accurate lm -> forall (d : GeodeticDatum f64) a b, earth64 (d_ellipsoid d) a b ->
  forall m l p h (L P H : f64), val64 (pm_lon (d_pm d)) m -> val64 L l -> val64 P p -> val64 H h ->
  Rabs m <= 4 -> Rabs l <= 4 -> Rabs p <= 2 -> Rabs h <= 210000 ->
  exists Q, geodetic_point a b p (l + m) h Q /\ within64 (llh_to_xyz (ops := F64ops lm) d (mkLLH L P H)) (8 / 10 ^ 8) Q.
Proof.
  intros lm AC d a b HE m l p h L P H [FM VM] [FL VL] [FP VP] [FH VH] Bm Bl Bp Bh. subst m l p h.
  apply (llh_to_xyz_within lm AC _ a b HE d); auto.
Qed.
Lemma val_Z z : (Z.abs z <= 2 ^ 53)%Z -> val64 (f64_ofZ z) (IZR z).
Proof.
  intros H. pose proof (near_err _ _ _ _ _ _ (near_Z z H)) as E. destruct (near_Z z H) as [F _]. rewrite Q2R_plus, Q2R_mult, q0 in E. apply Rabs_le_inv in E. split; [exact F|lra].
Qed.
Lemma c57_ex : accurate libm_ex /\ (exists a b, earth64 (d_ellipsoid (DATUM_WGS84 (ops := F64ops libm_ex))) a b) /\
  val64 (pm_lon (d_pm (DATUM_WGS84 (ops := F64ops libm_ex)))) 0 /\
  val64 (f64_of 3 (-1)) 1.5 /\ val64 (f64_of 1 (-1)) 0.5 /\ val64 (f64_ofZ 8848) 8848 /\ Rabs 1.5 <= 4 /\ Rabs 0.5 <= 2 /\ Rabs 8848 <= 210000.
Proof.
  split; [exact libm_ex_ok|]. split. { apply (consts_earth64 libm_ex). cbn [DATUM_WGS84 d_ellipsoid]. unfold ellipsoid_consts. do 44 right. left. reflexivity. }
  split. { assert (Z : is_finite (pm_lon (d_pm (DATUM_WGS84 (ops := F64ops libm_ex)))) = true /\ Beqb (pm_lon (d_pm (DATUM_WGS84 (ops := F64ops libm_ex)))) (f64_ofZ 0) = true) by (split; vm_compute; reflexivity). destruct Z as [Z1 Z2]. destruct (val_Z 0 ltac:(cbn; lia)) as [Z3 Z4]. split; [exact Z1|]. rewrite (Beqb_correct 53 1024 _ _ Z1 Z3), Z4 in Z2. destruct (Req_bool_spec (B2R (pm_lon (d_pm (DATUM_WGS84 (ops := F64ops libm_ex))))) 0); [assumption|discriminate]. }
  split. { split; [reflexivity|]. vm_compute; lra. }
  split. { split; [reflexivity|]. vm_compute; lra. }
  split. { apply val_Z. cbn. lia. }
  repeat split; apply Rabs_le; lra.
Qed.

Lemma c58_xyz_to_llh : forall lm, accurate lm -> forall (d : GeodeticDatum f64) a b, earth64 (d_ellipsoid d) a b ->
  forall m X Y Z (x y z : f64), val64 (pm_lon (d_pm d)) m -> val64 x X -> val64 y Y -> val64 z Z ->
  Rabs m <= 4 -> 6200000 <= edist (X, Y, Z) (0, 0, 0) <= 6500000 ->
  let G := xyz_to_llh (ops := F64ops lm) d (mkXYZ x y z) in
  exists l p h Q, val64 (lon G) l /\ val64 (lat G) p /\ val64 (height G) h /\
  - PI <= l <= PI + / 2 ^ 47 /\ Rabs p <= PI / 2 /\ Rabs h <= 210000 /\
  geodetic_point a b p (l + m) h Q /\ edist (X, Y, Z) Q <= 2 / 10 ^ 7.
Proof.
  intros lm AC d a b HE m X Y Z x y z [FM VM] [FX VX] [FY VY] [FZ VZ] Bm R. subst m X Y Z. intros G.
  destruct (xyz_to_llh_within lm AC d a b HE FM Bm x y z FX FY FZ R) as (F1 & F2 & F3 & L1 & L2 & L3 & Q & GP & _ & _ & _ & W). cbn [x_ y_ z_] in W. fold G in F1, F2, F3, L1, L2, L3, GP. clearbody G.
  exists (B2R (lon G)), (B2R (lat G)), (B2R (height G)), Q. pose proof p64_bounds as PB. rewrite p64_val in L1. replace (B2R PI_2_64) with (p64 / 2) in L2 by (rewrite (proj1 PI_2_64_val); unfold p64; field).
  split; [exact (conj F1 eq_refl)|]. split; [exact (conj F2 eq_refl)|]. split; [exact (conj F3 eq_refl)|]. split; [lra|]. split; [apply Rabs_le; lra|]. split; [|exact (conj GP W)].
  destruct HE as (_ & _ & _ & B1 & B2 & B3 & B4). refine (gp_height a b _ _ _ Q B1 B2 B3 B4 GP L3 _).
  pose proof (edist_triangle (B2R x, B2R y, B2R z) Q (0, 0, 0)) as T1. pose proof (edist_triangle Q (B2R x, B2R y, B2R z) (0, 0, 0)) as T2. rewrite (edist_sym Q (B2R x, B2R y, B2R z)) in T2. lra.
Qed.
Lemma gp_unique a b p l h P Q : 0 < b <= a -> geodetic_point a b p l h P -> geodetic_point a b p l h Q -> P = Q.
Proof.
  intros HAB (x & y & z & S & E) (x' & y' & z' & S' & E'). pose proof (surface_unique a b HAB p l _ _ S S') as U. injection U as <- <- <-. unfold normal in E, E'. cbv beta iota in E, E'. congruence.
Qed.
Lemma c58_round_trip : forall lm, accurate lm -> forall (d : GeodeticDatum f64) a b, earth64 (d_ellipsoid d) a b ->
  forall m X Y Z (x y z : f64), val64 (pm_lon (d_pm d)) m -> val64 x X -> val64 y Y -> val64 z Z ->
  Rabs m <= 4 -> 6200000 <= edist (X, Y, Z) (0, 0, 0) <= 6500000 ->
  within64 (llh_to_xyz (ops := F64ops lm) d (xyz_to_llh (ops := F64ops lm) d (mkXYZ x y z))) (28 / 10 ^ 8) (X, Y, Z).
Proof.
  intros lm AC d a b HE m X Y Z x y z VM VX VY VZ Bm R. destruct (c58_xyz_to_llh lm AC d a b HE m X Y Z x y z VM VX VY VZ Bm R) as (l & p & h & Q & VL & VP & VH & LB & PB & HB & GP & W).
  set (G := xyz_to_llh (ops := F64ops lm) d (mkXYZ x y z)) in *. assert (EG : G = mkLLH (lon G) (lat G) (height G)) by (destruct G; reflexivity). rewrite EG.
  assert (P4 : PI < 32 / 10) by (pose proof p64_bounds as PB4; unfold p64, m_pi in PB4; lra).
  destruct (c57_llh_to_xyz lm AC d a b HE m l p h (lon G) (lat G) (height G) VM VL VP VH Bm ltac:(apply Rabs_le; lra) ltac:(lra) HB) as (Q' & GP' & F1 & F2 & F3 & W').
  rewrite (gp_unique a b _ _ _ Q' Q ltac:(destruct HE as (_ & _ & _ & B1 & B2 & _); lra) GP' GP) in W'. split; [exact F1|]. split; [exact F2|]. split; [exact F3|].
  eapply Rle_trans; [apply (edist_triangle _ Q)|]. rewrite (edist_sym Q). lra.
Qed.
Lemma c58_back : forall lm, accurate lm -> forall (d : GeodeticDatum f64) a b, earth64 (d_ellipsoid d) a b ->
  forall m l p h (L P H : f64), val64 (pm_lon (d_pm d)) m -> val64 L l -> val64 P p -> val64 H h ->
  Rabs m <= 4 -> Rabs l <= 4 -> Rabs p <= 2 -> Rabs h <= 99999 ->
  let G := xyz_to_llh (ops := F64ops lm) d (llh_to_xyz (ops := F64ops lm) d (mkLLH L P H)) in
  exists l' p' h' Q Q', val64 (lon G) l' /\ val64 (lat G) p' /\ val64 (height G) h' /\
  geodetic_point a b p (l + m) h Q /\ geodetic_point a b p' (l' + m) h' Q' /\ edist Q Q' <= 28 / 10 ^ 8.
Proof.
  intros lm AC d a b HE m l p h L P H VM VL VP VH Bm Bl Bp Bh. destruct (c57_llh_to_xyz lm AC d a b HE m l p h L P H VM VL VP VH Bm Bl Bp ltac:(lra)) as (Q & GP & F1 & F2 & F3 & W).
  set (X := llh_to_xyz (ops := F64ops lm) d (mkLLH L P H)) in *. assert (EX : X = mkXYZ (x_ X) (y_ X) (z_ X)) by (destruct X; reflexivity). rewrite EX.
  assert (N : 6200000 <= edist (B2R (x_ X), B2R (y_ X), B2R (z_ X)) (0, 0, 0) <= 6500000).
  { pose proof HE as (_ & _ & _ & B1 & B2 & B3 & B4). pose proof (gp_norm a b _ _ _ Q ltac:(lra) GP) as N. apply Rabs_le_inv in Bh. assert (Rabs h <= 99999) by (apply Rabs_le; lra).
    pose proof (edist_triangle (B2R (x_ X), B2R (y_ X), B2R (z_ X)) Q (0, 0, 0)) as T1. pose proof (edist_triangle Q (B2R (x_ X), B2R (y_ X), B2R (z_ X)) (0, 0, 0)) as T2. rewrite (edist_sym Q (B2R (x_ X), B2R (y_ X), B2R (z_ X))) in T2. lra. }
  destruct (c58_xyz_to_llh lm AC d a b HE m _ _ _ _ _ _ VM (conj F1 eq_refl) (conj F2 eq_refl) (conj F3 eq_refl) Bm N) as (l' & p' & h' & Q' & VL' & VP' & VH' & _ & _ & _ & GP' & W').
  exists l', p', h', Q, Q'. split; [exact VL'|]. split; [exact VP'|]. split; [exact VH'|]. split; [exact GP|]. split; [exact GP'|].
  eapply Rle_trans; [apply (edist_triangle _ (B2R (x_ X), B2R (y_ X), B2R (z_ X)))|]. rewrite (edist_sym Q). lra.
Qed.
Lemma c58_ex : accurate libm_ex /\ (exists a b, earth64 (d_ellipsoid (DATUM_WGS84 (ops := F64ops libm_ex))) a b) /\
  val64 (pm_lon (d_pm (DATUM_WGS84 (ops := F64ops libm_ex)))) 0 /\
  val64 (f64_ofZ 4000000) 4000000 /\ val64 (f64_ofZ (-3000000)) (-3000000) /\ val64 (f64_ofZ 4000000) 4000000 /\
  6200000 <= edist (4000000, -3000000, 4000000) (0, 0, 0) <= 6500000.
Proof.
  destruct c57_ex as (E1 & E2 & E3 & _). split; [exact E1|]. split; [exact E2|]. split; [exact E3|]. split; [apply val_Z; cbn; lia|]. split; [apply val_Z; cbn; lia|]. split; [apply val_Z; cbn; lia|].
  cbn [edist]. split.
  - rewrite <- (sqrt_square 6200000) by lra. apply sqrt_le_1_alt. lra.
  - rewrite <- (sqrt_square 6500000) by lra. apply sqrt_le_1_alt. lra.
Qed.
