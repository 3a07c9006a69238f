(** Two places on a map and two on the ellipsoid. *)
From Coq Require Import Reals Lra Lia List ZArith String.
From Flocq Require Import Core IEEE754.BinarySingleNaN.
From Verif.Num Require Import FOps F64.
From Verif.Model Require Import Fp Quantities Cs Ellipsoid Projections Crs.
From Verif.Spec Require Import Axes Shape Accurate Binary64 Routes64 MapRoutes64 Space64.
From Verif.Proofs Require Import LlhF LibmOk Bin64P TransB.
Import ListNotations.
Local Open Scope R_scope.

Lemma space_ex : let O := F64ops libm_ex in let d := DATUM_WGS84 (ops := O) in
  let geo := GeographicCrs "WGS 84" d (GEastNorthUp (DEG (ops := O)) (M (ops := O))) in
  let web := ProjectedCrs "web" d (PEastNorth (FT (ops := O))) (SWebMercator (f64_ofZ 0) (f64_ofZ 0) (f64_ofZ 0) (f64_ofZ 0)) in
  accurate libm_ex /\ (exists P, stands64 libm_ex geo [f64_ofZ 10; f64_ofZ 45; f64_ofZ 100] P) /\ (exists P, stands64 libm_ex geo [f64_ofZ 190; f64_ofZ (-45); f64_ofZ 100] P) /\
  stands64 libm_ex web [f64_ofZ 30000; f64_ofZ 0] (9144, 0, 0) /\ stands64 libm_ex web [f64_ofZ 0; f64_ofZ 40000] (0, 12192, 0) /\ edist (9144, 0, 0) (0, 12192, 0) = 15240.
Proof.
  intros O d geo web. destruct c57_ex as (E1 & (a & b & E2) & E3 & _). assert (Z : forall z, (Z.abs z <= 2 ^ 53)%Z -> val64 (f64_ofZ z) (IZR z)) by (intros; now apply val_Z).
  pose proof E2 as (_ & _ & _ & B1 & B2 & B3 & B4). pose proof pi_pos as PP. split; [exact E1|].
  assert (S : forall l p, Rabs (IZR l * (PI / 180)) <= 7 -> Rabs (IZR p * (PI / 180)) <= PI / 2 -> (Z.abs l <= 2 ^ 53)%Z -> (Z.abs p <= 2 ^ 53)%Z -> exists P, stands64 libm_ex geo [f64_ofZ l; f64_ofZ p; f64_ofZ 100] P).
  { intros l p BL BP ZL ZP. eexists. apply st_earth. apply (src_geo libm_ex _ _ _ _ a b 0 (IZR l * (PI / 180)) (IZR p * (PI / 180)) (100 * 1)); auto; try (apply Rabs_le; lra).
    - constructor; try (apply Z; cbn; lia); try constructor; now apply Z.
    - rewrite Rmult_1_r. apply gp_at. lra. }
  split; [apply S; try (apply Rabs_le; lra); cbn; lia|]. split; [apply S; try (apply Rabs_le; lra); cbn; lia|].
  assert (F : forall x y, (Z.abs x <= 2 ^ 53)%Z -> (Z.abs y <= 2 ^ 53)%Z -> Rabs (IZR x * (3048 / 10000)) <= 200000000 -> Rabs (IZR y * (3048 / 10000)) <= 200000000 -> stands64 libm_ex web [f64_ofZ x; f64_ofZ y] (IZR x * (3048 / 10000), IZR y * (3048 / 10000), 0)).
  { intros x y ZX ZY BX BY. apply (st_plane libm_ex _ _ _ _ _ _ _ None); auto; [constructor; [apply u_ft|now apply Z|now apply Z]|]. rewrite Rabs_R0. lra. }
  split; [replace (9144, 0, 0) with (30000 * (3048 / 10000), 0 * (3048 / 10000), 0) by (f_equal; f_equal; lra); apply F; try (apply Rabs_le; lra); cbn; lia|].
  split; [replace (0, 12192, 0) with (0 * (3048 / 10000), 40000 * (3048 / 10000), 0) by (f_equal; f_equal; lra); apply F; try (apply Rabs_le; lra); cbn; lia|].
  unfold edist. replace ((9144 - 0) * (9144 - 0) + (0 - 12192) * (0 - 12192) + (0 - 0) * (0 - 0)) with (15240 * 15240) by ring. apply sqrt_square. lra.
Qed.
