(** Concrete cases for the transformation theorems. *)
From Coq Require Import String Reals Lra Lia ZArith Bool Psatz List.
From Flocq Require Import Core IEEE754.BinarySingleNaN.
From Verif.Num Require Import FOps RFun XR XRLemmas F64 F64Lemmas.
From Verif.Model Require Import Fp Quantities Cs Ellipsoid Geodesics Projections Crs.
From Verif.Spec Require Import Angles Axes Shape Frames Totality.
From Verif.Proofs Require Import AnglesX AxesX AxesEx EllX DatumX EllEx TransX TransG.
Import ListNotations.
Local Open Scope R_scope.

Lemma ex_round_trip : exists t src P P' Q,
  proper (tr_src t) src /\ locates (tr_src t) src P /\ covers (tr_src t) P /\
  exact_inverse (tr_src_to_ref t) /\ exact_inverse (tr_dst_to_ref t) /\
  to_ref (tr_src_to_ref t) (xyz P) = xyz Q /\ from_ref (tr_dst_to_ref t) (xyz Q) = xyz P' /\
  covers (tr_dst t) P' /\ P <> P' /\
  src = [0; 0; 1000] /\ tr_src_to_ref t = GeocentricTranslation (Fin 84) (Fin 0) (Fin 50).
Proof.
  destruct ex_wgs84 as (a & b & HE & L & Q). set (d := mkDatum "" WGS84 (mkPM "" (Fin 0))).
  exists (mkTransfo (GeographicCrs "" d (GNorthEastUp DEG FT)) (GeocentricTranslation (Fin 84) (Fin 0) (Fin 50))
            XYZIdentity (GeographicCrs "" d (GEastNorthUp DEG M))), [0; 0; 1000],
    (a + 1000 * 0.3048, 0, 0), (a + 1000 * 0.3048 + 84, 0, 50), (a + 1000 * 0.3048 + 84, 0, 50).
  cbn [tr_src tr_dst tr_src_to_ref tr_dst_to_ref].
  pose proof (proj1 HE) as Hb. pose proof PI_pos as HPI.
  assert (G : geo_reads (GNorthEastUp DEG FT) [0; 0; 1000] (0 * (PI / 180)) (0 * (PI / 180)) (Some (1000 * 0.3048))).
  { constructor; [apply worth_DEG|apply worth_FT]. }
  assert (Z : 0 * (PI / 180) = 0) by lra. rewrite Z in G.
  assert (A2 : 0 < a * a) by (apply Rmult_lt_0_compat; lra).
  assert (O : forall u w, a < u -> (a * a - b * b) * (a * a - b * b) < a * a * (u * u + 0 * 0) + b * b * (w * w)).
  { intros u w U. assert (B2 : 0 < b * b < a * a) by nra.
    assert ((a * a - b * b) * (a * a - b * b) < (a * a) * (a * a)) by nra.
    assert (a * a < u * u) by nra. assert (0 <= b * b * (w * w)) by (apply Rmult_le_pos; nra).
    assert (a * a * (a * a) < a * a * (u * u)) by (apply Rmult_lt_compat_l; lra). lra. }
  repeat split.
  - apply (proper_geo "" d _ _ 0 0 (1000 * 0.3048) a b 0); auto; try lra.
    rewrite sin_0, cos_0. replace (a * a * (1 * 1) + b * b * (0 * 0)) with (a * a) by ring.
    rewrite sqrt_square by lra. replace (a * a / a) with a by (field; lra).
    apply Rle_lt_trans with 0; [|lra]. replace ((a * a - 2 * (b * b)) / (a * a) * a) with ((a * a - 2 * (b * b)) / a) by (field; lra).
    assert (Hd : a * a - 2 * (b * b) <= 0) by nra. apply Rmult_le_reg_r with a; [lra|].
    replace ((a * a - 2 * (b * b)) / a * a) with (a * a - 2 * (b * b)) by (field; lra). lra.
  - apply (locates_geo "" d _ _ 0 0 (1000 * 0.3048) a b 0); auto; try lra.
    destruct (to_xyz_geodetic d a b 0 HE eq_refl 0 0 (1000 * 0.3048) L) as (P & _ & GP).
    assert (GP' : geodetic_point a b 0 (0 + 0) (1000 * 0.3048) (a + 1000 * 0.3048, 0, 0)).
    { exists a, 0, 0. rewrite Rplus_0_r. split.
      - unfold surface_point, normal. rewrite sin_0, cos_0. split; [unfold on_ellipsoid; field; lra|].
        exists (1 / a). split; [apply Rdiv_lt_0_compat; lra|]. repeat split; field; lra.
      - unfold normal. rewrite sin_0, cos_0. cbv beta iota. (f_equal; [f_equal|]); ring. }
    exact GP'.
  - apply (covers_geo "" d _ a b 0); auto.
    + repeat constructor; eexists; [apply worth_DEG|apply worth_FT].
    + unfold outside_core. apply O. lra.
  - apply translation_inverse.
  - apply translation_inverse.
  - intros R. now exists R.
  - intros R. now exists R.
  - cbn. unfold xyz. repeat f_equal; lra.
  - apply (covers_geo "" d _ a b 0); auto.
    + repeat constructor; eexists; [apply worth_DEG|apply worth_M].
    + unfold outside_core. apply O. lra.
  - intros H; injection H; intros; lra.
Qed.

Lemma ex_total : exists (t : CrsXYZTransformation XR) (src dst : list XR),
  crs_never_loops (tr_src t) /\ (crs_dim (tr_src t) <= length src)%nat /\
  (crs_dim (tr_dst t) <= length dst)%nat /\ src = [NaN; NaN; NaN] /\ crs_dim (tr_dst t) = 2%nat.
Proof.
  exists (mkTransfo (GeocentricCrs "" (mkDatum "" WGS84 (mkPM "" (Fin 0)))) XYZIdentity XYZIdentity
    (ProjectedCrs "" (mkDatum "" WGS84 (mkPM "" (Fin 0))) (PEastNorth M) (SUTMNorth 31))), [NaN; NaN; NaN], [Fin 0; Fin 0; Fin 7].
  cbn. unfold xaxes_dim. repeat split; auto with arith.
Qed.
