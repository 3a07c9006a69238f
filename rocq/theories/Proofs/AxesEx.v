(** Restatements, findings and examples for Props/Axes.v. *)
From Coq Require Import Reals Lra Lia ZArith Bool List Psatz.
From Flocq Require Import Core IEEE754.BinarySingleNaN.
From Verif.Num Require Import FOps RFun XR XRLemmas F64 F64Lemmas.
From Verif.Model Require Import Fp Quantities Cs Ellipsoid Geodesics Projections Crs.
From Verif.Spec Require Import Angles Axes.
From Verif.Proofs Require Import AnglesX AnglesEx MathF AxesX.
Import ListNotations.
Local Open Scope R_scope.

Lemma worth_DEG : worth (DEG (F := XR)) (PI / 180).
Proof. exists PI, 180. repeat split; try lra. pose proof PI_pos; lra. Qed.
Lemma worth_FT : worth (FT (F := XR)) 0.3048.
Proof. exists (Rlit 3048 4), 1. unfold Rlit. simpl (IZR (10 ^ 4)). repeat split; lra. Qed.

Lemma ex_geo : geo_reads (GNorthEastUp DEG FT) [45; -90; 100] (-90 * (PI / 180)) (45 * (PI / 180)) (Some (100 * 0.3048)) /\
  - PI <= -90 * (PI / 180) <= PI /\ - (PI / 2) <= 45 * (PI / 180) <= PI / 2 /\
  units_positive (geo_units (GNorthEastUp DEG FT)).
Proof.
  pose proof PI_pos. split; [apply (reads_neu DEG FT); [apply worth_DEG|apply worth_FT]|].
  split; [lra|]. split; [lra|]. repeat constructor.
  - exists (PI / 180). split; [apply worth_DEG|lra].
  - exists 0.3048. split; [apply worth_FT|lra].
Qed.
Lemma ex_geo_west : geo_reads (GNorthWest DEG) [45; 90] (- 90 * (PI / 180)) (45 * (PI / 180)) None.
Proof. apply (reads_nw DEG). apply worth_DEG. Qed.
Lemma ex_proj : proj_reads (PEastNorthUp M FT) [500; 1000; 10] (500 * 1) (1000 * 1) (Some (10 * 0.3048)) /\
  units_positive (proj_units (PEastNorthUp M FT)).
Proof.
  split; [apply (reads_penu M FT); [apply worth_M|apply worth_FT]|]. repeat constructor.
  - exists 1. split; [apply worth_M|lra].
  - exists 0.3048. split; [apply worth_FT|lra].
Qed.

(** A frame reads as follows: there are values, independent of the buffer ... *)
Lemma geo_writes_exactly (F : Type) (ops : FOps F) (ax : GeodeticAxes F) (llh : LLH F) :
  exists out, length out = gaxes_dim ax /\ forall buf,
    ((gaxes_dim ax <= length buf)%nat ->
      gaxes_denormalize ax llh buf = Ret (out ++ skipn (gaxes_dim ax) buf)) /\
    ((length buf < gaxes_dim ax)%nat -> gaxes_denormalize ax llh buf = Panic).
Proof.
  destruct (geo_writes ax llh) as (out & L & H). exists out. split; [exact L|]. intros buf.
  rewrite (H buf). split; intros G.
  - apply Nat.leb_le in G. now rewrite G.
  - apply Nat.leb_gt in G. now rewrite G.
Qed.
Lemma proj_writes_exactly (F : Type) (ops : FOps F) (ax : ProjectedAxes F) (p : ENH F) :
  exists out, length out = paxes_dim ax /\ forall buf,
    ((paxes_dim ax <= length buf)%nat ->
      paxes_denormalize ax p buf = Ret (out ++ skipn (paxes_dim ax) buf)) /\
    ((length buf < paxes_dim ax)%nat -> paxes_denormalize ax p buf = Panic).
Proof.
  destruct (proj_writes ax p) as (out & L & H). exists out. split; [exact L|]. intros buf.
  rewrite (H buf). split; intros G.
  - apply Nat.leb_le in G. now rewrite G.
  - apply Nat.leb_gt in G. now rewrite G.
Qed.
Lemma xyz_writes_exactly (F : Type) (ops : FOps F) (p : XYZ F) :
  exists out, length out = 3%nat /\ forall buf,
    ((3 <= length buf)%nat -> xaxes_denormalize p buf = Ret (out ++ skipn 3 buf)) /\
    ((length buf < 3)%nat -> xaxes_denormalize p buf = Panic).
Proof.
  destruct (xyz_writes p) as (out & L & H). exists out. split; [exact L|]. intros buf.
  rewrite (H buf). unfold xaxes_dim. split; intros G.
  - apply Nat.leb_le in G. now rewrite G.
  - apply Nat.leb_gt in G. now rewrite G.
Qed.
Lemma geo_reads_exactly (F : Type) (ops : FOps F) (ax : GeodeticAxes F) (buf : list F) :
  ((gaxes_dim ax <= length buf)%nat -> exists llh, gaxes_normalize ax buf = Ret llh /\
     forall buf', firstn (gaxes_dim ax) buf' = firstn (gaxes_dim ax) buf -> gaxes_normalize ax buf' = Ret llh) /\
  ((length buf < gaxes_dim ax)%nat -> gaxes_normalize ax buf = Panic).
Proof.
  destruct (geo_reads_first ax buf) as [(L & H)|(L & H & llh & R)]; split; intros G; try lia; [easy|].
  exists llh. split; [exact R|]. intros buf' E.
  destruct (geo_reads_first ax buf') as [(L' & H')|(L' & H' & _)].
  - apply (f_equal (@length F)) in E. rewrite !firstn_length in E. lia.
  - rewrite H', E, <- H. exact R.
Qed.
Lemma proj_reads_exactly (F : Type) (ops : FOps F) (ax : ProjectedAxes F) (buf : list F) :
  ((paxes_dim ax <= length buf)%nat -> exists p, paxes_normalize ax buf = Ret p /\
     forall buf', firstn (paxes_dim ax) buf' = firstn (paxes_dim ax) buf -> paxes_normalize ax buf' = Ret p) /\
  ((length buf < paxes_dim ax)%nat -> paxes_normalize ax buf = Panic).
Proof.
  destruct (proj_reads_first ax buf) as [(L & H)|(L & H & llh & R)]; split; intros G; try lia; [easy|].
  exists llh. split; [exact R|]. intros buf' E.
  destruct (proj_reads_first ax buf') as [(L' & H')|(L' & H' & _)].
  - apply (f_equal (@length F)) in E. rewrite !firstn_length in E. lia.
  - rewrite H', E, <- H. exact R.
Qed.
Lemma xyz_reads_exactly (F : Type) (ops : FOps F) (buf : list F) :
  ((3 <= length buf)%nat -> exists p, xaxes_normalize buf = Ret p /\
     forall buf', firstn 3 buf' = firstn 3 buf -> xaxes_normalize buf' = Ret p) /\
  ((length buf < 3)%nat -> xaxes_normalize buf = Panic).
Proof.
  destruct (xyz_reads_first (F := F) buf) as [(L & H)|(L & H & llh & R)]; unfold xaxes_dim in *;
    split; intros G; try lia; [easy|].
  exists llh. split; [exact R|]. intros buf' E.
  destruct (xyz_reads_first (F := F) buf') as [(L' & H')|(L' & H' & _)]; unfold xaxes_dim in *.
  - apply (f_equal (@length F)) in E. rewrite !firstn_length in E. lia.
  - rewrite H', E, <- H. exact R.
Qed.

(** The documented height tolerance of small() is 1e-3 m. *)
Lemma gt_small_height : gt_height (gt_small (F := XR)) = Fin (/ 10 ^ 4) /\
  gt_height (gt_small (F := XR)) <> Fin (/ 10 ^ 3).
Proof.
  destruct gt_values as [_ ->]. cbn [gt_height]. split; [easy|]. intros H. apply Fin_inj in H. lra.
Qed.

(** Two buffers for the same position, 180E and 180W, are not approximately equal for the CRS. *)
Lemma antimeridian_not_equal id d : exists a b l,
  gaxes_normalize (GEastNorth RAD) a = Ret l /\
  (exists l', gaxes_normalize (GEastNorth RAD) b = Ret l' /\ llh_approx_eq l l' gt_tiny = true) /\
  crs_approx_eq (GeographicCrs id d (GEastNorth RAD)) a b (gaxes_denormalize_tol (GEastNorth RAD) gt_tiny) = Ret false.
Proof.
  pose proof PI_pos. pose proof worth_RAD as W.
  assert (R1 : geo_reads (GEastNorth RAD) [PI; 0] (PI * 1) (0 * 1) None) by now constructor.
  assert (R2 : geo_reads (GEastNorth RAD) [- PI; 0] (- PI * 1) (0 * 1) None) by now constructor.
  exists (map Fin [PI; 0]), (map Fin [- PI; 0]). eexists. split; [|split].
  - rewrite <- (app_nil_r (map _ _)). apply (geo_normalize_in_range _ _ _ _ _ [] R1); lra.
  - eexists. split.
    + rewrite <- (app_nil_r (map _ _)). apply (geo_normalize_in_range _ _ _ _ _ [] R2); lra.
    + destruct gt_values as [-> _]. apply llh_approx. cbn [height_of]. split; [|split].
      * exists 0, 1%Z. rewrite Rabs_R0. split; [lra|]. simpl; lra.
      * rewrite Rminus_diag_eq, Rabs_R0 by easy. simpl; lra.
      * rewrite Rminus_diag_eq, Rabs_R0 by easy. simpl; lra.
  - destruct gt_values as [-> _].
    assert (U : units_positive (geo_units (GEastNorth RAD))).
    { constructor; [exists 1; split; [exact W|lra]|constructor]. }
    destruct (geo_tol id d _ _ _ _ _ _ _ _ _ (/ 10 ^ 12) (/ 10 ^ 12) (/ 10 ^ 4) U R1 R2) as (r & E & I).
    rewrite E. destruct r; [|easy]. destruct (proj1 I eq_refl) as [C _].
    replace (PI * 1 - - PI * 1) with (2 * PI) in C by ring. rewrite Rabs_pos_eq in C by lra.
    pose proof PI2_1. assert (/ 10 ^ 12 <= 1) by (simpl; lra). exfalso. lra.
Qed.

Lemma ex_tol : llh_approx_eq (mkLLH (Fin PI) (Fin 0) (Fin 5)) (mkLLH (Fin (- PI)) (Fin 0) (Fin 5)) gt_tiny = true /\
  xyz_approx_eq (xyz (1, 2, 3)) (xyz (1, 2, 4)) ct_tiny = false.
Proof.
  destruct gt_values as [-> _]. destruct cartesian_tol_values as [-> _]. split.
  - apply llh_approx. rewrite !Rminus_diag_eq, Rabs_R0 by easy. split; [|simpl; lra].
    exists 0, 1%Z. rewrite Rabs_R0. split; [lra|simpl; lra].
  - destruct (xyz_approx_eq _ _ _) eqn:E; [|easy]. apply xyz_approx in E as (_ & _ & E).
    replace (3 - 4) with (- (1)) in E by ring. rewrite Rabs_Ropp, Rabs_R1 in E. exfalso. simpl in E. lra.
Qed.
Lemma ex_dist : xyz_dist_to (xyz (1, 2, 3)) (xyz (4, 6, 15)) = Fin 13.
Proof.
  rewrite xyz_dist. f_equal. unfold edist. replace (_ + _) with (13 * 13) by ring. apply sqrt_square. lra.
Qed.
Lemma metric_xyz (p q r : R3) :
  exists d, xyz_dist_to (xyz p) (xyz q) = Fin d /\ d = edist p q /\ 0 <= d /\
  xyz_dist_to (xyz q) (xyz p) = Fin d /\ (d = 0 <-> p = q) /\
  exists d1 d2, xyz_dist_to (xyz p) (xyz r) = Fin d1 /\ xyz_dist_to (xyz r) (xyz q) = Fin d2 /\ d <= d1 + d2.
Proof.
  exists (edist p q). rewrite !xyz_dist. split; [easy|]. split; [easy|]. split; [apply edist_ge_0|].
  split; [now rewrite edist_sym|]. split; [apply edist_0|].
  exists (edist p r), (edist r q). split; [easy|]. split; [easy|]. apply edist_triangle.
Qed.
Lemma metric_enh (p q r : R3) :
  exists d, enh_dist_to (enh p) (enh q) = Fin d /\ d = edist p q /\ 0 <= d /\
  enh_dist_to (enh q) (enh p) = Fin d /\ (d = 0 <-> p = q) /\
  exists d1 d2, enh_dist_to (enh p) (enh r) = Fin d1 /\ enh_dist_to (enh r) (enh q) = Fin d2 /\ d <= d1 + d2.
Proof.
  exists (edist p q). rewrite !enh_dist. split; [easy|]. split; [easy|]. split; [apply edist_ge_0|].
  split; [now rewrite edist_sym|]. split; [apply edist_0|].
  exists (edist p r), (edist r q). split; [easy|]. split; [easy|]. apply edist_triangle.
Qed.
