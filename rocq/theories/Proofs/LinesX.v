(** Proofs on the parametrisation of line strings and curves, and the binary64 counterexamples. *)
From Coq Require Import Reals Lra List Arith Lia Bool ZArith String.
From Flocq Require Import Core IEEE754.BinarySingleNaN.
From Verif.Num Require Import FOps XR XRLemmas F64 F64Lemmas.
From Verif.Model Require Import Fp Quantities Cs Ellipsoid Geodesics Projections Crs Geometry.
From Verif.Spec Require Import Lines.
From Verif.Proofs Require Import AnglesX LinesG.
Import ListNotations.
Local Open Scope R_scope.

Lemma total_nonneg ds : Forall (fun d => 0 <= d) ds -> 0 <= total ds.
Proof. induction 1; cbn in *; unfold total in *; lra. Qed.
Lemma fold_add_fins ds a : fold_left fadd (fins ds) (Fin a) = Fin (a + total ds).
Proof.
  revert a; induction ds as [|d ds IH]; intros a; cbn [fins map fold_left].
  - unfold total; cbn. now rewrite Rplus_0_r.
  - xr. change (map Fin ds) with (fins ds). rewrite IH. unfold total; cbn. f_equal; ring.
Qed.
Lemma zero_m : length_new (#0)%F M = Fin 0.
Proof. now rewrite length_new_M. Qed.
Lemma ls_length_fins l ds : ls_len l = fins ds -> ls_length l = Fin (total ds).
Proof. intros E. unfold ls_length. rewrite E, zero_m, fold_add_fins. f_equal; ring. Qed.

Lemma ls_locate_spec ds : Forall (fun d => 0 <= d) ds -> ds <> [] ->
  forall s ix, 0 <= s <= total ds -> 0 < s \/ 0 < hd 0 ds ->
  exists i r, ls_locate (fins ds) (Fin s) ix = (ix + i, Fin r)%nat /\ (i < List.length ds)%nat /\
  0 <= r <= 1 /\ s = total (firstn i ds) + r * nth i ds 0 /\ 0 < nth i ds 0.
Proof.
  induction 1 as [|d ds Hd H IH]; intros N s ix Hs Hp; [easy|]. clear N.
  cbn [fins map ls_locate]. xr. destruct (Rle_or_lt s d) as [L|L].
  - rewrite Rle_bool_t by easy. assert (D : 0 < d) by (cbn in Hp; lra).
    rewrite xdiv_fin by lra. exists 0%nat, (s / d).
    split; [now rewrite Nat.add_0_r|]. split; [cbn; lia|]. split.
    + split; [apply Rmult_le_pos; [lra|left; now apply Rinv_0_lt_compat]|].
      apply (Rmult_le_reg_r d); [easy|]. replace (s / d * d) with s by (field; lra). lra.
    + cbn. split; [field; lra|easy].
  - rewrite Rle_bool_f by easy. change (map Fin ds) with (fins ds).
    assert (TN : ds <> []). { intros ->. unfold total in Hs; cbn in Hs; lra. }
    destruct (IH TN (s - d) (S ix)) as (i & r & E & I & R & HS & P).
    + unfold total in Hs |- *; cbn in Hs. lra.
    + left; lra.
    + exists (S i), r. rewrite E. split; [f_equal; lia|]. split; [cbn; lia|]. split; [easy|].
      cbn [firstn nth]. split; [|easy].
      change (total (d :: firstn i ds)) with (d + total (firstn i ds)). lra.
Qed.
Lemma interpolate_fins r p q : interpolate (Fin r) (fins p) (fins q) = fins (between r p q).
Proof.
  revert q; induction p as [|a p IH]; intros [|b q]; try easy. cbn [fins map interpolate between].
  f_equal; [xr; f_equal; ring|apply IH].
Qed.
Lemma between_0 p q : List.length p = List.length q -> between 0 p q = p.
Proof.
  revert q; induction p as [|a p IH]; intros [|b q] E; cbn in *; try easy.
  f_equal; [ring|]. apply IH; lia.
Qed.
Lemma between_1 p q : List.length p = List.length q -> between 1 p q = q.
Proof.
  revert q; induction p as [|a p IH]; intros [|b q] E; cbn in *; try easy.
  f_equal; [ring|]. apply IH; lia.
Qed.

Section Line.
Variables (l : LineString XR) (pts : list (list R)) (ds : list R).
Hypothesis HP : has_positions l (map fins pts).
Hypothesis HL : ls_len l = fins ds.
Hypothesis HN : List.length pts = S (List.length ds).
Hypothesis HD : Forall (fun d => 0 <= d) ds.
Hypothesis HE : ds <> [].

Lemma nth_pts i p : nth_error pts i = Some p -> ls_nth l i = Ret (fins p).
Proof. intros E. apply HP. now rewrite nth_error_map, E. Qed.
Lemma pts_length i p : nth_error pts i = Some p -> List.length p = ls_coord_dim l.
Proof.
  intros E. apply nth_pts, nth_pos_length in E. unfold fins in E. now rewrite map_length in E.
Qed.
Lemma two_pts i : (i < List.length ds)%nat -> exists p q, nth_error pts i = Some p /\
  nth_error pts (S i) = Some q /\ List.length p = List.length q.
Proof.
  intros H. destruct (nth_error pts i) as [p|] eqn:Ep.
  2:{ apply nth_error_None in Ep. lia. }
  destruct (nth_error pts (S i)) as [q|] eqn:Eq.
  2:{ apply nth_error_None in Eq. lia. }
  exists p, q. split; [easy|]. split; [easy|].
  now rewrite (pts_length _ _ Ep), (pts_length _ _ Eq).
Qed.

Lemma ls_param_at s i r p q : s <= total ds -> ls_locate (ls_len l) (Fin s) 0 = (i, Fin r) ->
  nth_error pts i = Some p -> nth_error pts (S i) = Some q ->
  ls_param l (Fin s) = Ret (fins (between r p q)).
Proof.
  intros Hs E Ep Eq. unfold ls_param. rewrite (ls_length_fins l ds HL). xr.
  rewrite Rle_bool_t by easy. cbn [rassert]. rewrite E, (nth_pts _ _ Ep). cbn [obind].
  rewrite Nat.add_1_r, (nth_pts _ _ Eq). cbn [obind]. now rewrite interpolate_fins.
Qed.

Lemma param_on s : 0 <= s <= total ds -> 0 < s \/ 0 < hd 0 ds ->
  exists i r p q, nth_error pts i = Some p /\ nth_error pts (S i) = Some q /\ 0 <= r <= 1 /\
  0 < nth i ds 0 /\ s = total (firstn i ds) + r * nth i ds 0 /\
  ls_param l (Fin s) = Ret (fins (between r p q)).
Proof.
  intros Hs Hp. destruct (ls_locate_spec ds HD HE s 0 Hs Hp) as (i & r & E & I & R & HS & P).
  destruct (two_pts i I) as (p & q & Ep & Eq & _). exists i, r, p, q. repeat split; try easy.
  rewrite <- HL in E. apply ls_param_at with i; easy.
Qed.

Lemma param_start : 0 < hd 0 ds -> ls_param l (Fin 0) = ls_start l.
Proof.
  intros Hp. destruct (two_pts 0) as (p & q & Ep & Eq & L). { destruct ds; [easy|cbn; lia]. }
  unfold ls_start. rewrite (nth_pts _ _ Ep), <- (between_0 p q L).
  apply ls_param_at with 0%nat; try easy; [now apply total_nonneg|].
  rewrite HL. destruct ds as [|d ds']; [easy|]. cbn in Hp. cbn [fins map ls_locate]. xr.
  rewrite Rle_bool_t, xdiv_fin by lra. f_equal; f_equal. field; lra.
Qed.
Lemma param_beyond s : total ds < s -> ls_param l (Fin s) = Panic.
Proof.
  intros Hs. unfold ls_param. rewrite (ls_length_fins l ds HL). xr. now rewrite Rle_bool_f.
Qed.
Lemma param_nan : ls_param l NaN = Panic.
Proof. unfold ls_param. rewrite (ls_length_fins l ds HL). easy. Qed.
Lemma param_negative s : s < 0 -> 0 < hd 0 ds -> exists p q, nth_error pts 0 = Some p /\
  nth_error pts 1 = Some q /\ ls_param l (Fin s) = Ret (fins (between (s / hd 0 ds) p q)).
Proof.
  intros Hs Hp. destruct (two_pts 0) as (p & q & Ep & Eq & L). { destruct ds; [easy|cbn; lia]. }
  exists p, q. split; [easy|]. split; [easy|].
  apply ls_param_at with 0%nat; try easy.
  - pose proof (total_nonneg ds HD). lra.
  - rewrite HL. destruct ds as [|d ds']; [easy|]. cbn in Hp. cbn [fins map ls_locate hd]. xr.
    now rewrite Rle_bool_t, xdiv_fin by lra.
Qed.
Lemma param_zero_first : hd 0 ds = 0 -> exists p, nth_error pts 0 = Some p /\
  ls_param l (Fin 0) = Ret (map (fun _ => NaN) p).
Proof.
  intros Hp. destruct (two_pts 0) as (p & q & Ep & Eq & L). { destruct ds; [easy|cbn; lia]. }
  exists p. split; [easy|]. unfold ls_param. rewrite (ls_length_fins l ds HL). xr.
  rewrite Rle_bool_t by now apply total_nonneg. cbn [rassert].
  rewrite HL. destruct ds as [|d ds']; [easy|]. cbn in Hp. subst d. cbn [fins map ls_locate]. xr.
  rewrite Rle_bool_t by lra. unfold xdiv. rewrite !Req_bool_t by easy.
  replace (xinf_sign 0) with NaN by (unfold xinf_sign; now rewrite !Rlt_bool_f by lra).
  rewrite (nth_pts _ _ Ep). cbn [obind Nat.add]. rewrite (nth_pts _ _ Eq). cbn [obind]. f_equal.
  clear - L. revert q L; induction p as [|a p IH]; intros [|b q] L; try easy.
  cbn [fins map interpolate]. f_equal. apply IH. cbn in L; lia.
Qed.

Lemma total_firstn_skipn (xs : list R) i : (i < List.length xs)%nat ->
  total xs = total (firstn i xs) + nth i xs 0 + total (skipn (S i) xs).
Proof.
  revert xs; induction i as [|i IH]; intros [|d xs] H; cbn in H; try lia.
  - unfold total; cbn. ring.
  - cbn [firstn nth]. change (skipn (S (S i)) (d :: xs)) with (skipn (S i) xs).
    change (total (d :: xs)) with (d + total xs).
    change (total (d :: firstn i xs)) with (d + total (firstn i xs)). rewrite (IH xs) by lia. ring.
Qed.
Lemma Forall_skipn {A} (P : A -> Prop) n xs : Forall P xs -> Forall P (skipn n xs).
Proof. revert xs; induction n; intros xs H; [easy|]. destruct H; [constructor|]. now apply IHn. Qed.
Lemma total_zero xs : Forall (fun d => 0 <= d) xs -> total xs = 0 -> forall i, nth i xs 0 = 0.
Proof.
  induction 1 as [|d xs Hd H IH]; intros T i; [now destruct i|].
  pose proof (total_nonneg xs H). change (d + total xs = 0) in T.
  destruct i; cbn; [lra|]. apply IH. lra.
Qed.
Lemma nth_skipn {A} (xs : list A) n i d : nth i (skipn n xs) d = nth (n + i) xs d.
Proof. revert xs; induction n; intros [|a xs]; cbn; auto. now destruct i. Qed.

Lemma param_end : 0 < total ds ->
  (forall i p q, nth_error pts i = Some p -> nth_error pts (S i) = Some q -> nth i ds 0 = 0 -> p = q) ->
  ls_param l (Fin (total ds)) = ls_end l.
Proof.
  intros Hp HZ.
  destruct (ls_locate_spec ds HD HE (total ds) 0) as (i & r & E & I & R & HS & P);
    [split; [now apply total_nonneg|lra]|now left|].
  pose proof (total_firstn_skipn ds i I) as T.
  pose proof (total_nonneg _ (Forall_skipn _ (Datatypes.S i) _ HD)) as TS.
  assert (R1 : r = 1) by (destruct R; nra). subst r.
  assert (T0 : total (skipn (Datatypes.S i) ds) = 0) by lra.
  pose proof (total_zero _ (Forall_skipn _ (Datatypes.S i) _ HD) T0) as Z.
  destruct (two_pts i I) as (p & q & Ep & Eq & L).
  rewrite <- HL in E. rewrite (ls_param_at _ i 1 p q) by (easy || lra). rewrite (between_1 p q L).
  assert (K : forall j, (i < j <= List.length ds)%nat -> nth_error pts j = Some q).
  { intros j Hj. induction j as [|j IH]; [lia|]. destruct (Nat.eq_dec i j) as [<-|N]; [easy|].
    assert (Hj' : (i < j <= List.length ds)%nat) by lia. specialize (IH Hj').
    destruct (nth_error pts (Datatypes.S j)) as [q'|] eqn:Eq'.
    2:{ apply nth_error_None in Eq'. lia. }
    rewrite (HZ j q q' IH Eq'); [easy|].
    specialize (Z (j - Datatypes.S i)%nat). rewrite nth_skipn in Z.
    now replace (Datatypes.S i + (j - Datatypes.S i))%nat with j in Z by lia. }
  assert (NP : ls_n l = List.length pts) by (rewrite (proj1 HP); now rewrite map_length).
  unfold ls_end, rassert. rewrite NP, HN. cbn [Nat.leb].
  replace (Datatypes.S (List.length ds) - 1)%nat with (List.length ds) by lia.
  symmetry. apply nth_pts, K. lia.
Qed.
End Line.

(** ** Curves *)
Lemma cv_locate_spec segs Ls : Forall2 (fun g L => ls_length g = Fin L /\ 0 <= L) segs Ls ->
  segs <> [] -> forall s ix, 0 <= s <= total Ls ->
  exists i s' g, cv_locate segs (Fin s) ix = (ix + i, Fin s')%nat /\ nth_error segs i = Some g /\
  0 <= s' <= nth i Ls 0 /\ s = total (firstn i Ls) + s' /\ (0 < s -> 0 < s').
Proof.
  induction 1 as [|g L segs Ls [EL HL] H IH]; intros N s ix Hs; [easy|]. clear N.
  change (total (L :: Ls)) with (L + total Ls) in Hs.
  cbn [cv_locate]. rewrite EL. xr. destruct (Rle_or_lt s L) as [C|C].
  - rewrite Rle_bool_t by easy. exists 0%nat, s, g. rewrite Nat.add_0_r.
    repeat split; cbn; try lra. 
  - rewrite Rle_bool_f by easy.
    assert (TN : segs <> []).
    { intros ->. inversion H; subst. unfold total in Hs; cbn in Hs; lra. }
    destruct (IH TN (s - L) (S ix)) as (i & s' & g' & E & G & B & HS & P); [lra|].
    exists (S i), s', g'. rewrite E. split; [f_equal; lia|]. split; [easy|]. split; [easy|].
    change (firstn (Datatypes.S i) (L :: Ls)) with (L :: firstn i Ls).
    change (total (L :: firstn i Ls)) with (L + total (firstn i Ls)). split; [lra|].
    intros _. apply P. lra.
Qed.
Lemma cv_length_spec (c : Curve XR) Ls : Forall2 (fun g L => ls_length g = Fin L /\ 0 <= L) (cv_seg c) Ls ->
  cv_length c = Fin (total Ls).
Proof.
  intros H. unfold cv_length. rewrite zero_m.
  replace (map ls_length (cv_seg c)) with (fins Ls).
  - rewrite fold_add_fins. f_equal; ring.
  - induction H as [|g L segs Ls' [E _] H IH]; [easy|]. cbn. now rewrite E, <- IH.
Qed.
Lemma cv_param_spec (c : Curve XR) Ls s :
  Forall2 (fun g L => ls_length g = Fin L /\ 0 <= L) (cv_seg c) Ls ->
  cv_seg c <> [] -> 0 <= s <= total Ls ->
  exists i s' g, nth_error (cv_seg c) i = Some g /\ 0 <= s' <= nth i Ls 0 /\
  s = total (firstn i Ls) + s' /\ (0 < s -> 0 < s') /\ cv_param c (Fin s) = ls_param g (Fin s').
Proof.
  intros H N Hs. destruct (cv_locate_spec _ _ H N s 0 Hs) as (i & s' & g & E & G & B & HS & P).
  exists i, s', g. split; [easy|]. split; [easy|]. split; [easy|]. split; [easy|].
  unfold cv_param. rewrite (cv_length_spec c Ls H). xr. rewrite Rle_bool_t by easy.
  cbn [rassert]. rewrite E. cbn [Nat.add]. now rewrite G.
Qed.

(** ** Comparison of positions *)
Lemma pos_eq_iff {F} {ops : FOps F} (a b : list F) :
  pos_eq a b = true <-> Forall2 (fun x y => feq x y = true) a b.
Proof.
  revert b; induction a as [|x a IH]; intros [|y b]; cbn; split; intros H; try easy.
  - apply andb_prop in H as [H1 H2]. constructor; [easy|]. now apply IH.
  - inversion H; subst. apply andb_true_intro; split; [easy|]. now apply IH.
Qed.
Lemma point_eq_gen {F} {ops : FOps F} (p q : list F) P Q : feq #0%F #0%F = true ->
  point_new p = Ret P -> point_new q = Ret Q -> point_eq P Q = pos_eq p q.
Proof.
  intros Z. unfold point_new, rassert.
  destruct p as [|p1 [|p2 [|p3 [|p4 p]]]]; cbn; try easy; intros [= <-];
  destruct q as [|q1 [|q2 [|q3 [|q4 q]]]]; cbn; try easy; intros [= <-]; cbn; rewrite ?Z; cbn;
  rewrite ?andb_false_r; easy.
Qed.
Lemma point_eq_f64 (lm : libm) p q P Q : point_new (ops := F64ops lm) p = Ret P ->
  point_new (ops := F64ops lm) q = Ret Q ->
  (point_eq (ops := F64ops lm) P Q = true <-> Forall2 (fun x y => Beqb x y = true) p q).
Proof.
  intros EP EQ. rewrite (point_eq_gen (ops := F64ops lm) p q P Q eq_refl EP EQ). exact (pos_eq_iff (ops := F64ops lm) p q).
Qed.
Lemma point_eq_real p q P Q : point_new (fins p) = Ret P -> point_new (fins q) = Ret Q ->
  (point_eq P Q = true <-> p = q).
Proof.
  intros EP EQ. rewrite (point_eq_gen _ _ P Q) with (2 := EP) (3 := EQ).
  2:{ cbn. now rewrite Req_bool_t. }
  clear. rewrite pos_eq_iff. split.
  - revert q; induction p as [|a p IH]; intros [|b q] H; inversion H as [|x y xs ys E F]; subst; [easy|].
    cbn in E. destruct (Req_bool_spec a b) as [->|]; [|easy]. f_equal. now apply IH.
  - intros <-. induction p as [|a p IH]; cbn; constructor; [|easy]. cbn. now apply Req_bool_t.
Qed.
Lemma pos_eq_refl_f64 (lm : libm) (p : list f64) :
  pos_eq (ops := F64ops lm) p p = true <-> Forall (fun x => is_nan x = false) p.
Proof.
  rewrite pos_eq_iff. induction p as [|x p IH]; [split; constructor|].
  assert (E : feq (FOps := F64ops lm) x x = true <-> is_nan x = false).
  { change (Beqb x x = true <-> is_nan x = false). rewrite Beqb_refl. now destruct (is_nan x). }
  split; intros H; inversion H; subst; constructor; tauto.
Qed.
Lemma point_set_spec {F} {ops : FOps F} (p : list F) P i v : point_new p = Ret P ->
  ((i < List.length p)%nat -> exists P' p', point_set P i v = Ret P' /\ list_set p i v = Ret p' /\
   point_new p' = Ret P' /\ point_deref P' = Ret p') /\
  ((List.length p <= i)%nat -> point_set P i v = Panic).
Proof.
  unfold point_new, rassert, point_set, rassert.
  destruct p as [|p1 [|p2 [|p3 [|p4 p]]]]; cbn [List.length Nat.eqb orb]; try easy; intros [= <-];
  cbn [pt_coord_dim]; split; intros H; try (destruct (Nat.ltb_spec i 2); [lia|easy]);
  try (destruct (Nat.ltb_spec i 3); [lia|easy]).
  - destruct i as [|[|]]; cbn in H; [| |lia]; cbn; eauto 6.
  - destruct i as [|[|[|]]]; cbn in H; [| | |lia]; cbn; eauto 6.
Qed.

(** ** Binary64 *)
Definition f_1 : f64 := f64_ofZ 1.
Definition f_0 : f64 := f64_ofZ 0.
Definition f_small : f64 := f64_of 3 (-54).
(** the line (0,0), (1,0), (1, 3 2^-54) with its exact segment lengths *)
Lemma param_length_panics (lm : libm) : exists l L,
  ls_new 2 [f_0; f_0; f_1; f_0; f_1; f_small] [f_1; f_small] = Ret l /\
  ls_length (ops := F64ops lm) l = L /\ ls_param (ops := F64ops lm) l L = Panic.
Proof. eexists _, _. split; [reflexivity|]. split; [reflexivity|]. vm_compute. reflexivity. Qed.
Lemma exact_lengths : B2R f_1 - B2R f_0 = B2R f_1 /\ B2R f_small - B2R f_0 = B2R f_small /\
  0 < B2R f_small /\ B2R f_1 = 1.
Proof.
  assert (E0 : B2R f_0 = 0) by reflexivity.
  assert (E1 : B2R f_1 = 1).
  { destruct (B2R_const f_1 false 4503599627370496 (-52) ltac:(vm_compute; reflexivity)) as [-> _].
    unfold F2R; cbn. lra. }
  rewrite E0, E1. split; [ring|]. split; [ring|]. split; [|easy].
  destruct (B2R_const f_small false 6755399441055744 (-105) ltac:(vm_compute; reflexivity)) as [-> _].
  unfold F2R; cbn. lra.
Qed.

(** ** Dimension of the first segment of a curve *)
Lemma with_seg_unchecked {F} {ops : FOps F} (d : GeodeticDatum F) (x y z : F) : exists crs l b,
  crs_dim crs = 2%nat /\ ls_new 3 [x; y; z; y; z; x] [x] = Ret l /\
  cvb_with_seg crs l = Ok b /\ cv_geometry_type (cvb_build b) = GCurve 2 /\
  cv_start (cvb_build b) = Ret [x; y; z].
Proof.
  exists (GeographicCrs "" d (GEastNorth RAD)), (mkLS 3 [x; y; z; y; z; x] [x]). eexists.
  repeat split.
Qed.
