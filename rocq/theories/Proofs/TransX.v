(** Exact arithmetic: datum transformations and transformations between CRS. *)
From Coq Require Import Reals Lra Lia ZArith Bool List Psatz String.
From Coq Require Import List.
From Flocq Require Import Core IEEE754.BinarySingleNaN.
From Verif.Num Require Import FOps RFun XR XRLemmas F64 F64Lemmas.
From Verif.Model Require Import Fp Quantities Cs Ellipsoid Geodesics Projections Crs.
From Verif.Spec Require Import Angles Axes Shape Frames.
From Verif.Proofs Require Import AnglesX AxesX EllX DatumX EllEx.
Import ListNotations.
Local Open Scope R_scope.

Lemma xyz_inj P Q : xyz P = xyz Q -> P = Q.
Proof. destruct P as [[x y] z], Q as [[x' y'] z']. cbn. now intros [= -> -> ->]. Qed.

(** ** Translations *)
Lemma translation_to_ref tx ty tz P :
  to_ref (GeocentricTranslation (Fin tx) (Fin ty) (Fin tz)) (xyz P) = xyz (vadd P (tx, ty, tz)).
Proof. now destruct P as [[x y] z]. Qed.
Lemma translation_from_ref tx ty tz P :
  from_ref (GeocentricTranslation (Fin tx) (Fin ty) (Fin tz)) (xyz P) = xyz (vadd P (- tx, - ty, - tz)).
Proof. destruct P as [[x y] z]. cbn. unfold xyz. f_equal; f_equal; ring. Qed.
Lemma translation_inverse tx ty tz : exact_inverse (GeocentricTranslation (Fin tx) (Fin ty) (Fin tz)).
Proof.
  split; intros P; eexists; rewrite translation_to_ref, translation_from_ref; split; try reflexivity;
  destruct P as [[x y] z]; cbn; unfold xyz; f_equal; f_equal; ring.
Qed.
Lemma identity_inverse : exact_inverse (XYZIdentity (F := XR)).
Proof. split; intros P; exists P; split; reflexivity. Qed.
Lemma translation_isometry tx ty tz P Q :
  let T := GeocentricTranslation (Fin tx) (Fin ty) (Fin tz) in
  xyz_dist_to (to_ref T (xyz P)) (to_ref T (xyz Q)) = xyz_dist_to (xyz P) (xyz Q).
Proof.
  intros T. unfold T. rewrite !translation_to_ref, !xyz_dist. f_equal.
  destruct P as [[x y] z], Q as [[x' y'] z']. unfold edist, vadd. f_equal. ring.
Qed.

(** binary64 *)
Lemma round_trip_1 (x t : f64) : is_finite x = true -> is_finite t = true ->
  Rabs (B2R x) <= bpow radix2 1000 -> Rabs (B2R t) <= bpow radix2 1000 ->
  is_finite (Bminus mode_NE (Bplus mode_NE x t) t) = true /\
  Rabs (B2R (Bminus mode_NE (Bplus mode_NE x t) t) - B2R x)
    <= bpow radix2 (-51) * (Rabs (B2R x) + Rabs (B2R t)).
Proof.
  intros Fx Ft Hx Ht.
  assert (K : bpow radix2 1000 * 8 <= bpow radix2 1023).
  { change 8 with (bpow radix2 3). rewrite <- bpow_plus. apply bpow_le. lia. }
  pose proof (bpow_gt_0 radix2 1000) as K0.
  assert (U : 0 < bpow radix2 (-53) <= / 8).
  { split; [apply bpow_gt_0|]. change (/ 8) with (bpow radix2 (-3)). apply bpow_le. lia. }
  assert (U2 : bpow radix2 (-51) = 4 * bpow radix2 (-53)).
  { change 4 with (bpow radix2 2). now rewrite <- bpow_plus. }
  pose proof (Rabs_triang (B2R x) (B2R t)) as T1.
  destruct (f64_plus x t Fx Ft) as [ES FS]; [lra|].
  pose proof (rnd_plus_rel x t) as E1. rewrite <- ES in E1.
  set (s := Bplus mode_NE x t) in *. set (u := bpow radix2 (-53)) in *.
  set (X := B2R x) in *. set (T := B2R t) in *. set (S := B2R s) in *.
  assert (Bs : Rabs S <= 4 * bpow radix2 1000).
  { replace S with ((S - (X + T)) + (X + T)) by ring.
    eapply Rle_trans; [apply Rabs_triang|]. nra. }
  destruct (f64_minus s t FS Ft) as [EM FM].
  { fold S T. unfold Rminus. eapply Rle_trans; [apply Rabs_triang|]. rewrite Rabs_Ropp. lra. }
  split; [easy|].
  pose proof (rnd_plus_rel s (Bopp t)) as E2. rewrite B2R_Bopp in E2.
  change (B2R s + - B2R t) with (B2R s - B2R t) in E2. rewrite <- EM in E2. fold S T in E2.
  set (R' := B2R (Bminus mode_NE s t)) in *.
  replace (R' - X) with ((R' - (S - T)) + (S - (X + T))) by ring.
  eapply Rle_trans; [apply Rabs_triang|].
  assert (E3 : Rabs (S - T) <= Rabs X + u * Rabs (X + T)).
  { replace (S - T) with (X + (S - (X + T))) by ring. eapply Rle_trans; [apply Rabs_triang|]. lra. }
  pose proof (Rabs_pos X). pose proof (Rabs_pos T). pose proof (Rabs_pos (X + T)).
  rewrite U2. assert (A1 : u * Rabs (X + T) <= u * (Rabs X + Rabs T)) by (apply Rmult_le_compat_l; lra).
  assert (A2 : Rabs (R' - (S - T)) <= u * (2 * (Rabs X + Rabs T))).
  { eapply Rle_trans; [exact E2|]. apply Rmult_le_compat_l; [lra|]. nra. }
  assert (A3 : 0 <= u * (Rabs X + Rabs T)) by (apply Rmult_le_pos; lra). lra.
Qed.
Lemma translation_round_trip_f64 (lm : libm) (tx ty tz x y z : f64) :
  Forall (fun v => is_finite v = true /\ Rabs (B2R v) <= bpow radix2 1000) [tx; ty; tz; x; y; z] ->
  let T := GeocentricTranslation tx ty tz in
  exists x' y' z',
  from_ref (ops := F64ops lm) T (to_ref (ops := F64ops lm) T (mkXYZ x y z)) = mkXYZ x' y' z' /\
  Forall (fun v => is_finite v = true) [x'; y'; z'] /\
  Rabs (B2R x' - B2R x) <= bpow radix2 (-51) * (Rabs (B2R x) + Rabs (B2R tx)) /\
  Rabs (B2R y' - B2R y) <= bpow radix2 (-51) * (Rabs (B2R y) + Rabs (B2R ty)) /\
  Rabs (B2R z' - B2R z) <= bpow radix2 (-51) * (Rabs (B2R z) + Rabs (B2R tz)).
Proof.
  intros H T. rewrite !Forall_cons_iff in H.
  destruct H as ([F1 B1] & [F2 B2] & [F3 B3] & [F4 B4] & [F5 B5] & [F6 B6] & _).
  destruct (round_trip_1 x tx) as [X1 X2]; auto. destruct (round_trip_1 y ty) as [Y1 Y2]; auto.
  destruct (round_trip_1 z tz) as [Z1 Z2]; auto.
  do 3 eexists. split; [reflexivity|]. rewrite !Forall_cons_iff. repeat split; auto.
Qed.

(** ** Helmert *)
Lemma xneg_invol x : xneg (xneg x) = x.
Proof. destruct x; try easy. cbn. now rewrite Ropp_involutive. Qed.
Lemma helmert_conventions (rx ry rz tx ty tz ppm : XR) :
  helmert_new PositionVector rx ry rz tx ty tz ppm =
  helmert_new CoordinateFrame (xneg rx) (xneg ry) (xneg rz) tx ty tz ppm.
Proof. unfold helmert_new. cbn [fneg XRops]. now rewrite !xneg_invol. Qed.

Lemma helmert_to_ref c rx ry rz tx ty tz ppm P :
  to_ref (helmert_new c (Fin rx) (Fin ry) (Fin rz) (Fin tx) (Fin ty) (Fin tz) (Fin ppm)) (xyz P) =
  xyz (vadd (vscale (1 + ppm / 1000000) (vadd P (vscale (turn c) (cross (rx, ry, rz) P)))) (tx, ty, tz)).
Proof.
  destruct P as [[x y] z]. unfold to_ref, helmert_new, ppm_factor, xyz.
  destruct c; unfold m3_mulv, m3_scale, m3_add, m3_id;
  cbn [m11 m12 m13 m21 m22 m23 m31 m32 m33 x_ y_ z_];
  rewrite ?length_new_M; xr; replace (Rlit 1 6) with (/ 1000000) by (unfold Rlit; cbn; lra);
  cbn; f_equal; f_equal; field.
Qed.
Lemma helmert_from_ref c rx ry rz tx ty tz ppm P :
  from_ref (helmert_new c (Fin rx) (Fin ry) (Fin rz) (Fin tx) (Fin ty) (Fin tz) (Fin ppm)) (xyz P) =
  xyz (vadd (vscale (1 - ppm / 1000000) (vadd P (vscale (- turn c) (cross (rx, ry, rz) P)))) (vscale (-1) (tx, ty, tz))).
Proof.
  destruct P as [[x y] z]. unfold from_ref, helmert_new, ppm_inv_factor, xyz.
  destruct c; unfold m3_mulv, m3_scale, m3_sub, m3_id;
  cbn [m11 m12 m13 m21 m22 m23 m31 m32 m33 x_ y_ z_];
  rewrite ?length_new_M; xr; replace (Rlit 1 6) with (/ 1000000) by (unfold Rlit; cbn; lra);
  cbn; f_equal; f_equal; field.
Qed.

Lemma vnorm_add p q : vnorm (vadd p q) <= vnorm p + vnorm q.
Proof.
  unfold vnorm. pose proof (edist_triangle (vadd p q) q (0, 0, 0)) as H.
  replace (edist (vadd p q) q) with (edist p (0, 0, 0)) in H; [easy|].
  destruct p as [[x y] z], q as [[x' y'] z']. unfold edist, vadd. f_equal. ring.
Qed.
Lemma vnorm_sq p : let '(x, y, z) := p in vnorm p * vnorm p = x * x + y * y + z * z.
Proof.
  destruct p as [[x y] z]. unfold vnorm, edist. rewrite sqrt_sqrt; [ring|]. nra.
Qed.
Lemma vnorm_ge_0 p : 0 <= vnorm p. Proof. apply edist_ge_0. Qed.
Lemma vnorm_scale k p : vnorm (vscale k p) = Rabs k * vnorm p.
Proof.
  destruct p as [[x y] z]. unfold vnorm, edist, vscale. rewrite <- sqrt_Rsqr_abs, <- sqrt_mult.
  - f_equal. unfold Rsqr. ring.
  - unfold Rsqr; nra.
  - nra.
Qed.
Lemma vnorm_cross p q : vnorm (cross p q) <= vnorm p * vnorm q.
Proof.
  pose proof (vnorm_sq p) as P. pose proof (vnorm_sq q) as Q. pose proof (vnorm_sq (cross p q)) as C.
  destruct p as [[x y] z], q as [[x' y'] z']. cbn [cross] in *.
  set (n := vnorm (x, y, z)) in *. set (n' := vnorm (x', y', z')) in *.
  pose proof (vnorm_ge_0 (x, y, z)) as N. pose proof (vnorm_ge_0 (x', y', z')) as N'. fold n in N. fold n' in N'.
  apply Rsqr_incr_0_var; [|now apply Rmult_le_pos]. unfold Rsqr.
  replace (n * n' * (n * n')) with ((n * n) * (n' * n')) by ring. rewrite P, Q, C.
  pose proof (Rle_0_sqr (x * x' + y * y' + z * z')) as H. unfold Rsqr in H. lra.
Qed.

Lemma helmert_residual c rx ry rz tx ty tz ppm P :
  let T := helmert_new c (Fin rx) (Fin ry) (Fin rz) (Fin tx) (Fin ty) (Fin tz) (Fin ppm) in
  let m := ppm / 1000000 in let r := (rx, ry, rz) in let t := (tx, ty, tz) in
  from_ref T (to_ref T (xyz P)) =
  xyz (vadd P (vadd (vadd (vscale (- (m * m)) P) (vscale (- (1 - m * m)) (cross r (cross r P))))
                    (vadd (vscale (- m) t) (vscale (- (turn c) * (1 - m)) (cross r t))))).
Proof.
  intros T m r t. unfold T. rewrite helmert_to_ref, helmert_from_ref. fold m. f_equal.
  destruct P as [[x y] z]. unfold r, t. destruct c; cbn; (f_equal; [f_equal|]); ring.
Qed.
Lemma helmert_bound c rx ry rz tx ty tz ppm P :
  let T := helmert_new c (Fin rx) (Fin ry) (Fin rz) (Fin tx) (Fin ty) (Fin tz) (Fin ppm) in
  let m := ppm / 1000000 in let r := vnorm (rx, ry, rz) in let t := vnorm (tx, ty, tz) in
  exists Q, from_ref T (to_ref T (xyz P)) = xyz Q /\
  edist Q P <= (m * m + Rabs (1 - m * m) * (r * r)) * vnorm P + (Rabs m + Rabs (1 - m) * r) * t.
Proof.
  intros T m r t. eexists. split; [apply helmert_residual|]. fold m.
  set (e := vadd (vadd _ _) _).
  replace (edist (vadd P e) P) with (vnorm e).
  2:{ destruct P as [[x y] z], e as [[x' y'] z']. unfold vnorm, edist, vadd. f_equal. ring. }
  unfold e. eapply Rle_trans; [apply vnorm_add|].
  pose proof (vnorm_add (vscale (- (m * m)) P) (vscale (- (1 - m * m)) (cross (rx, ry, rz) (cross (rx, ry, rz) P)))) as A.
  pose proof (vnorm_add (vscale (- m) (tx, ty, tz)) (vscale (- (turn c) * (1 - m)) (cross (rx, ry, rz) (tx, ty, tz)))) as B.
  rewrite !vnorm_scale, !Rabs_Ropp in A. rewrite !vnorm_scale, !Rabs_Ropp in B.
  rewrite Rabs_mult in B.
  assert (T1 : Rabs (- turn c) = 1) by (destruct c; cbn [turn]; unfold Rabs; destruct Rcase_abs; lra).
  rewrite T1 in B. rewrite (Rabs_pos_eq (m * m)) in A by nra.
  pose proof (vnorm_cross (rx, ry, rz) P) as C1. pose proof (vnorm_cross (rx, ry, rz) (cross (rx, ry, rz) P)) as C2.
  pose proof (vnorm_cross (rx, ry, rz) (tx, ty, tz)) as C3. fold r in C1, C2, C3. fold t in B, C3.
  assert (R0 : 0 <= r) by apply vnorm_ge_0.
  assert (C4 : vnorm (cross (rx, ry, rz) (cross (rx, ry, rz) P)) <= r * (r * vnorm P)).
  { eapply Rle_trans; [exact C2|]. now apply Rmult_le_compat_l. }
  pose proof (Rabs_pos (1 - m * m)) as M1. pose proof (Rabs_pos (1 - m)) as M2.
  assert (D1 := Rmult_le_compat_l _ _ _ M1 C4). assert (D2 := Rmult_le_compat_l _ _ _ M2 C3). lra.
Qed.
(** no rotation, no scale: exact *)
Lemma helmert_translation c tx ty tz :
  exact_inverse (helmert_new c (Fin 0) (Fin 0) (Fin 0) (Fin tx) (Fin ty) (Fin tz) (Fin 0)).
Proof.
  split; intros P; eexists; rewrite helmert_to_ref, helmert_from_ref; split; try reflexivity; f_equal;
  destruct P as [[x y] z]; cbn; (f_equal; [f_equal|]); field.
Qed.
(** 20 ppm and 1 km of translation: off by more than 2 cm at 6378 km *)
Lemma helmert_not_inverse c : exists Q,
  let T := helmert_new c (Fin 0) (Fin 0) (Fin 0) (Fin 0) (Fin 0) (Fin 1000) (Fin 20) in
  from_ref T (to_ref T (xyz (6378000, 0, 0))) = xyz Q /\ 2 / 100 <= edist Q (6378000, 0, 0).
Proof.
  eexists. cbn zeta. split; [apply helmert_residual|].
  unfold edist. cbn. rewrite <- (sqrt_square (2 / 100)) by lra. apply sqrt_le_1_alt.
  destruct c; cbn; lra.
Qed.

(** ** Transformations between CRS *)
Lemma to_xyz_locates fuel c buf rest P : locates c buf P -> 
  match c with GeographicCrs _ d _ => exists a b, shape (d_ellipsoid d) a b /\ b < a | _ => True end ->
  to_xyz fuel c (map Fin buf ++ rest) = Ret (Ok (xyz P)).
Proof.
  intros L HS. destruct L as [id d x y z|id d ax buf l p h a b m P HE HM G Hl Hp GP].
  - cbn [to_xyz map app]. unfold xaxes_normalize. cbn [index nth_error obind]. now rewrite !length_new_M.
  - cbn [to_xyz]. rewrite (geo_normalize_in_range ax buf l p _ rest G Hl Hp). cbn [obind height_of].
    destruct HS as (a' & b' & HE' & L').
    assert (Ea : a' = a) by (destruct HE as (_ & E & _), HE' as (_ & E' & _); rewrite E in E'; now injection E').
    assert (Eb : b' = b) by (destruct HE as (_ & _ & E & _), HE' as (_ & _ & E' & _); rewrite E in E'; now injection E').
    subst a' b'.
    destruct (to_xyz_geodetic d a b m HE HM l p h L') as (P' & E & GP').
    fold (llh3 l p h). rewrite E. repeat f_equal. 
    apply (geodetic_point_unique a b p (l + m) h); [apply HE|easy|easy].
Qed.
Lemma from_xyz_locates c P dst : covers c P -> (3 <= List.length dst)%nat ->
  exists out, from_xyz c (xyz P) dst = Ret (Ok (map Fin out ++ skipn 3 dst)) /\ locates c out P.
Proof.
  intros C L. destruct C as [id d P|id d ax a b m P HE Lt HM U D O].
  - destruct P as [[x y] z]. exists [x; y; z]. split; [|constructor].
    destruct dst as [|d0 [|d1 [|d2 dst]]]; cbn in L; try lia. reflexivity.
  - destruct (to_xyz_to_llh d a b m HE HM P Lt O) as (l & p & h & E & Hl & Hp & E').
    destruct (geo_denormalize ax l p h dst U) as (out & E'' & Lo & G); [lia|].
    exists out. cbn [from_xyz]. rewrite E. unfold llh3. rewrite E''. cbn [obind]. rewrite D. split; [easy|].
    destruct (to_xyz_geodetic d a b m HE HM l p h Lt) as (P' & E1 & GP).
    rewrite E' in E1. apply xyz_inj in E1. subst P'.
    rewrite D in G. apply (locates_geo id d ax out l p h a b m); auto.
Qed.
Lemma covers_flat c P : covers c P ->
  match c with GeographicCrs _ d _ => exists a b, shape (d_ellipsoid d) a b /\ b < a | _ => True end.
Proof. intros C; destruct C; eauto. Qed.

Lemma tr_fwd_spec fuel t src rest dst P P' Q : locates (tr_src t) src P -> covers (tr_src t) P ->
  to_ref (tr_src_to_ref t) (xyz P) = xyz Q -> from_ref (tr_dst_to_ref t) (xyz Q) = xyz P' ->
  covers (tr_dst t) P' -> (3 <= List.length dst)%nat ->
  exists out, tr_fwd fuel t (map Fin src ++ rest) dst = Ret (Ok (map Fin out ++ skipn 3 dst)) /\
  locates (tr_dst t) out P'.
Proof.
  intros L C E1 E2 C' Ld. destruct (from_xyz_locates _ _ dst C' Ld) as (out & E & L').
  exists out. split; [|easy]. unfold tr_fwd, obind_result.
  rewrite (to_xyz_locates fuel _ _ rest _ L (covers_flat _ _ C)). cbn [obind]. now rewrite E1, E2.
Qed.
Lemma tr_bwd_spec fuel t dst rest src P P' Q : locates (tr_dst t) dst P -> covers (tr_dst t) P ->
  to_ref (tr_dst_to_ref t) (xyz P) = xyz Q -> from_ref (tr_src_to_ref t) (xyz Q) = xyz P' ->
  covers (tr_src t) P' -> (3 <= List.length src)%nat ->
  exists out, tr_bwd fuel t (map Fin dst ++ rest) src = Ret (Ok (map Fin out ++ skipn 3 src)) /\
  locates (tr_src t) out P'.
Proof.
  intros L C E1 E2 C' Ld. destruct (from_xyz_locates _ _ src C' Ld) as (out & E & L').
  exists out. split; [|easy]. unfold tr_bwd, obind_result.
  rewrite (to_xyz_locates fuel _ _ rest _ L (covers_flat _ _ C)). cbn [obind]. now rewrite E1, E2.
Qed.

Lemma proper_back c buf P dst : proper c buf -> locates c buf P -> (3 <= List.length dst)%nat ->
  from_xyz c (xyz P) dst = Ret (Ok (map Fin buf ++ skipn 3 dst)).
Proof.
  intros HP HL Ld. destruct HP as [id d x y z|id d ax buf l p h a b m HE Lt HM G Hl Hp Hh].
  - inversion HL; subst. destruct dst as [|d0 [|d1 [|d2 dst]]]; cbn in Ld; try lia. reflexivity.
  - destruct (to_llh_to_xyz_deep d a b m l p h (a * a / gell a b p) HE HM Lt) as (P' & l' & E1 & E2 & R1 & R2);
      [lra|now apply pvr_fin|exact Hh|].
    specialize (R2 Hp).
    assert (l' = l).
    { destruct R2 as [k K]. pose proof PI_pos as HPI. assert (k = 0%Z) as ->; [|lra].
      assert (-1 < IZR k < 1) as [K1 K2] by (split; apply (Rmult_lt_reg_r (2 * PI)); lra).
      apply lt_IZR in K1. apply lt_IZR in K2. lia. }
    subst l'.
    assert (EP : to_xyz 0 (GeographicCrs id d ax) (map Fin buf ++ []) = Ret (Ok (xyz P))).
    { apply to_xyz_locates; [easy|]. now exists a, b. }
    cbn [to_xyz] in EP. rewrite (geo_normalize_in_range ax buf l p _ [] G) in EP by lra.
    cbn [obind height_of] in EP. fold (llh3 l p h) in EP. rewrite E1 in EP. injection EP as EP.
    apply xyz_inj in EP. subst P'.
    cbn [from_xyz]. rewrite E2. unfold llh3.
    pose proof (geo_denormalize_normalize ax buf l p (Some h) [] dst G) as K.
    rewrite (geo_normalize_in_range ax buf l p _ [] G) in K by lra. cbn [obind height_of] in K.
    assert (D : gaxes_dim ax = 3%nat) by (now inversion G).
    rewrite K by (lra || lia). cbn [obind]. now rewrite D.
Qed.
Lemma proper_locates c buf : proper c buf -> exists P, locates c buf P.
Proof.
  intros [id d x y z|id d ax b l p h a b' m HE Lt HM G Hl Hp Hh].
  - eexists; constructor.
  - destruct (to_xyz_geodetic d a b' m HE HM l p h Lt) as (P & _ & GP). exists P.
    apply (locates_geo id d ax b l p h a b' m); auto; lra.
Qed.

Lemma round_trip fuel fuel' t src rest P P' Q dst dst' : proper (tr_src t) src ->
  locates (tr_src t) src P -> covers (tr_src t) P ->
  exact_inverse (tr_src_to_ref t) -> exact_inverse (tr_dst_to_ref t) ->
  to_ref (tr_src_to_ref t) (xyz P) = xyz Q -> from_ref (tr_dst_to_ref t) (xyz Q) = xyz P' ->
  covers (tr_dst t) P' -> (3 <= List.length dst)%nat -> (3 <= List.length dst')%nat ->
  exists out, tr_fwd fuel t (map Fin src ++ rest) dst = Ret (Ok (map Fin out ++ skipn 3 dst)) /\
  tr_bwd fuel' t (map Fin out ++ skipn 3 dst) dst' = Ret (Ok (map Fin src ++ skipn 3 dst')).
Proof.
  intros HP L C IT IU E1 E2 C' Ld Ld'.
  destruct (tr_fwd_spec fuel t src rest dst P P' Q L C E1 E2 C' Ld) as (out & E & L').
  exists out. split; [easy|]. unfold tr_bwd, obind_result.
  rewrite (to_xyz_locates fuel' _ _ _ _ L' (covers_flat _ _ C')). cbn [obind].
  destruct IU as [_ IU]. destruct (IU Q) as (P1 & F1 & F2). rewrite E2 in F1. apply xyz_inj in F1. subst P1.
  rewrite F2. destruct IT as [IT _]. destruct (IT P) as (Q1 & G1 & G2). rewrite E1 in G1.
  apply xyz_inj in G1. subst Q1. rewrite G2. now apply proper_back.
Qed.
