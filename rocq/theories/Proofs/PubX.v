(** Published values; normalized longitudes. *)
From Coq Require Import Reals Lra ZArith List String.
From Flocq Require Import Core.Raux.
From Verif.Num Require Import FOps XR XRLemmas.
From Verif.Model Require Import Fp Quantities Cs Ellipsoid.
From Verif.Spec Require Import Angles Published.
From Verif.Proofs Require Import AnglesX EllX EllF.
Import ListNotations.
Local Open Scope R_scope.

Definition as_published (E : Ellipsoid XR) (v : string * R * second_parameter) : Prop :=
  let '(name, a, second) := v in
  e_name E = name /\ e_a E = Fin a /\
  match second with InvF i => e_invf E = Fin i | Minor b => e_b E = Fin b end.
Lemma def_inv nm a i a' i' : Rlit (fst a) (snd a) = a' -> Rlit (fst i) (snd i) = i' -> as_published (def_ainvf nm (Fin (Rlit (fst a) (snd a))) (Fin (Rlit (fst i) (snd i)))) (nm, a', InvF i').
Proof. intros <- <-. unfold as_published, def_ainvf. cbn [e_name e_a e_invf]. rewrite length_new_M. easy. Qed.
Lemma def_min nm a i a' i' : Rlit (fst a) (snd a) = a' -> Rlit (fst i) (snd i) = i' -> as_published (def_ab nm (Fin (Rlit (fst a) (snd a))) (Fin (Rlit (fst i) (snd i)))) (nm, a', Minor i').
Proof. intros <- <-. unfold as_published, def_ab. cbn [e_name e_a e_b]. rewrite !length_new_M. easy. Qed.
Lemma ellipsoids_published : Forall2 as_published (removelast ellipsoid_consts) published_ellipsoids.
Proof.
  unfold ellipsoid_consts, published_ellipsoids. cbn [removelast].
  do 45 (apply Forall2_cons; [unfold AIRY, ANDRAE, DANISH, APL_4_9, AUST_SA, BESSEL, BESS_NAM, CLRK66, CLRK80, CLRK80IGN, CPM, DELMBR, ENGELIS, EVRST30, EVRST48, EVRST56, EVRST69, EVRSTSS, FSCHR60, FSCHR68, GSK2011, GRS67, GRS80, IAU76, HELMERT, HOUGH, INTL, KAULA, KRASS, LERCH, MPRTS, MERIT, MOD_AIRY, FSCHR60M, NWL9D, NEW_INTL, PLESSIS, PZ90, SEASIA, SGS85, WALBECK, WGS60, WGS66, WGS72, WGS84; first [eapply (def_inv _ (_, _) (_, _)) | eapply (def_min _ (_, _) (_, _))]; first [reflexivity | unfold Rlit; simpl; lra | unfold Rlit; simpl; field]|]). constructor.
Qed.
Lemma meridians_published : Forall2 (fun P '(name, deg) => pm_name P = name /\
    exists d, pm_lon P = Fin (d / 180 * PI) /\ Rabs (d - deg) <= 5 / 10 ^ 6 /\ (name <> "Copenhagen"%string -> Rabs (d - deg) <= / 10 ^ 12))
  (prime_meridian_consts (F := XR)) published_meridians.
Proof.
  unfold prime_meridian_consts, published_meridians.
  assert (D : forall nm x, pm_lon (pm_const nm (Fin x)) = Fin (x / 180 * PI)).
  { intros nm x. unfold pm_const, angle_new, per_unit, DEG. cbn [pm_lon fst snd]. xr. rewrite xdiv_fin by lra. xr. f_equal. field. }
  assert (K : forall nm (x y : R), Rabs (x - y) <= / 10 ^ 12 -> pm_name (pm_const nm (Fin x)) = nm /\
    exists d, pm_lon (pm_const nm (Fin x)) = Fin (d / 180 * PI) /\ Rabs (d - y) <= 5 / 10 ^ 6 /\ (nm <> "Copenhagen"%string -> Rabs (d - y) <= / 10 ^ 12)).
  { intros nm x y H. split; [reflexivity|]. exists x. rewrite D. split; [reflexivity|]. split; [|easy]. eapply Rle_trans; [exact H|]. lra. }
  do 13 (apply Forall2_cons; [apply K; xr; unfold Rlit, dms; simpl; apply Rabs_le; lra|]).
  apply Forall2_cons; [|constructor]. split; [reflexivity|]. exists (Rlit 1257788 5). split; [apply D|]. split; [|intros N; now destruct N].
  unfold Rlit, dms. simpl. apply Rabs_le; lra.
Qed.

(** longitudes in (-pi, pi] *)
Lemma lon_normalized_fin a : lon_normalized (lon_new (Fin a)) = Fin (Rnorm a).
Proof.
  rewrite lon_new_fin. destruct (Rwrap_spec a) as (B & S & _). pose proof PI_RGT_0 as P. unfold lon_normalized, LON_MIN, LON_MAX. xr.
  destruct (Rle_bool_spec (Rwrap a) (- PI)) as [L|L]; f_equal.
  - assert (E : Rwrap a = - PI) by lra. rewrite E in S. rewrite <- (Rnorm_compat _ _ S). transitivity (Rnorm PI); [symmetry; apply Rnorm_id; lra|]. apply Rnorm_compat. exists 1%Z. lra.
  - rewrite <- (Rnorm_compat _ _ S). symmetry. apply Rnorm_id. lra.
Qed.
Lemma lon_normalized_spec a b : exists x y, lon_normalized (lon_new (Fin a)) = Fin x /\ lon_normalized (lon_new (Fin b)) = Fin y /\
  - PI < x <= PI /\ same_angle x a /\ (x = y <-> same_angle a b).
Proof.
  exists (Rnorm a), (Rnorm b). rewrite !lon_normalized_fin. split; [reflexivity|]. split; [reflexivity|]. split; [apply Rnorm_spec|]. split; [apply Rnorm_spec|]. apply Rnorm_eq_iff.
Qed.
Lemma pm_new_spec nm a : exists x, pm_new nm (lon_new (Fin a)) = mkPM nm (Fin x) /\ - PI < x <= PI /\ same_angle x a.
Proof. exists (Rnorm a). unfold pm_new. rewrite lon_normalized_fin. split; [reflexivity|]. apply Rnorm_spec. Qed.
Lemma datum_as nm nm' a i a' i' : Rlit (fst a) (snd a) = a' -> Rlit (fst i) (snd i) = i' -> let D := mkDatum nm (def_ainvf nm' (Fin (Rlit (fst a) (snd a))) (Fin (Rlit (fst i) (snd i)))) GREENWICH in
  d_id D = nm /\ e_a (d_ellipsoid D) = Fin a' /\ e_invf (d_ellipsoid D) = Fin i' /\ pm_lon (d_pm D) = Fin 0.
Proof.
  intros <- <-. cbv zeta. unfold def_ainvf. cbn [d_id d_ellipsoid d_pm e_a e_invf]. rewrite length_new_M. do 3 (split; [reflexivity|]). unfold GREENWICH, pm_const, angle_new, per_unit, DEG. cbn [pm_lon fst snd]. xr. rewrite xdiv_fin by lra. xr. f_equal. unfold Rlit. simpl. lra.
Qed.
Lemma datums_published : Forall2 (fun D '(name, a, i) => d_id D = name /\ e_a (d_ellipsoid D) = Fin a /\ e_invf (d_ellipsoid D) = Fin i /\ pm_lon (d_pm D) = Fin 0)
  [DATUM_WGS84; DATUM_GGRS87; DATUM_NAD83; DATUM_RNB72] published_datums.
Proof.
  unfold published_datums. do 4 (apply Forall2_cons; [unfold DATUM_WGS84, DATUM_GGRS87, DATUM_NAD83, DATUM_RNB72, WGS84, GRS80, INTL; eapply (datum_as _ _ (_, _) (_, _)); first [reflexivity | unfold Rlit; simpl; lra | unfold Rlit; simpl; field]|]). constructor.
Qed.
