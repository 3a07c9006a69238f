(** The projection lemmas in terms of [applied_to], [proj] and [unproj]; examples. *)
From Coq Require Import String Reals Lra Lia ZArith Bool Psatz List.
From Flocq Require Import Core IEEE754.BinarySingleNaN.
From Verif.Num Require Import FOps RFun XR XRLemmas F64.
From Verif.Model Require Import Fp Quantities Cs Ellipsoid Geodesics Projections Crs.
From Verif.Spec Require Import Angles Axes Shape Maps Krueger Libm.
From Verif.Proofs Require Import AnglesX AxesX EllX EllEx ProjX MercX TMX TMInv TMF UTMX.
Import ListNotations.
Local Open Scope R_scope.

(** ** Web Mercator *)
Lemma wm_inverse E a b lon0 lat0 fe fn : shape E a b ->
  let P := applied_to (SWebMercator (Fin lon0) (Fin lat0) (Fin fe) (Fin fn)) E in
  (forall fuel l p h, nonpolar p -> exists x y l',
     proj P (llh3 l p h) = Ok (enh (x, y, h)) /\
     unproj fuel P (enh (x, y, h)) = Ret (Ok (llh3 l' p h)) /\ same_lon l' l) /\
  (forall fuel x y h, Rabs (x - fe) < PI * a -> exists l p,
     unproj fuel P (enh (x, y, h)) = Ret (Ok (llh3 l p h)) /\ nonpolar p /\
     proj P (llh3 l p h) = Ok (enh (x, y, h))).
Proof.
  intros HE P. split.
  - intros fuel l p h H. destruct (wm_unproj_proj E a b HE lon0 lat0 fe fn l p h H) as ([[x y] z] & l' & E1 & E2 & E3).
    cbn [applied_to proj unproj P]. assert (z = h).
    { rewrite (wm_proj_fin E a b HE) in E1 by easy. now injection E1. } subst z.
    exists x, y, l'. split; [exact E1|]. split; [now rewrite E2|exact E3].
  - intros fuel x y h H. destruct (wm_proj_unproj E a b HE lon0 lat0 fe fn x y h H) as (l & p & E1 & E2 & E3).
    exists l, p. cbn [applied_to proj unproj P]. rewrite E1. auto.
Qed.
Lemma wm_map' E a b lon0 lat0 fe fn : shape E a b -> exists north, north 0 = fn /\
  (forall l p h, nonpolar p -> exists d, lon_from lon0 l d /\
     proj (applied_to (SWebMercator (Fin lon0) (Fin lat0) (Fin fe) (Fin fn)) E) (llh3 l p h) = Ok (enh (fe + a * d, north p, h))) /\
  (forall p, nonpolar p -> derivable_pt_lim north p (a / cos p)) /\
  (forall p q, nonpolar p -> nonpolar q -> p < q -> north p < north q).
Proof. intros HE. exact (wm_map E a b HE lon0 lat0 fe fn). Qed.
Lemma wm_lat0_ignored' (E : Ellipsoid XR) lon0 lat0 lat0' fe fn llh enh fuel :
  proj (applied_to (SWebMercator lon0 lat0 fe fn) E) llh = proj (applied_to (SWebMercator lon0 lat0' fe fn) E) llh /\
  unproj fuel (applied_to (SWebMercator lon0 lat0 fe fn) E) enh = unproj fuel (applied_to (SWebMercator lon0 lat0' fe fn) E) enh.
Proof. split; reflexivity. Qed.
Lemma ex_wm : exists a b, shape WGS84 a b /\ b < a /\ nonpolar (PI / 3) /\ Rabs (5000 + 3 * a - 5000) < PI * a.
Proof.
  destruct ex_wgs84 as (a & b & S & L & Q). exists a, b. split; [exact S|]. split; [exact L|]. pose proof PI_pos.
  split; [unfold nonpolar; lra|]. assert (0 < a) by (destruct S; lra). rewrite Rabs_pos_eq by lra.
  assert (3 < PI) by (pose proof PI2_3_2; lra). nra.
Qed.

(** ** Mercator *)
Lemma merc_conformal' E a b lon0 k0 fe fn : shape E a b ->
  conformal_cylindrical a b lon0 fe fn (k0 * a) (proj (applied_to (SMercator1SP (Fin lon0) (Fin k0) (Fin fe) (Fin fn)) E)).
Proof. intros HE. exact (merc_conformal E a b HE lon0 0 k0 fe fn). Qed.
Lemma merc_2sp' E a b lon0 lat0 fe fn : shape E a b -> nonpolar lat0 -> exists k0, 0 < k0 /\
  (forall llh, proj (applied_to (SMercator2SP (Fin lon0) (Fin lat0) (Fin fe) (Fin fn)) E) llh =
               proj (applied_to (SMercator1SP (Fin lon0) (Fin k0) (Fin fe) (Fin fn)) E) llh) /\
  (forall fuel enh, unproj fuel (applied_to (SMercator2SP (Fin lon0) (Fin lat0) (Fin fe) (Fin fn)) E) enh =
               unproj fuel (applied_to (SMercator1SP (Fin lon0) (Fin k0) (Fin fe) (Fin fn)) E) enh) /\
  scale_at a b (k0 * a) lat0 1.
Proof.
  intros HE H. destruct (merc_2sp E a b lon0 lat0 fe fn HE H) as (k0 & K & EQ & S). exists k0. split; [exact K|].
  rewrite EQ. split; [reflexivity|]. split; [reflexivity|exact S].
Qed.
Lemma merc_sym' E a b lon0 k0 fe fn : shape E a b -> forall l p h, nonpolar p -> exists x y,
  let P := applied_to (SMercator1SP (Fin lon0) (Fin k0) (Fin fe) (Fin fn)) E in
  proj P (llh3 l p h) = Ok (enh (x, fn + y, h)) /\ proj P (llh3 l (- p) h) = Ok (enh (x, fn - y, h)).
Proof. intros HE. exact (merc_sym E a b HE lon0 0 k0 fe fn). Qed.
Lemma merc_incr' E a b lon0 k0 fe fn : shape E a b -> forall p q, 0 < k0 -> nonpolar p -> nonpolar q -> p < q -> forall l h, exists x y y',
  let P := applied_to (SMercator1SP (Fin lon0) (Fin k0) (Fin fe) (Fin fn)) E in
  proj P (llh3 l p h) = Ok (enh (x, y, h)) /\ proj P (llh3 l q h) = Ok (enh (x, y', h)) /\ y < y'.
Proof. intros HE. exact (merc_incr E a b HE lon0 0 k0 fe fn). Qed.
Lemma merc_sphere_inverse2 E a lon0 k0 fe fn : shape E a a -> 0 < k0 ->
  let P := applied_to (SMercator1SP (Fin lon0) (Fin k0) (Fin fe) (Fin fn)) E in
  (forall fuel l p h, nonpolar p -> exists x y l',
     proj P (llh3 l p h) = Ok (enh (x, y, h)) /\
     unproj fuel P (enh (x, y, h)) = Ret (Ok (llh3 l' p h)) /\ same_lon l' l) /\
  (forall fuel x y h, Rabs (x - fe) < PI * (k0 * a) -> exists l p,
     unproj fuel P (enh (x, y, h)) = Ret (Ok (llh3 l p h)) /\ nonpolar p /\
     proj P (llh3 l p h) = Ok (enh (x, y, h))).
Proof.
  intros HE K P. split.
  - intros fuel l p h H. destruct (merc_sphere_inverse E a a HE lon0 0 k0 fe fn eq_refl ltac:(lra) l p h H) as ([[x y] z] & l' & E1 & E2 & E3).
    cbn [applied_to proj unproj P]. assert (z = h).
    { rewrite (merc_proj_fin E a a HE) in E1 by easy. now injection E1. } subst z.
    exists x, y, l'. split; [exact E1|]. split; [|exact E3]. unfold merc_new_1_sp. change (fofZ 0) with (Fin 0). now rewrite E2.
  - intros fuel x y h H. destruct (merc_sphere_inverse' E a a HE lon0 0 k0 fe fn eq_refl K x y h H) as (l & p & E1 & E2 & E3).
    exists l, p. cbn [applied_to proj unproj P]. unfold merc_new_1_sp. change (fofZ 0) with (Fin 0). rewrite E1. auto.
Qed.
Lemma ex_sphere a : 0 < a -> exists E, from_ainvf "" (Fin a) PInf = Ret E /\ shape E a a.
Proof. apply shape_inf_ok. Qed.

(** ** Transverse Mercator *)
Section T.
Context (E : Ellipsoid XR) (a b lon0 lat0 k0 fe fn : R) (HE : shape E a b) (Hlat0 : latitude lat0).
Let P := applied_to (STransverseMercator (Fin lon0) (Fin lat0) (Fin k0) (Fin fe) (Fin fn)) E.
Lemma tm_origin' h : proj P (llh3 lon0 lat0 h) = Ok (enh (fe, fn, h)).
Proof. exact (tm_origin E a b HE lon0 lat0 k0 fe fn Hlat0 h). Qed.
Lemma tm_central' : exists north, forall l p h, latitude p -> same_angle l lon0 -> proj P (llh3 l p h) = Ok (enh (fe, north p, h)).
Proof.
  eexists (fun p => _). intros l p h Hp Hl. exact (tm_central E a b HE lon0 lat0 k0 fe fn Hlat0 l p h Hp Hl).
Qed.
Lemma tm_east_west' d p h : latitude p -> - PI < d < PI -> p <> 0 \/ cos d <> 0 -> exists x y,
  proj P (llh3 (lon0 + d) p h) = Ok (enh (fe + x, y, h)) /\ proj P (llh3 (lon0 - d) p h) = Ok (enh (fe - x, y, h)).
Proof. exact (tm_east_west E a b HE lon0 lat0 k0 fe fn Hlat0 d p h). Qed.
Lemma tm_fold' d p h : latitude p -> 0 < d < PI -> p <> 0 \/ cos d <> 0 ->
  proj P (llh3 (lon0 + (PI - d)) p h) = proj P (llh3 (lon0 + d) p h).
Proof. exact (tm_fold E a b HE lon0 lat0 k0 fe fn Hlat0 d p h). Qed.
Lemma tm_unproj' : k0 <> 0 -> exists M0, (lat0 = 0 -> M0 = 0) /\ forall x y h,
  let n := third_flattening a b in let r := kr_radius a n in let e2 := eccentricity_squared a b in
  let '(xi, eta) := krueger (kr_reverse n) ((y - fn + k0 * M0) / (k0 * r), (x - fe) / (k0 * r)) in
  ~ (eta = 0 /\ cos xi = 0) ->
  exists N l p, - PI <= l <= PI /\ nonpolar p /\
  (forall fuel, (N <= fuel)%nat -> unproj fuel P (enh (x, y, h)) = Ret (Ok (llh3 l p h))) /\
  (latitude xi -> exists q, Rabs (p - q) <= e2 / (1 - e2) * / 10 ^ 12 /\
     let '(xi', eta') := krueger (kr_direct n) (xi, eta) in
     proj P (llh3 l q h) = Ok (enh (fe + k0 * r * eta', fn + k0 * (r * xi' - M0), h))).
Proof.
  intros Hk. exists (tm0 a b lat0). split; [apply tm0_0|]. intros x y h.
  exact (unproj_terminates_near E a b HE lon0 lat0 k0 fe fn Hlat0 Hk x y h).
Qed.
End T.
Lemma tm_north_south' E a b lon0 k0 fe fn : shape E a b ->
  forall l p h, latitude p -> p <> 0 \/ cos (l - lon0) <> 0 -> exists x y,
  let P := applied_to (STransverseMercator (Fin lon0) (Fin 0) (Fin k0) (Fin fe) (Fin fn)) E in
  proj P (llh3 l p h) = Ok (enh (x, fn + y, h)) /\ proj P (llh3 l (- p) h) = Ok (enh (x, fn - y, h)).
Proof.
  intros HE l p h. apply (tm_north_south E a b HE lon0 0 k0 fe fn); [|easy]. unfold latitude. pose proof PI_pos. lra.
Qed.
Lemma tm_sphere' E a lon0 lat0 k0 fe fn : shape E a a -> latitude lat0 -> k0 <> 0 ->
  let P := applied_to (STransverseMercator (Fin lon0) (Fin lat0) (Fin k0) (Fin fe) (Fin fn)) E in
  (forall l p h, nonpolar p -> 0 < cos (l - lon0) -> exists x y l',
     proj P (llh3 l p h) = Ok (enh (x, y, h)) /\
     (forall fuel, (1 <= fuel)%nat -> unproj fuel P (enh (x, y, h)) = Ret (Ok (llh3 l' p h))) /\ same_lon l' l) /\
  (forall x y h, nonpolar ((y - fn) / (k0 * a) + lat0) -> exists l p,
     (forall fuel, (1 <= fuel)%nat -> unproj fuel P (enh (x, y, h)) = Ret (Ok (llh3 l p h))) /\
     proj P (llh3 l p h) = Ok (enh (x, y, h))).
Proof.
  intros HE L K P. split.
  - intros l p h H C. exact (sph_inverse E a HE lon0 lat0 k0 fe fn L K l p h H C).
  - intros x y h H. exact (sph_inverse' E a HE lon0 lat0 k0 fe fn L K x y h H).
Qed.
Lemma ex_tm : exists E a b, shape E a b /\ b < a /\ latitude (PI / 4) /\ latitude (- (PI / 2)).
Proof.
  destruct ex_wgs84 as (a & b & S & L & _). exists WGS84, a, b. pose proof PI_pos. repeat split; auto; try apply S; try lra.
Qed.
(** a point of the map that is not the image of a pole *)
Lemma ex_tm_unproj : exists E a, shape E a a /\ 
  let n := third_flattening a a in let r := kr_radius a n in
  let '(xi, eta) := krueger (kr_reverse n) ((0 - 0 + 1 * 0) / (1 * r), (a - 0) / (1 * r)) in ~ (eta = 0 /\ cos xi = 0).
Proof.
  destruct (ex_sphere 1 ltac:(lra)) as (E & _ & HE). exists E, 1. split; [exact HE|]. cbv zeta. unfold third_flattening.
  replace ((1 - 1) / (1 + 1)) with 0 by field. replace (kr_radius 1 0) with 1 by (unfold kr_radius; field).
  rewrite kr_rev. destruct (sph_hs ((0 - 0 + 1 * 0) / (1 * 1)) ((1 - 0) / (1 * 1))) as (_ & _ & -> & ->).
  intros [Z _]. lra.
Qed.
Lemma ex_libm : exists lm, nan_through lm /\ sin_of_inf lm /\ cosh_overflows lm.
Proof.
  pose (nn := fun _ : f64 => B754_nan : f64). pose (n2 := fun _ _ : f64 => B754_nan : f64).
  exists {| lm_sin := nn; lm_cos := nn; lm_tan := nn; lm_asin := nn; lm_atan := nn; lm_atan2 := n2; lm_hypot := n2; lm_cbrt := nn;
    lm_powf := n2; lm_exp := nn; lm_ln := nn; lm_sinh := nn;
    lm_cosh := fun x => if Bleb (f64_ofZ 711) x then B754_infinity false else B754_nan;
    lm_tanh := nn; lm_asinh := nn; lm_atanh := nn |}.
  split; [|split].
  - unfold nan_through. cbn [lm_sin lm_cos lm_tan lm_asin lm_atan lm_exp lm_ln lm_sinh lm_cosh lm_tanh lm_asinh lm_atanh].
    repeat constructor.
  - intros s. reflexivity.
  - intros x H. cbn [lm_cosh]. now rewrite H.
Qed.
Lemma unproj_nan' lm : nan_through lm -> forall fuel spec E x y h,
  (match spec with STransverseMercator _ _ _ _ _ | SUTMNorth _ | SUTMSouth _ => True | _ => False end) ->
  x = B754_nan \/ y = B754_nan ->
  unproj (ops := F64ops lm) fuel (applied_to (ops := F64ops lm) spec E) (mkENH x y h) = Diverge.
Proof. intros H fuel spec E x y h S D. destruct spec; try easy; cbn [applied_to unproj]; now apply unproj_nan. Qed.
Lemma utm_far' lm : nan_through lm -> sin_of_inf lm -> cosh_overflows lm -> forall fuel zone y h,
  unproj (ops := F64ops lm) fuel (applied_to (ops := F64ops lm) (SUTMNorth zone) (GRS80 (ops := F64ops lm)))
    (mkENH (f64_ofZ 10000000000) y h) = Diverge.
Proof. intros H1 H2 H3 fuel zone y h. now apply utm_far. Qed.
