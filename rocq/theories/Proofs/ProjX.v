(** Exact arithmetic: the cylindrical projections. *)
From Coq Require Import String Reals Lra Lia ZArith Bool Psatz List.
From Coquelicot Require Import Coquelicot.
From Flocq Require Import Core.Raux.
From Verif.Num Require Import FOps RFun XR XRLemmas.
From Verif.Model Require Import Fp Quantities Cs Ellipsoid Geodesics Projections Crs.
From Verif.Spec Require Import Angles Axes Shape Maps.
From Verif.Proofs Require Import AnglesX AxesX EllX DatumX EllEx.
Import ListNotations.
Local Open Scope R_scope.

(** ** Web Mercator *)
Lemma half_lat p : - (PI / 2) <= p <= PI / 2 ->
  lat_add (lat_div (Fin p) (Fin 2)) (angle_new (fpi_4 (F := XR)) RAD) = Fin (p / 2 + PI / 4).
Proof.
  intros H. unfold lat_add, lat_div. rewrite !angle_new_RAD. xr. rewrite xdiv_fin by lra.
  rewrite lat_new_id by lra. xr. rewrite lat_new_id by lra. reflexivity.
Qed.

Lemma wm_pole lon0 lat0 fe fn l :
  exists e, proj (applied_to (SWebMercator (Fin lon0) (Fin lat0) (Fin fe) (Fin fn)) WGS84)
    (mkLLH (Fin l) (Fin (- (PI / 2))) (Fin 0)) = Ok (mkENH (Fin e) MInf (Fin 0)).
Proof.
  pose proof PI_pos as HPI. destruct ex_wgs84 as (a & b & HE & L & _). pose proof (proj1 HE) as Hb.
  destruct HE as (_ & Ea & _). cbn [proj applied_to]. unfold wm_proj, wm_new.
  cbn [wm_a wm_lon0 wm_fe wm_fn lon lat height]. rewrite Ea, lon_sub_fin. change (fofZ 2) with (Fin 2).
  rewrite half_lat by lra. replace (- (PI / 2) / 2 + PI / 4) with 0 by lra.
  unfold arc_length, length_scale. xr. rewrite xtan_fin by (rewrite cos_0; lra). rewrite tan_0.
  replace (xln (Fin 0)) with MInf.
  2:{ cbn. rewrite !Rlt_bool_f by lra. reflexivity. }
  eexists. f_equal. f_equal. cbn. rewrite ?Rlt_bool_t by lra. unfold xinf_sign. 
  repeat match goal with |- context[Rlt_bool ?x ?y] => first [rewrite (Rlt_bool_t x y) by lra|rewrite (Rlt_bool_f x y) by lra] end. reflexivity.
Qed.

(** The isometric latitude of the sphere. *)
Definition isom (p : R) : R := ln (tan (p / 2 + PI / 4)).

Lemma tan_quarter_pos p : - (PI / 2) < p < PI / 2 -> 0 < tan (p / 2 + PI / 4).
Proof. intros H. pose proof PI_pos. apply tan_gt_0; lra. Qed.
Lemma cos_quarter_pos p : - (PI / 2) < p < PI / 2 -> 0 < cos (p / 2 + PI / 4).
Proof. intros H. pose proof PI_pos. apply cos_gt_0; lra. Qed.
Lemma tan_compl x : 0 < x < PI / 2 -> tan (PI / 2 - x) = / tan x.
Proof.
  intros H. pose proof PI_pos. unfold tan. rewrite cos_shift, sin_shift.
  assert (0 < sin x) by (apply sin_gt_0; lra). assert (0 < cos x) by (apply cos_gt_0; lra). field. split; lra.
Qed.
Lemma atan_inv_tan x : 0 < x < PI / 2 -> atan (/ tan x) = PI / 2 - x.
Proof. intros H. rewrite <- tan_compl by easy. apply atan_tan; pose proof PI_pos; lra. Qed.

Lemma isom_inv p : - (PI / 2) < p < PI / 2 -> PI / 2 - 2 * atan (exp (- isom p)) = p.
Proof.
  intros H. unfold isom. rewrite exp_Ropp, exp_ln by now apply tan_quarter_pos.
  rewrite atan_inv_tan by lra. lra.
Qed.
Lemma isom_lat_range y : - (PI / 2) < PI / 2 - 2 * atan (exp y) < PI / 2.
Proof.
  pose proof (atan_bound (exp y)). assert (0 < atan (exp y)).
  { rewrite <- atan_0. apply atan_increasing, exp_pos. } lra.
Qed.
Lemma isom_of y : isom (PI / 2 - 2 * atan (exp (- y))) = y.
Proof.
  unfold isom. pose proof (isom_lat_range (- y)).
  replace ((PI / 2 - 2 * atan (exp (- y))) / 2 + PI / 4) with (PI / 2 - atan (exp (- y))) by lra.
  rewrite tan_compl by lra. rewrite tan_atan, exp_Ropp, Rinv_inv. apply ln_exp.
Qed.
Lemma isom_odd p : - (PI / 2) < p < PI / 2 -> isom (- p) = - isom p.
Proof.
  intros H. unfold isom. replace (- p / 2 + PI / 4) with (PI / 2 - (p / 2 + PI / 4)) by lra.
  rewrite tan_compl by lra. rewrite ln_Rinv by now apply tan_quarter_pos. reflexivity.
Qed.
Lemma isom_0 : isom 0 = 0.
Proof. unfold isom. replace (0 / 2 + PI / 4) with (PI / 4) by lra. now rewrite tan_PI4, ln_1. Qed.
Lemma isom_deriv p : - (PI / 2) < p < PI / 2 -> derivable_pt_lim isom p (/ cos p).
Proof.
  intros H. pose proof (cos_quarter_pos p H) as C. pose proof (tan_quarter_pos p H) as T.
  assert (S : 0 < sin (p / 2 + PI / 4)) by (apply sin_gt_0; lra).
  apply is_derive_Reals. unfold isom, tan. auto_derive.
  { unfold tan in T. repeat split; unfold Rdiv in *; lra. }
  assert (E : cos p = 2 * sin (p / 2 + PI / 4) * cos (p / 2 + PI / 4)).
  { rewrite <- sin_2a. replace (2 * (p / 2 + PI / 4)) with (PI / 2 + p) by lra. now rewrite <- cos_sin. }
  rewrite E. fold (p / 2). pose proof (sin2_cos2 (p / 2 + PI / 4)) as Q. unfold Rsqr in Q.
  set (s := sin (p / 2 + PI / 4)) in *. set (c := cos (p / 2 + PI / 4)) in *.
  replace (/ (2 * s * c)) with ((s * s + c * c) * / (2 * s * c)) by (rewrite Q; ring). field. lra.
Qed.

(** ** Longitudes *)
Lemma Rnorm_lon_from l0 l : lon_from l0 l (Rnorm (l - l0)).
Proof.
  destruct (Rnorm_spec (l - l0)) as [B S]. split; [exact B|]. destruct S as [k K]. exists k. lra.
Qed.
Lemma back_lon l0 l : same_lon (Rwrap (l0 + Rnorm (l - l0))) l.
Proof.
  destruct (Rwrap_spec (l0 + Rnorm (l - l0))) as (B & S & _). destruct (Rnorm_lon_from l0 l) as [_ S'].
  assert (T : same_angle (Rwrap (l0 + Rnorm (l - l0))) l) by now apply same_angle_trans with (l0 + Rnorm (l - l0)).
  split; [exact B|]. split; [exact T|]. intros H. destruct T as [k K]. pose proof PI_pos.
  assert (k = 0%Z); [|subst; lra]. apply IZR_small. split; apply (Rmult_lt_reg_r (2 * PI)); lra.
Qed.
Lemma there_lon l0 d : - PI < d < PI -> Rnorm (Rwrap (l0 + d) - l0) = d.
Proof.
  intros H. rewrite <- (Rnorm_id d) at 2 by lra. apply Rnorm_compat.
  destruct (Rwrap_spec (l0 + d)) as (_ & [k K] & _). exists k. lra.
Qed.

(** ** Web Mercator *)
Section WM.
Context (E : Ellipsoid XR) (a b : R) (HE : shape E a b) (lon0 lat0 fe fn : R).
Let W := wm_new E (Fin lon0) (Fin lat0) (Fin fe) (Fin fn).
Let Ha : e_a E = Fin a. Proof. apply HE. Qed.
Let Hpos : 0 < a. Proof. pose proof (proj1 HE). lra. Qed.

Lemma wm_proj_fin l p h : nonpolar p ->
  wm_proj W (llh3 l p h) = Ok (enh (fe + a * Rnorm (l - lon0), fn + a * isom p, h)).
Proof.
  intros H. unfold nonpolar in H. unfold wm_proj, W, wm_new, llh3. cbn [wm_a wm_lon0 wm_fe wm_fn lon lat height].
  rewrite Ha, lon_sub_fin. change (fofZ 2) with (Fin 2). rewrite half_lat by lra.
  unfold arc_length, length_scale. xr. pose proof (cos_quarter_pos p H). rewrite xtan_fin by lra.
  rewrite xln_fin by now apply tan_quarter_pos. xr. fold (isom p). f_equal. unfold enh. f_equal; f_equal; ring.
Qed.
Lemma wm_unproj_fin x y h :
  wm_unproj W (enh (x, y, h)) = Ok (llh3 (Rwrap (lon0 + (x - fe) / a)) (PI / 2 - 2 * atan (exp (- ((y - fn) / a)))) h).
Proof.
  unfold wm_unproj, W, wm_new, enh. cbn [wm_a wm_lon0 wm_fe wm_fn easting northing eheight].
  rewrite Ha. unfold arc_div. rewrite !angle_new_RAD. xr. rewrite !xdiv_fin by lra. xr.
  rewrite lon_add_fin. cbn [xatan xexp]. xr.
  replace ((fn - y) / a) with (- ((y - fn) / a)) by (field; lra).
  rewrite lat_new_id; [reflexivity|]. pose proof (isom_lat_range (- ((y - fn) / a))). lra.
Qed.
Lemma wm_unproj_proj l p h : nonpolar p -> exists e l',
  wm_proj W (llh3 l p h) = Ok (enh e) /\ wm_unproj W (enh e) = Ok (llh3 l' p h) /\ same_lon l' l.
Proof.
  intros H. eexists _, _. split; [now apply wm_proj_fin|]. rewrite wm_unproj_fin. split; [|apply (back_lon lon0 l)].
  do 2 f_equal. 1: f_equal; f_equal; field; lra. replace ((fn + a * isom p - fn) / a) with (isom p) by (field; lra).
  now apply isom_inv.
Qed.
Lemma wm_proj_unproj x y h : Rabs (x - fe) < PI * a -> exists l p,
  wm_unproj W (enh (x, y, h)) = Ok (llh3 l p h) /\ nonpolar p /\ wm_proj W (llh3 l p h) = Ok (enh (x, y, h)).
Proof.
  intros H. do 2 eexists. split; [apply wm_unproj_fin|].
  split. { apply isom_lat_range. }
  rewrite wm_proj_fin by apply isom_lat_range. rewrite isom_of, there_lon.
  - do 4 f_equal; field; lra.
  - apply Rabs_def2 in H. split; apply (Rmult_lt_reg_r a); try lra; replace ((x - fe) / a * a) with (x - fe) by (field; lra); lra.
Qed.
Lemma wm_map : exists north, north 0 = fn /\
  (forall l p h, nonpolar p -> exists d, lon_from lon0 l d /\
     wm_proj W (llh3 l p h) = Ok (enh (fe + a * d, north p, h))) /\
  (forall p, nonpolar p -> derivable_pt_lim north p (a / cos p)) /\
  (forall p q, nonpolar p -> nonpolar q -> p < q -> north p < north q).
Proof.
  assert (D : forall p, nonpolar p -> is_derive (fun p => fn + a * isom p) p (a / cos p)).
  { intros p H. auto_derive.
    - exists (/ cos p). apply is_derive_Reals. now apply isom_deriv.
    - rewrite (is_derive_unique _ _ (/ cos p)) by (apply is_derive_Reals; now apply isom_deriv). unfold Rdiv; ring. }
  exists (fun p => fn + a * isom p). split; [rewrite isom_0; ring|]. split.
  { intros l p h H. eexists. split; [apply (Rnorm_lon_from lon0 l)|now apply wm_proj_fin]. }
  split. { intros p H. apply is_derive_Reals. now apply D. }
  intros p q Hp Hq L. apply (incr_function_le (fun p => fn + a * isom p) p q (fun p => a / cos p)); cbn; try lra.
  - intros x H1 H2. apply D. unfold nonpolar in *. lra.
  - intros x H1 H2. unfold nonpolar in *. apply Rdiv_lt_0_compat; [lra|]. apply cos_gt_0; lra.
Qed.
End WM.
Lemma wm_lat0_ignored (E : Ellipsoid XR) lon0 lat0 lat0' fe fn llh enh :
  wm_proj (wm_new E lon0 lat0 fe fn) llh = wm_proj (wm_new E lon0 lat0' fe fn) llh /\
  wm_unproj (wm_new E lon0 lat0 fe fn) enh = wm_unproj (wm_new E lon0 lat0' fe fn) enh.
Proof. split; reflexivity. Qed.
Lemma wm_lat0_refuted E a b lon0 lat0 fe fn : shape E a b -> nonpolar lat0 -> lat0 <> 0 ->
  exists x y, wm_proj (wm_new E (Fin lon0) (Fin lat0) (Fin fe) (Fin fn)) (llh3 lon0 lat0 0) = Ok (enh (x, y, 0)) /\ y <> fn.
Proof.
  intros HE H N. destruct (wm_map E a b HE lon0 lat0 fe fn) as (north & N0 & Pr & _ & Inc).
  destruct (Pr lon0 lat0 0 H) as (d & _ & Q). do 2 eexists. split; [exact Q|].
  assert (nonpolar 0) by (unfold nonpolar; pose proof PI_pos; lra).
  rewrite <- N0. destruct (Rtotal_order lat0 0) as [L|[L|L]]; [|easy|]; apply Inc in L; auto; lra.
Qed.
