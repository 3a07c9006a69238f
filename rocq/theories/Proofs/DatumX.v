(** Exact arithmetic: geodetic to geocentric and back (for Props/Datum.v). *)
From Coq Require Import Reals Lra Lia ZArith Bool List Psatz.
From Flocq Require Import Core.
From Verif.Num Require Import FOps RFun XR XRLemmas.
From Verif.Model Require Import Fp Quantities Cs Ellipsoid.
From Verif.Spec Require Import Angles Axes Shape.
From Verif.Proofs Require Import AnglesX AxesX EllX.
Import ListNotations.
Local Open Scope R_scope.

(** ** Geodetic to geocentric *)
Section Datum.
Context (d : GeodeticDatum XR) (a b m : R).
Context (HE : shape (d_ellipsoid d) a b) (HM : pm_lon (d_pm d) = Fin m).
Let Hab : 0 < b <= a := proj1 HE.
Let Ha : e_a (d_ellipsoid d) = Fin a := proj1 (proj2 HE).

Lemma to_xyz_ell l p h : b < a -> llh_to_xyz d (llh3 l p h) =
  xyz ((a * a / gell a b p + h) * cos p * cos (l + m), (a * a / gell a b p + h) * cos p * sin (l + m),
       (b * b / gell a b p + h) * sin p).
Proof.
  intros L. unfold llh_to_xyz. rewrite (spherical_f _ a b HE L). unfold llh3. cbn [lon lat height].
  rewrite (pvr_fin _ a b HE), (e_sq_fin _ a b HE), HM, lon_add_fin. unfold length_scale, xyz. xr.
  destruct (Rwrap_spec (l + m)) as (_ & S & _). apply same_angle_cos in S as C. apply same_angle_sin in S.
  rewrite C, S. pose proof (gell_bound a b Hab p). f_equal; f_equal; field; lra.
Qed.
Lemma to_xyz_sph l p h : b = a -> llh_to_xyz d (llh3 l p h) =
  xyz ((a + h) * cos p * cos l, (a + h) * cos p * sin l, (a + h) * sin p).
Proof.
  intros L. unfold llh_to_xyz. rewrite (proj2 (spherical_iff _ a b HE)) by easy. unfold llh3. cbn [lon lat height].
  rewrite Ha. unfold length_scale, xyz. xr. f_equal; f_equal; ring.
Qed.
Lemma to_xyz_geodetic l p h : b < a -> exists P, llh_to_xyz d (llh3 l p h) = xyz P /\
  geodetic_point a b p (l + m) h P.
Proof.
  intros L. rewrite to_xyz_ell by easy. eexists. split; [reflexivity|].
  do 3 eexists. split; [apply (surface_the a b Hab); repeat split; reflexivity|].
  unfold normal. cbv beta iota. f_equal; [f_equal|]; ring.
Qed.
Lemma gell_sphere p : 0 < a -> gell a a p = a.
Proof.
  intros A. unfold gell. replace (_ + _) with (a * a * (sin p * sin p + cos p * cos p)) by ring.
  rewrite sc1, Rmult_1_r. apply sqrt_square. lra.
Qed.
Lemma to_xyz_geodetic_sphere l p h : b = a -> exists P, llh_to_xyz d (llh3 l p h) = xyz P /\
  geodetic_point a a p l h P.
Proof.
  intros L. rewrite to_xyz_sph by easy. eexists. split; [reflexivity|].
  do 3 eexists. split; [apply (surface_the a a); [lra|]; repeat split; reflexivity|].
  rewrite gell_sphere by lra.
  unfold normal. cbv beta iota. f_equal; [f_equal|]; field; lra.
Qed.
Lemma to_xyz_surface l p : exists P, llh_to_xyz d (llh3 l p 0) = xyz P /\ on_ellipsoid a b P.
Proof.
  destruct (Rle_lt_or_eq_dec _ _ (proj2 Hab)) as [L|L].
  - destruct (to_xyz_geodetic l p 0 L) as (P & -> & x & y & z & S & N). exists P. split; [easy|].
    unfold normal in N. rewrite N. replace (_, _, _) with (x, y, z) by (f_equal; [f_equal|]; ring). apply S.
  - destruct (to_xyz_geodetic_sphere l p 0 L) as (P & -> & x & y & z & S & N). exists P. split; [easy|].
    unfold normal in N. rewrite N. replace (_, _, _) with (x, y, z) by (f_equal; [f_equal|]; ring). rewrite L. apply S.
Qed.
End Datum.
Lemma geodetic_point_unique a b p l h P P' : 0 < b <= a ->
  geodetic_point a b p l h P -> geodetic_point a b p l h P' -> P = P'.
Proof.
  intros H (x & y & z & S & N) (x' & y' & z' & S' & N').
  pose proof (surface_unique a b H p l _ _ S S') as E. injection E; intros; subst.
  unfold normal in *. congruence.
Qed.

(** ** Vermeille's root *)
Lemma cubic_u r s t : 0 < r -> 0 <= s -> 0 < t -> t * t * t = 1 + s + sqrt (s * (2 + s)) ->
  let u := r * (1 + t + 1 / t) in 3 * r <= u /\ u * u * u - 3 * r * (u * u) = 2 * s * (r * r * r).
Proof.
  intros R0 S0 T0 T3 u.
  pose proof (sqrt_pos (s * (2 + s))) as Q0. pose proof (sqrt_sqrt (s * (2 + s)) ltac:(nra)) as Q.
  set (w := sqrt (s * (2 + s))) in *.
  assert (I : 1 / t * (1 / t) * (1 / t) = 1 + s - w).
  { assert (N : 0 < t * t * t) by (rewrite T3; nra).
    apply Rmult_eq_reg_l with (t * t * t); [|lra].
    replace (t * t * t * (1 / t * (1 / t) * (1 / t))) with 1 by (field; lra). rewrite T3. nra. }
  assert (TI : t * (1 / t) = 1) by (field; lra).
  set (i := 1 / t) in *.
  assert (I0 : 0 < i) by (unfold i; apply Rdiv_lt_0_compat; lra).
  assert (T2 : 2 <= t + i) by nra.
  split; [unfold u; nra|].
  assert (C : (t + i) * (t + i) * (t + i) - 3 * (t + i) = 2 + 2 * s).
  { replace ((t + i) * (t + i) * (t + i)) with (t * t * t + i * i * i + 3 * (t * i) * (t + i)) by ring.
    rewrite T3, I, TI. ring. }
  unfold u. replace (1 + t + i) with (1 + (t + i)) by ring. set (T := t + i) in *.
  replace (r * (1 + T) * (r * (1 + T)) * (r * (1 + T)) - 3 * r * (r * (1 + T) * (r * (1 + T)))) with
    (r * r * r * (T * T * T - 3 * T - 2)) by ring. rewrite C. ring.
Qed.
Lemma quartic_k e2 p q r u v : 0 < v -> 0 < u + v -> r = (p + q - e2 * e2) / 6 ->
  u * u * u - 3 * r * (u * u) = e2 * e2 * p * q / 2 -> v * v = u * u + e2 * e2 * q ->
  let w := e2 * (u + v - q) / (2 * v) in let k := sqrt (u + v + w * w) - w in
  0 < k /\ p * (k * k) + q * ((k + e2) * (k + e2)) = k * k * ((k + e2) * (k + e2)).
Proof.
  intros V0 UV R C V w k.
  assert (W : 0 <= u + v + w * w) by nra.
  pose proof (sqrt_sqrt _ W) as Q. pose proof (sqrt_pos (u + v + w * w)) as Q0.
  assert (K : k * k + 2 * w * k - (u + v) = 0).
  { unfold k. nra. }
  assert (K0 : 0 < k).
  { unfold k. assert (w < sqrt (u + v + w * w)); [|lra]. destruct (Rle_lt_dec w 0); [|].
    - assert (0 < sqrt (u + v + w * w)) by (apply sqrt_lt_R0; nra). lra.
    - rewrite <- (sqrt_square w) at 1 by lra. apply sqrt_lt_1_alt. nra. }
  split; [exact K0|].
  assert (WV : 2 * v * w = e2 * (u + v - q)) by (unfold w; field; lra).
  clearbody w k. clear Q Q0 W.
  assert (R' : 6 * r = p + q - e2 * e2) by (rewrite R; field).
  (* quartic = (k^2 + 2wk - (u+v)) (k^2 + (2 e2 - 2w) k + (v - u)) *)
  assert (F : v * v * (k * k * ((k + e2) * (k + e2)) - p * (k * k) - q * ((k + e2) * (k + e2))) =
    v * v * ((k * k + 2 * w * k - (u + v)) * (k * k + (2 * e2 - 2 * w) * k + (v - u)))).
  { assert (W2 : 4 * (v * v) * (w * w) = e2 * e2 * ((u + v - q) * (u + v - q))).
    { replace (4 * (v * v) * (w * w)) with ((2 * v * w) * (2 * v * w)) by ring. rewrite WV. ring. }
    assert (CK2 : v * v * (v - u - (u + v) + 2 * w * (2 * e2 - 2 * w)) = v * v * (e2 * e2 - p - q)).
    { replace (v * v * (v - u - (u + v) + 2 * w * (2 * e2 - 2 * w))) with
       (- 2 * u * (v * v) + 2 * e2 * v * (2 * v * w) - 4 * (v * v) * (w * w)) by ring.
      rewrite WV, W2.
      replace (- 2 * u * (v * v) + 2 * e2 * v * (e2 * (u + v - q)) - e2 * e2 * ((u + v - q) * (u + v - q))) with
        (- 2 * u * (v * v) + e2 * e2 * (v * v - (u - q) * (u - q))) by ring.
      rewrite V.
      replace (- 2 * u * (u * u + e2 * e2 * q) + e2 * e2 * (u * u + e2 * e2 * q - (u - q) * (u - q))) with
        (- 2 * (u * u * u - 3 * r * (u * u)) - 6 * r * (u * u) + e2 * e2 * q * (e2 * e2 - q)) by ring.
      rewrite C, R'. field. }
    assert (CK1 : v * v * (2 * w * (v - u) - (u + v) * (2 * e2 - 2 * w)) = v * v * (- 2 * e2 * q)).
    { replace (2 * w * (v - u) - (u + v) * (2 * e2 - 2 * w)) with (2 * (2 * v * w) - 2 * e2 * (u + v)) by ring.
      rewrite WV. ring. }
    assert (CK0 : v * v * ((u + v) * (v - u)) = v * v * (e2 * e2 * q)).
    { replace ((u + v) * (v - u)) with (v * v - u * u) by ring. rewrite V. ring. }
    transitivity (v * v * (k * k * (k * k)) + v * v * (2 * e2) * (k * k * k)
      + v * v * (v - u - (u + v) + 2 * w * (2 * e2 - 2 * w)) * (k * k)
      + v * v * (2 * w * (v - u) - (u + v) * (2 * e2 - 2 * w)) * k - v * v * ((u + v) * (v - u)));
    [rewrite CK2, CK1, CK0|]; ring. }
  rewrite K, Rmult_0_l, Rmult_0_r in F. apply Rmult_integral in F as [F|F]; [nra|lra].
Qed.

Lemma vermeille_root e2 a r z : 0 < a -> 0 <= e2 < 1 ->
  e2 * e2 < r * r / (a * a) + (1 - e2) * (z * z) / (a * a) ->
  exists k, vermeille_k (Fin e2) (Fin a) (Fin r) (Fin z) = Fin k /\ 0 < k /\
  r * r / ((k + e2) * (k + e2)) + (1 - e2) * (z * z) / (k * k) = a * a.
Proof.
  intros A0 E2 H. unfold vermeille_k, fpow3. xr. rewrite !(xdiv_fin _ a) by lra. xr.
  set (p := r / a * (r / a)). set (q := (1 - e2) * (z / a) * (z / a)).
  assert (P : p = r * r / (a * a)) by (unfold p; field; lra).
  assert (Q : q = (1 - e2) * (z * z) / (a * a)) by (unfold q; field; lra).
  rewrite <- P, <- Q in H.
  assert (P0 : 0 <= p) by apply Rle_0_sqr.
  assert (Q0 : 0 <= q) by (unfold q; rewrite Rmult_assoc; apply Rmult_le_pos; [lra|apply Rle_0_sqr]).
  rewrite (xdiv_fin _ 6) by lra. xr. set (rr := (p + q - e2 * e2) / 6).
  assert (R0 : 0 < rr) by (unfold rr; lra).
  assert (R3p : 0 < 4 * (rr * rr * rr)). { apply Rmult_lt_0_compat; [lra|]. repeat apply Rmult_lt_0_compat; lra. }
  rewrite (xdiv_fin _ (4 * (rr * rr * rr))) by lra. xr. set (s := e2 * e2 * p * q / (4 * (rr * rr * rr))).
  assert (S0 : 0 <= s).
  { apply Rmult_le_pos; [apply Rmult_le_pos; [apply Rmult_le_pos; [apply Rle_0_sqr|exact P0]|exact Q0]|].
    left. now apply Rinv_0_lt_compat. }
  assert (SS : 0 <= s * (2 + s)) by nra.
  rewrite xsqrt_fin by easy. xr.
  pose proof (sqrt_pos (s * (2 + s))) as W0.
  set (t := Rcbrt (1 + s + sqrt (s * (2 + s)))).
  assert (T0 : 0 < t) by (apply Rcbrt_pos; lra).
  assert (T3 : t * t * t = 1 + s + sqrt (s * (2 + s))) by apply Rcbrt_cube.
  rewrite (xdiv_fin 1 t) by lra. xr.
  destruct (cubic_u rr s t R0 S0 T0 T3) as [U3 UC]. set (u := rr * (1 + t + 1 / t)) in *.
  assert (U0 : 0 < u) by lra.
  assert (V2 : 0 < u * u + e2 * e2 * q).
  { assert (0 <= e2 * e2 * q) by (apply Rmult_le_pos; nra). nra. }
  rewrite (xsqrt_fin (u * u + e2 * e2 * q)) by lra. xr.
  pose proof (sqrt_lt_R0 _ V2) as V0. pose proof (sqrt_sqrt (u * u + e2 * e2 * q) ltac:(lra)) as V.
  set (v := sqrt (u * u + e2 * e2 * q)) in *.
  rewrite (xdiv_fin _ (2 * v)) by lra. xr.
  destruct (quartic_k e2 p q rr u v V0 ltac:(lra) eq_refl) as [K0 K]; [|exact V|].
  { rewrite UC. unfold s. field. lra. }
  set (w := e2 * (u + v - q) / (2 * v)) in *.
  rewrite xsqrt_fin by nra. xr. eexists. split; [reflexivity|]. split; [exact K0|].
  set (k := sqrt (u + v + w * w) - w) in *.
  replace (r * r) with (p * (a * a)) by (rewrite P; field; lra).
  replace ((1 - e2) * (z * z)) with (q * (a * a)) by (rewrite Q; field; lra).
  replace (p * (a * a) / ((k + e2) * (k + e2)) + q * (a * a) / (k * k)) with
    (a * a * (p * (k * k) + q * ((k + e2) * (k + e2))) / (k * k * ((k + e2) * (k + e2)))) by (field; lra).
  rewrite K. field. lra.
Qed.

(** The positive root is unique. *)
Lemma root_unique e2 a r z k k' : 0 < a -> 0 <= e2 < 1 -> 0 < k -> 0 < k' ->
  r * r / ((k + e2) * (k + e2)) + (1 - e2) * (z * z) / (k * k) = a * a ->
  r * r / ((k' + e2) * (k' + e2)) + (1 - e2) * (z * z) / (k' * k') = a * a -> k = k'.
Proof.
  intros A E2.
  assert (M : forall k k', 0 < k -> 0 < k' -> k < k' ->
    r * r / ((k + e2) * (k + e2)) + (1 - e2) * (z * z) / (k * k) = a * a ->
    r * r / ((k' + e2) * (k' + e2)) + (1 - e2) * (z * z) / (k' * k') = a * a -> False).
  { clear k k'. intros k k' K0 K1 L E1 E3.
    set (x := k + e2) in *. set (x' := k' + e2) in *.
    assert (X : 0 < x < x') by (unfold x, x'; lra).
    assert (D1 : / (x' * x') < / (x * x)) by (apply Rinv_lt_contravar; [repeat apply Rmult_lt_0_compat; lra|nra]).
    assert (D2 : / (k' * k') < / (k * k)) by (apply Rinv_lt_contravar; [repeat apply Rmult_lt_0_compat; lra|nra]).
    clearbody x x'. unfold Rdiv in *. set (A1 := r * r) in *. set (A2 := (1 - e2) * (z * z)) in *.
    assert (0 <= A1) by apply Rle_0_sqr.
    assert (0 <= A2) by (apply Rmult_le_pos; [lra|apply Rle_0_sqr]). clearbody A1 A2.
    assert (A1 * / (x' * x') <= A1 * / (x * x)) by nra.
    assert (A2 * / (k' * k') <= A2 * / (k * k)) by nra.
    assert (A1 * / (x' * x') = A1 * / (x * x)) as Z1 by lra.
    assert (A2 * / (k' * k') = A2 * / (k * k)) as Z2 by lra.
    assert (A1 = 0) by nra. assert (A2 = 0) by nra. nra. }
  intros K0 K1 E1 E3. destruct (Rtotal_order k k') as [L|[L|L]]; [|easy|]; exfalso.
  - exact (M k k' K0 K1 L E1 E3).
  - exact (M k' k K1 K0 L E3 E1).
Qed.

(** ** Half-angle formulas *)
Lemma half_atan2 y x r : 0 < r -> 0 <= x + r -> r * r = x * x + y * y -> (x + r = 0 -> False) ->
  r * cos (2 * Ratan2 y (x + r)) = x /\ r * sin (2 * Ratan2 y (x + r)) = y.
Proof.
  intros R0 X H N. assert (X0 : 0 < x + r) by lra.
  destruct (Ratan2_spec y (x + r)) as [C S]. set (t := Ratan2 y (x + r)) in *.
  pose proof (Rhypot_sq (x + r) y) as HS.
  assert (R1 : 0 < Rhypot (x + r) y) by (apply Rhypot_pos; lra). set (w := Rhypot (x + r) y) in *.
  assert (W : w * w = 2 * r * (x + r)) by (rewrite HS; nra).
  assert (W0 : w * w <> 0) by nra.
  rewrite cos_2a, sin_2a. split; apply Rmult_eq_reg_l with (w * w); trivial.
  - replace (w * w * (r * (cos t * cos t - sin t * sin t))) with
      (r * ((w * cos t) * (w * cos t) - (w * sin t) * (w * sin t))) by ring.
    rewrite C, S, W. replace (y * y) with (r * r - x * x) by lra. ring.
  - replace (w * w * (r * (2 * sin t * cos t))) with (r * (2 * (w * sin t) * (w * cos t))) by ring.
    rewrite C, S, W. ring.
Qed.
Lemma half_range y x r : 0 <= x -> 0 < r -> Rabs y <= r -> - (PI / 2) <= 2 * Ratan2 y (x + r) <= PI / 2.
Proof.
  intros X R0 Y. rewrite Ratan2_pos by lra.
  assert (Q : -1 <= y / (x + r) <= 1).
  { apply Rabs_le_inv in Y. split.
    - apply Rmult_le_reg_r with (x + r); [lra|]. unfold Rdiv. rewrite Rmult_assoc, Rinv_l by lra. lra.
    - apply Rmult_le_reg_r with (x + r); [lra|]. unfold Rdiv. rewrite Rmult_assoc, Rinv_l by lra. lra. }
  pose proof (atan_le _ _ (proj1 Q)) as L. pose proof (atan_le _ _ (proj2 Q)) as U.
  rewrite atan_1 in U. replace (-1) with (- (1)) in L by ring. rewrite atan_opp, atan_1 in L. lra.
Qed.

(** ** Geocentric to geodetic *)

Definition Rlon (x y : R) : R :=
  let r := Rhypot x y in
  if Req_bool x 0 && Req_bool y 0 then 0
  else if Rle_bool 0 y then PI / 2 - 2 * Ratan2 x (r + y) else - (PI / 2) + 2 * Ratan2 x (r - y).
Lemma Rlon_spec x y : Rhypot x y * cos (Rlon x y) = x /\ Rhypot x y * sin (Rlon x y) = y.
Proof.
  unfold Rlon. destruct (Req_bool_spec x 0) as [Hx|Hx], (Req_bool_spec y 0) as [Hy|Hy]; cbn [andb].
  1: { subst. unfold Rhypot. rewrite Rmult_0_l, Rplus_0_l, sqrt_0. lra. }
  all: assert (R0 : 0 < Rhypot x y) by (apply Rhypot_pos; lra).
  all: pose proof (Rhypot_sq x y) as S; set (r := Rhypot x y) in *.
  all: assert (YY : - r <= y <= r) by (apply Rabs_le_inv; unfold r; rewrite Rhypot_sym; apply Rhypot_ge_abs_l).
  all: destruct (Rle_bool_spec 0 y).
  all: try (destruct (half_atan2 x y r) as [C N]; [lra|lra|lra|lra|];
    replace (r + y) with (y + r) by ring; rewrite cos_minus, sin_minus, cos_PI2, sin_PI2; split; lra).
  all: destruct (half_atan2 x (- y) r) as [C N]; [lra|lra|lra|lra|];
    replace (r - y) with (- y + r) by ring;
    rewrite cos_plus, sin_plus, cos_neg, sin_neg, cos_PI2, sin_PI2; split; lra.
Qed.

Section Inverse.
Context (d : GeodeticDatum XR) (a b m : R).
Context (HE : shape (d_ellipsoid d) a b) (HM : pm_lon (d_pm d) = Fin m).
Let Hab : 0 < b <= a := proj1 HE.
Let Ha : e_a (d_ellipsoid d) = Fin a := proj1 (proj2 HE).
Let e2 : R := (a * a - b * b) / (a * a).

(** The result in terms of the root [k]. *)
Lemma to_llh_ell x y z k : b < a ->
  vermeille_k (Fin e2) (Fin a) (Fin (Rhypot x y)) (Fin z) = Fin k -> 0 < k ->
  let r := Rhypot x y in let D := k * r / (k + e2) in let H := Rhypot D z in
  0 < H ->
  xyz_to_llh d (xyz (x, y, z)) =
  llh3 (Rwrap (Rwrap (Rlon x y) - m)) (2 * Ratan2 z (D + H)) ((k + e2 - 1) / k * H).
Proof.
  intros L K K0 r D H H0. unfold xyz_to_llh. rewrite (spherical_f _ a b HE L), Ha, (e_sq_fin _ a b HE).
  unfold xyz. cbn [x_ y_ z_]. xr. fold e2. rewrite K. xr. pose proof (e2_bound a b Hab) as E2. fold e2 in E2.
  rewrite (xdiv_fin _ (k + e2)) by lra. xr. fold r D H. rewrite (xdiv_fin _ k) by lra. xr.
  rewrite !angle_new_RAD, ?length_new_M.
  assert (D0 : 0 <= D).
  { unfold D. apply Rmult_le_pos; [apply Rmult_le_pos; [lra|apply Rhypot_ge_0]|]. left. apply Rinv_0_lt_compat. lra. }
  assert (Z : Rabs z <= H) by (unfold H; rewrite Rhypot_sym; apply Rhypot_ge_abs_l).
  rewrite lat_new_id by (now apply half_range). rewrite HM.
  unfold llh3. f_equal. unfold Rlon. fold r.
  destruct (Req_bool_spec x 0) as [Hx|Hx], (Req_bool_spec y 0) as [Hy|Hy]; cbn [andb];
  destruct (Rle_bool_spec 0 y); now rewrite lon_new_fin, lon_sub_angle_fin.
Qed.

Lemma to_xyz_to_llh P : b < a -> outside_core a b P ->
  exists l p h, xyz_to_llh d (xyz P) = llh3 l p h /\ - PI <= l <= PI /\ - (PI / 2) <= p <= PI / 2 /\
  llh_to_xyz d (llh3 l p h) = xyz P.
Proof.
  intros L O. destruct P as [[x y] z]. pose proof (e2_bound a b Hab) as E2. fold e2 in E2.
  assert (B2 : 1 - e2 = b * b / (a * a)) by (unfold e2; field; lra).
  assert (AA : 0 < a * a) by nra.
  destruct (vermeille_root e2 a (Rhypot x y) z) as (k & K & K0 & KE); [lra|lra| |].
  { rewrite Rhypot_sq. unfold outside_core in O. rewrite B2. apply Rmult_lt_reg_r with (a * a * (a * a)); [nra|].
    unfold e2. replace ((a * a - b * b) / (a * a) * ((a * a - b * b) / (a * a)) * (a * a * (a * a))) with
     ((a * a - b * b) * (a * a - b * b)) by (field; lra).
    replace (((x * x + y * y) / (a * a) + b * b / (a * a) * (z * z) / (a * a)) * (a * a * (a * a))) with
     (a * a * (x * x + y * y) + b * b * (z * z)) by (field; lra). exact O. }
  set (r := Rhypot x y) in *. set (D := k * r / (k + e2)). set (H := Rhypot D z).
  assert (R0 : 0 <= r) by apply Rhypot_ge_0.
  assert (D0 : 0 <= D).
  { unfold D. apply Rmult_le_pos; [apply Rmult_le_pos; lra|]. left. apply Rinv_0_lt_compat. lra. }
  assert (DZ : D * D + (1 - e2) * (z * z) = a * a * (k * k)).
  { rewrite <- KE. unfold D. field. lra. }
  assert (HH : H * H = D * D + z * z) by apply Rhypot_sq.
  assert (H0 : 0 < H).
  { apply Rhypot_pos. destruct (Req_dec D 0) as [D1|]; [|now left]. right. intros Z.
    rewrite D1, Z in DZ. assert (0 < a * a * (k * k)) by (repeat apply Rmult_lt_0_compat; lra). lra. }
  rewrite (to_llh_ell x y z k L K K0 H0). fold r D H.
  do 3 eexists. split; [reflexivity|].
  destruct (Rwrap_spec (Rwrap (Rlon x y) - m)) as (W & S & _).
  split; [exact W|]. split.
  { apply half_range; [easy|easy|]. unfold H. rewrite Rhypot_sym. apply Rhypot_ge_abs_l. }
  rewrite (to_xyz_ell d a b m HE HM) by easy.
  destruct (half_atan2 z D H) as [C N]; [easy|lra|easy|lra|].
  set (p := 2 * Ratan2 z (D + H)) in *. set (l := Rwrap (Rwrap (Rlon x y) - m)) in *.
  assert (SL : same_angle (l + m) (Rlon x y)).
  { destruct (Rwrap_spec (Rlon x y)) as (_ & S' & _).
    apply same_angle_trans with (Rwrap (Rlon x y) - m + m); [apply same_angle_add; [easy|apply same_angle_refl]|].
    replace (Rwrap (Rlon x y) - m + m) with (Rwrap (Rlon x y)) by ring. exact S'. }
  rewrite (same_angle_cos _ _ SL), (same_angle_sin _ _ SL).
  destruct (Rlon_spec x y) as [LC LS]. fold r in LC, LS.
  assert (G : gell a b p = a * a * k / H).
  { unfold gell. replace (cos p) with (D / H) by (rewrite <- C; field; lra).
    replace (sin p) with (z / H) by (rewrite <- N; field; lra).
    replace (a * a * (D / H * (D / H)) + b * b * (z / H * (z / H))) with
      (a * a * (D * D + b * b / (a * a) * (z * z)) / (H * H)) by (field; lra).
    rewrite <- B2, DZ. replace (a * a * (a * a * (k * k)) / (H * H)) with ((a * a * k / H) * (a * a * k / H)) by (field; lra).
    apply sqrt_square. left. apply Rdiv_lt_0_compat; nra. }
  rewrite G. unfold xyz. 
  assert (Q1 : (a * a / (a * a * k / H) + (k + e2 - 1) / k * H) * cos p = r).
  { replace (cos p) with (D / H) by (rewrite <- C; field; lra). unfold D. field. lra. }
  assert (Q2 : (b * b / (a * a * k / H) + (k + e2 - 1) / k * H) * sin p = z).
  { replace (sin p) with (z / H) by (rewrite <- N; field; lra).
    replace (b * b / (a * a * k / H)) with (b * b / (a * a) * H / k) by (field; lra). rewrite <- B2. field. lra. }
  rewrite Q1, Q2, LC, LS. easy.
Qed.

(** The point at geodetic coordinates, if not too deep. *)
Lemma to_llh_to_xyz l p h : b < a -> - (PI / 2) <= p <= PI / 2 ->
  0 < b * b / gell a b p + h ->
  exists P, llh_to_xyz d (llh3 l p h) = xyz P /\ (outside_core a b P ->
  exists l', xyz_to_llh d (xyz P) = llh3 l' p h /\ - PI <= l' <= PI /\
    (- (PI / 2) < p < PI / 2 -> same_angle l' l)).
Proof.
  intros L Hp Hh. rewrite (to_xyz_ell d a b m HE HM) by easy. eexists. split; [reflexivity|].
  pose proof (gell_bound a b Hab p) as G. pose proof (gell_sq a b Hab p) as GS. set (g := gell a b p) in *.
  set (N := a * a / g). set (k0 := (b * b / g + h) / N).
  pose proof (e2_bound a b Hab) as E2. fold e2 in E2.
  assert (N0 : 0 < N) by (unfold N; apply Rdiv_lt_0_compat; nra).
  assert (K0 : 0 < k0) by (unfold k0; apply Rdiv_lt_0_compat; lra).
  assert (B2 : 1 - e2 = b * b / (a * a)) by (unfold e2; field; lra).
  assert (Ez : b * b / g + h = k0 * N) by (unfold k0; field; lra).
  assert (Er : N + h = (k0 + e2) * N).
  { rewrite Rmult_plus_distr_r, <- Ez. unfold N, e2. field. lra. }
  assert (C0 : 0 <= cos p) by (apply cos_ge_0; lra).
  set (lam := l + m). set (x := (N + h) * cos p * cos lam). set (y := (N + h) * cos p * sin lam).
  set (z := (b * b / g + h) * sin p).
  assert (NP : 0 < N + h) by (rewrite Er; apply Rmult_lt_0_compat; lra).
  assert (Rr : Rhypot x y = (N + h) * cos p).
  { apply Rhypot_unique; [nra|]. unfold x, y. pose proof (sc1 lam).
    replace ((N + h) * cos p * cos lam * ((N + h) * cos p * cos lam) + (N + h) * cos p * sin lam * ((N + h) * cos p * sin lam))
     with ((N + h) * cos p * ((N + h) * cos p) * (sin lam * sin lam + cos lam * cos lam)) by ring.
    rewrite H. ring. }
  intros O. unfold outside_core in O.
  assert (AA : 0 < a * a) by nra.
  destruct (vermeille_root e2 a (Rhypot x y) z) as (k & K & Kp & KE); [lra|lra| |].
  { rewrite Rhypot_sq. rewrite B2. apply Rmult_lt_reg_r with (a * a * (a * a)); [nra|].
    unfold e2. replace ((a * a - b * b) / (a * a) * ((a * a - b * b) / (a * a)) * (a * a * (a * a))) with
     ((a * a - b * b) * (a * a - b * b)) by (field; lra).
    replace (((x * x + y * y) / (a * a) + b * b / (a * a) * (z * z) / (a * a)) * (a * a * (a * a))) with
     (a * a * (x * x + y * y) + b * b * (z * z)) by (field; lra). exact O. }
  assert (KK : k = k0).
  { apply (root_unique e2 a (Rhypot x y) z k k0); trivial; [lra|]. rewrite Rr, Er. unfold z. rewrite Ez.
    replace ((k0 + e2) * N * cos p * ((k0 + e2) * N * cos p) / ((k0 + e2) * (k0 + e2)) +
      (1 - e2) * (k0 * N * sin p * (k0 * N * sin p)) / (k0 * k0)) with
      (N * N * (cos p * cos p + (1 - e2) * (sin p * sin p))) by (field; lra).
    rewrite B2. unfold N. replace (a * a / g * (a * a / g) * (cos p * cos p + b * b / (a * a) * (sin p * sin p))) with
      (a * a * (a * a * (cos p * cos p) + b * b * (sin p * sin p)) / (g * g)) by (field; lra).
    rewrite <- GS. field. lra. }
  subst k.
  assert (ED : k0 * Rhypot x y / (k0 + e2) = k0 * N * cos p) by (rewrite Rr, Er; field; lra).
  assert (KN : 0 < k0 * N) by nra.
  assert (EH : Rhypot (k0 * N * cos p) z = k0 * N).
  { apply Rhypot_unique; [lra|]. unfold z. rewrite Ez. pose proof (sc1 p).
    replace (k0 * N * cos p * (k0 * N * cos p) + k0 * N * sin p * (k0 * N * sin p)) with
      (k0 * N * (k0 * N) * (sin p * sin p + cos p * cos p)) by ring. rewrite H. ring. }
  pose proof (to_llh_ell x y z k0 L K K0) as T. cbv zeta in T. rewrite ED, EH in T. rewrite (T KN). clear T.
  exists (Rwrap (Rwrap (Rlon x y) - m)). split; [|split].
  - unfold llh3. f_equal; f_equal.
    + (* latitude *)
      unfold z. rewrite Ez.
      destruct (half_atan2 (k0 * N * sin p) (k0 * N * cos p) (k0 * N)) as [Cc Ss]; [lra|nra| |nra|].
      { pose proof (sc1 p). replace (k0 * N * cos p * (k0 * N * cos p) + k0 * N * sin p * (k0 * N * sin p)) with
        (k0 * N * (k0 * N) * (sin p * sin p + cos p * cos p)) by ring. rewrite H. ring. }
      apply Rmult_eq_reg_l in Cc; [|lra]. apply Rmult_eq_reg_l in Ss; [|lra].
      pose proof PI_pos. assert (SP : Rabs (sin p) <= 1) by (apply Rabs_le; pose proof (SIN_bound p); lra).
      apply angle_unique; [|lra|easy|easy].
      pose proof (half_range (k0 * N * sin p) (k0 * N * cos p) (k0 * N)) as HR.
      assert (HR' : - (PI / 2) <= 2 * Ratan2 (k0 * N * sin p) (k0 * N * cos p + k0 * N) <= PI / 2).
      { apply HR; [nra|lra|]. rewrite Rabs_mult, (Rabs_pos_eq (k0 * N)) by lra. nra. }
      lra.
    + (* height *)
      replace ((k0 + e2 - 1) / k0 * (k0 * N)) with ((k0 + e2) * N - N) by (field; lra). rewrite <- Er. ring.
  - apply Rwrap_spec.
  - intros Hp'. assert (Cp : 0 < cos p) by (apply cos_gt_0; lra).
    destruct (Rlon_spec x y) as [LC LS]. rewrite Rr in LC, LS. unfold x in LC at 2. unfold y in LS at 2.
    assert (0 < (N + h) * cos p) by nra.
    apply Rmult_eq_reg_l in LC; [|lra]. apply Rmult_eq_reg_l in LS; [|lra].
    pose proof (same_angle_trig _ _ LS LC) as SA.
    destruct (Rwrap_spec (Rwrap (Rlon x y) - m)) as (_ & S1 & _). destruct (Rwrap_spec (Rlon x y)) as (_ & S2 & _).
    apply (same_angle_trans _ _ _ S1). replace l with (lam - m) by (unfold lam; ring).
    apply same_angle_sub; [|apply same_angle_refl]. now apply same_angle_trans with (Rlon x y).
Qed.

(** A sufficient depth condition. *)
Lemma deep_enough l p h : b < a -> (a * a - b * b) / gell a b p < b * b / gell a b p + h ->
  0 < b * b / gell a b p + h /\ forall P, llh_to_xyz d (llh3 l p h) = xyz P -> outside_core a b P.
Proof.
  intros L H. pose proof (gell_bound a b Hab p) as G. pose proof (gell_sq a b Hab p) as GS.
  rewrite (to_xyz_ell d a b m HE HM) by easy. set (g := gell a b p) in *.
  assert (0 < (a * a - b * b) / g) by (apply Rdiv_lt_0_compat; nra).
  split; [lra|]. intros [[x y] z] E. injection E; intros; subst x y z. clear E. unfold outside_core.
  set (c := b * b / g + h) in *. pose proof (sc1 (l + m)) as S.
  assert (A1 : a * a / g + h = c + (a * a - b * b) / g) by (unfold c; field; lra). rewrite A1.
  set (dd := (a * a - b * b) / g) in *.
  replace ((c + dd) * cos p * cos (l + m) * ((c + dd) * cos p * cos (l + m)) + (c + dd) * cos p * sin (l + m) * ((c + dd) * cos p * sin (l + m)))
   with ((c + dd) * (c + dd) * (cos p * cos p) * (sin (l + m) * sin (l + m) + cos (l + m) * cos (l + m))) by ring.
  rewrite S, Rmult_1_r.
  replace ((a * a - b * b) * (a * a - b * b)) with (dd * dd * (g * g)) by (unfold dd; field; lra).
  rewrite GS.
  assert (CD : dd * dd < c * c) by nra. assert (CE : c * c <= (c + dd) * (c + dd)) by nra.
  assert (0 <= a * a * (cos p * cos p)) by (apply Rmult_le_pos; nra).
  assert (0 <= b * b * (sin p * sin p)) by (apply Rmult_le_pos; nra).
  pose proof (gell_arg a b Hab p).
  assert (0 < a * a * (cos p * cos p) + b * b * (sin p * sin p)) by nra.
  replace (a * a * ((c + dd) * (c + dd) * (cos p * cos p)) + b * b * (c * sin p * (c * sin p))) with
    ((c + dd) * (c + dd) * (a * a * (cos p * cos p)) + c * c * (b * b * (sin p * sin p))) by ring.
  nra.
Qed.
End Inverse.

(** Spheres *)
Section Sphere.
Context (d : GeodeticDatum XR) (a m : R).
Context (HE : shape (d_ellipsoid d) a a) (HM : pm_lon (d_pm d) = Fin m).
Let Ha : e_a (d_ellipsoid d) = Fin a := proj1 (proj2 HE).
Lemma to_llh_sph x y z : xyz_to_llh d (xyz (x, y, z)) =
  llh3 (Ratan2 y x) (Ratan2 z (Rhypot x y)) (Rhypot (Rhypot x y) z - a).
Proof.
  unfold xyz_to_llh. rewrite (spherical_t _ a HE), Ha. unfold xyz. cbn [x_ y_ z_]. xr.
  rewrite !angle_new_RAD, ?length_new_M. rewrite lon_new_fin.
  rewrite lat_new_id by (apply Ratan2_range_pos, Rhypot_ge_0).
  pose proof (Ratan2_bound y x). destruct (Rwrap_spec (Ratan2 y x)) as (_ & _ & W). rewrite W by lra. easy.
Qed.
Lemma sph_to_xyz_to_llh P : exists l p h, xyz_to_llh d (xyz P) = llh3 l p h /\
  - PI <= l <= PI /\ - (PI / 2) <= p <= PI / 2 /\ llh_to_xyz d (llh3 l p h) = xyz P.
Proof.
  destruct P as [[x y] z]. rewrite to_llh_sph. do 3 eexists. split; [reflexivity|].
  pose proof (Ratan2_bound y x). split; [lra|]. split; [apply Ratan2_range_pos, Rhypot_ge_0|].
  rewrite (to_xyz_sph d a a HE) by easy.
  destruct (Ratan2_spec y x) as [C S], (Ratan2_spec z (Rhypot x y)) as [C' S'].
  replace (a + (Rhypot (Rhypot x y) z - a)) with (Rhypot (Rhypot x y) z) by ring.
  now rewrite C', S', C, S.
Qed.
Lemma sph_to_llh_to_xyz l p h : - PI < l <= PI -> - (PI / 2) <= p <= PI / 2 -> 0 < a + h ->
  exists P, llh_to_xyz d (llh3 l p h) = xyz P /\
  exists l', xyz_to_llh d (xyz P) = llh3 l' p h /\ (- (PI / 2) < p < PI / 2 -> l' = l).
Proof.
  intros Hl Hp Hh. rewrite (to_xyz_sph d a a HE) by easy. eexists. split; [reflexivity|].
  rewrite to_llh_sph. pose proof PI_pos.
  assert (C0 : 0 <= cos p) by (apply cos_ge_0; lra).
  set (x := (a + h) * cos p * cos l). set (y := (a + h) * cos p * sin l). set (z := (a + h) * sin p).
  assert (R1 : Rhypot x y = (a + h) * cos p).
  { apply Rhypot_unique; [nra|]. unfold x, y. pose proof (sc1 l) as S.
    replace ((a + h) * cos p * cos l * ((a + h) * cos p * cos l) + (a + h) * cos p * sin l * ((a + h) * cos p * sin l))
     with ((a + h) * cos p * ((a + h) * cos p) * (sin l * sin l + cos l * cos l)) by ring. rewrite S. ring. }
  rewrite R1. assert (R2 : Rhypot ((a + h) * cos p) z = a + h).
  { apply Rhypot_unique; [lra|]. unfold z. pose proof (sc1 p) as S.
    replace ((a + h) * cos p * ((a + h) * cos p) + (a + h) * sin p * ((a + h) * sin p))
     with ((a + h) * (a + h) * (sin p * sin p + cos p * cos p)) by ring. rewrite S. ring. }
  rewrite R2. exists (Ratan2 y x). split.
  - unfold llh3. f_equal; f_equal; [|ring]. apply (Ratan2_unique _ _ (a + h)); unfold z; try easy; lra.
  - intros Hp'. assert (0 < cos p) by (apply cos_gt_0; lra).
    apply (Ratan2_unique _ _ ((a + h) * cos p)); unfold x, y; try easy. nra.
Qed.
End Sphere.
