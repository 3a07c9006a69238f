(** Exact arithmetic: ellipsoids (for Props/Ellipsoid.v). *)
From Coq Require Import Reals Lra Lia ZArith Bool List Psatz.
From Flocq Require Import Core.
From Verif.Num Require Import FOps RFun XR XRLemmas.
From Verif.Model Require Import Fp Quantities Cs Ellipsoid.
From Verif.Spec Require Import Angles Axes Shape.
From Verif.Proofs Require Import AnglesX AxesX.
Import ListNotations.
Local Open Scope R_scope.

(** ** Constructors *)
Lemma from_ab_ok nm a b : 0 < b <= a -> exists E, from_ab nm (Fin a) (Fin b) = Ret E /\ shape E a b.
Proof.
  intros H. unfold from_ab, rassert. xr. rewrite Rlt_bool_t, Rle_bool_t by lra.
  eexists. split; [reflexivity|]. unfold shape. cbn [e_a e_b e_invf].
  split; [easy|]. split; [easy|]. split; [easy|]. split; intros G.
  - rewrite Rlt_bool_t by easy. now rewrite xdiv_fin by lra.
  - now rewrite Rlt_bool_f by lra.
Qed.
Lemma from_ab_panic nm a b : ~ 0 < b <= a -> from_ab nm (Fin a) (Fin b) = Panic.
Proof.
  intros H. unfold from_ab, rassert. xr. destruct (Rlt_bool_spec 0 b); [|easy].
  destruct (Rle_bool_spec b a); [|easy]. exfalso; lra.
Qed.
Lemma from_ainvf_ok nm a i : 0 < a -> 1 < i ->
  exists E, from_ainvf nm (Fin a) (Fin i) = Ret E /\ shape E a (a * (1 - 1 / i)) /\ e_invf E = Fin i.
Proof.
  intros H H'. unfold from_ainvf, rassert. xr. rewrite !Rlt_bool_t by lra.
  eexists. split; [reflexivity|]. unfold shape. cbn [e_a e_b e_invf].
  rewrite xdiv_fin by lra. unfold length_scale. xr.
  assert (B : 0 < 1 / i < 1).
  { split; [apply Rdiv_lt_0_compat; lra|]. apply Rmult_lt_reg_r with i; [lra|].
    unfold Rdiv. rewrite Rmult_assoc, Rinv_l by lra. lra. }
  assert (0 < a * (1 - 1 / i) < a) by nra.
  split; [|easy]. split; [lra|]. split; [easy|]. split; [f_equal; ring|].
  split; intros; [|lra]. f_equal. field. split; [lra|].
  replace (a * i - a * (i - 1)) with a by ring. lra.
Qed.
Lemma from_ainvf_inf nm a : 0 < a ->
  exists E, from_ainvf nm (Fin a) PInf = Ret E /\ shape E a a.
Proof.
  intros H. unfold from_ainvf, rassert. xr. rewrite !Rlt_bool_t by lra. cbn [xlt].
  eexists. split; [reflexivity|]. unfold shape, length_scale. cbn [e_a e_b e_invf]. xr. cbn [xdiv]. xr.
  split; [lra|]. split; [easy|]. split; [f_equal; ring|]. split; [lra|easy].
Qed.
Lemma from_ainvf_panic nm a i : ~ (0 < a /\ 1 < i) -> from_ainvf nm (Fin a) (Fin i) = Panic.
Proof.
  intros H. unfold from_ainvf, rassert. xr. destruct (Rlt_bool_spec 0 a); [|easy].
  destruct (Rlt_bool_spec 1 i); [|easy]. exfalso; lra.
Qed.
Lemma spherical_iff E a b : shape E a b -> (is_spherical E = true <-> a = b).
Proof.
  intros ((B & B') & Ha & Hb & H1 & H2). unfold is_spherical. rewrite Ha, Hb. xr.
  destruct (Rle_lt_or_eq_dec _ _ B') as [L|L].
  - rewrite H1 by easy. rewrite Req_bool_f by lra. cbn. split; [easy|lra].
  - rewrite Req_bool_t by lra. split; [lra|easy].
Qed.
Lemma spherical_t E a : shape E a a -> is_spherical E = true.
Proof. intros H. now apply (spherical_iff E a a H). Qed.
Lemma spherical_f E a b : shape E a b -> b < a -> is_spherical E = false.
Proof.
  intros H L. destruct (is_spherical E) eqn:S; [|easy]. apply (spherical_iff E a b H) in S. lra.
Qed.
Lemma same_ellipsoid nm nm' a b : 0 < b < a -> exists E E',
  from_ab nm (Fin a) (Fin b) = Ret E /\ from_ainvf nm' (Fin a) (Fin (a / (a - b))) = Ret E' /\
  ellipsoid_eq E E' = true.
Proof.
  intros H. destruct (from_ab_ok nm a b ltac:(lra)) as (E & -> & S).
  assert (I : 1 < a / (a - b)).
  { apply Rmult_lt_reg_r with (a - b); [lra|]. unfold Rdiv. rewrite Rmult_assoc, Rinv_l by lra. lra. }
  destruct (from_ainvf_ok nm' a (a / (a - b)) ltac:(lra) I) as (E' & -> & S' & I').
  exists E, E'. split; [easy|]. split; [easy|].
  destruct S as (_ & Ha & Hb & H1 & _), S' as (_ & Ha' & Hb' & _ & _).
  unfold ellipsoid_eq. rewrite Ha, Hb, Ha', Hb', H1, I' by lra. xr.
  rewrite !Req_bool_t; [easy|easy| |easy]. field. lra.
Qed.
Lemma same_ellipsoid' nm nm' a i : 0 < a -> 1 < i -> exists E E',
  from_ainvf nm (Fin a) (Fin i) = Ret E /\ from_ab nm' (Fin a) (e_b E) = Ret E' /\
  ellipsoid_eq E E' = true.
Proof.
  intros Ha Hi. destruct (from_ainvf_ok nm a i Ha Hi) as (E & -> & S & I).
  pose proof S as S0. destruct S0 as (B & Ea & Eb & H1 & _).
  destruct (from_ab_ok nm' a _ B) as (E' & R & S').
  exists E, E'. split; [easy|]. rewrite Eb. split; [exact R|].
  destruct S' as (_ & Ea' & Eb' & H1' & _).
  assert (L : a * (1 - 1 / i) < a).
  { assert (0 < 1 / i) by (apply Rdiv_lt_0_compat; lra). nra. }
  unfold ellipsoid_eq. rewrite Ea, Eb, Ea', Eb', (H1 L), (H1' L). xr. now rewrite !Req_bool_t.
Qed.

(** ** Derived parameters *)
Section Semiaxes.
Context (a b : R) (Hab : 0 < b <= a).

Lemma e2_bound : 0 <= (a * a - b * b) / (a * a) < 1.
Proof.
  assert (0 < a * a) by nra. split.
  - apply Rmult_le_reg_r with (a * a); [easy|]. unfold Rdiv. rewrite Rmult_assoc, Rinv_l by lra. nra.
  - apply Rmult_lt_reg_r with (a * a); [easy|]. unfold Rdiv. rewrite Rmult_assoc, Rinv_l by lra. nra.
Qed.
Definition gell (p : R) : R := sqrt (a * a * (cos p * cos p) + b * b * (sin p * sin p)).
Lemma sc1 p : sin p * sin p + cos p * cos p = 1.
Proof. pose proof (sin2_cos2 p). unfold Rsqr in *. lra. Qed.
Lemma gell_arg p : b * b <= a * a * (cos p * cos p) + b * b * (sin p * sin p) <= a * a.
Proof.
  pose proof (sc1 p). assert (0 <= a * a - b * b) by nra.
  assert (0 <= sin p * sin p) by nra. assert (0 <= cos p * cos p) by nra. split.
  - replace (a * a * (cos p * cos p) + b * b * (sin p * sin p)) with
      (b * b * (sin p * sin p + cos p * cos p) + (a * a - b * b) * (cos p * cos p)) by ring. nra.
  - replace (a * a * (cos p * cos p) + b * b * (sin p * sin p)) with
      (a * a * (sin p * sin p + cos p * cos p) - (a * a - b * b) * (sin p * sin p)) by ring. nra.
Qed.
Lemma gell_bound p : b <= gell p <= a.
Proof.
  pose proof (gell_arg p). unfold gell. split.
  - rewrite <- (sqrt_square b) at 1 by lra. apply sqrt_le_1_alt. lra.
  - rewrite <- (sqrt_square a) at 3 by lra. apply sqrt_le_1_alt. lra.
Qed.
Lemma gell_sq p : gell p * gell p = a * a * (cos p * cos p) + b * b * (sin p * sin p).
Proof. apply sqrt_sqrt. pose proof (gell_arg p). nra. Qed.
Lemma gell_even p : gell (- p) = gell p.
Proof. unfold gell. now rewrite cos_neg, sin_neg, Rmult_opp_opp. Qed.
Lemma gell_w p : sqrt (1 - (a * a - b * b) / (a * a) * (sin p * sin p)) = gell p / a.
Proof.
  pose proof (gell_bound p). apply sqrt_lem_1.
  - pose proof (sc1 p). pose proof e2_bound. assert (0 <= sin p * sin p <= 1) by nra. nra.
  - apply Rmult_le_pos; [lra|]. left. apply Rinv_0_lt_compat. lra.
  - replace (gell p / a * (gell p / a)) with (gell p * gell p / (a * a)) by (field; lra).
    rewrite gell_sq. replace (cos p * cos p) with (1 - sin p * sin p) by (pose proof (sc1 p); lra).
    field. lra.
Qed.
Lemma w_pos p : 0 < 1 - (a * a - b * b) / (a * a) * (sin p * sin p).
Proof. pose proof (sc1 p). pose proof e2_bound. assert (0 <= sin p * sin p <= 1) by nra. nra. Qed.
Lemma Rpower_15 x : 0 < x -> Rpower x (Rlit 15 1) = x * sqrt x.
Proof.
  intros. unfold Rlit. replace (IZR 15 / IZR (10 ^ 1)) with (1 + / 2) by (simpl; lra).
  now rewrite Rpower_plus, Rpower_1, Rpower_sqrt.
Qed.
Lemma div_le_div x y u v : 0 < y -> 0 < v -> x * v <= u * y -> x / y <= u / v.
Proof.
  intros. apply Rmult_le_reg_r with (y * v); [nra|].
  replace (x / y * (y * v)) with (x * v) by (field; lra).
  replace (u / v * (y * v)) with (u * y) by (field; lra). easy.
Qed.
Lemma surface_the p l x y z : surface_point a b p l (x, y, z) <->
  x = a * a / gell p * cos p * cos l /\ y = a * a / gell p * cos p * sin l /\ z = b * b / gell p * sin p.
Proof.
  pose proof (gell_bound p) as G. pose proof (gell_sq p) as GS. set (g := gell p) in *.
  pose proof (sc1 l) as SL. unfold surface_point, on_ellipsoid, normal. split.
  - intros (O & t & T & Hx & Hy & Hz).
    assert (X : x = a * a * (t * (cos p * cos l))) by (rewrite <- Hx; field; lra).
    assert (Y : y = a * a * (t * (cos p * sin l))) by (rewrite <- Hy; field; lra).
    assert (Z : z = b * b * (t * sin p)) by (rewrite <- Hz; field; lra).
    assert (TT : t * t * (g * g) = 1).
    { rewrite GS, <- O, X, Y, Z. replace (cos p * cos p) with (cos p * cos p * (sin l * sin l + cos l * cos l)) by (rewrite SL; ring).
      field. lra. }
    assert (TG : t = / g).
    { apply Rmult_eq_reg_r with g; [|lra]. rewrite Rinv_l by lra.
      assert (0 < t * g) by nra. nra. }
    rewrite X, Y, Z, TG. repeat split; field; lra.
  - intros (-> & -> & ->). split.
    + replace ((a * a / g * cos p * cos l * (a * a / g * cos p * cos l) +
         a * a / g * cos p * sin l * (a * a / g * cos p * sin l)) / (a * a) +
         b * b / g * sin p * (b * b / g * sin p) / (b * b)) with
       ((a * a * (cos p * cos p) * (sin l * sin l + cos l * cos l) + b * b * (sin p * sin p)) / (g * g))
       by (field; lra). rewrite SL, Rmult_1_r, <- GS. field. lra.
    + exists (/ g). split; [apply Rinv_0_lt_compat; lra|]. repeat split; field; lra.
Qed.
Lemma surface_unique p l S S' : surface_point a b p l S -> surface_point a b p l S' -> S = S'.
Proof.
  destruct S as [[x y] z], S' as [[x' y'] z']. rewrite !surface_the.
  intros (-> & -> & ->) (-> & -> & ->). easy.
Qed.
Lemma surface_exists p l : exists S, surface_point a b p l S.
Proof. eexists (_, _, _). rewrite surface_the. repeat split; reflexivity. Qed.

Lemma gell_deriv p : derivable_pt_lim gell p ((b * b - a * a) * (sin p * cos p) / gell p).
Proof.
  pose proof (gell_bound p) as G.
  assert (D : derivable_pt_lim (fun p => a * a * (cos p * cos p) + b * b * (sin p * sin p)) p
     (2 * ((b * b - a * a) * (sin p * cos p)))).
  { replace (2 * ((b * b - a * a) * (sin p * cos p))) with
      (a * a * (- sin p * cos p + cos p * - sin p) + b * b * (cos p * sin p + sin p * cos p)) by ring.
    apply derivable_pt_lim_plus.
    - apply (derivable_pt_lim_scal (fun p => cos p * cos p)).
      apply (derivable_pt_lim_mult cos cos); apply derivable_pt_lim_cos.
    - apply (derivable_pt_lim_scal (fun p => sin p * sin p)).
      apply (derivable_pt_lim_mult sin sin); apply derivable_pt_lim_sin. }
  replace ((b * b - a * a) * (sin p * cos p) / gell p) with
    (/ (2 * gell p) * (2 * ((b * b - a * a) * (sin p * cos p)))) by (field; lra).
  apply (derivable_pt_lim_comp (fun p => a * a * (cos p * cos p) + b * b * (sin p * sin p)) sqrt); [exact D|].
  apply derivable_pt_lim_sqrt. pose proof (gell_arg p). nra.
Qed.
Lemma deriv_ext f g x l : (forall y, f y = g y) -> derivable_pt_lim g x l -> derivable_pt_lim f x l.
Proof.
  intros E' D eps He. destruct (D eps He) as [d Hd]. exists d. intros h Hh Hh'. rewrite !E'. now apply Hd.
Qed.
Lemma cos_nz p : - (PI / 2) < p < PI / 2 -> 0 < cos p.
Proof. intros. apply cos_gt_0; lra. Qed.
Lemma atan_scaled k p : 0 < k -> - (PI / 2) < p < PI / 2 ->
  exists r, 0 < r /\ cos p = r * cos (atan (k * tan p)) /\ k * sin p = r * sin (atan (k * tan p)).
Proof.
  intros K H. apply cos_nz in H as C. unfold tan.
  exists (cos p * sqrt (1 + k * (sin p / cos p) * (k * (sin p / cos p)))).
  set (t := k * (sin p / cos p)). assert (0 < sqrt (1 + t * t)) by (apply sqrt_lt_R0; nra).
  rewrite cos_atan, sin_atan. split; [nra|]. split; [field; lra|].
  replace (cos p * sqrt (1 + t * t) * (t / sqrt (1 + t * t))) with (t * cos p) by (field; lra).
  unfold t. field. lra.
Qed.
Lemma atan_bound' x : - (PI / 2) < atan x < PI / 2.
Proof. pose proof (atan_bound x). lra. Qed.
Lemma atan_le x y : x <= y -> atan x <= atan y.
Proof. intros [H| ->]; [left; now apply atan_increasing|right; easy]. Qed.
End Semiaxes.

Section Params.
Context (E : Ellipsoid XR) (a b : R) (HE : shape E a b).
Let Hab : 0 < b <= a := proj1 HE.
Let Ha : e_a E = Fin a := proj1 (proj2 HE).
Let Hb : e_b E = Fin b := proj1 (proj2 (proj2 HE)).

Lemma a_sq_fin : a_sq E = Fin (a * a). Proof. unfold a_sq. now rewrite Ha. Qed.
Lemma b_sq_fin : b_sq E = Fin (b * b). Proof. unfold b_sq. now rewrite Hb. Qed.
Lemma ef_fin : ef E = Fin ((a - b) / a).
Proof.
  unfold ef. pose proof HE as (_ & _ & _ & H1 & H2). destruct (Rle_lt_or_eq_dec _ _ (proj2 Hab)) as [L|L].
  - rewrite H1 by easy. assert (0 < a / (a - b)) by (apply Rdiv_lt_0_compat; lra).
    xr. rewrite xdiv_fin by lra. f_equal. field. lra.
  - rewrite H2 by easy. cbn. f_equal. rewrite L. field. lra.
Qed.
Lemma en_fin : en E = Fin ((a - b) / (a + b)).
Proof. unfold en. rewrite Ha, Hb. xr. now rewrite xdiv_fin by lra. Qed.
Lemma e_sq_fin : e_sq E = Fin ((a * a - b * b) / (a * a)).
Proof. unfold e_sq. rewrite a_sq_fin, Ha, Hb. xr. rewrite xdiv_fin by nra. f_equal. f_equal. ring. Qed.
Lemma e_prime_sq_fin : e_prime_sq E = Fin ((a * a - b * b) / (b * b)).
Proof. unfold e_prime_sq. rewrite a_sq_fin, b_sq_fin. xr. now rewrite xdiv_fin by nra. Qed.
Lemma ecc_fin : ecc E = Fin (sqrt ((a * a - b * b) / (a * a))).
Proof. unfold ecc. rewrite e_sq_fin. xr. rewrite xsqrt_fin; [easy|]. apply (e2_bound a b Hab). Qed.
Lemma e_prime_fin : e_prime E = Fin (sqrt ((a * a - b * b) / (b * b))).
Proof.
  unfold e_prime. rewrite e_prime_sq_fin. xr. rewrite xsqrt_fin; [easy|].
  apply Rmult_le_pos; [nra|]. left. apply Rinv_0_lt_compat. nra.
Qed.
Lemma params : exists f n e2 e ep2 ep,
  ef E = Fin f /\ en E = Fin n /\ e_sq E = Fin e2 /\ ecc E = Fin e /\ e_prime_sq E = Fin ep2 /\
  e_prime E = Fin ep /\ a_sq E = Fin (a * a) /\ b_sq E = Fin (b * b) /\
  b = a * (1 - f) /\ 0 <= f < 1 /\ n = (a - b) / (a + b) /\ 0 <= n < 1 /\ n = f / (2 - f) /\
  e2 = f * (2 - f) /\ e2 = 1 - (b * b) / (a * a) /\ e * e = e2 /\ 0 <= e < 1 /\
  ep2 = e2 / (1 - e2) /\ ep2 = (a * a) / (b * b) - 1 /\ ep * ep = ep2 /\ 0 <= ep.
Proof.
  rewrite ef_fin, en_fin, e_sq_fin, ecc_fin, e_prime_sq_fin, e_prime_fin, a_sq_fin, b_sq_fin.
  do 6 eexists. repeat (split; [reflexivity|]).
  pose proof (e2_bound a b Hab) as B.
  assert (P : 0 <= (a * a - b * b) / (b * b)).
  { apply Rmult_le_pos; [nra|]. left. apply Rinv_0_lt_compat. nra. }
  assert (forall c d, 0 <= c -> c < d -> 0 <= c / d < 1) as Q.
  { intros c d C D. split; [apply Rmult_le_pos; [easy|left; apply Rinv_0_lt_compat; lra]|].
    apply Rmult_lt_reg_r with d; [lra|]. unfold Rdiv. rewrite Rmult_assoc, Rinv_l by lra. lra. }
  split; [field; lra|]. split; [apply Q; lra|]. split; [easy|]. split; [apply Q; lra|].
  split; [field; lra|]. split; [field; lra|]. split; [field; lra|].
  split; [apply sqrt_sqrt; apply B|]. split.
  { split; [apply sqrt_pos|]. rewrite <- sqrt_1 at 1. apply sqrt_lt_1_alt. lra. }
  split; [|split; [field; lra|split; [now apply sqrt_sqrt|apply sqrt_pos]]].
  field. split; [nra|]. split; [nra|lra].
Qed.

(** ** Radii and auxiliary latitudes *)
Lemma pvr_fin p : prime_vertical_radius E (Fin p) = Fin (a * a / gell a b p).
Proof.
  unfold prime_vertical_radius, fsq. rewrite e_sq_fin, Ha. xr. pose proof (w_pos a b Hab p). pose proof (gell_bound a b Hab p).
  rewrite xsqrt_fin by lra. rewrite (gell_w a b Hab). xr.
  assert (0 < gell a b p / a) by (apply Rdiv_lt_0_compat; lra).
  rewrite xdiv_fin by lra. f_equal. field. lra.
Qed.
Lemma pmr_fin p : prime_meridional_radius E (Fin p) = Fin (a * a * (b * b) / (gell a b p * gell a b p * gell a b p)).
Proof.
  unfold prime_meridional_radius, length_scale, fsq. rewrite e_sq_fin, Ha. xr.
  pose proof (w_pos a b Hab p) as W. pose proof (gell_bound a b Hab p) as G.
  rewrite xpowf_fin by easy. rewrite Rpower_15 by easy.
  assert (V : 1 - (a * a - b * b) / (a * a) * (sin p * sin p) = gell a b p * gell a b p / (a * a)).
  { rewrite <- (sqrt_sqrt (1 - _)) by lra. rewrite (gell_w a b Hab). field. lra. }
  rewrite (gell_w a b Hab), V.
  assert (0 < gell a b p / a) by (apply Rdiv_lt_0_compat; lra).
  assert (0 < gell a b p * gell a b p / (a * a)) by (apply Rdiv_lt_0_compat; nra).
  rewrite xdiv_fin by nra. f_equal. field. lra.
Qed.
Lemma csr_fin p : conformal_sphere_radius E (Fin p) = Fin (a * a * b / (gell a b p * gell a b p)).
Proof.
  unfold conformal_sphere_radius. rewrite pmr_fin, pvr_fin. rewrite length_new_M. xr.
  pose proof (gell_bound a b Hab p) as G.
  assert (0 < a * a * b / (gell a b p * gell a b p)) by (apply Rdiv_lt_0_compat; repeat apply Rmult_lt_0_compat; lra).
  replace (a * a * (b * b) / (gell a b p * gell a b p * gell a b p) * (a * a / gell a b p)) with
    ((a * a * b / (gell a b p * gell a b p)) * (a * a * b / (gell a b p * gell a b p))) by (field; lra).
  rewrite xsqrt_fin by nra. now rewrite sqrt_square by lra.
Qed.
Lemma radii p : exists N M' C,
  prime_vertical_radius E (Fin p) = Fin N /\ prime_meridional_radius E (Fin p) = Fin M' /\
  conformal_sphere_radius E (Fin p) = Fin C /\
  a <= N <= a * a / b /\ b * b / a <= M' <= a * a / b /\ M' <= C <= N /\ C * C = M' * N.
Proof.
  rewrite pvr_fin, pmr_fin, csr_fin. do 3 eexists. repeat (split; [reflexivity|]).
  pose proof (gell_bound a b Hab p) as G. set (g := gell a b p) in *.
  assert (G2 : b * b <= g * g <= a * a) by nra.
  assert (0 < g) by lra. assert (0 < g * g) by nra. assert (0 < g * g * g) by (apply Rmult_lt_0_compat; lra).
  assert (0 < a * a) by nra.
  split; [split|].
  { apply Rmult_le_reg_r with g; [lra|]. replace (a * a / g * g) with (a * a) by (field; lra). nra. }
  { apply div_le_div; nra. }
  split; [split; apply div_le_div; try nra|].
  - assert (g * g * g <= a * a * a) by (apply Rmult_le_compat; nra).
    assert (0 < b * b) by nra.
    assert (0 <= b * b * (a * a * a - g * g * g)) by (apply Rmult_le_pos; lra). nra.
  - assert (b * b * b <= g * g * g) by (apply Rmult_le_compat; nra).
    assert (0 <= a * a * (g * g * g - b * b * b)) by (apply Rmult_le_pos; lra). nra.
  - split; [split|field; lra]; (apply div_le_div; [nra|nra|]).
    + assert (0 <= a * a * b * (g * g) * (g - b)) by (repeat apply Rmult_le_pos; lra). nra.
    + assert (0 <= a * a * g * (g - b)) by (repeat apply Rmult_le_pos; lra). nra.
Qed.
Lemma radii_even p :
  prime_vertical_radius E (Fin (- p)) = prime_vertical_radius E (Fin p) /\
  prime_meridional_radius E (Fin (- p)) = prime_meridional_radius E (Fin p) /\
  conformal_sphere_radius E (Fin (- p)) = conformal_sphere_radius E (Fin p).
Proof. rewrite !pvr_fin, !pmr_fin, !csr_fin, (gell_even a b). easy. Qed.

(** The surface point *)
(** The normal from the surface meets the axis at distance N. *)
Lemma pvr_geometry p l x y z : surface_point a b p l (x, y, z) ->
  exists N, prime_vertical_radius E (Fin p) = Fin N /\
  let '(nx, ny, nz) := normal p l in x - N * nx = 0 /\ y - N * ny = 0.
Proof.
  intros S. apply (surface_the a b Hab) in S as (-> & -> & _). rewrite pvr_fin. eexists. split; [reflexivity|].
  unfold normal. split; ring.
Qed.

(** The meridian is travelled at speed M'. *)
Lemma pmr_geometry (r z : R -> R) (p : R) :
  (forall p, surface_point a b p 0 (r p, 0, z p)) ->
  exists M', prime_meridional_radius E (Fin p) = Fin M' /\
  derivable_pt_lim r p (M' * - sin p) /\ derivable_pt_lim z p (M' * cos p).
Proof.
  intros S. rewrite pmr_fin. eexists. split; [reflexivity|].
  pose proof (gell_bound a b Hab p) as G. pose proof (gell_sq a b Hab p) as GS. pose proof (sc1 p) as SC.
  assert (Er : forall q, r q = a * a * cos q / gell a b q).
  { intros q. pose proof (gell_bound a b Hab q). destruct (proj1 (surface_the a b Hab _ _ _ _ _) (S q)) as (-> & _ & _).
    rewrite cos_0. field. lra. }
  assert (Ez : forall q, z q = b * b * sin q / gell a b q).
  { intros q. pose proof (gell_bound a b Hab q). destruct (proj1 (surface_the a b Hab _ _ _ _ _) (S q)) as (_ & _ & ->).
    field. lra. }
  split.
  - apply (deriv_ext _ _ _ _ Er).
    pose proof (derivable_pt_lim_div (fun q => a * a * cos q) (gell a b) p (a * a * - sin p)
      ((b * b - a * a) * (sin p * cos p) / gell a b p)
      (derivable_pt_lim_scal cos (a * a) p _ (derivable_pt_lim_cos p)) (gell_deriv a b Hab p) ltac:(lra)) as D.
    unfold div_fct in D.
    replace (a * a * (b * b) / (gell a b p * gell a b p * gell a b p) * - sin p) with
      ((a * a * - sin p * gell a b p - (b * b - a * a) * (sin p * cos p) / gell a b p * (a * a * cos p)) / (gell a b p)²); [exact D|].
    unfold Rsqr.
    replace ((a * a * - sin p * gell a b p - (b * b - a * a) * (sin p * cos p) / gell a b p * (a * a * cos p)) / (gell a b p * gell a b p))
     with (a * a * - sin p * (gell a b p * gell a b p + (b * b - a * a) * (cos p * cos p)) / (gell a b p * gell a b p * gell a b p)) by (field; lra).
    rewrite GS at 1. replace (a * a * (cos p * cos p) + b * b * (sin p * sin p) + (b * b - a * a) * (cos p * cos p))
      with (b * b * (sin p * sin p + cos p * cos p)) by ring. rewrite SC. field. lra.
  - apply (deriv_ext _ _ _ _ Ez).
    pose proof (derivable_pt_lim_div (fun q => b * b * sin q) (gell a b) p (b * b * cos p)
      ((b * b - a * a) * (sin p * cos p) / gell a b p)
      (derivable_pt_lim_scal sin (b * b) p _ (derivable_pt_lim_sin p)) (gell_deriv a b Hab p) ltac:(lra)) as D.
    unfold div_fct in D.
    replace (a * a * (b * b) / (gell a b p * gell a b p * gell a b p) * cos p) with
      ((b * b * cos p * gell a b p - (b * b - a * a) * (sin p * cos p) / gell a b p * (b * b * sin p)) / (gell a b p)²); [exact D|].
    unfold Rsqr.
    replace ((b * b * cos p * gell a b p - (b * b - a * a) * (sin p * cos p) / gell a b p * (b * b * sin p)) / (gell a b p * gell a b p))
     with (b * b * cos p * (gell a b p * gell a b p - (b * b - a * a) * (sin p * sin p)) / (gell a b p * gell a b p * gell a b p)) by (field; lra).
    rewrite GS at 1. replace (a * a * (cos p * cos p) + b * b * (sin p * sin p) - (b * b - a * a) * (sin p * sin p))
      with (a * a * (sin p * sin p + cos p * cos p)) by ring. rewrite SC. field. lra.
Qed.

(** Auxiliary latitudes *)
Lemma reduced_fin p : - (PI / 2) < p < PI / 2 -> reduced_latitude E (Fin p) = Fin (atan (b / a * tan p)).
Proof.
  intros H. apply cos_nz in H. unfold reduced_latitude. rewrite ef_fin, angle_new_RAD. xr.
  rewrite xtan_fin by lra. xr. cbn [xatan]. f_equal. f_equal. f_equal. field. lra.
Qed.
Lemma geocentric_fin p : - (PI / 2) < p < PI / 2 ->
  geocentric_latitude E (Fin p) = Fin (atan (b * b / (a * a) * tan p)).
Proof.
  intros H. apply cos_nz in H. unfold geocentric_latitude. rewrite e_sq_fin, angle_new_RAD. xr.
  rewrite xtan_fin by lra. xr. cbn [xatan]. f_equal. f_equal. f_equal. field. lra.
Qed.
Lemma reduced_point p l : - (PI / 2) < p < PI / 2 -> exists be,
  reduced_latitude E (Fin p) = Fin be /\ - (PI / 2) < be < PI / 2 /\
  surface_point a b p l (a * cos be * cos l, a * cos be * sin l, b * sin be).
Proof.
  intros H. rewrite reduced_fin by easy. eexists. split; [reflexivity|]. split; [apply atan_bound'|].
  destruct (atan_scaled (b / a) p) as (r & R0 & C & S); [apply Rdiv_lt_0_compat; lra|easy|].
  set (be := atan (b / a * tan p)) in *. pose proof (gell_bound a b Hab p) as G.
  assert (GR : gell a b p = a * r).
  { unfold gell. rewrite C. replace (sin p) with (a / b * (b / a * sin p)) by (field; lra). rewrite S.
    replace (a * a * (r * cos be * (r * cos be)) + b * b * (a / b * (r * sin be) * (a / b * (r * sin be))))
      with (a * r * (a * r) * (sin be * sin be + cos be * cos be)) by (field; lra).
    rewrite sc1, Rmult_1_r. apply sqrt_square. nra. }
  apply (surface_the a b Hab). rewrite GR, C. replace (sin p) with (a / b * (b / a * sin p)) by (field; lra). rewrite S.
  repeat split; field; lra.
Qed.
Lemma geocentric_point p l : - (PI / 2) < p < PI / 2 -> exists ps rho,
  geocentric_latitude E (Fin p) = Fin ps /\ - (PI / 2) < ps < PI / 2 /\ 0 < rho /\
  surface_point a b p l (rho * cos ps * cos l, rho * cos ps * sin l, rho * sin ps).
Proof.
  intros H. rewrite geocentric_fin by easy.
  destruct (atan_scaled (b * b / (a * a)) p) as (r & R0 & C & S); [apply Rdiv_lt_0_compat; nra|easy|].
  pose proof (gell_bound a b Hab p) as G.
  exists (atan (b * b / (a * a) * tan p)), (a * a * r / gell a b p).
  set (ps := atan (b * b / (a * a) * tan p)) in *. split; [easy|]. split; [apply atan_bound'|].
  split; [apply Rdiv_lt_0_compat; [repeat apply Rmult_lt_0_compat; lra|lra]|].
  apply (surface_the a b Hab). rewrite C. replace (sin p) with (a * a / (b * b) * (b * b / (a * a) * sin p)) by (field; lra).
  rewrite S. repeat split; field; lra.
Qed.
Lemma aux_order p : 0 <= p < PI / 2 -> exists be ps,
  reduced_latitude E (Fin p) = Fin be /\ geocentric_latitude E (Fin p) = Fin ps /\ 0 <= ps <= be /\ be <= p.
Proof.
  intros H. pose proof PI_pos. rewrite reduced_fin, geocentric_fin by lra. do 2 eexists.
  split; [reflexivity|]. split; [reflexivity|].
  assert (T : 0 <= tan p). { destruct (proj1 H) as [L| <-]; [|rewrite tan_0; lra]. left. apply tan_gt_0; lra. }
  assert (K : 0 < b / a <= 1).
  { split; [apply Rdiv_lt_0_compat; lra|]. apply Rmult_le_reg_r with a; [lra|].
    unfold Rdiv. rewrite Rmult_assoc, Rinv_l by lra. lra. }
  replace (b * b / (a * a)) with (b / a * (b / a)) by (field; lra).
  split; [split|].
  - rewrite <- atan_0 at 1. apply atan_le. assert (0 <= b / a * (b / a)) by nra. nra.
  - apply atan_le. assert (b / a * (b / a) <= b / a) by nra. nra.
  - rewrite <- (atan_tan p) at 2 by lra. apply atan_le. nra.
Qed.
Lemma aux_odd p : - (PI / 2) < p < PI / 2 ->
  reduced_latitude E (Fin (- p)) = (- reduced_latitude E (Fin p))%F /\
  geocentric_latitude E (Fin (- p)) = (- geocentric_latitude E (Fin p))%F.
Proof.
  intros H. rewrite !reduced_fin, !geocentric_fin by lra. rewrite tan_neg. xr.
  rewrite !Ropp_mult_distr_r_reverse, !atan_opp. easy.
Qed.
Lemma aux_poles : reduced_latitude E (Fin (PI / 2)) = Fin (PI / 2) /\
  geocentric_latitude E (Fin (PI / 2)) = Fin (PI / 2) /\
  reduced_latitude E (Fin (- (PI / 2))) = Fin (- (PI / 2)) /\
  geocentric_latitude E (Fin (- (PI / 2))) = Fin (- (PI / 2)).
Proof.
  unfold reduced_latitude, geocentric_latitude. rewrite ef_fin, e_sq_fin, !angle_new_RAD. xr. unfold xtan.
  rewrite cos_neg, sin_neg, cos_PI2, sin_PI2, !Req_bool_t by easy. unfold xinf_sign.
  rewrite (Rlt_bool_t 0 1), (Rlt_bool_f 0 (- (1))), (Rlt_bool_t (- (1)) 0) by lra.
  pose proof (e2_bound a b Hab).
  assert (0 < 1 - (a - b) / a). { replace (1 - (a - b) / a) with (b / a) by (field; lra). apply Rdiv_lt_0_compat; lra. }
  cbn [xmul]. unfold xinf_sign. rewrite !(Rlt_bool_t 0) by lra. easy.
Qed.
End Params.
