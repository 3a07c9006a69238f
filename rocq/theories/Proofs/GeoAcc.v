(** How far the end of a geodesic is from a point computed with small errors of arc and longitude. *)
From Coq Require Import Reals Lra Psatz.
From Coquelicot Require Import Coquelicot.
From Verif.Num Require Import FOps RFun XR XRLemmas.
From Verif.Spec Require Import Angles Axes Shape Frames Sphere Geodesic.
From Verif.Proofs Require Import AnglesX AxesX SphereG SphereN GeoV GeoVD Bessel BesselP.
Local Open Scope R_scope.

Lemma chord (G V : R -> R3) (L m : R -> R) K t t' : 0 <= K -> (forall t, velocity G t (V t)) -> (forall t, derivable_pt_lim L t (m t)) ->
  (forall t, vnorm (V t) <= K * m t) -> edist (G t) (G t') <= K * Rabs (L t - L t').
Proof.
  intros HK HV HL HB.
  assert (Z : forall t, 0 <= K * m t). { intros u. eapply Rle_trans; [|apply HB]. unfold vnorm, edist. destruct (V u) as [[? ?] ?]. apply sqrt_pos. }
  assert (M : forall u u', u < u' -> edist (G u) (G u') <= K * (L u' - L u)).
  { intros u u' Lt. unfold edist. destruct (G u) as [[x y] z] eqn:E. destruct (G u') as [[x' y'] z'] eqn:E'.
    set (d := sqrt _). assert (D : d * d = (x - x') * (x - x') + (y - y') * (y - y') + (z - z') * (z - z')) by (apply sqrt_sqrt; apply ssq3).
    assert (D0 : 0 <= d) by apply sqrt_pos.
    set (h := fun t => (x' - x) * xcoord (G t) + (y' - y) * ycoord (G t) + (z' - z) * zcoord (G t) - d * K * L t).
    set (h' := fun t => (x' - x) * xcoord (V t) + (y' - y) * ycoord (V t) + (z' - z) * zcoord (V t) - d * K * m t).
    destruct (MVT_cor2 h h' u u' Lt) as (c & Hc & _).
    { intros c _. destruct (HV c) as (V1 & V2 & V3). unfold h, h'.
      apply (derivable_pt_lim_minus (fun t => (x' - x) * xcoord (G t) + (y' - y) * ycoord (G t) + (z' - z) * zcoord (G t)) (fun t => d * K * L t)).
      - apply (derivable_pt_lim_plus (fun t => (x' - x) * xcoord (G t) + (y' - y) * ycoord (G t)) (fun t => (z' - z) * zcoord (G t))).
        + apply (derivable_pt_lim_plus (fun t => (x' - x) * xcoord (G t)) (fun t => (y' - y) * ycoord (G t))).
          * now apply (derivable_pt_lim_scal (fun t => xcoord (G t))). * now apply (derivable_pt_lim_scal (fun t => ycoord (G t))).
        + now apply (derivable_pt_lim_scal (fun t => zcoord (G t))).
      - apply (derivable_pt_lim_scal L). apply HL. }
    assert (S : h' c <= 0).
    { unfold h'. pose proof (HB c) as B. unfold vnorm, edist in B. destruct (V c) as [[vx vy] vz]. cbn [xcoord ycoord zcoord]. rewrite !Rminus_0_r in B.
      pose proof (Z c) as Z0. set (k := K * m c) in *. set (n := sqrt _) in B. assert (N : n * n = vx * vx + vy * vy + vz * vz) by (apply sqrt_sqrt; apply ssq3). assert (0 <= n) by apply sqrt_pos.
      set (dot := (x' - x) * vx + (y' - y) * vy + (z' - z) * vz).
      assert (CS : dot * dot <= d * n * (d * n)).
      { replace (d * n * (d * n)) with (d * d * (n * n)) by ring. rewrite D, N. unfold dot.
        pose proof (Rle_0_sqr ((x' - x) * vy - (y' - y) * vx)). pose proof (Rle_0_sqr ((x' - x) * vz - (z' - z) * vx)). pose proof (Rle_0_sqr ((y' - y) * vz - (z' - z) * vy)). unfold Rsqr in *. nra. }
      assert (dot <= d * n) by (apply Rsqr_incr_0_var; [exact CS|now apply Rmult_le_pos]).
      assert (d * n <= d * k) by now apply Rmult_le_compat_l. replace (d * K * m c) with (d * k) by (unfold k; ring). lra. }
    assert (Q : h u' - h u <= 0) by (rewrite Hc; nra).
    unfold h in Q. rewrite E, E' in Q. cbn [xcoord ycoord zcoord] in Q.
    assert (Q2 : d * d <= d * (K * (L u' - L u))) by (rewrite D; lra).
    destruct (Req_dec d 0) as [D1|D1]; [|apply (Rmult_le_reg_l d); lra].
    rewrite D1. destruct (MVT_cor2 L m u u' Lt (fun c _ => HL c)) as (c' & Hc' & _). rewrite Hc'. replace (K * (m c' * (u' - u))) with (K * m c' * (u' - u)) by ring. apply Rmult_le_pos; [apply Z|lra]. }
  destruct (Rtotal_order t t') as [H|[<-|H]].
  - eapply Rle_trans; [apply (M t t' H)|]. apply Rmult_le_compat_l; [exact HK|]. rewrite Rabs_minus_sym. apply Rle_abs.
  - replace (edist (G t) (G t)) with 0; [apply Rmult_le_pos; [exact HK|apply Rabs_pos]|]. unfold edist. destruct (G t) as [[x y] z]. replace ((x - x) * (x - x) + (y - y) * (y - y) + (z - z) * (z - z)) with 0 by ring. symmetry. apply sqrt_0.
  - assert (Sy : edist (G t) (G t') = edist (G t') (G t)) by (unfold edist; destruct (G t) as [[x y] z]; destruct (G t') as [[x' y'] z']; f_equal; ring). rewrite Sy.
    eapply Rle_trans; [apply (M t' t H)|]. apply Rmult_le_compat_l; [exact HK|]. apply Rle_abs.
Qed.

Lemma sin_le_x_abs x : Rabs (sin x) <= Rabs x.
Proof.
  pose proof (lipschitz sin cos 1) as H. assert (D : forall x : R, is_derive sin x (cos x)) by (intros u; auto_derive; [easy|ring]).
  specialize (H D (fun u => proj2 (Rabs_le_between _ _) (conj (proj1 (COS_bound u)) (proj2 (COS_bound u)))) x 0). rewrite sin_0, !Rminus_0_r, Rmult_1_l in H. exact H.
Qed.
(** turning about the axis *)
Lemma chord_angle x y d : 2 - 2 * cos d <= d * d /\ (x * cos d - y * sin d - x) * (x * cos d - y * sin d - x) + (x * sin d + y * cos d - y) * (x * sin d + y * cos d - y) = (x * x + y * y) * (2 - 2 * cos d).
Proof.
  split.
  - replace d with (2 * (d / 2)) at 1 by lra. rewrite cos_2a_sin. pose proof (sin_le_x_abs (d / 2)) as H. 
    assert (S : sin (d / 2) * sin (d / 2) <= d / 2 * (d / 2)) by (apply Rsqr_le_abs_1; exact H). lra.
  - pose proof (sc d) as S. replace (cos d * cos d) with (1 - sin d * sin d) in * by lra. 
    transitivity ((x * x + y * y) * (sin d * sin d + cos d * cos d + 1 - 2 * cos d)); [ring|]. rewrite sc. ring.
Qed.

Lemma turn_point a b p l l' P P' : 0 < b <= a -> surface_point a b p l P -> surface_point a b p l' P' -> edist P P' <= a * Rabs (l - l').
Proof.
  intros Hab [O (t & Ht & E)] [O' (t' & Ht' & E')]. destruct P as [[x y] z]. destruct P' as [[x' y'] z']. unfold normal in *. destruct E as (E1 & E2 & E3). destruct E' as (F1 & F2 & F3). unfold on_ellipsoid in *.
  set (k := a * a * (cos p * cos p) + b * b * (sin p * sin p)).
  assert (X : x = a * a * t * cos p * cos l) by (replace x with (x / (a * a) * (a * a)) by (field; lra); rewrite E1; ring).
  assert (Y : y = a * a * t * cos p * sin l) by (replace y with (y / (a * a) * (a * a)) by (field; lra); rewrite E2; ring).
  assert (Z : z = b * b * t * sin p) by (replace z with (z / (b * b) * (b * b)) by (field; lra); rewrite E3; ring).
  assert (X' : x' = a * a * t' * cos p * cos l') by (replace x' with (x' / (a * a) * (a * a)) by (field; lra); rewrite F1; ring).
  assert (Y' : y' = a * a * t' * cos p * sin l') by (replace y' with (y' / (a * a) * (a * a)) by (field; lra); rewrite F2; ring).
  assert (Z' : z' = b * b * t' * sin p) by (replace z' with (z' / (b * b) * (b * b)) by (field; lra); rewrite F3; ring).
  assert (K : t * t * k = 1).
  { rewrite <- O, X, Y, Z. unfold k. transitivity (t * t * (a * a * (cos p * cos p) * (sin l * sin l + cos l * cos l) + b * b * (sin p * sin p))); [rewrite sc; ring|field; lra]. }
  assert (K' : t' * t' * k = 1).
  { rewrite <- O', X', Y', Z'. unfold k. transitivity (t' * t' * (a * a * (cos p * cos p) * (sin l' * sin l' + cos l' * cos l') + b * b * (sin p * sin p))); [rewrite sc; ring|field; lra]. }
  assert (T : t' = t). { assert (k <> 0) by (intros k0; rewrite k0 in K; lra). assert (t' * t' = t * t) by (apply (Rmult_eq_reg_r k); lra). nra. }
  subst t'. unfold edist. destruct (chord_angle x y (l' - l)) as [C1 C2].
  assert (RX : x * cos (l' - l) - y * sin (l' - l) = x') by (rewrite X, Y, X'; replace (cos l') with (cos (l + (l' - l))) by (f_equal; ring); rewrite cos_plus; ring).
  assert (RY : x * sin (l' - l) + y * cos (l' - l) = y') by (rewrite X, Y, Y'; replace (sin l') with (sin (l + (l' - l))) by (f_equal; ring); rewrite sin_plus; ring).
  rewrite RX, RY in C2. replace z' with z by (rewrite Z, Z'; reflexivity).
  rewrite <- (sqrt_Rsqr (a * Rabs (l - l'))) by (apply Rmult_le_pos; [lra|apply Rabs_pos]). apply sqrt_le_1_alt. unfold Rsqr.
  replace ((x - x') * (x - x') + (y - y') * (y - y') + (z - z) * (z - z)) with ((x' - x) * (x' - x) + (y' - y) * (y' - y)) by ring. rewrite C2.
  replace (a * Rabs (l - l') * (a * Rabs (l - l'))) with (a * a * (Rabs (l - l') * Rabs (l - l'))) by ring. rewrite <- Rabs_mult. rewrite (Rabs_right ((l - l') * (l - l'))) by (apply Rle_ge, Rle_0_sqr).
  assert (R1 : x * x + y * y <= a * a).
  { assert (Q : (x * x + y * y) / (a * a) <= 1) by (assert (0 <= z * z / (b * b)) by (apply Rmult_le_pos; [nra|left; apply Rinv_0_lt_compat; nra]); lra).
    apply (Rmult_le_compat_r (a * a)) in Q; [|nra]. replace ((x * x + y * y) / (a * a) * (a * a)) with (x * x + y * y) in Q by (field; lra). lra. }
  assert (0 <= x * x + y * y) by nra. assert (0 <= 2 - 2 * cos (l' - l)) by (pose proof (COS_bound (l' - l)); lra). apply Rmult_le_compat; try assumption. lra.
Qed.
Lemma turn_heading p al l l' : edist (heading l p al) (heading l' p al) <= Rabs (l - l').
Proof.
  unfold heading, north_of, east_of, vadd, vscale, edist.
  set (x := cos al * (- sin p * cos l) + sin al * - sin l). set (y := cos al * (- sin p * sin l) + sin al * cos l).
  set (x' := cos al * (- sin p * cos l') + sin al * - sin l'). set (y' := cos al * (- sin p * sin l') + sin al * cos l').
  destruct (chord_angle x y (l' - l)) as [C1 C2].
  assert (RX : x * cos (l' - l) - y * sin (l' - l) = x') by (unfold x, y, x'; replace l' with (l + (l' - l)) at 3 4 by ring; rewrite cos_plus, sin_plus; ring).
  assert (RY : x * sin (l' - l) + y * cos (l' - l) = y') by (unfold x, y, y'; replace l' with (l + (l' - l)) at 3 4 by ring; rewrite cos_plus, sin_plus; ring).
  rewrite RX, RY in C2. rewrite <- (sqrt_Rsqr (Rabs (l - l'))) by apply Rabs_pos. apply sqrt_le_1_alt. unfold Rsqr.
  rewrite <- Rabs_mult, (Rabs_right ((l - l') * (l - l'))) by (apply Rle_ge, Rle_0_sqr).
  assert (N : x * x + y * y <= 1).
  { assert (x * x + y * y = cos al * cos al * (sin p * sin p) + sin al * sin al).
    { unfold x, y. transitivity ((cos al * cos al * (sin p * sin p) + sin al * sin al) * (sin l * sin l + cos l * cos l)); [ring|rewrite sc; ring]. }
    pose proof (sc al). pose proof (sc p). nra. }
  assert (0 <= 2 - 2 * cos (l' - l)) by (pose proof (COS_bound (l' - l)); lra). assert (0 <= x * x + y * y) by nra.
  replace ((x - x') * (x - x') + (y - y') * (y - y') + _) with ((x' - x) * (x' - x) + (y' - y) * (y' - y)) by ring. rewrite C2. nra.
Qed.

Section Acc.
Context (a b be al l : R) (Hab : 0 < b <= a) (Hbe : 0 < cos be).
Notation s := (sa be al).
Notation c := (ca0 be al).
Notation t1 := (arc1 be al).
Notation l0 := (l - node_lon be al t1).
Notation bw := (bw a b c).
Notation bth := (bth a b s c t1).
Notation g := (bpt a b s c t1 l0).
Notation T := (bdir a b s c t1 l0).
Notation len := (blen a b c t1).
Let S0 := sc0 be al.
Lemma vnorm_scale k P : vnorm (vscale k P) = Rabs k * vnorm P.
Proof.
  destruct P as [[x y] z]. unfold vnorm, vscale, edist. rewrite <- (sqrt_Rsqr_abs k), <- sqrt_mult; [|apply Rle_0_sqr|apply ssq3]. f_equal. unfold Rsqr. ring.
Qed.
Lemma len_lim t : derivable_pt_lim len t (a * bw (t1 + t)).
Proof. apply is_derive_Reals, (blen_deriv a b s c t1 Hab S0). Qed.
Lemma curve_chord t t' : edist (g t) (g t') <= Rabs (len t - len t').
Proof.
  rewrite <- (Rmult_1_l (Rabs _)). apply (chord g (fun t => vscale (a * bw (t1 + t)) (T t)) len (fun t => a * bw (t1 + t))); [lra|intros u; apply bpt_deriv; [exact Hab|exact S0]|apply len_lim|].
  intros u. rewrite vnorm_scale, vnorm_dir by assumption. pose proof (bw_pos a b s c Hab S0 (t1 + u)). rewrite Rabs_right by (apply Rle_ge, Rmult_le_pos; lra). lra.
Qed.
Lemma grad_norm P : on_ellipsoid a b P -> vnorm (gradient a b P) <= / b.
Proof.
  destruct P as [[x y] z]. unfold on_ellipsoid, gradient, vnorm, edist. intros H. rewrite <- (sqrt_Rsqr (/ b)) by (left; apply Rinv_0_lt_compat; lra). apply sqrt_le_1_alt. unfold Rsqr. rewrite !Rminus_0_r.
  replace (/ b * / b) with (((x * x + y * y) / (a * a) + z * z / (b * b)) * (/ b * / b)) by (rewrite H; ring).
  replace (z / (b * b) * (z / (b * b))) with (z * z / (b * b) * (/ b * / b)) by (field; lra). rewrite Rmult_plus_distr_r. apply Rplus_le_compat_r.
  replace (x / (a * a) * (x / (a * a)) + y / (a * a) * (y / (a * a))) with ((x * x + y * y) / (a * a) * (/ a * / a)) by (field; lra).
  apply Rmult_le_compat_l; [apply Rmult_le_pos; [nra|left; apply Rinv_0_lt_compat; nra]|]. assert (/ a <= / b) by (apply Rinv_le_contravar; lra). assert (0 < / a) by (apply Rinv_0_lt_compat; lra). nra.
Qed.
Lemma dir_chord t t' : edist (T t) (T t') <= a * a / (b * b * b) * Rabs (len t - len t').
Proof.
  assert (K0 : 0 <= a * a / (b * b * b)) by (apply Rmult_le_pos; [nra|left; apply Rinv_0_lt_compat; repeat apply Rmult_lt_0_compat; lra]).
  apply (chord T (fun t => vscale (bmu a b s c (t1 + t)) (gradient a b (g t))) len (fun t => a * bw (t1 + t))); [exact K0|intros u; apply bdir_deriv; [exact Hab|exact S0]|apply len_lim|].
  intros u. rewrite vnorm_scale. pose proof (bw_pos a b s c Hab S0 (t1 + u)) as W. pose proof (bw_ge a b s c Hab S0 (t1 + u)) as G. set (w := bw (t1 + u)) in *.
  pose proof (grad_norm (g u) (on_ell a b s c t1 l0 Hab S0 u)) as N. pose proof (e2_bound a b Hab) as E2. set (e2 := (a * a - b * b) / (a * a)) in *.
  assert (BA : 0 < b / a) by (apply Rdiv_lt_0_compat; lra).
  assert (U : Rabs (bmu a b s c (t1 + u)) <= b * b / a / (w * w * w)).
  { unfold bmu. fold w e2. assert (W3 : 0 < / (w * w * w)) by (apply Rinv_0_lt_compat; repeat apply Rmult_lt_0_compat; exact W). assert (0 < b * b / a) by (apply Rdiv_lt_0_compat; nra).
    assert (0 <= s * s <= 1) by (pose proof (q01 be al); nra). assert (0 <= 1 - e2 * (s * s) <= 1) by nra.
    unfold Rdiv at 1. rewrite !Rabs_mult, Rabs_Ropp, (Rabs_right (b * b / a)), (Rabs_right (1 - _)), (Rabs_right (/ _)) by lra.
    unfold Rdiv at 2. apply Rmult_le_compat_r; [lra|]. nra. }
  apply (Rle_trans _ (b * b / a / (w * w * w) * / b)).
  { apply Rmult_le_compat; [apply Rabs_pos| |exact U|exact N]. unfold vnorm, edist. destruct (gradient _ _ _) as [[? ?] ?]. apply sqrt_pos. }
  apply (Rmult_le_reg_r (w * w * w)); [repeat apply Rmult_lt_0_compat; exact W|]. replace (b * b / a / (w * w * w) * / b * (w * w * w)) with (b / a) by (field; split; lra).
  replace (a * a / (b * b * b) * (a * w) * (w * w * w)) with (a * a * a / (b * b * b) * ((w * w) * (w * w))) by (field; lra).
  assert (W2 : b / a * (b / a) <= w * w) by (apply Rmult_le_compat; lra). assert (W4 : b / a * (b / a) * (b / a * (b / a)) <= w * w * (w * w)) by (apply Rmult_le_compat; nra).
  replace (b / a) with (a * a * a / (b * b * b) * (b / a * (b / a) * (b / a * (b / a)))) at 1 by (field; lra). apply Rmult_le_compat_l; [|exact W4].
  apply Rmult_le_pos; [repeat apply Rmult_le_pos; lra|left; apply Rinv_0_lt_compat; repeat apply Rmult_lt_0_compat; lra].
Qed.
(** every length is reached *)
Lemma len_grows t t' : t <= t' -> b * (t' - t) <= len t' - len t.
Proof.
  intros [H|<-]; [|lra]. destruct (MVT_cor2 len (fun t => a * bw (t1 + t)) t t' H (fun u _ => len_lim u)) as (u & -> & _).
  apply Rmult_le_compat_r; [lra|]. pose proof (bw_ge a b s c Hab S0 (t1 + u)) as G. replace b with (a * (b / a)) at 1 by (field; lra). apply Rmult_le_compat_l; lra.
Qed.
Lemma len_onto d : {t | len t = d}.
Proof.
  assert (C : continuity len) by (intros u; apply derivable_continuous_pt; exists (a * bw (t1 + u)); apply len_lim).
  set (k := Rabs d / b). assert (K : 0 <= k) by (apply Rmult_le_pos; [apply Rabs_pos|left; apply Rinv_0_lt_compat; lra]).
  assert (BK : b * k = Rabs d) by (unfold k; field; lra).
  pose proof (len_grows (- k) 0 ltac:(lra)) as G1. pose proof (len_grows 0 k ltac:(lra)) as G2. rewrite blen_0 in *.
  destruct (IVT_gen len (- k) k d C) as (t & _ & Ht); [|now exists t]. pose proof (Rle_abs d). pose proof (Rle_abs (- d)). rewrite Rabs_Ropp in *.
  rewrite Rmin_left, Rmax_right by lra. lra.
Qed.
Lemma heading_eq l1 l2 p a1 a2 : same_angle l1 l2 -> same_angle a1 a2 -> heading l1 p a1 = heading l2 p a2.
Proof. apply heading_same. Qed.
Lemma surface_same p l1 l2 Q : same_angle l1 l2 -> surface_point a b p l1 Q -> surface_point a b p l2 Q.
Proof. intros A. unfold surface_point, normal. now rewrite (same_angle_cos _ _ A), (same_angle_sin _ _ A). Qed.
Lemma accuracy sg d D e1 e2 : Rabs (len sg - d) <= e1 -> Rabs (D - bth sg) <= e2 ->
  exists t, len t = d /\
  (forall l2 Q, same_angle l2 (l + end_lon be al sg - D) -> surface_point a b (vlat a b be al sg) l2 Q -> edist (g t) Q <= e1 + a * e2) /\
  (0 < end_cos be al sg -> forall l2 al2, same_angle l2 (l + end_lon be al sg - D) -> same_angle al2 (end_az be al sg) ->
    edist (T t) (heading l2 (vlat a b be al sg) al2) <= a * a / (b * b * b) * e1 + e2).
Proof.
  intros H1 H2. destruct (len_onto d) as [t Ht]. exists t. split; [exact Ht|]. rewrite Rabs_minus_sym in H1. rewrite Rabs_minus_sym in H2.
  assert (LD : Rabs (lon_at a b be al l sg - (l + end_lon be al sg - D)) <= e2).
  { unfold lon_at. replace (_ - _) with (- (bth sg - D)) by ring. now rewrite Rabs_Ropp. }
  split.
  - intros l2 Q A SP. apply (surface_same _ _ _ _ A) in SP. eapply Rle_trans; [apply (edist_triangle _ (g sg))|]. apply Rplus_le_compat.
    + eapply Rle_trans; [apply curve_chord|]. now rewrite Ht.
    + eapply Rle_trans; [apply (turn_point a b _ _ _ _ _ Hab (curve_at a b be al l Hab Hbe sg) SP)|]. apply Rmult_le_compat_l; lra.
  - intros EC l2 al2 A B. rewrite (heading_same _ _ _ _ _ A B). eapply Rle_trans; [apply (edist_triangle _ (T sg))|]. apply Rplus_le_compat.
    + eapply Rle_trans; [apply dir_chord|]. rewrite Ht. apply Rmult_le_compat_l; [|exact H1]. apply Rmult_le_pos; [nra|left; apply Rinv_0_lt_compat; repeat apply Rmult_lt_0_compat; lra].
    + rewrite (dir_at a b be al l Hab Hbe sg EC). eapply Rle_trans; [apply turn_heading|exact LD].
Qed.
Lemma end_lon_0 : end_lon be al 0 = 0.
Proof. unfold end_lon, qx, qy. rewrite sin_0, cos_0. replace (0 * sin al) with 0 by ring. apply Ratan2_0_pos. nra. Qed.
Lemma end_cos_0 : end_cos be al 0 = cos be.
Proof. unfold end_cos, qx, qy; rewrite sin_0, cos_0; apply Rhypot_unique; [lra|ring]. Qed.
Lemma end_az_0 : same_angle (end_az be al 0) al.
Proof.
  unfold end_az. destruct (Ratan2_spec s (wz be al 0)) as [X Y]. rewrite <- end_cos_sa, end_cos_0 in X, Y. unfold wz, sa in *. rewrite sin_0, cos_0 in *.
  apply same_angle_trig; (apply (Rmult_eq_reg_l (cos be)); [|lra]); [rewrite Y|rewrite X]; ring.
Qed.
Lemma curve_start : surface_point a b (vlat a b be al 0) l (g 0) /\ T 0 = heading l (vlat a b be al 0) al.
Proof.
  assert (L : lon_at a b be al l 0 = l) by (unfold lon_at; rewrite end_lon_0, (bth_0 a b s c t1); ring).
  split; [rewrite <- L at 1; apply curve_at; assumption|]. rewrite (dir_at a b be al l Hab Hbe 0) by (rewrite end_cos_0; exact Hbe). rewrite L. apply heading_same; [apply same_angle_refl|apply end_az_0].
Qed.
End Acc.
