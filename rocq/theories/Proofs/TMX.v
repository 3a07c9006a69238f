(** Exact arithmetic: transverse Mercator. *)
From Coq Require Import String Reals Lra Lia ZArith Bool Psatz List.
From Coquelicot Require Import Coquelicot.
From Flocq Require Import Core.Raux.
From Verif.Num Require Import FOps RFun XR XRLemmas.
From Verif.Model Require Import Fp Quantities Cs Ellipsoid Geodesics Projections Crs.
From Verif.Spec Require Import Angles Series Axes Shape Maps Krueger.
From Verif.Proofs Require Import AnglesX MathX AxesX EllX DatumX EllEx ProjX MercX.
Import ListNotations.
Local Open Scope R_scope.

(** ** Hyperbolic functions *)
Lemma cosh_pos x : 0 < cosh x.
Proof. unfold cosh. pose proof (exp_pos x). pose proof (exp_pos (- x)). lra. Qed.
Lemma cosh_sq x : cosh x * cosh x = 1 + sinh x * sinh x.
Proof.
  unfold cosh, sinh. assert (exp x * exp (- x) = 1) by (rewrite <- exp_plus, Rplus_opp_r; apply exp_0). nra.
Qed.
Lemma cosh_ge_1 x : 1 <= cosh x.
Proof. pose proof (cosh_sq x). pose proof (cosh_pos x). nra. Qed.
Lemma cosh_0 : cosh 0 = 1. Proof. unfold cosh. rewrite Ropp_0, exp_0. lra. Qed.
Lemma sinh_0' : sinh 0 = 0. Proof. unfold sinh. rewrite Ropp_0, exp_0. lra. Qed.
Lemma cosh_opp x : cosh (- x) = cosh x. Proof. unfold cosh. rewrite Ropp_involutive. lra. Qed.
Lemma sinh_opp x : sinh (- x) = - sinh x. Proof. unfold sinh. rewrite Ropp_involutive. lra. Qed.
Lemma tanh_opp x : tanh (- x) = - tanh x. Proof. unfold tanh. rewrite sinh_opp, cosh_opp. unfold Rdiv; ring. Qed.
Lemma sqrt_1_sinh x : sqrt (1 + sinh x * sinh x) = cosh x.
Proof. rewrite <- cosh_sq. apply sqrt_square. pose proof (cosh_pos x); lra. Qed.
Lemma tanh_bound x : -1 < tanh x < 1.
Proof.
  unfold tanh. pose proof (cosh_pos x). pose proof (cosh_sq x).
  split; apply (Rmult_lt_reg_r (cosh x)); auto; replace (sinh x / cosh x * cosh x) with (sinh x) by (field; lra); nra.
Qed.
Definition gd (q : R) : R := atan (sinh q).
Lemma cos_gd q : cos (gd q) = / cosh q.
Proof. unfold gd. now rewrite cos_atan, sqrt_1_sinh. Qed.
Lemma sin_gd q : sin (gd q) = tanh q.
Proof. unfold gd. now rewrite sin_atan, sqrt_1_sinh. Qed.
Lemma gd_nonpolar q : nonpolar (gd q).
Proof. unfold nonpolar, gd. pose proof (atan_bound (sinh q)). lra. Qed.
Lemma gd_opp q : gd (- q) = - gd q.
Proof. unfold gd. now rewrite sinh_opp, atan_opp. Qed.
Lemma gd_0 : gd 0 = 0. Proof. unfold gd. now rewrite sinh_0', atan_0. Qed.
Lemma sinh_isom p : nonpolar p -> sinh (isom p) = tan p.
Proof.
  intros H. pose proof (tan_quarter_pos p H) as T. unfold isom, sinh. rewrite exp_Ropp, exp_ln by easy.
  pose proof (cos_quarter_pos p H) as C. assert (S : 0 < sin (p / 2 + PI / 4)) by (unfold nonpolar in H; apply sin_gt_0; lra).
  unfold tan. set (u := p / 2 + PI / 4) in *.
  assert (E1 : cos p = 2 * sin u * cos u). { rewrite <- sin_2a. replace (2 * u) with (PI / 2 + p) by (unfold u; lra). now rewrite <- cos_sin. }
  assert (E2 : sin p = sin u * sin u - cos u * cos u).
  { replace p with (2 * u - PI / 2) by (unfold u; lra). rewrite sin_minus, cos_PI2, sin_PI2, cos_2a. ring. }
  rewrite E1, E2. field. lra.
Qed.
Lemma isom_arcsinh p : nonpolar p -> arcsinh (tan p) = isom p.
Proof. intros H. rewrite <- sinh_isom by easy. apply arcsinh_sinh. Qed.
Lemma gd_isom p : nonpolar p -> gd (isom p) = p.
Proof. intros H. unfold gd. rewrite sinh_isom by easy. apply atan_tan. exact H. Qed.
Lemma isom_gd q : isom (gd q) = q.
Proof. rewrite <- isom_arcsinh by apply gd_nonpolar. unfold gd. rewrite tan_atan. apply arcsinh_sinh. Qed.

Lemma Ratanh_exp x : -1 < x < 1 -> exp (Ratanh x) * exp (Ratanh x) = (1 + x) / (1 - x).
Proof.
  intros H. rewrite <- exp_plus. unfold Ratanh. replace (/ 2 * _ + _) with (ln ((1 + x) / (1 - x))) by lra.
  apply exp_ln. apply Rdiv_lt_0_compat; lra.
Qed.
Lemma tanh_Ratanh x : -1 < x < 1 -> tanh (Ratanh x) = x.
Proof.
  intros H. pose proof (Ratanh_exp x H) as E. unfold tanh, sinh, cosh. set (u := exp (Ratanh x)) in *.
  assert (0 < u) by apply exp_pos. rewrite exp_Ropp. fold u.
  replace ((u - / u) / 2 / ((u + / u) / 2)) with ((u * u - 1) / (u * u + 1)) by (field; split; nra).
  rewrite E. field. lra.
Qed.
Lemma cosh_tanh x : cosh x * cosh x * (1 - tanh x * tanh x) = 1.
Proof. pose proof (cosh_pos x). pose proof (cosh_sq x). unfold tanh. field_simplify; [|lra]. nra. Qed.
Lemma Ratanh_tanh x : Ratanh (tanh x) = x.
Proof.
  pose proof (tanh_bound x) as B. pose proof (cosh_pos x) as C. unfold Ratanh. replace ((1 + tanh x) / (1 - tanh x)) with (exp (2 * x)).
  - rewrite ln_exp. lra.
  - replace (2 * x) with (x + x) by ring. rewrite exp_plus. unfold tanh in *. 
    assert (D : cosh x - sinh x = exp (- x)) by (unfold cosh, sinh; lra).
    assert (S : cosh x + sinh x = exp x) by (unfold cosh, sinh; lra). pose proof (exp_pos (- x)) as P1.
    replace ((1 + sinh x / cosh x) / (1 - sinh x / cosh x)) with ((cosh x + sinh x) / (cosh x - sinh x)) by (field; split; lra).
    rewrite D, S, exp_Ropp. pose proof (exp_pos x). field. lra.
Qed.
Lemma isom_e_at e p : nonpolar p -> arcsinh (tan p) - e * Ratanh (e * sin p) = isom_e e p.
Proof. intros H. now rewrite isom_arcsinh. Qed.

(** ** The parameters *)
Definition hs (n : R) : R * R * R * R :=
  (polynomial [0; / 2; - 2 / 3; 5 / 16; 41 / 180] n, polynomial [0; 0; 13 / 48; - 3 / 5; 557 / 1440] n,
   polynomial [0; 0; 0; 61 / 240; - 103 / 140] n, polynomial [0; 0; 0; 0; 49561 / 161280] n).
Definition hps (n : R) : R * R * R * R :=
  (polynomial [0; / 2; - 2 / 3; 37 / 96; - 1 / 360] n, polynomial [0; 0; / 48; / 15; - 437 / 1440] n,
   polynomial [0; 0; 0; 17 / 480; - 37 / 840] n, polynomial [0; 0; 0; 0; 4397 / 161280] n).
Definition fin4 (h : R * R * R * R) : XR * XR * XR * XR :=
  let '(h1, h2, h3, h4) := h in (Fin h1, Fin h2, Fin h3, Fin h4).
Definition rectify (a n : R) : R := a / (1 + n) * polynomial [1; 0; / 4; 0; / 64] n.

Ltac coefs := repeat (f_equal; try (unfold Rlit; cbn; lra)).
Lemma fast5 c0 c1 c2 c3 c4 d0 d1 d2 d3 d4 n : c0 = Fin d0 -> c1 = Fin d1 -> c2 = Fin d2 -> c3 = Fin d3 -> c4 = Fin d4 ->
  fast_eval_at [c0; c1; c2; c3; c4] (Fin n) = Fin (polynomial [d0; d1; d2; d3; d4] n).
Proof. intros -> -> -> -> ->. exact (fast_eval_fin [d0; d1; d2; d3; d4] n). Qed.
Lemma tm_h_fin n : tm_h_of (Fin n) = fin4 (hs n).
Proof.
  unfold tm_h_of, hs, fin4. xr. rewrite !xdiv_fin by lra. f_equal; [f_equal; [f_equal|]|]; apply fast5; f_equal; unfold Rlit; cbn; lra.
Qed.
Lemma tm_h_p_fin n : tm_h_p_of (Fin n) = fin4 (hps n).
Proof.
  unfold tm_h_p_of, hps, fin4. xr. rewrite !xdiv_fin by lra. f_equal; [f_equal; [f_equal|]|]; apply fast5; f_equal; unfold Rlit; cbn; lra.
Qed.
Lemma tm_B_fin a n : 1 + n <> 0 -> tm_B_of (Fin a) (Fin n) = Fin (rectify a n).
Proof.
  intros H. unfold tm_B_of, length_scale. xr. rewrite !xdiv_fin by lra. rewrite (fast5 _ _ _ _ _ 1 0 (/ 4) 0 (/ 64)); try reflexivity;
    try (f_equal; unfold Rlit; cbn; lra).
  xr. f_equal. unfold rectify. ring.
Qed.

(** the series *)
Definition sin_series (h : R * R * R * R) (x y : R) : R :=
  let '(h1, h2, h3, h4) := h in
  h1 * (sin (2 * x) * cosh (2 * y)) + h2 * (sin (4 * x) * cosh (4 * y)) +
  h3 * (sin (6 * x) * cosh (6 * y)) + h4 * (sin (8 * x) * cosh (8 * y)).
Definition cos_series (h : R * R * R * R) (x y : R) : R :=
  let '(h1, h2, h3, h4) := h in
  h1 * (cos (2 * x) * sinh (2 * y)) + h2 * (cos (4 * x) * sinh (4 * y)) +
  h3 * (cos (6 * x) * sinh (6 * y)) + h4 * (cos (8 * x) * sinh (8 * y)).
Lemma tm_xi_fin h x y : tm_xi_sum (fin4 h) (Fin x) (Fin y) = Fin (sin_series h x y).
Proof.
  destruct h as [[[h1 h2] h3] h4]. unfold tm_xi_sum, fin4, fsum. cbn [fold_left]. xr. cbn [xcosh]. xr. f_equal. unfold sin_series. ring.
Qed.
Lemma tm_eta_fin h x y : tm_eta_sum (fin4 h) (Fin x) (Fin y) = Fin (cos_series h x y).
Proof.
  destruct h as [[[h1 h2] h3] h4]. unfold tm_eta_sum, fin4, fsum. cbn [fold_left]. xr. cbn [xlift]. xr. f_equal. unfold cos_series. ring.
Qed.
Lemma sin_series_opp_x h x y : sin_series h (- x) y = - sin_series h x y.
Proof.
  destruct h as [[[h1 h2] h3] h4]. unfold sin_series. rewrite !Ropp_mult_distr_r_reverse, !sin_neg. ring.
Qed.
Lemma sin_series_opp_y h x y : sin_series h x (- y) = sin_series h x y.
Proof.
  destruct h as [[[h1 h2] h3] h4]. unfold sin_series. rewrite !Ropp_mult_distr_r_reverse, !cosh_opp. ring.
Qed.
Lemma cos_series_opp_x h x y : cos_series h (- x) y = cos_series h x y.
Proof.
  destruct h as [[[h1 h2] h3] h4]. unfold cos_series. rewrite !Ropp_mult_distr_r_reverse, !cos_neg. ring.
Qed.
Lemma cos_series_opp_y h x y : cos_series h x (- y) = - cos_series h x y.
Proof.
  destruct h as [[[h1 h2] h3] h4]. unfold cos_series. rewrite !Ropp_mult_distr_r_reverse, !sinh_opp. ring.
Qed.
Lemma cos_series_0 h x : cos_series h x 0 = 0.
Proof.
  destruct h as [[[h1 h2] h3] h4]. unfold cos_series. rewrite !Rmult_0_r, sinh_0'. ring.
Qed.
Lemma sin_series_0 h y : sin_series h 0 y = 0.
Proof.
  destruct h as [[[h1 h2] h3] h4]. unfold sin_series. rewrite !Rmult_0_r, sin_0. ring.
Qed.

(** ** proj *)
Definition beta_e (e p : R) : R := if Req_bool (Rabs p) (PI / 2) then p else gd (isom_e e p).
Lemma beta_e_np e p : nonpolar p -> beta_e e p = gd (isom_e e p).
Proof.
  intros H. unfold beta_e. rewrite Req_bool_f; [easy|]. unfold nonpolar in H. unfold Rabs. destruct Rcase_abs; lra.
Qed.
Lemma beta_e_pole e p : Rabs p = PI / 2 -> beta_e e p = p.
Proof. intros H. unfold beta_e. now rewrite Req_bool_t. Qed.
Lemma latitude_cases p : latitude p -> nonpolar p \/ p = PI / 2 \/ p = - (PI / 2).
Proof.
  intros [H1 H2]. destruct H1 as [H1|H1], H2 as [H2|H2]; auto. left. now split.
Qed.
Lemma beta_fin e p : 0 <= e < 1 -> latitude p -> tm_beta (tm_Q (Fin e) (Fin p)) = Fin (beta_e e p).
Proof.
  intros He Hp. pose proof PI_pos as HPI. pose proof (esin_bound e p He) as B. unfold tm_beta, tm_Q.
  destruct (latitude_cases p Hp) as [H|H].
  - assert (C : 0 < cos p) by (unfold nonpolar in H; apply cos_gt_0; lra). xr. rewrite xtan_fin by lra. rewrite xatanh_fin by easy.
    cbn [xlift]. xr. cbn [xlift xatan]. rewrite isom_e_at by easy. now rewrite beta_e_np.
  - assert (C : cos p = 0) by (destruct H as [-> | ->]; [|rewrite cos_neg]; apply cos_PI2).
    assert (A : Rabs p = PI / 2) by (destruct H as [-> | ->]; [|rewrite Rabs_Ropp]; apply Rabs_pos_eq; lra).
    rewrite beta_e_pole by easy. xr. rewrite xatanh_fin by easy. cbn [xtan]. rewrite Req_bool_t by easy.
    destruct H as [-> | ->]; unfold xinf_sign; rewrite ?sin_neg, sin_PI2.
    + rewrite Rlt_bool_t by lra. cbn. f_equal; lra.
    + rewrite Rlt_bool_f by lra. rewrite ?Rlt_bool_t by lra. cbn. f_equal; lra.
Qed.
Lemma beta_e_range e p : latitude p -> latitude (beta_e e p).
Proof.
  intros Hp. pose proof PI_pos as HPI. destruct (latitude_cases p Hp) as [H|H].
  - rewrite beta_e_np by easy. pose proof (gd_nonpolar (isom_e e p)). unfold nonpolar, latitude in *. lra.
  - rewrite beta_e_pole; [easy|]. destruct H as [-> | ->]; [|rewrite Rabs_Ropp]; apply Rabs_pos_eq; lra.
Qed.
Lemma beta_e_opp e p : 0 <= e < 1 -> latitude p -> beta_e e (- p) = - beta_e e p.
Proof.
  intros He Hp. pose proof PI_pos as HPI. destruct (latitude_cases p Hp) as [H|H].
  - rewrite !beta_e_np by (unfold nonpolar in *; lra). rewrite isom_e_odd by easy. apply gd_opp.
  - assert (A : Rabs p = PI / 2) by (destruct H as [-> | ->]; [|rewrite Rabs_Ropp]; apply Rabs_pos_eq; lra).
    rewrite !beta_e_pole; [easy|easy|now rewrite Rabs_Ropp].
Qed.
Lemma beta_e_0 e : beta_e e 0 = 0.
Proof. rewrite beta_e_np by (unfold nonpolar; pose proof PI_pos; lra). rewrite isom_e_0. apply gd_0. Qed.

(** the rectifying latitude the code uses *)
Definition mu (e n p : R) : R := beta_e e p + sin_series (hs n) (beta_e e p) 0.

Section TM.
Context (E : Ellipsoid XR) (a b : R) (HE : shape E a b) (lon0 lat0 k0 fe fn : R) (Hlat0 : latitude lat0).
Let Hab : 0 < b <= a. Proof. apply HE. Qed.
Definition tn : R := (a - b) / (a + b).
Let ee := the_e a b.
Let He : 0 <= ee < 1. Proof. apply (the_e_bound E a b HE). Qed.
Definition tB : R := rectify a tn.
Definition tm0 : R := tB * mu (the_e a b) tn lat0.
Let P := tm_new E (Fin lon0) (Fin lat0) (Fin k0) (Fin fe) (Fin fn).

Lemma tn_bound : 0 <= tn < 1.
Proof.
  unfold tn. split.
  - apply Rmult_le_pos; [lra|]. left. apply Rinv_0_lt_compat. lra.
  - apply (Rmult_lt_reg_r (a + b)); [lra|]. replace ((a - b) / (a + b) * (a + b)) with (a - b) by (field; lra). lra.
Qed.
Lemma tB_pos : 0 < tB.
Proof.
  unfold tB, rectify. pose proof tn_bound as N. apply Rmult_lt_0_compat.
  - apply Rdiv_lt_0_compat; lra.
  - unfold polynomial. cbn. nra.
Qed.
Lemma sin_series_half_turn h : sin_series h (PI / 2) 0 = 0.
Proof.
  destruct h as [[[h1 h2] h3] h4]. unfold sin_series.
  replace (2 * (PI / 2)) with PI by lra. replace (4 * (PI / 2)) with (2 * PI) by lra.
  replace (6 * (PI / 2)) with (PI + 2 * INR 1 * PI) by (cbn; lra). replace (8 * (PI / 2)) with (0 + 2 * INR 2 * PI) by (cbn; lra).
  rewrite !sin_period. rewrite sin_PI, sin_2PI, sin_0. ring.
Qed.
Lemma tm_M0_fin : tm_M0_of (Fin lat0) (Fin tB) (Fin ee) (fin4 (hs tn)) = Fin tm0.
Proof.
  pose proof PI_pos as HPI. unfold tm_M0_of, tm0. xr. destruct (Req_bool_spec lat0 0) as [Z|Z].
  - rewrite length_new_M. f_equal. rewrite Z. unfold mu. rewrite beta_e_0, sin_series_0. ring.
  - unfold lat_abs, LAT_MAX, length_scale. xr. destruct (Req_bool_spec (Rabs lat0) (PI / 2)) as [Q|Q].
    + f_equal. unfold mu. rewrite beta_e_pole by easy.
      destruct (latitude_cases lat0 Hlat0) as [H|[H|H]].
      * exfalso. unfold nonpolar in H. revert Q. unfold Rabs. destruct Rcase_abs; lra.
      * rewrite H, sin_series_half_turn. ring.
      * rewrite H, sin_series_opp_x, sin_series_half_turn. ring.
    + rewrite beta_fin by easy. fold ee. destruct (hs tn) as [[[h1 h2] h3] h4] eqn:Eh. cbn [fin4]. unfold fsum. cbn [fold_left]. xr. f_equal.
      unfold mu. rewrite Eh. unfold sin_series. rewrite !Rmult_0_r, cosh_0. fold ee. ring.
Qed.
Lemma tm_new_fin : P = mkTM (Fin ee) (Fin lon0) (Fin k0) (Fin fe) (Fin fn) (Fin tB) (fin4 (hs tn)) (fin4 (hps tn)) (Fin tm0).
Proof.
  unfold P, tm_new. rewrite (ecc_fin E a b HE), (en_fin E a b HE). replace (e_a E) with (Fin a) by (symmetry; apply HE).
  fold tn. fold (the_e a b). fold ee. pose proof tn_bound. rewrite tm_B_fin by lra. fold tB. rewrite tm_h_fin, tm_h_p_fin, tm_M0_fin. reflexivity.
Qed.

(** the transverse coordinates on the conformal sphere *)
Definition eta0 (be d : R) : R := Ratanh (cos be * sin d).
Definition xi0 (be d : R) : R := asin (sin be * cosh (eta0 be d)).
Lemma xi0_arg be d : -1 < cos be * sin d < 1 -> -1 <= sin be * cosh (eta0 be d) <= 1.
Proof.
  intros H. pose proof (cosh_tanh (eta0 be d)) as C. unfold eta0 in *. rewrite tanh_Ratanh in C by easy.
  set (c := cosh _) in *. assert (0 < c) by apply cosh_pos. pose proof (sin2_cos2 be) as Q. unfold Rsqr in Q.
  pose proof (sin2_cos2 d) as Q'. unfold Rsqr in Q'.
  assert (Hs : sin be * c * (sin be * c) <= 1).
  { rewrite <- C. assert (sin be * sin be <= 1 - cos be * sin d * (cos be * sin d)).
    { assert (0 <= cos be * cos be * (cos d * cos d)) by (apply Rmult_le_pos; nra). nra. }
    assert (0 <= c * c) by nra. nra. }
  nra.
Qed.
Lemma tm_proj_fin l p h : latitude p -> let d := Rnorm (l - lon0) in let be := beta_e ee p in -1 < cos be * sin d < 1 ->
  tm_proj P (llh3 l p h) =
  Ok (enh (fe + k0 * tB * (eta0 be d + cos_series (hs tn) (xi0 be d) (eta0 be d)),
           fn + k0 * (tB * (xi0 be d + sin_series (hs tn) (xi0 be d) (eta0 be d)) - tm0), h)).
Proof.
  intros Hp d be Hu. rewrite tm_new_fin. unfold tm_proj, llh3. cbn [tm_e tm_lon0 tm_k0 tm_fe tm_fn tm_B tm_h tm_M0 lon lat height].
  rewrite beta_fin by easy. rewrite lon_sub_fin. fold d. fold be. xr. rewrite xatanh_fin by easy. fold (eta0 be d).
  cbn [xcosh]. xr. rewrite xasin_fin by now apply xi0_arg. fold (xi0 be d). rewrite tm_xi_fin, tm_eta_fin. unfold length_scale. xr.
  f_equal. unfold enh. f_equal; f_equal; ring.
Qed.
Lemma u_ok p d : latitude p -> p <> 0 \/ cos d <> 0 -> -1 < cos (beta_e ee p) * sin d < 1.
Proof.
  intros Hp H. pose proof (COS_bound (beta_e ee p)) as C. pose proof (SIN_bound d) as S. 
  assert (L : cos (beta_e ee p) * sin d * (cos (beta_e ee p) * sin d) < 1); [|nra].
  pose proof (sin2_cos2 (beta_e ee p)) as Q. unfold Rsqr in Q. pose proof (sin2_cos2 d) as Q'. unfold Rsqr in Q'.
  set (cb := cos (beta_e ee p)) in *. set (sb := sin (beta_e ee p)) in *.
  replace (cb * sin d * (cb * sin d)) with ((cb * cb) * (sin d * sin d)) by ring.
  assert (0 <= cb * cb <= 1) by nra. assert (0 <= sin d * sin d <= 1) by nra.
  destruct H as [H|H].
  - assert (sb <> 0).
    { unfold sb. destruct (latitude_cases p Hp) as [N|[N|N]].
      - rewrite beta_e_np by easy. rewrite sin_gd. intros Z.
        assert (Z' : isom_e ee p = 0) by (rewrite <- (Ratanh_tanh (isom_e ee p)), Z; apply Ratanh_0).
        apply H. clear - Z' N He HE. 
        assert (M : forall x y, nonpolar x -> nonpolar y -> x < y -> isom_e ee x < isom_e ee y).
        { intros x y Hx Hy L. apply (incr_function_le (isom_e ee) x y (fun p => (1 - ee * ee) / ((1 - ee * ee * (sin p * sin p)) * cos p))); cbn; try lra.
          - intros t H1 H2. apply isom_e_deriv; [easy|]. unfold nonpolar in *; lra.
          - intros t H1 H2. assert (0 < cos t) by (unfold nonpolar in *; apply cos_gt_0; lra).
            pose proof (esin_bound ee t He). apply Rdiv_lt_0_compat; [nra|]. apply Rmult_lt_0_compat; nra. }
        assert (Z0 : nonpolar 0) by (unfold nonpolar; pose proof PI_pos; lra). pose proof (isom_e_0 ee).
        destruct (Rtotal_order p 0) as [L|[L|L]]; [|easy|]; apply M in L; auto; lra.
      - rewrite beta_e_pole by (rewrite N; apply Rabs_pos_eq; pose proof PI_pos; lra). rewrite N, sin_PI2. lra.
      - rewrite beta_e_pole by (rewrite N, Rabs_Ropp; apply Rabs_pos_eq; pose proof PI_pos; lra). rewrite N, sin_neg, sin_PI2. lra. }
    assert (0 < sb * sb) by nra. nra.
  - assert (0 < cos d * cos d) by nra. nra.
Qed.

(** natural origin, central meridian *)
Lemma eta0_0 be : eta0 be 0 = 0.
Proof. unfold eta0. rewrite sin_0, Rmult_0_r. apply Ratanh_0. Qed.
Lemma xi0_0 be : latitude be -> xi0 be 0 = be.
Proof. intros H. unfold xi0. rewrite eta0_0, cosh_0, Rmult_1_r. apply asin_sin. exact H. Qed.
Lemma tm_central l p h : latitude p -> same_angle l lon0 ->
  tm_proj P (llh3 l p h) = Ok (enh (fe, fn + k0 * tB * (mu ee tn p - mu ee tn lat0), h)).
Proof.
  intros Hp Hl. assert (D : Rnorm (l - lon0) = 0).
  { pose proof PI_pos. rewrite <- (Rnorm_id 0) by lra. apply Rnorm_compat. destruct Hl as [k K]. exists k. lra. }
  rewrite tm_proj_fin by (auto; rewrite D; rewrite sin_0; lra). rewrite D, eta0_0, xi0_0 by now apply beta_e_range. rewrite cos_series_0.
  unfold tm0, mu. do 4 f_equal; fold ee; ring.
Qed.
Lemma tm_origin h : tm_proj P (llh3 lon0 lat0 h) = Ok (enh (fe, fn, h)).
Proof. rewrite tm_central; [|easy|exists 0%Z; lra]. do 4 f_equal; ring. Qed.

(** symmetry *)
Lemma eta0_opp_d be d : -1 < cos be * sin d < 1 -> eta0 be (- d) = - eta0 be d.
Proof. intros H. unfold eta0. rewrite sin_neg. replace (cos be * - sin d) with (- (cos be * sin d)) by ring. now apply Ratanh_odd. Qed.
Lemma xi0_opp_d be d : -1 < cos be * sin d < 1 -> xi0 be (- d) = xi0 be d.
Proof. intros H. unfold xi0. rewrite eta0_opp_d by easy. now rewrite cosh_opp. Qed.
Lemma eta0_opp_b be d : eta0 (- be) d = eta0 be d.
Proof. unfold eta0. now rewrite cos_neg. Qed.
Lemma xi0_opp_b be d : xi0 (- be) d = - xi0 be d.
Proof. unfold xi0. rewrite eta0_opp_b, sin_neg. replace (- sin be * cosh (eta0 be d)) with (- (sin be * cosh (eta0 be d))) by ring. apply asin_opp. Qed.

Lemma lon_from_unique l0 l d d' : lon_from l0 l d -> lon_from l0 l d' -> d = d'.
Proof.
  intros [B S] [B' S']. apply same_angle_unique; auto. destruct S as [k K], S' as [k' K']. exists (k - k')%Z. rewrite minus_IZR. lra.
Qed.
Lemma tm_east_west d p h : latitude p -> - PI < d < PI -> p <> 0 \/ cos d <> 0 -> exists x y,
  tm_proj P (llh3 (lon0 + d) p h) = Ok (enh (fe + x, y, h)) /\
  tm_proj P (llh3 (lon0 - d) p h) = Ok (enh (fe - x, y, h)).
Proof.
  intros Hp Hd H. assert (D1 : Rnorm (lon0 + d - lon0) = d) by (replace (lon0 + d - lon0) with d by ring; apply Rnorm_id; lra).
  assert (D2 : Rnorm (lon0 - d - lon0) = - d) by (replace (lon0 - d - lon0) with (- d) by ring; apply Rnorm_id; lra).
  pose proof (u_ok p d Hp H) as U. assert (U' : -1 < cos (beta_e ee p) * sin (- d) < 1) by (rewrite sin_neg; lra).
  do 2 eexists. split.
  - rewrite tm_proj_fin by (auto; now rewrite D1). rewrite D1. reflexivity.
  - rewrite tm_proj_fin by (auto; now rewrite D2). rewrite D2. rewrite eta0_opp_d, xi0_opp_d by easy.
    rewrite cos_series_opp_y, sin_series_opp_y. do 4 f_equal. ring.
Qed.
Lemma tm_north_south l p h : lat0 = 0 -> latitude p -> p <> 0 \/ cos (l - lon0) <> 0 -> exists x y,
  tm_proj P (llh3 l p h) = Ok (enh (x, fn + y, h)) /\
  tm_proj P (llh3 l (- p) h) = Ok (enh (x, fn - y, h)).
Proof.
  intros Z Hp H. set (d := Rnorm (l - lon0)).
  assert (C : cos d = cos (l - lon0)).
  { destruct (Rnorm_spec (l - lon0)) as [_ [k K]]. fold d in K. replace d with ((l - lon0) + IZR k * (2 * PI)) by lra. apply cos_period_Z. }
  assert (U : -1 < cos (beta_e ee p) * sin d < 1) by (apply u_ok; [easy|now rewrite C]).
  assert (Hp' : latitude (- p)) by (unfold latitude in *; lra).
  assert (U' : -1 < cos (beta_e ee (- p)) * sin d < 1) by (rewrite beta_e_opp by easy; now rewrite cos_neg).
  assert (T : tm0 = 0) by (unfold tm0, mu; rewrite Z, beta_e_0, sin_series_0; ring).
  do 2 eexists. split.
  - rewrite tm_proj_fin by easy. fold d. reflexivity.
  - rewrite tm_proj_fin by easy. fold d. rewrite beta_e_opp by easy. rewrite eta0_opp_b, xi0_opp_b, cos_series_opp_x, sin_series_opp_x, T.
    do 4 f_equal. ring.
Qed.
(** the far side folds onto the near side *)
Lemma tm_fold d p h : latitude p -> 0 < d < PI -> p <> 0 \/ cos d <> 0 ->
  tm_proj P (llh3 (lon0 + (PI - d)) p h) = tm_proj P (llh3 (lon0 + d) p h).
Proof.
  intros Hp Hd H. assert (D1 : Rnorm (lon0 + d - lon0) = d) by (replace (lon0 + d - lon0) with d by ring; apply Rnorm_id; lra).
  assert (D2 : Rnorm (lon0 + (PI - d) - lon0) = PI - d) by (replace (lon0 + (PI - d) - lon0) with (PI - d) by ring; apply Rnorm_id; lra).
  pose proof (u_ok p d Hp H) as U. assert (S : sin (PI - d) = sin d) by apply sin_PI_x.
  rewrite !tm_proj_fin; auto; rewrite ?D1, ?D2, ?S; auto. unfold eta0, xi0, eta0. now rewrite S.
Qed.
End TM.
