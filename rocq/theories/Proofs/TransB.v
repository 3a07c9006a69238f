(** Binary64: transformations between reference systems. *)
From Coq Require Import ZArith Reals QArith Qreals Lra Lia Bool Psatz List String.
From Flocq Require Import Core IEEE754.BinarySingleNaN.
From Verif.Num Require Import FOps RFun XRLemmas F64 F64Lemmas PIBounds Near.
From Verif.Model Require Import Fp Quantities Cs Ellipsoid Projections Crs.
From Verif.Spec Require Import Angles Axes Shape Frames Accurate Binary64 Routes64.
From Verif.Proofs Require Import AxesX TransX AnglesX AnglesF EllX DatumX MathF NearX NearL LlhF LlhInvF LlhInvG LlhInvH LibmOk Bin64P.
Import ListNotations.
Local Open Scope R_scope.

(** ** Units *)
Lemma near_pi : near PI64 PI (Qmake 314 100) (Qmake 315 100) 0 (Qmake 1 (2 ^ 52)).
Proof.
  destruct PI64_val as [V F]. pose proof PI_64_bounds as PB. split; [exact F|]. rewrite V, q0, !q2r_make. unfold m_pi. replace (IZR (Zpos (2 ^ 52))) with (2 ^ 52) by (cbn; lra).
  split; [lra|]. split; [lra|]. split; [lra|]. apply Rabs_le. lra.
Qed.

(** ** Moving a point by moving its coordinates *)
Lemma edist_abs x y z x' y' z' : edist (x, y, z) (x', y', z') <= Rabs (x - x') + Rabs (y - y') + Rabs (z - z').
Proof.
  cbn [edist]. pose proof (Rabs_pos (x - x')) as A. pose proof (Rabs_pos (y - y')) as B. pose proof (Rabs_pos (z - z')) as C.
  rewrite <- (sqrt_square (Rabs (x - x') + Rabs (y - y') + Rabs (z - z'))) by lra. apply sqrt_le_1_alt.
  assert (forall t, Rabs t * Rabs t = t * t) as Q by (intros t; rewrite <- Rabs_mult; apply Rabs_right; pose proof (Rle_0_sqr t) as X; unfold Rsqr in X; lra).
  rewrite <- (Q (x - x')), <- (Q (y - y')), <- (Q (z - z')). nra.
Qed.
Lemma gp_at a b p l h : 0 < b <= a -> geodetic_point a b p l h (mr a b p h * cos l, mr a b p h * sin l, mz a b p h).
Proof.
  intros H. do 3 eexists. split; [apply (surface_the a b H); repeat split; reflexivity|]. unfold normal, mr, mz. cbv beta iota. f_equal; [f_equal|]; ring.
Qed.
Lemma gp_turn rho l l' z k : edist (rho * cos l, rho * sin l, z) (rho * cos l', rho * sin l', z) <= Rabs rho * Rabs (l' - l - IZR k * (2 * PI)).
Proof.
  cbn [edist]. replace (z - z) with 0 by ring. rewrite Rmult_0_l, Rplus_0_r, planar. replace (rho - rho) with 0 by ring. rewrite Rmult_0_l, Rplus_0_l.
  set (t := l' - l - IZR k * (2 * PI)). pose proof (one_cos (l' - l) k) as [_ O2]. fold t in O2. rewrite <- (cos_neg (l - l')). replace (- (l - l')) with (l' - l) by ring.
  rewrite <- Rabs_mult, <- sqrt_Rsqr_abs. apply sqrt_le_1_alt. unfold Rsqr. assert (0 <= rho * rho) by nra.
  apply Rle_trans with (2 * (rho * rho) * (t * t / 2)); [apply Rmult_le_compat_l; lra|right; field].
Qed.
Lemma gp_move a b p l h P p' l' h' P' k : 6300000 <= b -> b < a -> a <= 6400000 -> 99 * a <= 100 * b -> geodetic_point a b p l h P -> geodetic_point a b p' l' h' P' -> Rabs h <= 211000 -> Rabs h' <= 211000 ->
  edist P P' <= 6680000 * (2 * Rabs (p' - p) + Rabs (l' - l - IZR k * (2 * PI))) + 2 * Rabs (h' - h).
Proof.
  intros B1 B2 B3 B4 G G' H H'. assert (HAB : 0 < b <= a) by lra. rewrite (gp_unique a b p l h P _ HAB G (gp_at a b p l h HAB)). rewrite (gp_unique a b p' l' h' P' _ HAB G' (gp_at a b p' l' h' HAB)).
  eapply Rle_trans; [apply (edist_triangle _ (mr a b p' h' * cos l, mr a b p' h' * sin l, mz a b p' h'))|].
  assert (SP : a * a / b <= 6466000). { assert (XX : a * a / b * b = a * a) by (field; lra). apply (Rmult_le_reg_r b); [lra|]; rewrite XX; nra. }
  assert (S0 : 0 <= a * a / b) by (apply Rmult_le_pos; [nra|left; apply Rinv_0_lt_compat; lra]).
  pose proof (mr_lip a b HAB p p' h h') as LR. pose proof (mz_lip a b HAB p p' h h') as LZ. pose proof (Rabs_pos h) as H0. pose proof (Rabs_pos (p' - p)) as D0.
  assert (SE : (a * a / b + Rabs h) * Rabs (p' - p) <= 6680000 * Rabs (p' - p)) by (apply Rmult_le_compat_r; lra).
  assert (L1 : edist (mr a b p h * cos l, mr a b p h * sin l, mz a b p h) (mr a b p' h' * cos l, mr a b p' h' * sin l, mz a b p' h') <= Rabs (mr a b p' h' - mr a b p h) + Rabs (mz a b p' h' - mz a b p h)).
  { set (r := mr a b p h) in *. set (r' := mr a b p' h') in *. set (z := mz a b p h) in *. set (z' := mz a b p' h') in *. cbn [edist].
    replace ((r * cos l - r' * cos l) * (r * cos l - r' * cos l) + (r * sin l - r' * sin l) * (r * sin l - r' * sin l)) with ((r' - r) * (r' - r)) by (pose proof (sin2_cos2 l) as T; unfold Rsqr in T; replace ((r * cos l - r' * cos l) * (r * cos l - r' * cos l) + (r * sin l - r' * sin l) * (r * sin l - r' * sin l)) with ((r' - r) * (r' - r) * (sin l * sin l + cos l * cos l)) by ring; rewrite T; ring).
    pose proof (Rabs_pos (r' - r)) as A. pose proof (Rabs_pos (z' - z)) as B. rewrite <- (sqrt_square (Rabs (r' - r) + Rabs (z' - z))) by lra. apply sqrt_le_1_alt.
    assert (Q : forall t, Rabs t * Rabs t = t * t) by (intros t; rewrite <- Rabs_mult; apply Rabs_right; pose proof (Rle_0_sqr t) as X; unfold Rsqr in X; lra). pose proof (Q (r' - r)). pose proof (Q (z' - z)). nra. }
  pose proof (gp_turn (mr a b p' h') l l' (mz a b p' h') k) as L2.
  assert (RB : Rabs (mr a b p' h') <= 6680000).
  { unfold mr. rewrite Rabs_mult. pose proof (gell_bound a b HAB p') as GB. assert (Rabs (cos p') <= 1) by (apply Rabs_le; pose proof (COS_bound p'); lra). assert (a * a / gell a b p' <= a * a / b) by (apply Rmult_le_compat_l; [nra|apply Rinv_le_contravar; lra]). assert (0 <= a * a / gell a b p') by (apply Rmult_le_pos; [nra|left; apply Rinv_0_lt_compat; lra]).
    apply Rabs_le_inv in H'. assert (Rabs (a * a / gell a b p' + h') <= 6680000) by (apply Rabs_le; lra). pose proof (Rabs_pos (a * a / gell a b p' + h')). pose proof (Rabs_pos (cos p')). apply Rle_trans with (6680000 * 1); [apply Rmult_le_compat; lra|lra]. }
  assert (L3 : Rabs (mr a b p' h') * Rabs (l' - l - IZR k * (2 * PI)) <= 6680000 * Rabs (l' - l - IZR k * (2 * PI))) by (apply Rmult_le_compat_r; [apply Rabs_pos|exact RB]). lra.
Qed.
Section Lm.
Context (lm : libm) (AC : accurate lm).
Notation O := (F64ops lm).
Ltac fin3 N := refine (near_weak _ _ _ _ _ _ _ _ _ _ N _ _ _); [|vm_compute; reflexivity|vm_compute; reflexivity].
Lemma pi_pos : 3.14 < PI < 3.15. Proof. pose proof PI_64_bounds. lra. Qed.
Lemma angle_in u k c C : angle_unit64 lm u k -> val64 c C -> Rabs (C * k) <= 7 -> near (angle_new (ops := O) c u) (C * k) (-7) 7 (Qmake 4 (2 ^ 53)) (Qmake 1 (2 ^ 90)).
Proof.
  intros U [F V] B. subst C. apply Rabs_le_inv in B. pose proof pi_pos as PP. pose proof near_pi as NP. nrel NP. nZ 1%Z N1. nZ 180%Z N2. nZ 200%Z N3. nZ 648000%Z N4.
  assert (R7 : Q2R (-7) <= B2R c * k <= Q2R 7) by (split; unfold Q2R; cbn; lra).
  destruct U; unfold angle_new, per_unit; cbn [fst snd RAD DEG GRAD SEC fmul F64ops].
  - ndiv N1 N1 D. pose proof (near_exact c (-7) 7 F ltac:(split; unfold Q2R; cbn; lra)) as NC. nmul NC D E. replace (1 / 1) with 1 in E by field. fin3 E. exact R7.
  - ndiv NP N2 D. pose proof (near_exact c (-402) 402 F ltac:(split; unfold Q2R; cbn; nra)) as NC. nmul NC D E. fin3 E. exact R7.
  - ndiv NP N3 D. pose proof (near_exact c (-446) 446 F ltac:(split; unfold Q2R; cbn; nra)) as NC. nmul NC D E. fin3 E. exact R7.
  - ndiv NP N4 D. pose proof (near_exact c (-1446000) 1446000 F ltac:(split; unfold Q2R; cbn; nra)) as NC. nmul NC D E. fin3 E. exact R7.
Qed.
Lemma near_back x X lo hi d e k l dd ee : near x X lo hi d e -> X * k = l -> 0 < k <= 1 -> Qle_bool d dd = true -> Qle_bool e ee = true -> is_finite x = true /\ Rabs (B2R x * k - l) <= Q2R dd * Rabs l + Q2R ee.
Proof.
  intros (F & _ & D & E & B) XK K Q1 Q2. apply qle in Q1, Q2. split; [exact F|]. rewrite <- XK. replace (B2R x * k - X * k) with ((B2R x - X) * k) by ring. rewrite Rabs_mult, (Rabs_right k), Rabs_mult, (Rabs_right k) by lra.
  pose proof (Rabs_pos X). assert (Rabs (B2R x - X) * k <= (Q2R d * Rabs X + Q2R e) * k) by (apply Rmult_le_compat_r; lra).
  assert (Q2R d * (Rabs X * k) <= Q2R dd * (Rabs X * k)) by (apply Rmult_le_compat_r; [apply Rmult_le_pos; lra|lra]). assert (Q2R e * k <= Q2R ee * 1) by (apply Rmult_le_compat; lra). lra.
Qed.
Lemma angle_out u k l : angle_unit64 lm u k -> is_finite l = true -> Rabs (B2R l) <= 4 -> let o := angle_val (ops := O) l u in is_finite o = true /\ Rabs (B2R o * k - B2R l) <= 4 / 2 ^ 53 * Rabs (B2R l) + / 2 ^ 60.
Proof.
  intros U F B o. assert (E1 : 4 / 2 ^ 53 = Q2R (Qmake 4 (2 ^ 53))) by (rewrite q2r_make; cbn; lra). assert (E2 : / 2 ^ 60 = Q2R (Qmake 1 (2 ^ 60))) by (rewrite q2r_make; cbn; lra). rewrite E1, E2. apply Rabs_le_inv in B. pose proof pi_pos as PP. pose proof near_pi as NP. nrel NP. nZ 1%Z N1. nZ 180%Z N2. nZ 200%Z N3. nZ 648000%Z N4.
  pose proof (near_exact l (-4) 4 F ltac:(split; unfold Q2R; cbn; lra)) as NL. subst o.
  destruct U; unfold angle_val; cbn [fst snd RAD DEG GRAD SEC fmul fdiv F64ops].
  - nmul NL N1 D. ndiv D N1 E. refine (near_back _ _ _ _ _ _ _ _ _ _ E _ _ _ _); [field|lra|vm_compute; reflexivity|vm_compute; reflexivity].
  - nmul NL N2 D. ndiv D NP E. refine (near_back _ _ _ _ _ _ _ _ _ _ E _ _ _ _); [field; lra|lra|vm_compute; reflexivity|vm_compute; reflexivity].
  - nmul NL N3 D. ndiv D NP E. refine (near_back _ _ _ _ _ _ _ _ _ _ E _ _ _ _); [field; lra|lra|vm_compute; reflexivity|vm_compute; reflexivity].
  - nmul NL N4 D. ndiv D NP E. refine (near_back _ _ _ _ _ _ _ _ _ _ E _ _ _ _); [field; lra|lra|vm_compute; reflexivity|vm_compute; reflexivity].
Qed.
Lemma length_in u k c C : length_unit64 lm u k -> val64 c C -> Rabs (C * k) <= 100000 -> near (length_new (ops := O) c u) (C * k) (-100000) 100000 (Qmake 4 (2 ^ 53)) (Qmake 1 (2 ^ 90)).
Proof.
  intros U [F V] B. subst C. apply Rabs_le_inv in B. nZ 1%Z N1. nZ 3048%Z N2. nZ 10000%Z N3. nZ 1200%Z N4. nZ 3937%Z N5.
  assert (R7 : Q2R (-100000) <= B2R c * k <= Q2R 100000) by (split; unfold Q2R; cbn; lra).
  destruct U; unfold length_new, per_unit; cbn [fst snd M FT US_FT fmul fdiv F64ops].
  - ndiv N1 N1 D. pose proof (near_exact c (-100000) 100000 F ltac:(split; unfold Q2R; cbn; lra)) as NC. nmul NC D E. replace (1 / 1) with 1 in E by field. fin3 E. exact R7.
  - ndiv N2 N3 D0. ndiv D0 N1 D. pose proof (near_exact c (-400000) 400000 F ltac:(split; unfold Q2R; cbn; lra)) as NC. nmul NC D E. replace (3048 / 10000 / 1) with (3048 / 10000) in E by field. fin3 E. exact R7.
  - ndiv N4 N5 D. pose proof (near_exact c (-400000) 400000 F ltac:(split; unfold Q2R; cbn; lra)) as NC. nmul NC D E. fin3 E. exact R7.
Qed.
Lemma length_out u k h : length_unit64 lm u k -> is_finite h = true -> Rabs (B2R h) <= 210000 -> let o := length_val (ops := O) h u in is_finite o = true /\ Rabs (B2R o * k - B2R h) <= 4 / 2 ^ 53 * Rabs (B2R h) + / 2 ^ 60.
Proof.
  intros U F B o. assert (E1 : 4 / 2 ^ 53 = Q2R (Qmake 4 (2 ^ 53))) by (rewrite q2r_make; cbn; lra). assert (E2 : / 2 ^ 60 = Q2R (Qmake 1 (2 ^ 60))) by (rewrite q2r_make; cbn; lra). rewrite E1, E2. apply Rabs_le_inv in B. nZ 1%Z N1. nZ 3048%Z N2. nZ 10000%Z N3. nZ 1200%Z N4. nZ 3937%Z N5.
  pose proof (near_exact h (-210000) 210000 F ltac:(split; unfold Q2R; cbn; lra)) as NL. subst o.
  destruct U; unfold length_val, per_unit; cbn [fst snd M FT US_FT fmul fdiv F64ops].
  - ndiv N1 N1 D. ndiv NL D E. refine (near_back _ _ _ _ _ _ _ _ _ _ E _ _ _ _); [field|lra|vm_compute; reflexivity|vm_compute; reflexivity].
  - ndiv N2 N3 D0. ndiv D0 N1 D. ndiv NL D E. refine (near_back _ _ _ _ _ _ _ _ _ _ E _ _ _ _); [field; lra|lra|vm_compute; reflexivity|vm_compute; reflexivity].
  - ndiv N4 N5 D. ndiv NL D E. refine (near_back _ _ _ _ _ _ _ _ _ _ E _ _ _ _); [field; lra|lra|vm_compute; reflexivity|vm_compute; reflexivity].
Qed.

(** ** Reading and writing coordinates *)
Lemma lat_clamp x p e : is_finite x = true -> Rabs (B2R x - p) <= e -> Rabs p <= PI / 2 -> let L := lat_new (ops := O) x in
  is_finite L = true /\ - B2R PI_2_64 <= B2R L <= B2R PI_2_64 /\ Rabs (B2R L - p) <= e + / 2 ^ 53.
Proof.
  intros F NE PR. destruct (lat_new_f64 lm x) as (L1 & L2 & L3); [destruct x; try discriminate; reflexivity|]. split; [exact L1|]. split; [exact L2|].
  clear L3. rewrite (proj1 PI_2_64_val) in L2. pose proof PI_64_bounds as PB. unfold m_pi in L2. revert L2. unfold lat_new, angle_clamped, fclamp. change (fpi_2 (FOps := O)) with PI_2_64. change (fneg (FOps := O) PI_2_64) with (Bopp PI_2_64). cbn [flt F64ops].
  destruct PI_2_64_val as [V F2]. rewrite (Bltb_correct _ _ x (Bopp PI_2_64)) by (first [exact F|now rewrite is_finite_Bopp]). rewrite B2R_Bopp. unfold m_pi in V. apply Rabs_le_inv in NE, PR.
  destruct (Rlt_bool_spec (B2R x) (- B2R PI_2_64)) as [G|G].
  - rewrite Bltb_correct by (first [exact F2|now rewrite is_finite_Bopp]). rewrite B2R_Bopp, Rlt_bool_false by (rewrite V; lra). rewrite B2R_Bopp. intros _. apply Rabs_le. rewrite V in *. lra.
  - rewrite Bltb_correct by assumption. destruct (Rlt_bool_spec (B2R PI_2_64) (B2R x)) as [G'|G']; intros _; apply Rabs_le; rewrite V in *; lra.
Qed.

Lemma read_angles u ku v kv e n up E N H : angle_unit64 lm u ku -> length_unit64 lm v kv -> val64 e E -> val64 n N -> val64 up H -> Rabs (E * ku) <= 7 -> Rabs (N * ku) <= PI / 2 -> Rabs (H * kv) <= 99999 ->
  let L := lon_new (ops := O) (angle_new (ops := O) e u) in let P := lat_new (ops := O) (angle_new (ops := O) n u) in let h := length_new (ops := O) up v in
  is_finite L = true /\ is_finite P = true /\ is_finite h = true /\ Rabs (B2R L) <= 4 /\ Rabs (B2R P) <= 2 /\ Rabs (B2R h) <= 100000 /\
  (exists k, Rabs (B2R L - (E * ku) - IZR k * (2 * PI)) <= 60 / 2 ^ 53) /\ Rabs (B2R P - N * ku) <= 8 / 2 ^ 53 /\ Rabs (B2R h - H * kv) <= / 10 ^ 10.
Proof.
  intros UA UL VE VN VH B1 B2 B3. cbv zeta. pose proof pi_pos as PP. pose proof PI_64_bounds as PB.
  pose proof (angle_in u ku e E UA VE B1) as NE. pose proof (angle_in u ku n N UA VN ltac:(lra)) as NN. pose proof (length_in v kv up H UL VH ltac:(lra)) as NH.
  set (xe := angle_new (ops := O) e u) in *. set (xn := angle_new (ops := O) n u) in *. set (xh := length_new (ops := O) up v) in *. clearbody xe xn xh.
  assert (Q1 : Q2R (Qmake 4 (2 ^ 53)) = 4 / 2 ^ 53) by (rewrite q2r_make; cbn; lra). assert (Q2 : Q2R (Qmake 1 (2 ^ 90)) = / 2 ^ 90) by (rewrite q2r_make; cbn; lra).
  destruct NE as (F1 & _ & _ & _ & E1). destruct NN as (F2 & _ & _ & _ & E2). destruct NH as (F3 & _ & _ & _ & E3). rewrite Q1, Q2 in *.
  assert (E1' : Rabs (B2R xe - E * ku) <= 28 / 2 ^ 53 + / 2 ^ 90). { eapply Rle_trans; [exact E1|]. assert (4 / 2 ^ 53 * Rabs (E * ku) <= 4 / 2 ^ 53 * 7) by (apply Rmult_le_compat_l; lra). lra. }
  assert (E2' : Rabs (B2R xn - N * ku) <= 6.5 / 2 ^ 53). { eapply Rle_trans; [exact E2|]. assert (4 / 2 ^ 53 * Rabs (N * ku) <= 4 / 2 ^ 53 * 1.58) by (apply Rmult_le_compat_l; lra). lra. }
  assert (E3' : Rabs (B2R xh - H * kv) <= / 10 ^ 10). { eapply Rle_trans; [exact E3|]. assert (4 / 2 ^ 53 * Rabs (H * kv) <= 4 / 2 ^ 53 * 100000) by (apply Rmult_le_compat_l; lra). lra. }
  destruct (near_wrap lm xe (E * ku) _ 7.1 F1 E1') as (k & W1 & W2 & W3); [apply Rabs_le_inv in E1', B1; apply Rabs_le; lra|lra|]. destruct (lat_clamp xn _ _ F2 E2' B2) as (C1 & C2 & C3).
  change (lon_new (ops := O) xe) with (wrapped (ops := O) xe). rewrite (proj1 PI64_val) in W2. rewrite (proj1 PI_2_64_val) in C2. unfold m_pi in *.
  split; [exact W1|]. split; [exact C1|]. split; [exact F3|]. split; [apply Rabs_le; lra|]. split; [apply Rabs_le; lra|]. split; [apply Rabs_le_inv in E3', B3; apply Rabs_le; lra|].
  split; [exists (- k)%Z; rewrite opp_IZR; replace (B2R (wrapped (ops := O) xe) - E * ku - - IZR k * (2 * PI)) with (B2R (wrapped (ops := O) xe) - (E * ku - IZR k * (2 * PI))) by ring; lra|]. split; [lra|exact E3'].
Qed.
Lemma to_xyz64 fuel c buf rest P : source64 lm c buf P -> exists X, to_xyz (ops := O) fuel c (buf ++ rest) = Ret (Ok X) /\ within64 X (14 / 10 ^ 8) P /\ edist P (0, 0, 0) <= 7000000.
Proof.
  intros L. destruct L as [id d x y z X Y Z [FX VX] [FY VY] [FZ VZ] HB|id d ax buf a b m l p h P HE VM BM AX BL BP BH GP].
  - exists (mkXYZ x y z). cbn [to_xyz app]. unfold xaxes_normalize. cbn [index nth_error obind]. destruct (base_unit_exact lm x) as (_ & _ & -> & _). destruct (base_unit_exact lm y) as (_ & _ & -> & _). destruct (base_unit_exact lm z) as (_ & _ & -> & _).
    subst X Y Z. split; [reflexivity|]. split; [|exact HB]. repeat split; auto. cbn [x_ y_ z_]. rewrite (proj2 (edist_0 _ _) eq_refl). lra.
  - assert (Q : exists L Pf H, to_xyz (ops := O) fuel (GeographicCrs id d ax) (buf ++ rest) = Ret (Ok (llh_to_xyz (ops := O) d (mkLLH L Pf H))) /\ is_finite L = true /\ is_finite Pf = true /\ is_finite H = true /\ Rabs (B2R L) <= 4 /\ Rabs (B2R Pf) <= 2 /\ Rabs (B2R H) <= 100000 /\
      (exists k, Rabs (B2R L - l - IZR k * (2 * PI)) <= 60 / 2 ^ 53) /\ Rabs (B2R Pf - p) <= 8 / 2 ^ 53 /\ Rabs (B2R H - h) <= / 10 ^ 10).
    { destruct AX as [u v ku kv e n up E N H UA UL VE VN VH|u v ku kv e n up E N H UA UL VE VN VH];
      pose proof (read_angles _ _ _ _ _ _ _ _ _ _ UA UL VE VN VH BL BP BH) as R; do 3 eexists; (split; [reflexivity|exact R]). }
    destruct Q as (L & Pf & H & -> & FL & FP & FH & L4 & P2 & H1 & (k & EL) & EP & EH). eexists. split; [reflexivity|].
    destruct (c57_llh_to_xyz lm AC d a b HE m _ _ _ L Pf H VM (conj FL eq_refl) (conj FP eq_refl) (conj FH eq_refl) BM L4 P2 ltac:(lra)) as (Q & GQ & F1 & F2 & F3 & W).
    pose proof HE as (_ & _ & _ & B1 & B2 & B3 & B4). pose proof (gp_move a b _ _ _ P _ _ _ Q k ltac:(lra) B2 ltac:(lra) ltac:(lra) GP GQ ltac:(lra) ltac:(lra)) as MV.
    replace (B2R L + m - (l + m) - IZR k * (2 * PI)) with (B2R L - l - IZR k * (2 * PI)) in MV by ring.
    split; [split; [exact F1|]; split; [exact F2|]; split; [exact F3|]|].
    + eapply Rle_trans; [apply (edist_triangle _ Q)|]. rewrite (edist_sym Q). lra.
    + pose proof (gp_norm a b _ _ _ P ltac:(lra) GP). lra.
Qed.
Lemma c58_write a b l p h m l' p' h' Q Q' X : 6300000 <= b -> b < a -> a <= 6400000 -> 99 * a <= 100 * b -> Rabs l <= 3.2 -> Rabs p <= PI / 2 -> Rabs h <= 210000 -> Rabs (l' - l) <= 4 / 2 ^ 53 * Rabs l + / 2 ^ 60 -> Rabs (p' - p) <= 4 / 2 ^ 53 * Rabs p + / 2 ^ 60 -> Rabs (h' - h) <= 4 / 2 ^ 53 * Rabs h + / 2 ^ 60 ->
  geodetic_point a b p (l + m) h Q -> geodetic_point a b p' (l' + m) h' Q' -> edist X Q <= 2 / 10 ^ 7 -> edist X Q' <= 22 / 10 ^ 8.
Proof.
  intros B1 B2 B3 B4 L P H EL EP EH GP GQ W. pose proof pi_pos as PP.
  assert (M1 : 4 / 2 ^ 53 * Rabs l <= 4 / 2 ^ 53 * 3.2) by (apply Rmult_le_compat_l; lra). assert (M2 : 4 / 2 ^ 53 * Rabs p <= 4 / 2 ^ 53 * 1.6) by (apply Rmult_le_compat_l; lra). assert (M3 : 4 / 2 ^ 53 * Rabs h <= 4 / 2 ^ 53 * 210000) by (apply Rmult_le_compat_l; lra).
  assert (H' : Rabs h' <= 211000). { replace h' with (h' - h + h) by ring. eapply Rle_trans; [apply Rabs_triang|]. lra. }
  pose proof (gp_move a b _ _ _ Q _ _ _ Q' 0%Z B1 B2 B3 B4 GP GQ ltac:(lra) H') as MV. replace (l' + m - (l + m) - 0 * (2 * PI)) with (l' - l) in MV by ring.
  eapply Rle_trans; [apply (edist_triangle _ Q)|]. lra.
Qed.
Lemma from_xyz64 c X P dst : target64 lm c P -> is_finite (x_ X) = true -> is_finite (y_ X) = true -> is_finite (z_ X) = true -> edist (B2R (x_ X), B2R (y_ X), B2R (z_ X)) P <= 900 -> (3 <= List.length dst)%nat ->
  exists out Q, from_xyz (ops := O) c X dst = Ret (Ok (out ++ skipn 3 dst)) /\ locates64 lm c out Q /\ edist (B2R (x_ X), B2R (y_ X), B2R (z_ X)) Q <= 22 / 10 ^ 8.
Proof.
  intros T F1 F2 F3 D LD. destruct X as [x y z]. cbn [x_ y_ z_] in *. destruct dst as [|d0 [|d1 [|d2 dst]]]; cbn in LD; try lia. destruct T as [id d P|id d ax a b m u v ku kv P HE VM BM UA UL AX PB].
  - exists [x; y; z], (B2R x, B2R y, B2R z). split; [|split; [constructor; split; auto|rewrite (proj2 (edist_0 _ _) eq_refl); lra]].
    reflexivity.
  - assert (N : 6200000 <= edist (B2R x, B2R y, B2R z) (0, 0, 0) <= 6500000).
    { pose proof (edist_triangle (B2R x, B2R y, B2R z) P (0, 0, 0)) as T1. pose proof (edist_triangle P (B2R x, B2R y, B2R z) (0, 0, 0)) as T2. rewrite (edist_sym P (B2R x, B2R y, B2R z)) in T2. lra. }
    destruct (c58_xyz_to_llh lm AC d a b HE m _ _ _ x y z VM (conj F1 eq_refl) (conj F2 eq_refl) (conj F3 eq_refl) BM N) as (l & p & h & Q & VL & VP & VH & LB & PP & HB & GP & W).
    set (G := xyz_to_llh (ops := F64ops lm) d (mkXYZ x y z)) in *. pose proof pi_pos as PI1. destruct VL as [FL VL], VP as [FP VP], VH as [FH VH]. 
    assert (L3 : Rabs l <= 3.2) by (apply Rabs_le; lra). assert (L4 : Rabs l <= 4) by lra. assert (P4 : Rabs p <= 4) by lra. subst l p h.
    destruct (angle_out u ku (lon G) UA FL L4) as [O1 O1']. destruct (angle_out u ku (lat G) UA FP P4) as [O2 O2']. destruct (length_out v kv (height G) UL FH HB) as [O3 O3'].
    set (o1 := angle_val (ops := O) (lon G) u) in *. set (o2 := angle_val (ops := O) (lat G) u) in *. set (o3 := length_val (ops := O) (height G) v) in *.
    pose proof HE as (_ & _ & _ & B1 & B2 & B3 & B4).
    assert (GQ : geodetic_point a b (B2R o2 * ku) (B2R o1 * ku + m) (B2R o3 * kv) (mr a b (B2R o2 * ku) (B2R o3 * kv) * cos (B2R o1 * ku + m), mr a b (B2R o2 * ku) (B2R o3 * kv) * sin (B2R o1 * ku + m), mz a b (B2R o2 * ku) (B2R o3 * kv))) by (apply gp_at; lra).
    pose proof (c58_write a b (B2R (lon G)) (B2R (lat G)) (B2R (height G)) m _ _ _ Q _ (B2R x, B2R y, B2R z) B1 B2 B3 B4 L3 PP HB O1' O2' O3' GP GQ W) as WW. cbv zeta in WW.
    destruct AX as [-> | ->]; [exists [o1; o2; o3]|exists [o2; o1; o3]]; eexists; (split; [reflexivity|split; [econstructor; eauto; econstructor; eauto; split; auto|exact WW]]).
Qed.

(** ** Datum transformations *)
Notation "x +f y" := (Bplus mode_NE x y) (at level 50, left associativity). Notation "x *f y" := (Bmult mode_NE x y) (at level 40, left associativity).
Lemma near_row (r1 r2 r3 s x y z t : f64) R1 R2 R3 S : near r1 R1 (Qmake (-11) 10) (Qmake 11 10) (Qmake 1 (2 ^ 52)) (Qmake 1 (2 ^ 80)) -> near r2 R2 (Qmake (-11) 10) (Qmake 11 10) (Qmake 1 (2 ^ 52)) (Qmake 1 (2 ^ 80)) -> near r3 R3 (Qmake (-11) 10) (Qmake 11 10) (Qmake 1 (2 ^ 52)) (Qmake 1 (2 ^ 80)) ->
  near s S (Qmake 9 10) (Qmake 11 10) (Qmake 2 (2 ^ 53)) (Qmake 1 (2 ^ 80)) -> is_finite x = true -> is_finite y = true -> is_finite z = true -> is_finite t = true -> Rabs (B2R x) <= 8000000 -> Rabs (B2R y) <= 8000000 -> Rabs (B2R z) <= 8000000 -> Rabs (B2R t) <= 100000 ->
  let v := ((r1 *f s) *f x +f (r2 *f s) *f y +f (r3 *f s) *f z) in let V := R1 * S * B2R x + R2 * S * B2R y + R3 * S * B2R z in
  near (v +f t) (V + B2R t) (-60000000) 60000000 0 (Qmake 28 (10 ^ 9)) /\ near (Bminus mode_NE v t) (V - B2R t) (-60000000) 60000000 0 (Qmake 28 (10 ^ 9)).
Proof.
  intros N1 N2 N3 NS Fx Fy Fz Ft Bx By Bz Bt v V. apply Rabs_le_inv in Bx, By, Bz, Bt.
  pose proof (near_exact x (-8000000) 8000000 Fx ltac:(split; unfold Q2R; cbn; lra)) as NX. pose proof (near_exact y (-8000000) 8000000 Fy ltac:(split; unfold Q2R; cbn; lra)) as NY. pose proof (near_exact z (-8000000) 8000000 Fz ltac:(split; unfold Q2R; cbn; lra)) as NZ. pose proof (near_exact t (-100000) 100000 Ft ltac:(split; unfold Q2R; cbn; lra)) as NT.
  nmul N1 NS K1. nmul K1 NX K2. nmul N2 NS K3. nmul K3 NY K4. nmul N3 NS K5. nmul K5 NZ K6. nadd K2 K4 K7. nadd K7 K6 K8. nadd K8 NT K9. nsub K8 NT K10. apply near_abs in K9, K10. nnorm K9. nnorm K10.
  split; [refine (near_weak _ _ _ _ _ _ _ _ _ _ K9 _ _ _); [|vm_compute; reflexivity|vm_compute; reflexivity]; destruct K9 as (_ & R & _)|refine (near_weak _ _ _ _ _ _ _ _ _ _ K10 _ _ _); [|vm_compute; reflexivity|vm_compute; reflexivity]; destruct K10 as (_ & R & _)]; (eapply near_in_q; [exact R| |]; vm_compute; reflexivity).
Qed.
Lemma near_ppm (p : f64) : is_finite p = true -> Rabs (B2R p) <= 1000 -> near (ppm_factor (ops := O) p) (1 + B2R p / 1000000) (Qmake 9 10) (Qmake 11 10) (Qmake 2 (2 ^ 53)) (Qmake 1 (2 ^ 80)) /\ near (ppm_inv_factor (ops := O) p) (1 - B2R p / 1000000) (Qmake 9 10) (Qmake 11 10) (Qmake 2 (2 ^ 53)) (Qmake 1 (2 ^ 80)).
Proof.
  intros F B. apply Rabs_le_inv in B. pose proof (near_exact p (-1000) 1000 F ltac:(split; unfold Q2R; cbn; lra)) as NP. nZ 1%Z K1. nZ 1000000%Z K2. ndiv K1 K2 K3. nmul NP K3 K4. nadd K1 K4 K5. nsub K1 K4 K6.
  replace (1 + B2R p * (1 / 1000000)) with (1 + B2R p / 1000000) in K5 by field. replace (1 - B2R p * (1 / 1000000)) with (1 - B2R p / 1000000) in K6 by field.
  nrel K5. nrel K6. split; [refine (near_weak _ _ _ _ _ _ _ _ _ _ K5 _ _ _)|refine (near_weak _ _ _ _ _ _ _ _ _ _ K6 _ _ _)]; try (vm_compute; reflexivity); split; unfold Q2R; cbn; lra.
Qed.
Lemma near_one_zero : near (Bplus mode_NE (f64_ofZ 1) (f64_ofZ 0)) 1 (Qmake (-11) 10) (Qmake 11 10) (Qmake 1 (2 ^ 52)) (Qmake 1 (2 ^ 80)) /\ near (Bminus mode_NE (f64_ofZ 1) (f64_ofZ 0)) 1 (Qmake (-11) 10) (Qmake 11 10) (Qmake 1 (2 ^ 52)) (Qmake 1 (2 ^ 80)).
Proof.
  nZ 1%Z K1. nZ 0%Z K2. nadd K1 K2 K3. nsub K1 K2 K4. replace (1 + 0) with 1 in K3 by ring. replace (1 - 0) with 1 in K4 by ring.
  split; [refine (near_weak _ _ _ _ _ _ _ _ _ _ K3 _ _ _)|refine (near_weak _ _ _ _ _ _ _ _ _ _ K4 _ _ _)]; try (vm_compute; reflexivity); split; unfold Q2R; cbn; lra.
Qed.
Lemma near_rot (r : f64) : is_finite r = true -> Rabs (B2R r) <= / 1000 -> near (Bplus mode_NE (f64_ofZ 0) r) (B2R r) (Qmake (-11) 10) (Qmake 11 10) (Qmake 1 (2 ^ 52)) (Qmake 1 (2 ^ 80)) /\ near (Bminus mode_NE (f64_ofZ 0) r) (- B2R r) (Qmake (-11) 10) (Qmake 11 10) (Qmake 1 (2 ^ 52)) (Qmake 1 (2 ^ 80)).
Proof.
  intros F B. apply Rabs_le_inv in B. pose proof (near_exact r (Qmake (-1) 1000) (Qmake 1 1000) F ltac:(split; unfold Q2R; cbn; lra)) as NP. nZ 0%Z K2. nadd K2 NP K3. nsub K2 NP K4. replace (0 + B2R r) with (B2R r) in K3 by ring. replace (0 - B2R r) with (- B2R r) in K4 by ring.
  split; [refine (near_weak _ _ _ _ _ _ _ _ _ _ K3 _ _ _)|refine (near_weak _ _ _ _ _ _ _ _ _ _ K4 _ _ _)]; try (vm_compute; reflexivity); split; unfold Q2R; cbn; lra.
Qed.
Lemma within_near x y z X Y Z : near x X (-60000000) 60000000 0 (Qmake 28 (10 ^ 9)) -> near y Y (-60000000) 60000000 0 (Qmake 28 (10 ^ 9)) -> near z Z (-60000000) 60000000 0 (Qmake 28 (10 ^ 9)) -> within64 (mkXYZ x y z) (5 / 10 ^ 8) (X, Y, Z).
Proof.
  intros NX NY NZ. pose proof (near_err _ _ _ _ _ _ NX) as EX. pose proof (near_err _ _ _ _ _ _ NY) as EY. pose proof (near_err _ _ _ _ _ _ NZ) as EZ. destruct NX as [FX _]. destruct NY as [FY _]. destruct NZ as [FZ _].
  split; [exact FX|]. split; [exact FY|]. split; [exact FZ|]. replace (Q2R _) with (28 / 10 ^ 9) in EX, EY, EZ by (unfold Q2R; cbn; lra). cbn [edist x_ y_ z_]. apply (sqrt3_le _ _ _ (28 / 10 ^ 9) (28 / 10 ^ 9) (28 / 10 ^ 9)); auto; lra.
Qed.
Lemma within_eq P e Q Q' : within64 P e Q -> Q = Q' -> within64 P e Q'.
Proof. now intros H <-. Qed.
Lemma move_ref T f g X : moves64 lm T f g -> is_finite (x_ X) = true -> is_finite (y_ X) = true -> is_finite (z_ X) = true -> Rabs (B2R (x_ X)) <= 8000000 -> Rabs (B2R (y_ X)) <= 8000000 -> Rabs (B2R (z_ X)) <= 8000000 ->
  within64 (to_ref (ops := O) T X) (5 / 10 ^ 8) (f (B2R (x_ X), B2R (y_ X), B2R (z_ X))) /\ within64 (from_ref (ops := O) T X) (5 / 10 ^ 8) (g (B2R (x_ X), B2R (y_ X), B2R (z_ X))).
Proof.
  destruct X as [x y z]. cbn [x_ y_ z_]. intros M Fx Fy Fz Bx By Bz. destruct M as [|tx ty tz X Y Z [F1 V1] [F2 V2] [F3 V3] B1 B2 B3|c rx ry rz tx ty tz ppm A B C X Y Z S [FA VA] [FB VB] [FC VC] [F1 V1] [F2 V2] [F3 V3] [F4 V4] BA BB BC B1 B2 B3 B4].
  - cbn [to_ref from_ref]. unfold within64. cbn [x_ y_ z_]. rewrite (proj2 (edist_0 _ _) eq_refl). repeat split; auto; lra.
  - subst X Y Z. assert (TT : forall u t : f64, is_finite u = true -> is_finite t = true -> Rabs (B2R u) <= 8000000 -> Rabs (B2R t) <= 100000 -> near (Bplus mode_NE u t) (B2R u + B2R t) (-60000000) 60000000 0 (Qmake 28 (10 ^ 9)) /\ near (Bminus mode_NE u t) (B2R u - B2R t) (-60000000) 60000000 0 (Qmake 28 (10 ^ 9))).
    { intros u t Fu Ft Bu Bt. apply Rabs_le_inv in Bu, Bt. pose proof (near_exact u (-8000000) 8000000 Fu ltac:(split; unfold Q2R; cbn; lra)) as NU. pose proof (near_exact t (-100000) 100000 Ft ltac:(split; unfold Q2R; cbn; lra)) as NT. nadd NU NT K9. nsub NU NT K10. apply near_abs in K9, K10. nnorm K9. nnorm K10.
      split; [refine (near_weak _ _ _ _ _ _ _ _ _ _ K9 _ _ _); [|vm_compute; reflexivity|vm_compute; reflexivity]; destruct K9 as (_ & R & _)|refine (near_weak _ _ _ _ _ _ _ _ _ _ K10 _ _ _); [|vm_compute; reflexivity|vm_compute; reflexivity]; destruct K10 as (_ & R & _)]; (eapply near_in_q; [exact R| |]; vm_compute; reflexivity). }
    destruct (TT x tx Fx F1 Bx B1), (TT y ty Fy F2 By B2), (TT z tz Fz F3 Bz B3). split; apply within_near; auto.
  - subst A B C X Y Z S. assert (NN : forall r : f64, is_finite r = true -> Rabs (B2R r) <= / 1000 -> is_finite (Bopp r) = true /\ Rabs (B2R (Bopp r)) <= / 1000) by (intros r; rewrite is_finite_Bopp, B2R_Bopp, Rabs_Ropp; auto).
    destruct (NN rx FA BA) as [FA' BA'], (NN ry FB BB) as [FB' BB'], (NN rz FC BC) as [FC' BC'].
    destruct (near_rot rx FA BA) as [A1 A2], (near_rot ry FB BB) as [A3 A4], (near_rot rz FC BC) as [A5 A6], (near_rot _ FA' BA') as [A7 A8], (near_rot _ FB' BB') as [A9 A10], (near_rot _ FC' BC') as [A11 A12]. rewrite !B2R_Bopp in *. destruct near_one_zero as [O1 O2]. destruct (near_ppm ppm F4 B4) as [P1 P2].
    destruct c.
    + destruct (near_row _ _ _ _ x y z tx _ _ _ _ O1 A11 A3 P1 Fx Fy Fz F1 Bx By Bz B1) as [R1 _]. destruct (near_row _ _ _ _ x y z ty _ _ _ _ A5 O1 A7 P1 Fx Fy Fz F2 Bx By Bz B2) as [R2 _]. destruct (near_row _ _ _ _ x y z tz _ _ _ _ A9 A1 O1 P1 Fx Fy Fz F3 Bx By Bz B3) as [R3 _].
      destruct (near_row _ _ _ _ x y z tx _ _ _ _ O2 A12 A4 P2 Fx Fy Fz F1 Bx By Bz B1) as [_ R1']. destruct (near_row _ _ _ _ x y z ty _ _ _ _ A6 O2 A8 P2 Fx Fy Fz F2 Bx By Bz B2) as [_ R2']. destruct (near_row _ _ _ _ x y z tz _ _ _ _ A10 A2 O2 P2 Fx Fy Fz F3 Bx By Bz B3) as [_ R3'].
      pose proof (within_near _ _ _ _ _ _ R1 R2 R3) as W. pose proof (within_near _ _ _ _ _ _ R1' R2' R3') as W'.
      split; [unfold to_ref|unfold from_ref]; unfold helmert_new; rewrite !(proj1 (proj2 (proj2 (base_unit_exact lm _)))).
      * apply (within_eq _ _ _ _ W). cbn. f_equal; [f_equal|]; field.
      * apply (within_eq _ _ _ _ W'). cbn. f_equal; [f_equal|]; field.
    + destruct (near_row _ _ _ _ x y z tx _ _ _ _ O1 A5 A9 P1 Fx Fy Fz F1 Bx By Bz B1) as [R1 _]. destruct (near_row _ _ _ _ x y z ty _ _ _ _ A11 O1 A1 P1 Fx Fy Fz F2 Bx By Bz B2) as [R2 _]. destruct (near_row _ _ _ _ x y z tz _ _ _ _ A3 A7 O1 P1 Fx Fy Fz F3 Bx By Bz B3) as [R3 _].
      destruct (near_row _ _ _ _ x y z tx _ _ _ _ O2 A6 A10 P2 Fx Fy Fz F1 Bx By Bz B1) as [_ R1']. destruct (near_row _ _ _ _ x y z ty _ _ _ _ A12 O2 A2 P2 Fx Fy Fz F2 Bx By Bz B2) as [_ R2']. destruct (near_row _ _ _ _ x y z tz _ _ _ _ A4 A8 O2 P2 Fx Fy Fz F3 Bx By Bz B3) as [_ R3'].
      pose proof (within_near _ _ _ _ _ _ R1 R2 R3) as W. pose proof (within_near _ _ _ _ _ _ R1' R2' R3') as W'.
      split; [unfold to_ref|unfold from_ref]; unfold helmert_new; rewrite !(proj1 (proj2 (proj2 (base_unit_exact lm _)))).
      * apply (within_eq _ _ _ _ W). cbn. f_equal; [f_equal|]; field.
      * apply (within_eq _ _ _ _ W'). cbn. f_equal; [f_equal|]; field.
Qed.

Lemma edist_vnorm P Q : edist P Q = vnorm (vadd P (vscale (-1) Q)).
Proof. destruct P as [[x y] z], Q as [[x' y'] z']. unfold vnorm. cbn. f_equal. ring. Qed.
Lemma vnorm3 X Y Z c : Rabs X <= c -> Rabs Y <= c -> Rabs Z <= c -> vnorm (X, Y, Z) <= 1.733 * c.
Proof.
  intros H1 H2 H3. pose proof (Rabs_pos X). unfold vnorm. cbn [edist]. rewrite !Rminus_0_r. apply (sqrt3_le _ _ _ c c c); auto; nra.
Qed.
Lemma affine_lip k t r X P Q : Rabs k <= 1.001 -> Rabs t = 1 -> vnorm r <= 1.733 / 1000 -> let f := fun P => vadd (vscale k (vadd P (vscale t (cross r P)))) X in
  edist (f P) (f Q) <= 1.003 * edist P Q /\ edist (f P) (0, 0, 0) <= 1.003 * edist P (0, 0, 0) + vnorm X.
Proof.
  intros K T R f. assert (L : forall D, vnorm (vscale k (vadd D (vscale t (cross r D)))) <= 1.003 * vnorm D).
  { intros D. rewrite vnorm_scale. pose proof (vnorm_add D (vscale t (cross r D))) as A. rewrite vnorm_scale, T, Rmult_1_l in A. pose proof (vnorm_cross r D) as C. pose proof (vnorm_ge_0 D) as P0. assert (vnorm r * vnorm D <= 1.733 / 1000 * vnorm D) by (apply Rmult_le_compat_r; lra).
    pose proof (vnorm_ge_0 (vadd D (vscale t (cross r D)))) as P1. apply Rle_trans with (1.001 * (1.001733 * vnorm D)); [apply Rmult_le_compat; try lra; apply Rabs_pos|lra]. }
  split.
  - rewrite !edist_vnorm. eapply Rle_trans; [|apply L]. right. f_equal. unfold f. destruct P as [[x y] z], Q as [[x' y'] z'], X as [[u v] w], r as [[a b] c]. cbn. f_equal; [f_equal|]; ring.
  - fold (vnorm (f P)). fold (vnorm P). unfold f. eapply Rle_trans; [apply vnorm_add|]. pose proof (L P). lra.
Qed.
Lemma move_lip T f g : moves64 lm T f g -> forall P Q, (edist (f P) (f Q) <= 1.003 * edist P Q /\ edist (f P) (0, 0, 0) <= 1.003 * edist P (0, 0, 0) + 173300) /\ (edist (g P) (g Q) <= 1.003 * edist P Q /\ edist (g P) (0, 0, 0) <= 1.003 * edist P (0, 0, 0) + 173300).
Proof.
  intros M P Q. destruct M as [|tx ty tz X Y Z V1 V2 V3 B1 B2 B3|c rx ry rz tx ty tz ppm A B C X Y Z S VA VB VC V1 V2 V3 V4 BA BB BC B1 B2 B3 B4].
  - pose proof (edist_ge_0 P Q). pose proof (edist_ge_0 P (0, 0, 0)). repeat split; lra.
  - pose proof (vnorm3 _ _ _ _ B1 B2 B3) as N1. assert (N2 : vnorm (- X, - Y, - Z) <= 1.733 * 100000) by (apply vnorm3; rewrite Rabs_Ropp; auto). pose proof (edist_ge_0 P Q) as E1. pose proof (edist_ge_0 P (0, 0, 0)) as E2.
    assert (K : forall V, vnorm V <= 1.733 * 100000 -> edist (vadd P V) (vadd Q V) <= 1.003 * edist P Q /\ edist (vadd P V) (0, 0, 0) <= 1.003 * edist P (0, 0, 0) + 173300).
    { intros V H. split; [|pose proof (vnorm_add P V) as A; unfold vnorm in A, H; lra]. replace (edist (vadd P V) (vadd Q V)) with (edist P Q); [lra|]. destruct P as [[x y] z], Q as [[x' y'] z'], V as [[u v] w]. cbn. f_equal. ring. }
    split; apply K; auto.
  - pose proof (vnorm3 _ _ _ _ B1 B2 B3) as N1. assert (N2 : vnorm (- X, - Y, - Z) <= 1.733 * 100000) by (apply vnorm3; rewrite Rabs_Ropp; auto). pose proof (vnorm3 _ _ _ _ BA BB BC) as N3. apply Rabs_le_inv in B4.
    assert (T1 : Rabs (turn c) = 1) by (destruct c; cbn; [rewrite Rabs_right|rewrite Rabs_left]; lra). assert (T2 : Rabs (- turn c) = 1) by (rewrite Rabs_Ropp; exact T1).
    pose proof (affine_lip (1 + S / 1000000) (turn c) (A, B, C) (X, Y, Z) P Q ltac:(apply Rabs_le; lra) T1 ltac:(lra)) as [L1 L2]. pose proof (affine_lip (1 - S / 1000000) (- turn c) (A, B, C) (- X, - Y, - Z) P Q ltac:(apply Rabs_le; lra) T2 ltac:(lra)) as [L3 L4].
    cbv beta in *. repeat split; auto; lra.
Qed.
Lemma coord_le x y z c : edist (x, y, z) (0, 0, 0) <= c -> Rabs x <= c /\ Rabs y <= c /\ Rabs z <= c.
Proof.
  intros H. cbn [edist] in H. rewrite !Rminus_0_r in H. assert (K : forall u v w, Rabs u <= sqrt (u * u + v * v + w * w)) by (intros u v w; rewrite <- sqrt_Rsqr_abs; apply sqrt_le_1_alt; unfold Rsqr; nra).
  pose proof (K x y z). pose proof (K y x z) as K2. pose proof (K z x y) as K3. replace (y * y + x * x + z * z) with (x * x + y * y + z * z) in K2 by ring. replace (z * z + x * x + y * y) with (x * x + y * y + z * z) in K3 by ring. lra.
Qed.
Definition pt (X : XYZ f64) : Axes.R3 := (B2R (x_ X), B2R (y_ X), B2R (z_ X)).
Lemma pt_le X c : edist (pt X) (0, 0, 0) <= c -> Rabs (B2R (x_ X)) <= c /\ Rabs (B2R (y_ X)) <= c /\ Rabs (B2R (z_ X)) <= c.
Proof. apply coord_le. Qed.
(** Through the reference frame. *)
Lemma through T1 f1 g1 T2 f2 g2 X P : moves64 lm T1 f1 g1 -> moves64 lm T2 f2 g2 -> within64 X (14 / 10 ^ 8) P -> edist P (0, 0, 0) <= 7000000 -> within64 (from_ref (ops := O) T2 (to_ref (ops := O) T1 X)) (25 / 10 ^ 8) (g2 (f1 P)).
Proof.
  intros M1 M2 (F1 & F2 & F3 & W) B. fold (pt X) in W. pose proof (edist_triangle (pt X) P (0, 0, 0)) as T. destruct (pt_le X 8000000 ltac:(lra)) as (C1 & C2 & C3).
  destruct (move_ref _ _ _ X M1 F1 F2 F3 C1 C2 C3) as [(G1 & G2 & G3 & W1) _]. set (Y := to_ref (ops := O) T1 X) in *. change (edist (pt Y) (f1 (pt X)) <= 5 / 10 ^ 8) in W1.
  destruct (move_lip _ _ _ M1 (pt X) P) as [[L1 _] _]. destruct (move_lip _ _ _ M1 (pt X) (pt X)) as [[_ L2] _]. pose proof (edist_triangle (pt Y) (f1 (pt X)) (0, 0, 0)) as TY.
  destruct (pt_le Y 8000000 ltac:(lra)) as (D1 & D2 & D3). destruct (move_ref _ _ _ Y M2 G1 G2 G3 D1 D2 D3) as [_ (H1 & H2 & H3 & W2)]. 
  split; [exact H1|]. split; [exact H2|]. split; [exact H3|]. set (Z := from_ref (ops := O) T2 Y) in *. change (edist (pt Z) (g2 (pt Y)) <= 5 / 10 ^ 8) in W2. change (edist (pt Z) (g2 (f1 P)) <= 25 / 10 ^ 8).
  destruct (move_lip _ _ _ M2 (pt Y) (f1 P)) as [_ [L3 _]]. pose proof (edist_triangle (pt Z) (g2 (pt Y)) (g2 (f1 P))) as T3. pose proof (edist_triangle (pt Y) (f1 (pt X)) (f1 P)) as T4. lra.
Qed.
Lemma c59_route fuel c1 T1 f1 g1 T2 f2 g2 c2 src rest dst P : moves64 lm T1 f1 g1 -> moves64 lm T2 f2 g2 -> source64 lm c1 src P -> target64 lm c2 (g2 (f1 P)) -> (3 <= List.length dst)%nat ->
  exists out Q, obind_result (to_xyz (ops := O) fuel c1 (src ++ rest)) (fun X => from_xyz (ops := O) c2 (from_ref (ops := O) T2 (to_ref (ops := O) T1 X)) dst) = Ret (Ok (out ++ skipn 3 dst)) /\ locates64 lm c2 out Q /\ edist Q (g2 (f1 P)) <= 5 / 10 ^ 7.
Proof.
  intros M1 M2 S T L. destruct (to_xyz64 fuel c1 src rest P S) as (X & -> & W & B). cbn [obind_result obind]. destruct (through _ _ _ _ _ _ X P M1 M2 W B) as (F1 & F2 & F3 & W2).
  assert (E25 : 25 / 10 ^ 8 <= 900) by lra. destruct (from_xyz64 c2 _ _ dst T F1 F2 F3 (Rle_trans _ _ _ W2 E25) L) as (out & Q & E & LQ & D). exists out, Q. split; [exact E|]. split; [exact LQ|].
  rewrite edist_sym in D. eapply Rle_trans; [eapply edist_triangle|]. eapply Rle_trans; [apply Rplus_le_compat; [exact D|exact W2]|]. lra.
Qed.
End Lm.
Lemma c59_fwd : forall lm, accurate lm -> forall fuel (t : CrsXYZTransformation f64) f1 g1 f2 g2, moves64 lm (tr_src_to_ref t) f1 g1 -> moves64 lm (tr_dst_to_ref t) f2 g2 ->
  forall src rest dst P, source64 lm (tr_src t) src P -> target64 lm (tr_dst t) (g2 (f1 P)) -> (3 <= List.length dst)%nat ->
  exists out Q, tr_fwd (ops := F64ops lm) fuel t (src ++ rest) dst = Ret (Ok (out ++ skipn 3 dst)) /\ locates64 lm (tr_dst t) out Q /\ edist Q (g2 (f1 P)) <= 5 / 10 ^ 7.
Proof. intros lm AC fuel t f1 g1 f2 g2 M1 M2 src rest dst P S T L. exact (c59_route lm AC fuel _ _ _ _ _ _ _ _ src rest dst P M1 M2 S T L). Qed.
Lemma c59_bwd : forall lm, accurate lm -> forall fuel (t : CrsXYZTransformation f64) f1 g1 f2 g2, moves64 lm (tr_src_to_ref t) f1 g1 -> moves64 lm (tr_dst_to_ref t) f2 g2 ->
  forall dst rest src P, source64 lm (tr_dst t) dst P -> target64 lm (tr_src t) (g1 (f2 P)) -> (3 <= List.length src)%nat ->
  exists out Q, tr_bwd (ops := F64ops lm) fuel t (dst ++ rest) src = Ret (Ok (out ++ skipn 3 src)) /\ locates64 lm (tr_src t) out Q /\ edist Q (g1 (f2 P)) <= 5 / 10 ^ 7.
Proof. intros lm AC fuel t f1 g1 f2 g2 M1 M2 dst rest src P S T L. exact (c59_route lm AC fuel _ _ _ _ _ _ _ _ dst rest src P M2 M1 S T L). Qed.

Local Open Scope string_scope.
Local Open Scope R_scope.
Lemma c59_ex : let O := F64ops libm_ex in let r := @B754_finite 53 1024 false 4503599627370496 (-72) eq_refl in
  let t := mkTransfo (GeographicCrs "WGS 84" (DATUM_WGS84 (ops := O)) (GEastNorthUp (DEG (ops := O)) (M (ops := O)))) XYZIdentity
    (helmert_new (ops := O) CoordinateFrame r (f64_ofZ 0) (f64_ofZ 0) (f64_ofZ 100) (f64_ofZ (-50)) (f64_ofZ 30) (f64_ofZ 20))
    (GeographicCrs "other" (DATUM_WGS84 (ops := O)) (GNorthEastUp (GRAD (ops := O)) (FT (ops := O)))) in
  let g := fun P => vadd (vscale (1 - 20 / 1000000) (vadd P (vscale (- turn CoordinateFrame) (cross (/ 1048576, 0, 0) P)))) (-100, - -50, -30) in
  accurate libm_ex /\ (exists f1 g1, moves64 libm_ex (tr_src_to_ref t) f1 g1 /\ forall P, f1 P = P) /\ (exists f2, moves64 libm_ex (tr_dst_to_ref t) f2 g) /\
  exists P, source64 libm_ex (tr_src t) [f64_ofZ 10; f64_ofZ 45; f64_ofZ 100] P /\ target64 libm_ex (tr_dst t) (g P).
Proof.
  intros O r t g. destruct c57_ex as (E1 & (a & b & E2) & E3 & _). assert (Z : forall z, (Z.abs z <= 2 ^ 53)%Z -> val64 (f64_ofZ z) (IZR z)) by (intros; now apply val_Z).
  assert (VR : val64 r (/ 1048576)) by (split; [reflexivity|unfold r; cbn; unfold F2R; cbn; lra]).
  split; [exact E1|]. split; [exists (fun P => P), (fun P => P); split; [constructor|reflexivity]|]. split.
  { eexists. unfold g, t. cbn [tr_dst_to_ref]. apply (mv_helmert libm_ex CoordinateFrame r _ _ _ _ _ _ (/ 1048576) 0 0 100 (-50) 30 20); try (apply Z; cbn; lia); auto; apply Rabs_le; lra. }
  pose proof E2 as (_ & _ & _ & B1 & B2 & B3 & B4). pose proof pi_pos as PP.
  set (P := (mr a b (45 * (PI / 180)) 100 * cos (10 * (PI / 180) + 0), mr a b (45 * (PI / 180)) 100 * sin (10 * (PI / 180) + 0), mz a b (45 * (PI / 180)) 100)).
  assert (GP : geodetic_point a b (45 * (PI / 180)) (10 * (PI / 180) + 0) 100 P) by (apply gp_at; lra). pose proof (gp_norm a b _ _ _ P ltac:(lra) GP) as N. rewrite (Rabs_right 100) in N by lra. exists P. split.
  - apply (src_geo libm_ex _ _ _ _ a b 0 (10 * (PI / 180)) (45 * (PI / 180)) (100 * 1)); auto; try (apply Rabs_le; lra).
    + constructor; try (apply Z; cbn; lia); constructor.
    + now rewrite Rmult_1_r.
  - apply (tgt_geo libm_ex _ _ _ a b 0 (GRAD (ops := O)) (FT (ops := O)) (PI / 200) (3048 / 10000)); auto; try (apply Rabs_le; lra); [apply u_grad|apply u_ft|].
    clear GP. clearbody P. assert (D : edist (g P) P <= 1000).
      { rewrite edist_vnorm. replace (vadd (g P) (vscale (-1) P)) with (vadd (vscale (- (20 / 1000000)) P) (vadd (vscale (1 - 20 / 1000000) (cross (/ 1048576, 0, 0) P)) (-100, 50, -30))) by (destruct P as [[x y] z]; unfold g; cbn; f_equal; [f_equal|]; ring).
        eapply Rle_trans; [apply vnorm_add|]. pose proof (vnorm_add (vscale (1 - 20 / 1000000) (cross (/ 1048576, 0, 0) P)) (-100, 50, -30)) as V1. rewrite vnorm_scale in V1 |- *. pose proof (vnorm_cross (/ 1048576, 0, 0) P) as V2.
        pose proof (vnorm3 (-100) 50 (-30) 100 ltac:(apply Rabs_le; lra) ltac:(apply Rabs_le; lra) ltac:(apply Rabs_le; lra)) as V3. pose proof (vnorm3 (/ 1048576) 0 0 (/ 1048576) ltac:(apply Rabs_le; lra) ltac:(apply Rabs_le; lra) ltac:(apply Rabs_le; lra)) as V4.
        rewrite (Rabs_left (- (20 / 1000000))) by lra. rewrite (Rabs_right (1 - 20 / 1000000)) in V1 by lra. fold (vnorm P) in N. assert (vnorm (/ 1048576, 0, 0) * vnorm P <= 1.733 * / 1048576 * vnorm P) by (apply Rmult_le_compat_r; lra). lra. }
      pose proof (edist_triangle (g P) P (0, 0, 0)) as T1. pose proof (edist_triangle P (g P) (0, 0, 0)) as T2. rewrite (edist_sym P (g P)) in T2. lra.
Qed.
