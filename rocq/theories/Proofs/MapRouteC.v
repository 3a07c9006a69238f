(** Binary64: routes to, from and between maps of any kind. *)
From Coq Require Import ZArith Reals QArith Qreals Lra Lia Bool Psatz List String.
From Flocq Require Import Core IEEE754.BinarySingleNaN.
From Verif.Num Require Import FOps RFun XR XRLemmas F64 F64Lemmas PIBounds Near.
From Verif.Model Require Import Fp Quantities Cs Ellipsoid Geodesics Projections Crs.
From Verif.Spec Require Import Angles Axes Shape Frames Sphere Maps Krueger Reach Accurate Binary64 Routes64 Maps64 Transverse64 MapRoutes64 GridRoutes64.
From Verif.Proofs Require Import AxesX TransX AnglesX AnglesF EllX DatumX MathF NearX NearL LlhF LlhInvF LlhInvG LlhInvH LibmOk Bin64P TransB ProjX MercX MercInv TMX TMConf TMScale TMInv TMFwdM TMFwdP TMBackE TMBackF TMBackP TMArc SphereG MapF MercF MercG MercP NearH CtorF NearT MapRoute MapRouteA MapRouteB.
Import ListNotations.
Local Open Scope R_scope.

(** ** Places nearby *)
Lemma cos_from_pole p t : 0 <= t <= PI / 2 -> Rabs p <= PI / 2 - t -> sin t <= cos p.
Proof.
  intros T H. apply Rabs_le_inv in H. pose proof pi_pos as PP. replace p with (PI / 2 - (PI / 2 - p)) by ring. rewrite cos_shift. destruct (Rle_dec 0 p) as [Z|Z]; [apply sin_incr_1; lra|].
  replace (PI / 2 - p) with (PI - (PI / 2 + p)) by field. rewrite sin_PI_x. apply sin_incr_1; lra.
Qed.
Lemma near_parallel a b p l h T p' l' h' Q : 6300000 <= b -> b < a -> a <= 6400000 -> 99 * a <= 100 * b -> geodetic_point a b p l h T -> geodetic_point a b p' l' h' Q ->
  Rabs h <= 99000 -> Rabs h' <= 210000 -> Rabs p <= 88 * PI / 180 -> Rabs p' <= PI / 2 -> edist Q T <= 901 -> Rabs p' <= 89 * PI / 180.
Proof.
  intros B1 B2 B3 B4 G G' H H' Hp P' D. assert (HAB : 0 < b <= a) by lra. rewrite (gp_unique a b p _ h T _ HAB G (gp_at a b p _ h HAB)) in D. rewrite (gp_unique a b p' _ h' Q _ HAB G' (gp_at a b p' _ h' HAB)) in D. clear G G'.
  pose proof pi_pos as PP. apply Rabs_le_inv in H, H'. pose proof (gell_bound a b HAB p) as GB. pose proof (gell_bound a b HAB p') as GB'.
  assert (S2 : 34 / 1000 <= sin (2 * PI / 180)). { destruct (sin_bound (2 * PI / 180) 0 ltac:(lra) ltac:(lra)) as [S _]. unfold sin_approx, sin_term in S. cbn in S. nra. }
  assert (A : forall q, b <= gell a b q <= a -> a <= a * a / gell a b q). { intros q GQ. apply (Rmult_le_reg_r (gell a b q)); [lra|]. unfold Rdiv. rewrite Rmult_assoc, Rinv_l by lra. rewrite Rmult_1_r. apply Rmult_le_compat_l; lra. }
  pose proof (A p GB) as A1. pose proof (A p' GB') as A2.
  assert (R1 : 6201000 * (34 / 1000) <= mr a b p h). { unfold mr. pose proof (cos_from_pole p (2 * PI / 180) ltac:(lra) ltac:(lra)) as C. apply Rmult_le_compat; lra. }
  assert (C0 : 0 <= cos p') by (apply Rabs_le_inv in P'; apply cos_ge_0; lra).
  assert (R2 : mr a b p' h' <= 6676000 * cos p' /\ 0 <= mr a b p' h').
  { unfold mr. assert (A3 : a * a / gell a b p' <= 6466000). { apply (Rmult_le_reg_r (gell a b p')); [lra|]. unfold Rdiv. rewrite Rmult_assoc, Rinv_l by lra. rewrite Rmult_1_r. apply Rle_trans with (6466000 * b); [nra|apply Rmult_le_compat_l; lra]. }
    split; [apply Rmult_le_compat_r; lra|apply Rmult_le_pos; lra]. }
  set (r := mr a b p h) in *. set (r' := mr a b p' h') in *. clearbody r r'. destruct R2 as [R2 R3].
  assert (J1 : Rabs (r' * cos (l' - l) - r * cos (l - l)) <= 901). { eapply Rle_trans; [|exact D]. eapply Rle_trans; [|apply (project_le _ _ _ _ _ _ l)]. right. f_equal. rewrite !cos_minus. ring. }
  replace (l - l) with 0 in J1 by ring. rewrite cos_0 in J1. apply Rabs_le_inv in J1. pose proof (COS_bound (l' - l)) as CB1.
  assert (r' * cos (l' - l) <= r') by (rewrite <- (Rmult_1_r r') at 2; apply Rmult_le_compat_l; lra).
  assert (CP : 3 / 100 <= cos p') by lra. destruct (Rle_dec (Rabs p') (89 * PI / 180)) as [Y|N]; [exact Y|exfalso].
  assert (CC : cos (Rabs p') = cos p') by (unfold Rabs; destruct (Rcase_abs p'); [apply cos_neg|reflexivity]). assert (C89 : cos (Rabs p') <= cos (89 * PI / 180)) by (apply cos_decr_1; lra).
  replace (89 * PI / 180) with (PI / 2 - 1 * PI / 180) in C89 by field. rewrite cos_shift in C89. pose proof (sin_lt_x (1 * PI / 180) ltac:(lra)) as S6. lra.
Qed.

(** ** Maps of any kind *)
Section Lm.
Context (lm : libm) (AC : accurate lm).
Notation O := (F64ops lm).
Definition map_ok (spec : ProjectionSpec f64) (E : Ellipsoid f64) (a b : R) (ch : chart) (reads draws : R -> R -> Prop) (tol : R -> R) : Prop :=
  (exists dom, drawing lm (applied_to (ops := O) spec E) ch dom /\
    forall p l h T p' l' h' Q m, geodetic_point a b p (l + m) h T -> geodetic_point a b p' (l' + m) h' Q -> Rabs h <= 99000 -> Rabs h' <= 210000 -> draws l p -> Rabs p' <= PI / 2 -> edist Q T <= 901 -> dom l' p') /\
  forall fuel X Y x' y' l p t, (7 <= fuel)%nat -> 0 <= t <= / 2 -> ch l p x' y' -> reads l p -> Rabs (X - x') <= t -> Rabs (Y - y') <= t ->
  reading lm fuel (applied_to (ops := O) spec E) X Y l p (tol t) /\ Rabs X <= 200000000 /\ Rabs Y <= 200000000 /\ 0 <= tol t <= / 10 ^ 4.
Lemma any_write spec d a b m ch reads draws tol ax P id dst : map_ok spec (d_ellipsoid d) a b ch reads draws tol -> ends64 lm d a b m draws ax P -> (paxes_dim ax <= List.length dst)%nat ->
  forall X, is_finite (x_ X) = true -> is_finite (y_ X) = true -> is_finite (z_ X) = true -> edist (pt X) P <= 900 -> exists out Q, from_xyz (ops := O) (ProjectedCrs id d ax spec) X dst = Ret (Ok (out ++ skipn (paxes_dim ax) dst)) /\ charted64 lm a b m ch (11 / 10 ^ 7) ax out Q /\ edist (pt X) Q <= 22 / 10 ^ 8.
Proof.
  intros ((dom & DR & TR) & _) (HE & VM & BM & UN & l & p & h & GP & DM & BH) LD X F1 F2 F3 D. pose proof HE as (_ & _ & _ & B1 & B2 & B3 & B4). pose proof (gp_norm a b _ _ _ P ltac:(lra) GP) as N.
  apply (write_map lm AC id d spec a b m ch dom ax X P dst HE VM BM UN LD DR F1 F2 F3 D); [apply Rabs_le_inv in BH as BH'; lra|].
  intros l' p' h' Q GQ P' H' DQ. exact (TR p l h P p' l' h' Q m GP GQ BH H' DM P' DQ).
Qed.
Lemma any_read fuel spec d a b m ch reads draws tol ax t src rest P id : map_ok spec (d_ellipsoid d) a b ch reads draws tol -> (7 <= fuel)%nat -> starts64 lm d a b m ch reads t ax src P ->
  (exists X, to_xyz (ops := O) fuel (ProjectedCrs id d ax spec) (src ++ rest) = Ret (Ok X) /\ within64 X (6800000 * tol t + 9 / 10 ^ 8) P /\ edist P (0, 0, 0) <= 7000000) /\ 0 <= tol t <= / 10 ^ 4.
Proof.
  intros (_ & RD) HF (HE & VM & BM & T & x & y & o & l & p & h & x' & y' & AX & CH & DM & EX & EY & EH & BH & GP). destruct (RD fuel x y x' y' l p t HF T CH DM EX EY) as (R & BX & BY & TE). split; [|exact TE].
  exact (read_map lm AC fuel id d spec a b m ax src rest x y o l p h P _ HE VM BM AX BX BY EH BH GP R).
Qed.
Lemma any_to spec d a b m ch reads draws tol : map_ok spec (d_ellipsoid d) a b ch reads draws tol -> to_map64 lm d spec a b m ch draws.
Proof.
  intros OK fuel c1 T1 f1 g1 T2 f2 g2 id ax src rest dst P M1 M2 S EN LD. assert (S8 : 14 / 10 ^ 8 <= 800) by lra.
  destruct (route_any lm fuel c1 T1 f1 g1 T2 f2 g2 _ (src ++ rest) dst P _ _ _ M1 M2 (to_xyz64 lm AC fuel c1 src rest P S) S8 (any_write spec d a b m ch reads draws tol ax _ id dst OK EN LD)) as (out & Q & R & CH & D).
  exists out, Q. split; [exact R|]. split; [exact CH|]. lra.
Qed.
Lemma any_from spec d a b m ch reads draws tol : map_ok spec (d_ellipsoid d) a b ch reads draws tol -> from_map64 lm d spec a b m ch reads tol.
Proof.
  intros OK fuel T1 f1 g1 T2 f2 g2 id ax c2 src rest dst P t HF M1 M2 ST TG LD. destruct (any_read fuel spec d a b m ch reads draws tol ax t src rest P id OK HF ST) as [RD TE]. assert (S8 : 6800000 * tol t + 9 / 10 ^ 8 <= 800) by lra.
  destruct (route_any lm fuel _ T1 f1 g1 T2 f2 g2 c2 (src ++ rest) dst P _ _ _ M1 M2 RD S8 (fun X F1 F2 F3 D => from_xyz64 lm AC c2 X _ dst TG F1 F2 F3 D LD)) as (out & Q & R & CH & D).
  exists out, Q. split; [exact R|]. split; [exact CH|]. lra.
Qed.
Lemma any_between spec d a b m ch reads draws tol spec' d' a' b' m' ch' reads' draws' tol' : map_ok spec (d_ellipsoid d) a b ch reads draws tol -> map_ok spec' (d_ellipsoid d') a' b' ch' reads' draws' tol' -> map_to_map64 lm d spec a b m ch reads tol d' spec' a' b' m' ch' draws'.
Proof.
  intros OK OK' fuel T1 f1 g1 T2 f2 g2 id1 ax id2 ax' src rest dst P t HF M1 M2 ST EN LD. destruct (any_read fuel spec d a b m ch reads draws tol ax t src rest P id1 OK HF ST) as [RD TE]. assert (S8 : 6800000 * tol t + 9 / 10 ^ 8 <= 800) by lra.
  destruct (route_any lm fuel _ T1 f1 g1 T2 f2 g2 _ (src ++ rest) dst P _ _ _ M1 M2 RD S8 (any_write spec' d' a' b' m' ch' reads' draws' tol' ax' _ id2 dst OK' EN LD)) as (out & Q & R & CH & D).
  exists out, Q. split; [exact R|]. split; [exact CH|]. lra.
Qed.

(** ** Transverse Mercator *)
Lemma tm_map_ok spec E a b l0 p0 s e n east north c w k : earth64 E a b -> 9 / 10 <= s -> reach c w k -> tm_ok lm spec E a b l0 p0 s e n east north -> map_ok spec E a b (shown_by east north) (tm_reads l0 c) (tm_draws l0) (tm_error a b s k).
Proof.
  intros HE HS RE (_ & DR & RD). pose proof HE as (_ & _ & _ & B1 & B2 & B3 & B4). split.
  - exists (draws84 l0). split; [exact DR|]. intros p l h T p' l' h' Q m G G' H H' D P' DQ. exact (near_place a b p l h T p' l' h' Q m l0 B1 B2 B3 B4 G G' H H' D P' DQ).
  - intros fuel X Y x' y' l p t HF T [E1 E2] RDS EX EY. subst x' y'. destruct (RD c w k RE fuel X Y l p t HF T RDS EX EY) as (R & BX & BY & TE). split; [exact R|]. split; [exact BX|]. split; [exact BY|]. split; [|exact TE]. apply (tm_error_pos a b s c w k t); auto; lra.
Qed.

(** ** Mercator *)
Lemma isom_e_89 e p : 0 <= e < 1 -> e * e <= / 50 -> Rabs p <= 89 * PI / 180 -> Rabs (isom_e e p) <= 492 / 100 /\ nonpolar p.
Proof.
  intros He HE2 Bp. pose proof pi_pos as PP. assert (NP : nonpolar p) by (apply Rabs_le_inv in Bp; unfold nonpolar; lra). split; [|exact NP]. eapply Rle_trans; [apply (isom_e_le e He ltac:(nra)); exact NP|].
  assert (S2 : / 115 <= sin (PI / 360)). { destruct (sin_bound (PI / 360) 0 ltac:(lra) ltac:(lra)) as [S _]. unfold sin_approx, sin_term in S. cbn in S. pose proof PI_64_bounds as PB. nra. }
  apply Rabs_le_inv in Bp. set (th := p / 2 + PI / 4). assert (TH : PI / 360 <= th <= PI / 2 - PI / 360) by (unfold th; lra).
  assert (C1 : / 115 <= cos th) by (eapply Rle_trans; [exact S2|]; apply cos_from_pole; [lra|apply Rabs_le; lra]). assert (C2 : / 115 <= sin th) by (eapply Rle_trans; [exact S2|]; apply sin_incr_1; lra).
  pose proof (SIN_bound th) as SB. pose proof (COS_bound th) as CB. unfold isom. fold th.
  assert (B : / 115 <= tan th <= 115). { unfold tan. split; apply (Rmult_le_reg_r (cos th)); try lra; unfold Rdiv; rewrite Rmult_assoc, Rinv_l by lra; nra. }
  set (q := tan th) in *. assert (K : forall x, 0 < x <= 115 -> ln x <= 492 / 100). { intros x Hx. destruct (ln_125 125 ltac:(lra)) as [_ L5]. replace x with (125 * (1 + (x / 125 - 1))) by field. rewrite ln_mult by lra. pose proof (exp_ineq1_le (ln (1 + (x / 125 - 1)))) as EI. rewrite exp_ln in EI by lra. lra. }
  pose proof (K q ltac:(lra)) as K1. pose proof (K (/ q) ltac:(split; [apply Rinv_0_lt_compat; lra|rewrite <- (Rinv_inv 115); apply Rinv_le_contravar; lra])) as K2. rewrite ln_Rinv in K2 by lra. apply Rabs_le. lra.
Qed.
Lemma unmap_lon_le cf c (NC : near cf c 3000000 13000000 (Qmake 20 (2 ^ 53)) (Qmake 1 (2 ^ 60))) (x fe m : f64) X FE M : val64 x X -> val64 fe FE -> val64 m M -> Rabs M <= 4 -> Rabs FE <= 100000000 -> Rabs (X - FE) <= 39 / 10 * c ->
  Rabs (B2R (lon_add (ops := O) m (arc_div (ops := O) (Bminus mode_NE x fe) cf))) <= 4.
Proof.
  intros [Fx Vx] [Ff Vf] [Fm Vm] Bm Bf Bx. pose proof (c_pos _ c NC) as CP. rewrite <- Vm in *. rewrite <- Vx in *. rewrite <- Vf in *. apply Rabs_le_inv in Bf, Bx.
  pose proof (near_exact fe (-100000000) 100000000 Ff ltac:(split; qr)) as NF. pose proof (near_exact x (-200000000) 200000000 Fx ltac:(split; qr)) as NX. nsub NX NF N1. ndiv N1 NC N2. nZ 1%Z Z1. ndiv Z1 Z1 Z2.
  assert (QB : - (39 / 10) <= (B2R x - B2R fe) / c <= 39 / 10). { split; apply (Rmult_le_reg_r c); try lra; unfold Rdiv; rewrite Rmult_assoc, Rinv_l by lra; lra. }
  apply (near_range _ _ _ _ _ _ (Qmake (-39) 10) (Qmake 39 10)) in N2; [|replace (Q2R (Qmake (-39) 10)) with (- (39 / 10)) by qr; replace (Q2R (Qmake 39 10)) with (39 / 10) by qr; exact QB].
  nmul N2 Z2 N3. replace ((B2R x - B2R fe) / c * (1 / 1)) with ((B2R x - B2R fe) / c) in N3 by (field; lra). pose proof (near_err _ _ _ _ _ _ N3) as E3.
  change (arc_div (ops := O) (Bminus mode_NE x fe) cf) with (Bmult mode_NE (Bdiv mode_NE (Bminus mode_NE x fe) cf) (Bdiv mode_NE (f64_ofZ 1) (f64_ofZ 1))). pose proof (proj1 N3) as F3. revert F3 E3. generalize (Bmult mode_NE (Bdiv mode_NE (Bminus mode_NE x fe) cf) (Bdiv mode_NE (f64_ofZ 1) (f64_ofZ 1))). intros w F3 E3.
  assert (E : Rabs (B2R w - (B2R x - B2R fe) / c) <= 12 / 10 ^ 15). { eapply Rle_trans; [exact E3|]. replace (12 / 10 ^ 15) with (Q2R (Qmake 12 (10 ^ 15))) by qmk. apply qle. vm_compute. reflexivity. } clear E3.
  apply (lon_add_le lm m w Fm F3 Bm). apply Rabs_le_inv in E. apply Rabs_le. lra.
Qed.
Definition lon_small (P : projection f64) (fe c : R) : Prop := forall fuel x y h X l p h', val64 x X -> Rabs (X - fe) <= 39 / 10 * c -> unproj (ops := O) fuel P (mkENH x y h) = Ret (Ok (mkLLH l p h')) -> Rabs (B2R l) <= 4.
Lemma ret_ok_lon {A} (l l' : A) p p' h h' : Ret (Ok (E := ProjectionError) (mkLLH l p h)) = Ret (Ok (mkLLH l' p' h')) -> l = l'.
Proof. intros H. now inversion H. Qed.
Lemma grid_map_ok spec E a b lon0 fe fn c e tol : earth64 E a b -> 0 <= e < 1 -> e * e <= / 50 -> 3000000 <= c <= 13000000 -> Rabs fe <= 100000000 -> Rabs fn <= 100000000 -> 0 <= tol <= / 10 ^ 5 -> let north := fun p => fn + c * isom_e e p in
  projects64 lm (applied_to (ops := O) spec E) lon0 fe c north -> unprojects64 lm (applied_to (ops := O) spec E) lon0 fe fn c north (3 / 10 ^ 14 + tol) -> lon_small (applied_to (ops := O) spec E) fe c ->
  map_ok spec E a b (grid_chart lon0 fe c north) grid_reads grid_draws (grid_error c tol).
Proof.
  intros HE He HE2 HC Bfe Bfn HT north PJ UJ LS. pose proof HE as (_ & _ & _ & B1 & B2 & B3 & B4). pose proof pi_pos as PP. apply Rabs_le_inv in Bfe, Bfn. split.
  - exists grid_reads. split; [|intros p l h T p' l' h' Q m G G' H H' D P' DQ; exact (near_parallel a b p _ h T p' _ h' Q B1 B2 B3 B4 G G' H H' D P' DQ)].
    intros l p hh Fl Fp Bl Bp. destruct (PJ l p hh _ _ (conj Fl eq_refl) (conj Fp eq_refl) Bl Bp) as (x & y & d & EP & Fx & Fy & SA & DB & EX & EY). exists x, y, (fe + c * d), (north (B2R p)).
    assert (DB' : - (16 / 5) <= d <= 16 / 5) by (apply Rabs_le_inv in DB; lra). destruct (isom_e_89 e (B2R p) He HE2 Bp) as [I5 _]. apply Rabs_le_inv in I5.
    split; [exact EP|]. split; [exact Fx|]. split; [exact Fy|]. split; [exists d; split; [exact SA|]; split; [now apply Rabs_le|]; split; reflexivity|]. split; [exact EX|]. split; [exact EY|].
    assert (- (13000000 * (16 / 5)) <= c * d <= 13000000 * (16 / 5)) by (split; nra). set (q := isom_e e (B2R p)) in *. assert (- (13000000 * (492 / 100)) <= c * q <= 13000000 * (492 / 100)) by (split; nra).
    unfold north. fold q. split; apply Rabs_le; lra.
  - intros fuel X Y x' y' l p t HF T (d & SA & DB & -> & ->) RDS EX EY. destruct (isom_e_89 e p He HE2 RDS) as [I5 NP]. apply Rabs_le_inv in I5, DB, EX, EY. unfold north in *. set (q := isom_e e p) in *.
    assert (CD : - (16 / 5) * c <= c * d <= 16 / 5 * c) by nra. assert (CQ : - (492 / 100) * c <= c * q <= 492 / 100 * c) by nra.
    assert (T1 : 0 <= 21 / 10 * t / c <= / 10 ^ 6). { split; [apply Rmult_le_pos; [lra|left; apply Rinv_0_lt_compat; lra]|]. apply (Rmult_le_reg_r c); [lra|]. unfold Rdiv. rewrite Rmult_assoc, Rinv_l by lra. lra. }
    split; [|split; [apply Rabs_le; lra|split; [apply Rabs_le; lra|unfold grid_error; lra]]].
    intros x y hh Fx Fy Ex Ey. apply Rabs_le_inv in Ex, Ey.
    assert (X1 : Rabs (B2R x - fe) <= 39 / 10 * c) by (apply Rabs_le; lra). assert (Y1 : Rabs (B2R y - fn) <= 5 * c) by (apply Rabs_le; lra).
    destruct (UJ fuel x y hh _ _ (conj Fx eq_refl) (conj Fy eq_refl) X1 Y1) as (l' & p' & m & B & EU & Fl' & Fp' & M1 & M2 & NB & NY & TB).
    exists l', p'. split; [exact EU|]. split; [exact Fl'|]. split; [exact Fp'|]. split; [exact (LS fuel x y hh _ l' p' hh (conj Fx eq_refl) X1 EU)|].
    split; [unfold nonpolar in NB; apply Rabs_le_inv in TB; apply Rabs_le; lra|].
    assert (S : (t + / 10 ^ 7) / c <= t / c + 4 / 10 ^ 14). { replace ((t + / 10 ^ 7) / c) with (t / c + / 10 ^ 7 / c) by (field; lra). apply Rplus_le_compat_l. apply (Rmult_le_reg_r c); [lra|]. unfold Rdiv. rewrite Rmult_assoc, Rinv_l by lra. lra. }
    assert (DL : Rabs ((B2R x - fe) / c - d) <= (t + / 10 ^ 7) / c). { replace ((B2R x - fe) / c - d) with ((B2R x - (fe + c * d)) / c) by (field; lra). unfold Rdiv. rewrite Rabs_mult, (Rabs_right (/ c)) by (apply Rle_ge; left; apply Rinv_0_lt_compat; lra). apply Rmult_le_compat_r; [left; apply Rinv_0_lt_compat; lra|]. apply Rabs_le. lra. }
    assert (DQ : Rabs (isom_e e B - q) <= (t + / 10 ^ 7) / c). { assert (Z : isom_e e B - q = (B2R y - (fn + c * q)) / c) by (rewrite <- NY; field; lra). rewrite Z. unfold Rdiv. rewrite Rabs_mult, (Rabs_right (/ c)) by (apply Rle_ge; left; apply Rinv_0_lt_compat; lra). apply Rmult_le_compat_r; [left; apply Rinv_0_lt_compat; lra|]. apply Rabs_le. lra. }
    pose proof (isom_e_expand e p B He HE2 NP NB) as EXP. fold q in EXP.
    assert (SAM : same_angle l (m - ((B2R x - fe) / c - d))). { destruct M1 as (k & K). destruct SA as (j & J). exists (- k - j)%Z. rewrite minus_IZR, opp_IZR. lra. }
    rewrite (position_same l _ p SAM). eapply Rle_trans; [apply pos_near|]. pose proof (COS_bound p) as CB. assert (CA : Rabs (cos p) <= 1) by (apply Rabs_le; lra).
    assert (D1 : Rabs (m - ((B2R x - fe) / c - d) - B2R l') <= (t + / 10 ^ 7) / c + 3 / 10 ^ 14). { apply Rabs_le. apply Rabs_le_inv in DL, M2. lra. }
    assert (D2 : Rabs (p - B2R p') <= 103 / 100 * ((t + / 10 ^ 7) / c) + (3 / 10 ^ 14 + tol)). { assert (EX2 : Rabs (B - p) <= 103 / 100 * ((t + / 10 ^ 7) / c)) by lra. apply Rabs_le_inv in EX2, TB. apply Rabs_le. lra. }
    assert (D3 : Rabs (cos p) * Rabs (m - ((B2R x - fe) / c - d) - B2R l') <= 1 * ((t + / 10 ^ 7) / c + 3 / 10 ^ 14)) by (apply Rmult_le_compat; auto using Rabs_pos).
    unfold grid_error. assert (TC : 0 <= t / c) by (apply Rmult_le_pos; [lra|left; apply Rinv_0_lt_compat; lra]). replace (21 / 10 * t / c) with (21 / 10 * (t / c)) by (unfold Rdiv; ring). lra.
Qed.
End Lm.
