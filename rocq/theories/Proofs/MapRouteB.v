(** Binary64: routes to, from and between transverse Mercator maps. *)
From Coq Require Import ZArith Reals QArith Qreals Lra Lia Bool Psatz List String.
From Flocq Require Import Core IEEE754.BinarySingleNaN.
From Verif.Num Require Import FOps RFun XR XRLemmas F64 F64Lemmas PIBounds Near.
From Verif.Model Require Import Fp Quantities Cs Ellipsoid Geodesics Projections Crs.
From Verif.Spec Require Import Angles Axes Shape Frames Sphere Maps Krueger Reach Accurate Binary64 Routes64 Transverse64 MapRoutes64.
From Verif.Proofs Require Import AxesX TransX AnglesX AnglesF EllX DatumX MathF NearX NearL LlhF LlhInvF LlhInvG LlhInvH LibmOk Bin64P TransB MercX TMX TMConf TMScale TMInv TMFwdM TMFwdP TMBackF TMBackP TMArc MercF MercG NearH TMNear TMFwd CtorF NearT MapF MapRoute MapRouteA.
Import ListNotations.
Local Open Scope R_scope.

(** ** Places nearby *)
Lemma project_le x y z x' y' z' L : Rabs ((x - x') * cos L + (y - y') * sin L) <= edist (x, y, z) (x', y', z').
Proof.
  cbn [edist]. rewrite <- sqrt_Rsqr_abs. apply sqrt_le_1_alt. unfold Rsqr. pose proof (sin2_cos2 L) as S. unfold Rsqr in S. set (u := x - x'). set (v := y - y'). set (w := z - z').
  assert (E : u * u + v * v = (u * cos L + v * sin L) * (u * cos L + v * sin L) + (u * sin L - v * cos L) * (u * sin L - v * cos L)) by (replace (u * u + v * v) with ((u * u + v * v) * (sin L * sin L + cos L * cos L)) by (rewrite S; ring); ring).
  pose proof (Rle_0_sqr (u * sin L - v * cos L)) as Q1. pose proof (Rle_0_sqr w) as Q2. unfold Rsqr in Q1, Q2. lra.
Qed.
Lemma sin_7 : 12 / 100 <= sin (7 * PI / 180).
Proof. pose proof pi_pos as P. destruct (sin_bound (7 * PI / 180) 0 ltac:(lra) ltac:(lra)) as [H _]. unfold sin_approx, sin_term in H. cbn in H. nra. Qed.
Lemma near_place a b p l h T p' l' h' Q m lon0 : 6300000 <= b -> b < a -> a <= 6400000 -> 99 * a <= 100 * b -> geodetic_point a b p (l + m) h T -> geodetic_point a b p' (l' + m) h' Q ->
  Rabs h <= 99000 -> Rabs h' <= 210000 -> tm_draws lon0 l p -> Rabs p' <= PI / 2 -> edist Q T <= 901 -> Rabs p' <= 84 * PI / 180 /\ cos (PI / 4) <= cos (l' - lon0).
Proof.
  intros B1 B2 B3 B4 G G' H H' [Hp Hc] P' D. assert (HAB : 0 < b <= a) by lra. rewrite (gp_unique a b p _ h T _ HAB G (gp_at a b p _ h HAB)) in D. rewrite (gp_unique a b p' _ h' Q _ HAB G' (gp_at a b p' _ h' HAB)) in D. clear G G'.
  pose proof pi_pos as PP. apply Rabs_le_inv in H, H'. pose proof (gell_bound a b HAB p) as GB. pose proof (gell_bound a b HAB p') as GB'.
  assert (R1 : 6201000 * (12 / 100) <= mr a b p h).
  { unfold mr. assert (C : 12 / 100 <= cos p).
    { replace p with (PI / 2 - (PI / 2 - p)) by ring. rewrite cos_shift. apply Rabs_le_inv in Hp. pose proof sin_7 as S7. destruct (Rle_dec 0 p) as [Z|Z]; [apply Rle_trans with (sin (7 * PI / 180)); [exact S7|apply sin_incr_1; lra]|].
      replace (PI / 2 - p) with (PI - (PI / 2 + p)) by field. rewrite sin_PI_x. apply Rle_trans with (sin (7 * PI / 180)); [exact S7|apply sin_incr_1; lra]. }
    assert (A : a <= a * a / gell a b p). { apply (Rmult_le_reg_r (gell a b p)); [lra|]. unfold Rdiv. rewrite Rmult_assoc, Rinv_l by lra. rewrite Rmult_1_r. apply Rmult_le_compat_l; lra. }
    apply Rmult_le_compat; lra. }
  assert (C0 : 0 <= cos p') by (apply Rabs_le_inv in P'; apply cos_ge_0; lra).
  assert (R2 : mr a b p' h' <= 6676000 * cos p' /\ 0 <= mr a b p' h').
  { unfold mr. assert (A : a * a / gell a b p' <= 6466000). { apply (Rmult_le_reg_r (gell a b p')); [lra|]. unfold Rdiv. rewrite Rmult_assoc, Rinv_l by lra. rewrite Rmult_1_r. apply Rle_trans with (6466000 * b); [nra|apply Rmult_le_compat_l; lra]. }
    assert (A' : 0 <= a * a / gell a b p' + h'). { assert (a <= a * a / gell a b p'). { apply (Rmult_le_reg_r (gell a b p')); [lra|]. unfold Rdiv. rewrite Rmult_assoc, Rinv_l by lra. rewrite Rmult_1_r. apply Rmult_le_compat_l; lra. } lra. }
    split; [apply Rmult_le_compat_r; lra|apply Rmult_le_pos; lra]. }
  set (r := mr a b p h) in *. set (r' := mr a b p' h') in *. clearbody r r'. destruct R2 as [R2 R3].
  assert (J : forall L, Rabs (r' * cos (l' + m - L) - r * cos (l + m - L)) <= 901).
  { intros L. eapply Rle_trans; [|exact D]. eapply Rle_trans; [|apply (project_le _ _ _ _ _ _ L)]. right. f_equal. rewrite !cos_minus. ring. }
  pose proof (J (l + m)) as J1. pose proof (J (l' + m)) as J2. pose proof (J (lon0 + m)) as J3. replace (l + m - (l + m)) with 0 in J1 by ring. replace (l' + m - (l' + m)) with 0 in J2 by ring. rewrite cos_0 in J1, J2. replace (l + m - (lon0 + m)) with (l - lon0) in J3 by ring. replace (l' + m - (lon0 + m)) with (l' - lon0) in J3 by ring.
  apply Rabs_le_inv in J1, J2, J3. pose proof (COS_bound (l' + m - (l + m))) as CB1. pose proof (COS_bound (l + m - (l' + m))) as CB2.
  assert (r' * cos (l' + m - (l + m)) <= r') by (rewrite <- (Rmult_1_r r') at 2; apply Rmult_le_compat_l; lra). assert (r * cos (l + m - (l' + m)) <= r) by (rewrite <- (Rmult_1_r r) at 2; apply Rmult_le_compat_l; lra).
  split.
  - assert (CP : 111 / 1000 <= cos p') by lra. destruct (Rle_dec (Rabs p') (84 * PI / 180)) as [Y|N]; [exact Y|exfalso].
    assert (CC : cos (Rabs p') = cos p') by (unfold Rabs; destruct (Rcase_abs p'); [apply cos_neg|reflexivity]). assert (C84 : cos (Rabs p') <= cos (84 * PI / 180)) by (apply cos_decr_1; lra).
    replace (84 * PI / 180) with (PI / 2 - 6 * PI / 180) in C84 by field. rewrite cos_shift in C84. pose proof (sin_lt_x (6 * PI / 180) ltac:(lra)) as S6. lra.
  - assert (Q2 : cos (PI / 4) <= 70711 / 100000). { rewrite cos_PI4'. assert (S : sqrt 2 * sqrt 2 = 2) by (apply sqrt_sqrt; lra). assert (0 < sqrt 2) by (apply sqrt_lt_R0; lra). nra. }
    eapply Rle_trans; [exact Q2|]. assert (K : r * (18 / 25) <= r * cos (l - lon0)) by (apply Rmult_le_compat_l; lra). destruct (Rle_dec (70711 / 100000) (cos (l' - lon0))) as [Y|N]; [exact Y|exfalso].
    assert (r' * cos (l' - lon0) <= r' * (70711 / 100000)) by (apply Rmult_le_compat_l; lra). lra.
Qed.

(** ** A map that can be read and drawn *)
Definition draws84 (lon0 l p : R) : Prop := Rabs p <= 84 * PI / 180 /\ cos (PI / 4) <= cos (l - lon0).
Definition tm_ok (lm : libm) (spec : ProjectionSpec f64) (E : Ellipsoid f64) (a b lon0 lat0 k0 fe fn : R) (east north : R -> R -> R) : Prop :=
  transverse_map a b lon0 lat0 k0 fe fn east north /\ drawing lm (applied_to (ops := F64ops lm) spec E) (shown_by east north) (draws84 lon0) /\
  forall c w k, reach c w k -> forall fuel X Y l p t, (7 <= fuel)%nat -> 0 <= t <= / 2 -> tm_reads lon0 c l p -> Rabs (X - east l p) <= t -> Rabs (Y - north l p) <= t ->
  reading lm fuel (applied_to (ops := F64ops lm) spec E) X Y l p (tm_error a b k0 k t) /\ Rabs X <= 200000000 /\ Rabs Y <= 200000000 /\ tm_error a b k0 k t <= / 10 ^ 4.
Section Lm.
Context (lm : libm) (AC : accurate lm).
Notation O := (F64ops lm).
Lemma tm_error_le a b k0 c w k t : 6300000 <= b -> b < a -> a <= 6400000 -> 99 * a <= 100 * b -> 9 / 10 <= k0 -> reach c w k -> 0 <= t <= 1 -> tm_error a b k0 k t <= / 10 ^ 4.
Proof.
  intros B1 B2 B3 B4 K RE T. unfold tm_error. assert (AB : 0 < b <= a) by lra. pose proof (tn_small _ a b (xell_shape a b AB) B4) as N. change (tn a b) with (third_flattening a b) in N.
  assert (N5 : third_flattening a b ^ 5 <= (/ 190) ^ 5) by (apply pow_incr; lra). assert (N0 : 0 <= third_flattening a b ^ 5) by (apply pow_le; lra).
  assert (k <= 2500 /\ 0 <= k) as [K1 K2] by (destruct RE; lra). assert (A1 : k * third_flattening a b ^ 5 <= 2500 * (/ 190) ^ 5) by (apply Rmult_le_compat; lra).
  assert (A2 : 2 * t / (k0 * b) <= 2 / 5000000). { assert (5000000 <= k0 * b) by nra. unfold Rdiv. apply Rmult_le_compat; [lra|left; apply Rinv_0_lt_compat; lra|lra|apply Rinv_le_contravar; lra]. }
  assert (A3 : eccentricity_squared a b / (1 - eccentricity_squared a b) <= 1).
  { pose proof (e2_bound a b AB) as EB. change ((a * a - b * b) / (a * a)) with (eccentricity_squared a b) in EB. assert (E2 : eccentricity_squared a b <= 2 / 100). { assert (X : eccentricity_squared a b * (a * a) = a * a - b * b) by (unfold eccentricity_squared; field; lra). apply (Rmult_le_reg_r (a * a)); [nra|]. rewrite X. assert (99 / 100 * a * (99 / 100 * a) <= b * b) by (apply Rmult_le_compat; lra). nra. }
    apply (Rmult_le_reg_r (1 - eccentricity_squared a b)); [lra|]. unfold Rdiv. rewrite Rmult_assoc, Rinv_l by lra. lra. }
  lra.
Qed.
Lemma tm_tm_ok (E : Ellipsoid f64) a b (lon0 lat0 k0 fe fn : f64) LON0 LAT0 K0 FE FN : earth64 E a b -> val64 lon0 LON0 -> val64 lat0 LAT0 -> val64 k0 K0 -> val64 fe FE -> val64 fn FN ->
  Rabs LON0 <= 4 -> Rabs LAT0 <= 84 * PI / 180 -> 9 / 10 <= K0 <= 11 / 10 -> Rabs FE <= 100000000 -> Rabs FN <= 100000000 ->
  exists east north, tm_ok lm (STransverseMercator lon0 lat0 k0 fe fn) E a b LON0 LAT0 K0 FE FN east north.
Proof.
  intros HE V0 VP Vk Ve Vn B0 BP Bk Be Bn. destruct (e_range E a b HE) as [AB _]. exists (ceast a b LON0 K0 FE), (cnorth a b LON0 LAT0 K0 FN). split; [|split].
  - destruct HE as (_ & _ & _ & _ & _ & _ & Hf). apply c_transverse; [lra|exact Hf|exact (np_84 _ BP)|lra].
  - intros l p hh Fl Fp Bl [Bp Hc]. destruct (cos_45 _ Hc) as [C1 C2]. destruct (tm_fwd lm AC E a b HE lon0 lat0 k0 fe fn l p LON0 LAT0 K0 FE FN _ _ V0 VP Vk Ve Vn (conj Fl eq_refl) (conj Fp eq_refl) B0 BP Bk Be Bn Bl Bp C1 C2 hh) as (x & y & EP & F1 & F2 & E1 & E2).
    exists x, y. eexists _, _. split; [exact EP|]. split; [exact F1|]. split; [exact F2|]. split; [split; reflexivity|]. split; [exact E1|]. split; [exact E2|].
    assert (T0 : 0 <= 0 <= 1) by lra. assert (Z0 : forall t, Rabs (t - t) <= 0) by (intros; rewrite Rminus_diag_eq by reflexivity; rewrite Rabs_R0; lra).
    destruct (XY_range lm AC E a b HE lat0 LON0 LAT0 K0 FE FN (ceast a b LON0 K0 FE (B2R l) (B2R p)) (cnorth a b LON0 LAT0 K0 FN (B2R l) (B2R p)) _ _ 0 VP BP Bk C1 C2 T0 (Z0 _) (Z0 _)) as [X1 Y1]. apply Rabs_le_inv in X1, Y1, Be, Bn. split; apply Rabs_le; lra.
  - intros c w k RE fuel X Y l p t HF T (Bp & C0 & C2) EX EY. pose proof (reach_half c w k RE) as RH. assert (Hd : / 2 <= cos (l - LON0) * cos (l - LON0)) by lra.
    destruct (XY_range lm AC E a b HE lat0 LON0 LAT0 K0 FE FN X Y l p t VP BP Bk Hd C0 ltac:(lra) EX EY) as [X1 Y1]. pose proof HE as (_ & _ & _ & A1 & A2 & A3 & A4).
    split; [|split; [apply Rabs_le; apply Rabs_le_inv in X1, Be; lra|split; [apply Rabs_le; apply Rabs_le_inv in Y1, Bn; lra|apply (tm_error_le a b K0 c w k t); auto; lra]]].
    intros x y hh Fx Fy Ex Ey.
    assert (EX' : Rabs (B2R x - ceast a b LON0 K0 FE l p) <= t + / 10 ^ 7) by (apply Rabs_le; apply Rabs_le_inv in Ex, EX; lra). assert (EY' : Rabs (B2R y - cnorth a b LON0 LAT0 K0 FN l p) <= t + / 10 ^ 7) by (apply Rabs_le; apply Rabs_le_inv in Ey, EY; lra).
    destruct (tm_back_le lm AC E a b HE lon0 lat0 k0 fe fn LON0 LAT0 K0 FE FN V0 VP Vk Ve Vn B0 BP Bk Be Bn c w k x y hh _ _ (t + / 10 ^ 7) l p fuel RE (conj Fx eq_refl) (conj Fy eq_refl) Bp C0 C2 ltac:(lra) EX' EY' HF) as (l' & p' & EU & F1 & F2 & L4 & P2 & D).
    exists l', p'. split; [exact EU|]. split; [exact F1|]. split; [exact F2|]. split; [exact L4|]. split; [eapply Rle_trans; [exact P2|pose proof pi_pos; lra]|]. eapply Rle_trans; [exact D|]. unfold tm_error.
    replace (eccentricity_squared a b) with (the_e a b * the_e a b) by (unfold the_e; apply sqrt_sqrt; apply (e2_bound a b AB)). change (tn a b) with (third_flattening a b).
    assert (A5 : 2 * / 10 ^ 7 / (K0 * b) <= / 10 ^ 13). { assert (5000000 <= K0 * b) by nra. apply Rle_trans with (2 * / 10 ^ 7 / 5000000); [|lra]. unfold Rdiv. apply Rmult_le_compat_l; [lra|apply Rinv_le_contravar; lra]. }
    replace (2 * (t + / 10 ^ 7) / (K0 * b)) with (2 * t / (K0 * b) + 2 * / 10 ^ 7 / (K0 * b)) by (unfold Rdiv; ring). lra.
Qed.
Lemma utm_vals z : (1 <= z <= 60)%Z -> let lon0 := B2R (utm_lon0 (ops := O) z) in let k0 := B2R (UTM_K0 (ops := O)) in (exists k : Z, Rabs (lon0 - ((6 * IZR z - 180) * (PI / 180) + IZR k * (2 * PI))) <= / 10 ^ 14) /\ Rabs (k0 - 0.9996) <= / 10 ^ 15 /\
  forall (E : Ellipsoid f64) a b, earth64 E a b -> (exists east north, tm_ok lm (SUTMNorth z) E a b lon0 0 k0 500000 0 east north) /\ (exists east north, tm_ok lm (SUTMSouth z) E a b lon0 0 k0 500000 10000000 east north).
Proof.
  intros HZ lon0 k0. unfold lon0, k0. clear lon0 k0. destruct (near_utm lm z HZ) as (k & N). destruct N as (F0 & R0 & _ & _ & E0). destruct (near_k0 lm) as (F1 & R1' & _ & _ & E1).
  rewrite Near.q0 in E0, E1. assert (QE : Q2R (Qmake 1 (10 ^ 14)) = 1 / 10 ^ 14) by qmk. rewrite QE in E0. clear QE. assert (QE : Q2R (Qmake 12 (10 ^ 17)) = 12 / 10 ^ 17) by qmk. rewrite QE in E1. clear QE. replace (Q2R (Qmake (-32) 10)) with (-32 / 10) in R0 by qr. replace (Q2R (Qmake 32 10)) with (32 / 10) in R0 by qr.
  apply Rabs_le_inv in E0, E1. pose proof PI_64_bounds as PB.
  split; [exists (- k)%Z; rewrite opp_IZR; apply Rabs_le; lra|]. split; [apply Rabs_le; lra|]. intros E a b HE.
  assert (L4 : Rabs (B2R (utm_lon0 (ops := O) z)) <= 4) by (apply Rabs_le; lra).
  destruct (f64_Z 0 ltac:(vm_compute; discriminate)) as [FZ VZ]. pose proof (near_len lm 500000 ltac:(vm_compute; discriminate)) as VE. pose proof (near_len lm 10000000 ltac:(vm_compute; discriminate)) as VN.
  split; (eapply (tm_tm_ok E a b _ _ _ _ _ _ 0); [exact HE|split; [exact F0|reflexivity]|split; [exact FZ|exact VZ]|split; [exact F1|reflexivity]|exact VE|first [exact (conj FZ VZ)|exact VN]|exact L4|rewrite Rabs_R0; lra|lra|apply Rabs_le; lra|apply Rabs_le; lra]).
Qed.

(** ** Routes *)
Lemma ends_write spec d a b m lon0 ax east north P id dst : drawing lm (applied_to (ops := O) spec (d_ellipsoid d)) (shown_by east north) (draws84 lon0) -> ends64 lm d a b m (tm_draws lon0) ax P -> (paxes_dim ax <= List.length dst)%nat ->
  forall X, is_finite (x_ X) = true -> is_finite (y_ X) = true -> is_finite (z_ X) = true -> edist (pt X) P <= 900 -> exists out Q, from_xyz (ops := O) (ProjectedCrs id d ax spec) X dst = Ret (Ok (out ++ skipn (paxes_dim ax) dst)) /\ charted64 lm a b m (shown_by east north) (11 / 10 ^ 7) ax out Q /\ edist (pt X) Q <= 22 / 10 ^ 8.
Proof.
  intros DR (HE & VM & BM & UN & l & p & h & GP & DM & BH) LD X F1 F2 F3 D. pose proof HE as (_ & _ & _ & B1 & B2 & B3 & B4). pose proof (gp_norm a b _ _ _ P ltac:(lra) GP) as N.
  apply (write_map lm AC id d spec a b m (shown_by east north) (draws84 lon0) ax X P dst HE VM BM UN LD DR F1 F2 F3 D); [apply Rabs_le_inv in BH as BH'; lra|].
  intros l' p' h' Q GQ P' H' DQ. exact (near_place a b p l h P p' l' h' Q m lon0 B1 B2 B3 B4 GP GQ BH H' DM P' DQ).
Qed.
Lemma starts_read fuel spec d a b m lon0 lat0 k0 fe fn ax east north c w k t src rest P id : tm_ok lm spec (d_ellipsoid d) a b lon0 lat0 k0 fe fn east north -> reach c w k -> (7 <= fuel)%nat -> starts64 lm d a b m (shown_by east north) (tm_reads lon0 c) t ax src P ->
  (exists X, to_xyz (ops := O) fuel (ProjectedCrs id d ax spec) (src ++ rest) = Ret (Ok X) /\ within64 X (6800000 * tm_error a b k0 k t + 9 / 10 ^ 8) P /\ edist P (0, 0, 0) <= 7000000) /\ tm_error a b k0 k t <= / 10 ^ 4.
Proof.
  intros (_ & _ & RD) RE HF (HE & VM & BM & T & x & y & o & l & p & h & x' & y' & AX & [E1 E2] & DM & EX & EY & EH & BH & GP). subst x' y'. destruct (RD c w k RE fuel x y l p t HF T DM EX EY) as (R & BX & BY & TE). split; [|exact TE].
  exact (read_map lm AC fuel id d spec a b m ax src rest x y o l p h P _ HE VM BM AX BX BY EH BH GP R).
Qed.
Lemma tm_error_pos a b k0 c w k t : 6300000 <= b -> b < a -> a <= 6400000 -> 99 * a <= 100 * b -> 9 / 10 <= k0 -> reach c w k -> 0 <= t -> 0 <= tm_error a b k0 k t.
Proof.
  intros B1 B2 B3 B4 K RE T. unfold tm_error. assert (AB : 0 < b <= a) by lra. pose proof (tn_small _ a b (xell_shape a b AB) B4) as N. change (tn a b) with (third_flattening a b) in N.
  assert (N0 : 0 <= third_flattening a b ^ 5) by (apply pow_le; lra). assert (0 <= k) by (destruct RE; lra). assert (0 <= k * third_flattening a b ^ 5) by (apply Rmult_le_pos; lra).
  assert (0 <= 2 * t / (k0 * b)) by (apply Rmult_le_pos; [lra|left; apply Rinv_0_lt_compat; nra]).
  pose proof (e2_bound a b AB) as EB. change ((a * a - b * b) / (a * a)) with (eccentricity_squared a b) in EB. assert (0 <= eccentricity_squared a b / (1 - eccentricity_squared a b)) by (apply Rmult_le_pos; [lra|left; apply Rinv_0_lt_compat; lra]). lra.
Qed.
Lemma tm_to spec d a b m lon0 lat0 k0 fe fn east north : tm_ok lm spec (d_ellipsoid d) a b lon0 lat0 k0 fe fn east north -> to_map64 lm d spec a b m (shown_by east north) (tm_draws lon0).
Proof.
  intros (_ & DR & _) fuel c1 T1 f1 g1 T2 f2 g2 id ax src rest dst P M1 M2 S EN LD.
  assert (S8 : 14 / 10 ^ 8 <= 800) by lra.
  destruct (route_any lm fuel c1 T1 f1 g1 T2 f2 g2 _ (src ++ rest) dst P _ _ _ M1 M2 (to_xyz64 lm AC fuel c1 src rest P S) S8 (ends_write spec d a b m lon0 ax east north _ id dst DR EN LD)) as (out & Q & R & CH & D).
  exists out, Q. split; [exact R|]. split; [exact CH|]. lra.
Qed.
Lemma starts_err d a b m ch dom t ax src P k0 c w k : 9 / 10 <= k0 -> reach c w k -> starts64 lm d a b m ch dom t ax src P -> 0 <= tm_error a b k0 k t.
Proof. intros K RE (HE & _ & _ & T & _). pose proof HE as (_ & _ & _ & B1 & B2 & B3 & B4). apply (tm_error_pos a b k0 c w k t); auto; lra. Qed.
Lemma tm_from spec d a b m lon0 lat0 k0 fe fn east north c w k : 9 / 10 <= k0 -> tm_ok lm spec (d_ellipsoid d) a b lon0 lat0 k0 fe fn east north -> reach c w k -> from_map64 lm d spec a b m (shown_by east north) (tm_reads lon0 c) (tm_error a b k0 k).
Proof.
  intros K OK RE fuel T1 f1 g1 T2 f2 g2 id ax c2 src rest dst P t HF M1 M2 ST TG LD. destruct (starts_read fuel spec d a b m lon0 lat0 k0 fe fn ax east north c w k t src rest P id OK RE HF ST) as [RD TE]. pose proof (starts_err _ _ _ _ _ _ _ _ _ _ k0 c w k K RE ST) as T0. assert (S8 : 6800000 * tm_error a b k0 k t + 9 / 10 ^ 8 <= 800) by lra.
  destruct (route_any lm fuel _ T1 f1 g1 T2 f2 g2 c2 (src ++ rest) dst P _ _ _ M1 M2 RD S8 (fun X F1 F2 F3 D => from_xyz64 lm AC c2 X _ dst TG F1 F2 F3 D LD)) as (out & Q & R & CH & D).
  exists out, Q. split; [exact R|]. split; [exact CH|]. lra.
Qed.
Lemma tm_between spec d a b m lon0 lat0 k0 fe fn east north c w k spec' d' a' b' m' lon0' lat0' k0' fe' fn' east' north' : 9 / 10 <= k0 -> tm_ok lm spec (d_ellipsoid d) a b lon0 lat0 k0 fe fn east north -> tm_ok lm spec' (d_ellipsoid d') a' b' lon0' lat0' k0' fe' fn' east' north' ->
  reach c w k -> map_to_map64 lm d spec a b m (shown_by east north) (tm_reads lon0 c) (tm_error a b k0 k) d' spec' a' b' m' (shown_by east' north') (tm_draws lon0').
Proof.
  intros K OK (_ & DR & _) RE fuel T1 f1 g1 T2 f2 g2 id1 ax id2 ax' src rest dst P t HF M1 M2 ST EN LD. destruct (starts_read fuel spec d a b m lon0 lat0 k0 fe fn ax east north c w k t src rest P id1 OK RE HF ST) as [RD TE]. pose proof (starts_err _ _ _ _ _ _ _ _ _ _ k0 c w k K RE ST) as T0. assert (S8 : 6800000 * tm_error a b k0 k t + 9 / 10 ^ 8 <= 800) by lra.
  destruct (route_any lm fuel _ T1 f1 g1 T2 f2 g2 _ (src ++ rest) dst P _ _ _ M1 M2 RD S8 (ends_write spec' d' a' b' m' lon0' ax' east' north' _ id2 dst DR EN LD)) as (out & Q & R & CH & D).
  exists out, Q. split; [exact R|]. split; [exact CH|]. lra.
Qed.
Lemma tm_routes spec d a b m lon0 lat0 k0 fe fn : 9 / 10 <= k0 -> (exists east north, tm_ok lm spec (d_ellipsoid d) a b lon0 lat0 k0 fe fn east north) -> tm_routes64 lm d spec a b m lon0 lat0 k0 fe fn.
Proof. intros K (east & north & OK). exists east, north. split; [apply OK|]. split; [exact (tm_to _ _ _ _ _ _ _ _ _ _ _ _ OK)|]. intros c w k RE. exact (tm_from _ _ _ _ _ _ _ _ _ _ _ _ c w k K OK RE). Qed.
Lemma tm_betweens spec d a b m lon0 lat0 k0 fe fn spec' d' a' b' m' lon0' lat0' k0' fe' fn' : 9 / 10 <= k0 -> (exists east north, tm_ok lm spec (d_ellipsoid d) a b lon0 lat0 k0 fe fn east north) -> (exists east north, tm_ok lm spec' (d_ellipsoid d') a' b' lon0' lat0' k0' fe' fn' east north) ->
  tm_between64 lm d spec a b m lon0 lat0 k0 fe fn d' spec' a' b' m' lon0' lat0' k0' fe' fn'.
Proof. intros K (east & north & OK) (east' & north' & OK'). exists east, north, east', north'. split; [apply OK|]. split; [apply OK'|]. intros c w k RE. exact (tm_between _ _ _ _ _ _ _ _ _ _ _ _ c w k _ _ _ _ _ _ _ _ _ _ _ _ K OK OK' RE). Qed.
End Lm.

(** ** The statements of Props/MapRoutes64.v *)
Lemma c66_tm : forall lm, accurate lm -> forall (d : GeodeticDatum f64) a b m, earth64 (d_ellipsoid d) a b ->
  forall (lon0 lat0 k0 fe fn : f64) l p k e n, val64 lon0 l -> val64 lat0 p -> val64 k0 k -> val64 fe e -> val64 fn n ->
  Rabs l <= 4 -> Rabs p <= 84 * PI / 180 -> 9 / 10 <= k <= 11 / 10 -> Rabs e <= 100000000 -> Rabs n <= 100000000 ->
  tm_routes64 lm d (STransverseMercator lon0 lat0 k0 fe fn) a b m l p k e n.
Proof. intros lm AC d a b m HE lon0 lat0 k0 fe fn l p k e n V0 VP Vk Ve Vn B0 BP Bk Be Bn. apply (tm_routes lm AC); [lra|]. now apply (tm_tm_ok lm AC). Qed.
Lemma c66_utm : forall lm, accurate lm -> forall z, (1 <= z <= 60)%Z ->
  exists lon0 k0, (exists k : Z, Rabs (lon0 - ((6 * IZR z - 180) * (PI / 180) + IZR k * (2 * PI))) <= / 10 ^ 14) /\ Rabs (k0 - 0.9996) <= / 10 ^ 15 /\
  forall (d : GeodeticDatum f64) a b m south, earth64 (d_ellipsoid d) a b -> tm_routes64 lm d (utm64 south z) a b m lon0 0 k0 500000 (utm_northing south).
Proof.
  intros lm AC z HZ. destruct (utm_vals lm AC z HZ) as (A1 & A2 & OK). do 2 eexists. split; [exact A1|]. split; [exact A2|]. apply Rabs_le_inv in A2. intros d a b m south HE. destruct (OK _ a b HE) as [N S].
  apply (tm_routes lm AC); [lra|destruct south; [exact S|exact N]].
Qed.
Lemma c66_between_tm : forall lm, accurate lm -> forall (d d' : GeodeticDatum f64) a b a' b' m m', earth64 (d_ellipsoid d) a b -> earth64 (d_ellipsoid d') a' b' ->
  forall (lon0 lat0 k0 fe fn : f64) l p k e n, val64 lon0 l -> val64 lat0 p -> val64 k0 k -> val64 fe e -> val64 fn n ->
  Rabs l <= 4 -> Rabs p <= 84 * PI / 180 -> 9 / 10 <= k <= 11 / 10 -> Rabs e <= 100000000 -> Rabs n <= 100000000 ->
  forall (lon0' lat0' k0' fe' fn' : f64) l' p' k' e' n', val64 lon0' l' -> val64 lat0' p' -> val64 k0' k' -> val64 fe' e' -> val64 fn' n' ->
  Rabs l' <= 4 -> Rabs p' <= 84 * PI / 180 -> 9 / 10 <= k' <= 11 / 10 -> Rabs e' <= 100000000 -> Rabs n' <= 100000000 ->
  tm_between64 lm d (STransverseMercator lon0 lat0 k0 fe fn) a b m l p k e n d' (STransverseMercator lon0' lat0' k0' fe' fn') a' b' m' l' p' k' e' n'.
Proof. intros. apply (tm_betweens lm); [assumption|lra|now apply (tm_tm_ok lm)|now apply (tm_tm_ok lm)]. Qed.
Lemma c66_between_utm : forall lm, accurate lm -> forall z z', (1 <= z <= 60)%Z -> (1 <= z' <= 60)%Z ->
  exists lon1 lon2 k0, (exists k : Z, Rabs (lon1 - ((6 * IZR z - 180) * (PI / 180) + IZR k * (2 * PI))) <= / 10 ^ 14) /\ (exists k : Z, Rabs (lon2 - ((6 * IZR z' - 180) * (PI / 180) + IZR k * (2 * PI))) <= / 10 ^ 14) /\ Rabs (k0 - 0.9996) <= / 10 ^ 15 /\
  forall (d d' : GeodeticDatum f64) a b a' b' m m' south south', earth64 (d_ellipsoid d) a b -> earth64 (d_ellipsoid d') a' b' ->
  tm_between64 lm d (utm64 south z) a b m lon1 0 k0 500000 (utm_northing south) d' (utm64 south' z') a' b' m' lon2 0 k0 500000 (utm_northing south').
Proof.
  intros lm AC z z' HZ HZ'. destruct (utm_vals lm AC z HZ) as (A1 & A2 & OK). destruct (utm_vals lm AC z' HZ') as (A1' & _ & OK'). do 3 eexists. split; [exact A1|]. split; [exact A1'|]. split; [exact A2|]. apply Rabs_le_inv in A2. intros d d' a b a' b' m m' south south' HE HE'. destruct (OK _ a b HE) as [N S]. destruct (OK' _ a' b' HE') as [N' S'].
  apply (tm_betweens lm AC); [lra|destruct south; [exact S|exact N]|destruct south'; [exact S'|exact N']].
Qed.

Local Open Scope string_scope.
Local Open Scope R_scope.
Lemma c66_ex : let O := F64ops libm_ex in let d := DATUM_WGS84 (ops := O) in let geo := GeographicCrs "WGS 84" d (GEastNorthUp (DEG (ops := O)) (M (ops := O))) in
  accurate libm_ex /\ (1 <= 33 <= 60)%Z /\ exists a b, earth64 (d_ellipsoid d) a b /\ val64 (f64_ofZ 0) 0 /\ val64 (f64_ofZ 1) 1 /\ val64 (f64_ofZ 500000) 500000 /\
  Rabs 0 <= 84 * PI / 180 /\ 9 / 10 <= 1 <= 11 / 10 /\ Rabs 500000 <= 100000000 /\ moves64 libm_ex XYZIdentity (fun P => P) (fun P => P) /\ reach (100 / 101) (/ 11) 27 /\ (7 <= 7)%nat /\
  (exists P, source64 libm_ex geo [f64_ofZ 10; f64_ofZ 45; f64_ofZ 100] P /\ ends64 libm_ex d a b 0 (tm_draws 0) (PEastNorthUp (M (ops := O)) (FT (ops := O))) P) /\
  forall east north, transverse_map a b 0 0 1 500000 0 east north ->
  exists P, starts64 libm_ex d a b 0 (shown_by east north) (tm_reads 0 (100 / 101)) (/ 2) (PEastNorth (M (ops := O))) [f64_ofZ 500000; f64_ofZ 0] P /\ target64 libm_ex geo P /\ ends64 libm_ex d a b 0 (tm_draws 0) (PEastNorth (US_FT (ops := O))) P.
Proof.
  intros O d geo. destruct c57_ex as (E1 & (a & b & E2) & E3 & _). assert (Z : forall z, (Z.abs z <= 2 ^ 53)%Z -> val64 (f64_ofZ z) (IZR z)) by (intros; now apply val_Z). pose proof pi_pos as PP.
  split; [exact E1|]. split; [lia|]. exists a, b. split; [exact E2|]. do 3 (split; [apply Z; cbn; lia|]). split; [rewrite Rabs_R0; lra|]. split; [lra|]. split; [apply Rabs_le; lra|]. split; [constructor|]. split; [constructor|]. split; [lia|].
  pose proof E2 as (_ & _ & _ & B1 & B2 & B3 & B4). split.
  - set (P := (mr a b (45 * (PI / 180)) 100 * cos (10 * (PI / 180) + 0), mr a b (45 * (PI / 180)) 100 * sin (10 * (PI / 180) + 0), mz a b (45 * (PI / 180)) 100)).
    assert (GP : geodetic_point a b (45 * (PI / 180)) (10 * (PI / 180) + 0) 100 P) by (apply gp_at; lra). exists P. split.
    + apply (src_geo libm_ex _ _ _ _ a b 0 (10 * (PI / 180)) (45 * (PI / 180)) (100 * 1)); auto; try (apply Rabs_le; lra).
      * constructor; try (apply Z; cbn; lia); constructor.
      * now rewrite Rmult_1_r.
    + split; [exact E2|]. split; [exact E3|]. split; [apply Rabs_le; lra|]. split; [apply (units_enu libm_ex _ _ 1 (3048 / 10000)); constructor|].
      exists (10 * (PI / 180)), (45 * (PI / 180)), 100. split; [exact GP|]. split; [|apply Rabs_le; lra]. split; [apply Rabs_le; lra|]. rewrite Rminus_0_r.
      apply Rle_trans with (cos (PI / 6)); [|left; apply cos_decreasing_1; lra]. rewrite cos_PI6. assert (Q : sqrt 3 * sqrt 3 = 3) by (apply sqrt_sqrt; lra). assert (0 < sqrt 3) by (apply sqrt_lt_R0; lra). nra.
  - intros east north (T1 & T2 & _). assert (NP : nonpolar 0) by (apply np_84; rewrite Rabs_R0; lra). set (P := (mr a b 0 0 * cos (0 + 0), mr a b 0 0 * sin (0 + 0), mz a b 0 0)). assert (GP : geodetic_point a b 0 (0 + 0) 0 P) by (apply gp_at; lra). pose proof (gp_norm a b _ _ _ P ltac:(lra) GP) as N. rewrite Rabs_R0 in N.
    assert (C0 : cos (0 - 0) = 1) by (rewrite Rminus_0_r; apply cos_0). exists P. split; [|split].
    + split; [exact E2|]. split; [exact E3|]. split; [apply Rabs_le; lra|]. split; [lra|]. exists (500000 * 1), (0 * 1), None, 0, 0, 0, 500000, 0.
      split; [constructor; [constructor|apply Z; cbn; lia|apply Z; cbn; lia]|]. split; [split; [now rewrite T1|now rewrite T2]|]. split; [split; [rewrite Rabs_R0; lra|rewrite C0; lra]|]. split; [apply Rabs_le; lra|]. split; [apply Rabs_le; lra|]. split; [reflexivity|]. split; [rewrite Rabs_R0; lra|exact GP].
    + apply (tgt_geo libm_ex _ _ _ a b 0 (DEG (ops := O)) (M (ops := O)) (PI / 180) 1); auto; try (apply Rabs_le; lra); try constructor; try reflexivity; lra.
    + split; [exact E2|]. split; [exact E3|]. split; [apply Rabs_le; lra|]. split; [apply (units_en libm_ex _ (1200 / 3937)); constructor|]. exists 0, 0, 0. split; [exact GP|]. split; [split; [rewrite Rabs_R0; lra|rewrite C0; lra]|rewrite Rabs_R0; lra].
Qed.
