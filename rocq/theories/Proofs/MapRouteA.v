(** Binary64: reading and writing map coordinates. *)
From Coq Require Import ZArith Reals QArith Qreals Lra Lia Bool Psatz List String.
From Flocq Require Import Core IEEE754.BinarySingleNaN.
From Verif.Num Require Import FOps RFun XRLemmas F64 F64Lemmas PIBounds Near.
From Verif.Model Require Import Fp Quantities Cs Ellipsoid Projections Crs.
From Verif.Spec Require Import Angles Axes Shape Frames Sphere Maps Krueger Reach Accurate Binary64 Routes64 Transverse64 MapRoutes64.
From Verif.Proofs Require Import AxesX TransX AnglesX AnglesF EllX DatumX MathF NearX NearL LlhF LlhInvF LlhInvG LlhInvH LibmOk Bin64P TransB MapRoute.
Import ListNotations.
Local Open Scope R_scope.

Section Lm.
Context (lm : libm) (AC : accurate lm).
Notation O := (F64ops lm).
Ltac fin3 N := refine (near_weak _ _ _ _ _ _ _ _ _ _ N _ _ _); [|vm_compute; reflexivity|vm_compute; reflexivity].
Lemma map_in u k c C : length_unit64 lm u k -> val64 c C -> Rabs (C * k) <= 200000000 -> is_finite (length_new (ops := O) c u) = true /\ Rabs (B2R (length_new (ops := O) c u) - C * k) <= / 10 ^ 7.
Proof.
  intros U [F V] B. subst C. assert (N : near (length_new (ops := O) c u) (B2R c * k) (-200000000) 200000000 (Qmake 4 (2 ^ 53)) (Qmake 1 (2 ^ 80))).
  { apply Rabs_le_inv in B. nZ 1%Z N1. nZ 3048%Z N2. nZ 10000%Z N3. nZ 1200%Z N4. nZ 3937%Z N5.
    assert (R7 : Q2R (-200000000) <= B2R c * k <= Q2R 200000000) by (split; unfold Q2R; cbn; lra).
    destruct U; unfold length_new, per_unit; cbn [fst snd M FT US_FT fmul fdiv F64ops].
    - ndiv N1 N1 D. pose proof (near_exact c (-200000000) 200000000 F ltac:(split; unfold Q2R; cbn; lra)) as NC. nmul NC D E. replace (1 / 1) with 1 in E by field. fin3 E. exact R7.
    - ndiv N2 N3 D0. ndiv D0 N1 D. pose proof (near_exact c (-800000000) 800000000 F ltac:(split; unfold Q2R; cbn; lra)) as NC. nmul NC D E. replace (3048 / 10000 / 1) with (3048 / 10000) in E by field. fin3 E. exact R7.
    - ndiv N4 N5 D. pose proof (near_exact c (-800000000) 800000000 F ltac:(split; unfold Q2R; cbn; lra)) as NC. nmul NC D E. fin3 E. exact R7. }
  destruct N as (F1 & _ & _ & _ & E1). split; [exact F1|]. eapply Rle_trans; [exact E1|]. assert (Q1 : Q2R (Qmake 4 (2 ^ 53)) = 4 / 2 ^ 53) by (rewrite q2r_make; cbn; lra). assert (Q2 : Q2R (Qmake 1 (2 ^ 80)) = / 2 ^ 80) by (rewrite q2r_make; cbn; lra). rewrite Q1, Q2.
  assert (4 / 2 ^ 53 * Rabs (B2R c * k) <= 4 / 2 ^ 53 * 200000000) by (apply Rmult_le_compat_l; lra). lra.
Qed.
Lemma map_out u k h : length_unit64 lm u k -> is_finite h = true -> Rabs (B2R h) <= 200000000 -> let o := length_val (ops := O) h u in is_finite o = true /\ Rabs (B2R o * k - B2R h) <= / 10 ^ 7.
Proof.
  intros U F B o. assert (N : is_finite o = true /\ Rabs (B2R o * k - B2R h) <= 4 / 2 ^ 53 * Rabs (B2R h) + / 2 ^ 60).
  { assert (E1 : 4 / 2 ^ 53 = Q2R (Qmake 4 (2 ^ 53))) by (rewrite q2r_make; cbn; lra). assert (E2 : / 2 ^ 60 = Q2R (Qmake 1 (2 ^ 60))) by (rewrite q2r_make; cbn; lra). rewrite E1, E2. apply Rabs_le_inv in B. nZ 1%Z N1. nZ 3048%Z N2. nZ 10000%Z N3. nZ 1200%Z N4. nZ 3937%Z N5.
    pose proof (near_exact h (-200000000) 200000000 F ltac:(split; unfold Q2R; cbn; lra)) as NL. subst o.
    destruct U; unfold length_val, per_unit; cbn [fst snd M FT US_FT fmul fdiv F64ops].
    - ndiv N1 N1 D. ndiv NL D E. refine (near_back _ _ _ _ _ _ _ _ _ _ E _ _ _ _); [field|lra|vm_compute; reflexivity|vm_compute; reflexivity].
    - ndiv N2 N3 D0. ndiv D0 N1 D. ndiv NL D E. refine (near_back _ _ _ _ _ _ _ _ _ _ E _ _ _ _); [field; lra|lra|vm_compute; reflexivity|vm_compute; reflexivity].
    - ndiv N4 N5 D. ndiv NL D E. refine (near_back _ _ _ _ _ _ _ _ _ _ E _ _ _ _); [field; lra|lra|vm_compute; reflexivity|vm_compute; reflexivity]. }
  destruct N as [N1 N2]. split; [exact N1|]. eapply Rle_trans; [exact N2|]. assert (4 / 2 ^ 53 * Rabs (B2R h) <= 4 / 2 ^ 53 * 200000000) by (apply Rmult_le_compat_l; lra). lra.
Qed.

(** ** Reading *)
Definition reading (fuel : nat) (P : projection f64) (X Y L B u : R) : Prop :=
  forall x y hh, is_finite x = true -> is_finite y = true -> Rabs (B2R x - X) <= / 10 ^ 7 -> Rabs (B2R y - Y) <= / 10 ^ 7 ->
  exists l p, unproj (ops := O) fuel P (mkENH x y hh) = Ret (Ok (mkLLH l p hh)) /\ is_finite l = true /\ is_finite p = true /\ Rabs (B2R l) <= 4 /\ Rabs (B2R p) <= 2 /\
    edist (position L B) (position (B2R l) (B2R p)) <= u.
Lemma read_map fuel id d spec a b m ax buf rest X Y o L B h P u : earth64 (d_ellipsoid d) a b -> val64 (pm_lon (d_pm d)) m -> Rabs m <= 4 ->
  map_axes64 lm ax buf X Y o -> Rabs X <= 200000000 -> Rabs Y <= 200000000 -> h = match o with Some h => h | None => 0 end -> Rabs h <= 99999 -> geodetic_point a b B (L + m) h P ->
  reading fuel (applied_to (ops := O) spec (d_ellipsoid d)) X Y L B u ->
  exists V, to_xyz (ops := O) fuel (ProjectedCrs id d ax spec) (buf ++ rest) = Ret (Ok V) /\ within64 V (6800000 * u + 9 / 10 ^ 8) P /\ edist P (0, 0, 0) <= 7000000.
Proof.
  intros HE VM BM AX BX BY EH BH GP RD.
  assert (Q : exists x y z, paxes_normalize (ops := O) ax (buf ++ rest) = Ret (mkENH x y z) /\ is_finite x = true /\ is_finite y = true /\ is_finite z = true /\ Rabs (B2R x - X) <= / 10 ^ 7 /\ Rabs (B2R y - Y) <= / 10 ^ 7 /\ Rabs (B2R z - h) <= / 10 ^ 10).
  { destruct AX as [u0 v ku kv e n up E N H U1 U2 VE VN VH|u0 ku e n E N U1 VE VN]; subst h.
    - destruct (map_in u0 ku e E U1 VE BX) as [F1 E1]. destruct (map_in u0 ku n N U1 VN BY) as [F2 E2]. destruct (length_in lm v kv up H U2 VH ltac:(lra)) as (F3 & _ & _ & _ & E3).
      do 3 eexists. split; [reflexivity|]. repeat (split; [assumption|]). eapply Rle_trans; [exact E3|]. assert (Q1 : Q2R (Qmake 4 (2 ^ 53)) = 4 / 2 ^ 53) by (rewrite q2r_make; cbn; lra). assert (Q2 : Q2R (Qmake 1 (2 ^ 90)) = / 2 ^ 90) by (rewrite q2r_make; cbn; lra). rewrite Q1, Q2.
      assert (4 / 2 ^ 53 * Rabs (H * kv) <= 4 / 2 ^ 53 * 100000) by (apply Rmult_le_compat_l; lra). lra.
    - destruct (map_in u0 ku e E U1 VE BX) as [F1 E1]. destruct (map_in u0 ku n N U1 VN BY) as [F2 E2]. destruct (val_Z 0 ltac:(cbn; lia)) as [F3 E3].
      do 3 eexists. split; [reflexivity|]. split; [assumption|]. split; [assumption|]. split; [exact F3|]. split; [assumption|]. split; [assumption|]. change (fofZ (FOps := O) 0) with (f64_ofZ 0). rewrite E3, Rminus_0_r, Rabs_R0. lra. }
  destruct Q as (x & y & z & EN & Fx & Fy & Fz & Ex & Ey & Ez). destruct (RD x y z Fx Fy Ex Ey) as (l & p & EU & Fl & Fp & L4 & P2 & D).
  assert (Z1 : Rabs (B2R z) <= 100000) by (apply Rabs_le; apply Rabs_le_inv in Ez, BH; lra).
  destruct (c57_llh_to_xyz lm AC d a b HE m _ _ _ l p z VM (conj Fl eq_refl) (conj Fp eq_refl) (conj Fz eq_refl) BM L4 P2 ltac:(lra)) as (Q & GQ & F1 & F2 & F3 & W).
  exists (llh_to_xyz (ops := O) d (mkLLH l p z)). split; [unfold to_xyz; rewrite EN; exact (f_equal (fun r => obind r (fun r => Ret (result_map (llh_to_xyz (ops := O) d) (lift_proj_err r)))) EU)|].
  pose proof HE as (_ & _ & _ & B1 & B2 & B3 & B4). split; [split; [exact F1|]; split; [exact F2|]; split; [exact F3|]|].
  - eapply Rle_trans; [apply (edist_triangle _ Q)|]. rewrite (edist_sym Q). assert (BH' : Rabs h <= 100000) by lra. pose proof (gp_position a b B L h P _ _ _ Q m B1 B2 B3 B4 GP GQ BH') as MV. rewrite (Rabs_minus_sym h) in MV. eapply Rle_trans; [apply Rplus_le_compat; [exact W|exact MV]|]. lra.
  - pose proof (gp_norm a b _ _ _ P ltac:(lra) GP). lra.
Qed.

(** ** Through the reference frame *)
Lemma through_any T1 f1 g1 T2 f2 g2 X P s : moves64 lm T1 f1 g1 -> moves64 lm T2 f2 g2 -> within64 X s P -> s <= 800 -> edist P (0, 0, 0) <= 7000000 -> within64 (from_ref (ops := O) T2 (to_ref (ops := O) T1 X)) (1007 / 1000 * s + 11 / 10 ^ 8) (g2 (f1 P)).
Proof.
  intros M1 M2 (F1 & F2 & F3 & W) SB B. fold (pt X) in W. assert (S0 : 0 <= s) by (eapply Rle_trans; [|exact W]; destruct P as [[? ?] ?]; cbn [edist pt]; apply sqrt_pos). pose proof (edist_triangle (pt X) P (0, 0, 0)) as T. destruct (pt_le X 8000000 ltac:(lra)) as (C1 & C2 & C3).
  destruct (move_ref lm _ _ _ X M1 F1 F2 F3 C1 C2 C3) as [(G1 & G2 & G3 & W1) _]. set (Y := to_ref (ops := O) T1 X) in *. change (edist (pt Y) (f1 (pt X)) <= 5 / 10 ^ 8) in W1.
  destruct (move_lip lm _ _ _ M1 (pt X) P) as [[L1 _] _]. destruct (move_lip lm _ _ _ M1 (pt X) (pt X)) as [[_ L2] _]. pose proof (edist_triangle (pt Y) (f1 (pt X)) (0, 0, 0)) as TY.
  destruct (pt_le Y 8000000 ltac:(lra)) as (D1 & D2 & D3). destruct (move_ref lm _ _ _ Y M2 G1 G2 G3 D1 D2 D3) as [_ (H1 & H2 & H3 & W2)].
  split; [exact H1|]. split; [exact H2|]. split; [exact H3|]. set (Z := from_ref (ops := O) T2 Y) in *. change (edist (pt Z) (g2 (pt Y)) <= 5 / 10 ^ 8) in W2. change (edist (pt Z) (g2 (f1 P)) <= 1007 / 1000 * s + 11 / 10 ^ 8).
  destruct (move_lip lm _ _ _ M2 (pt Y) (f1 P)) as [_ [L3 _]]. pose proof (edist_triangle (pt Z) (g2 (pt Y)) (g2 (f1 P))) as T3. pose proof (edist_triangle (pt Y) (f1 (pt X)) (f1 P)) as T4. lra.
Qed.

(** ** Writing *)
Lemma gp_lift a b p l h P h' P' : 6300000 <= b -> b < a -> a <= 6400000 -> 99 * a <= 100 * b -> geodetic_point a b p l h P -> geodetic_point a b p l h' P' -> Rabs h <= 211000 -> Rabs h' <= 211000 -> edist P P' <= 2 * Rabs (h' - h).
Proof.
  intros B1 B2 B3 B4 G G' H H'. pose proof (gp_move a b p l h P p l h' P' 0%Z B1 B2 B3 B4 G G' H H') as MV. replace (l - l - 0 * (2 * PI)) with 0 in MV by ring. replace (p - p) with 0 in MV by ring. rewrite Rabs_R0 in MV. lra.
Qed.
Definition drawing (P : projection f64) (ch : chart) (dom : R -> R -> Prop) : Prop :=
  forall l p hh, is_finite l = true -> is_finite p = true -> Rabs (B2R l) <= 4 -> dom (B2R l) (B2R p) ->
  exists x y X Y, proj (ops := O) P (mkLLH l p hh) = Ok (mkENH x y hh) /\ is_finite x = true /\ is_finite y = true /\ ch (B2R l) (B2R p) X Y /\
    Rabs (B2R x - X) <= / 10 ^ 6 /\ Rabs (B2R y - Y) <= / 10 ^ 6 /\ Rabs X <= 190000000 /\ Rabs Y <= 190000000.
Lemma write_map id d spec a b m ch dom ax X T dst : earth64 (d_ellipsoid d) a b -> val64 (pm_lon (d_pm d)) m -> Rabs m <= 4 -> map_units64 lm ax -> (paxes_dim ax <= List.length dst)%nat ->
  drawing (applied_to (ops := O) spec (d_ellipsoid d)) ch dom -> is_finite (x_ X) = true -> is_finite (y_ X) = true -> is_finite (z_ X) = true -> edist (pt X) T <= 900 -> 6201000 <= edist T (0, 0, 0) <= 6499000 ->
  (forall l p h Q, geodetic_point a b p (l + m) h Q -> Rabs p <= PI / 2 -> Rabs h <= 210000 -> edist Q T <= 901 -> dom l p) ->
  exists out Q, from_xyz (ops := O) (ProjectedCrs id d ax spec) X dst = Ret (Ok (out ++ skipn (paxes_dim ax) dst)) /\ charted64 lm a b m ch (11 / 10 ^ 7) ax out Q /\ edist (pt X) Q <= 22 / 10 ^ 8.
Proof.
  intros HE VM BM UN LD DR F1 F2 F3 D TB DOM. destruct X as [x y z]. unfold pt in *. cbn [x_ y_ z_] in *.
  assert (N : 6200000 <= edist (B2R x, B2R y, B2R z) (0, 0, 0) <= 6500000).
  { pose proof (edist_triangle (B2R x, B2R y, B2R z) T (0, 0, 0)) as T1. pose proof (edist_triangle T (B2R x, B2R y, B2R z) (0, 0, 0)) as T2. rewrite (edist_sym T (B2R x, B2R y, B2R z)) in T2. lra. }
  destruct (c58_xyz_to_llh lm AC d a b HE m _ _ _ x y z VM (conj F1 eq_refl) (conj F2 eq_refl) (conj F3 eq_refl) BM N) as (l & p & h & Q & VL & VP & VH & LB & PP & HB & GP & W).
  set (G := xyz_to_llh (ops := F64ops lm) d (mkXYZ x y z)) in *. pose proof pi_pos as PI1. destruct VL as [FL VL], VP as [FP VP], VH as [FH VH].
  assert (L4 : Rabs l <= 4) by (apply Rabs_le; lra). subst l p h. assert (DM : dom (B2R (lon G)) (B2R (lat G))).
  { apply (DOM _ _ _ Q GP PP HB). eapply Rle_trans; [apply (edist_triangle Q (B2R x, B2R y, B2R z) T)|]. rewrite edist_sym in W. eapply Rle_trans; [apply Rplus_le_compat; [exact W|exact D]|]. lra. }
  destruct (DR (lon G) (lat G) (height G) FL FP L4 DM) as (e & n & X & Y & EP & Fe & Fn & CH & EX & EY & BX & BY).
  assert (EG : G = mkLLH (lon G) (lat G) (height G)) by (destruct G; reflexivity). assert (EP' : proj (ops := O) (applied_to (ops := O) spec (d_ellipsoid d)) G = Ok (mkENH e n (height G))) by (rewrite EG; exact EP).
  assert (FR : from_xyz (ops := O) (ProjectedCrs id d ax spec) (mkXYZ x y z) dst = obind (paxes_denormalize (ops := O) ax (mkENH e n (height G)) dst) (fun b => Ret (Ok b))) by exact (f_equal (fun r => match lift_proj_err r with Err e => Ret (Err e) | Ok enh => obind (paxes_denormalize (ops := O) ax enh dst) (fun b => Ret (Ok b)) end) EP').
  rewrite FR. clear FR EP' EG EP.
  assert (Be : Rabs (B2R e) <= 200000000) by (apply Rabs_le; apply Rabs_le_inv in EX, BX; lra). assert (Bn : Rabs (B2R n) <= 200000000) by (apply Rabs_le; apply Rabs_le_inv in EY, BY; lra).
  pose proof HE as (_ & _ & _ & B1 & B2 & B3 & B4).
  destruct UN as [u v ku kv U1 U2|u ku U1]; cbn [paxes_dim] in *.
  - destruct dst as [|d0 [|d1 [|d2 dst]]]; cbn in LD; try lia. destruct (map_out u ku e U1 Fe Be) as [O1 E1]. destruct (map_out u ku n U1 Fn Bn) as [O2 E2]. destruct (length_out lm v kv (height G) U2 FH HB) as [O3 E3].
    set (o1 := length_val (ops := O) e u) in *. set (o2 := length_val (ops := O) n u) in *. set (o3 := length_val (ops := O) (height G) v) in *.
    pose proof (gp_at a b (B2R (lat G)) (B2R (lon G) + m) (B2R o3 * kv) ltac:(lra)) as GQ. match type of GQ with geodetic_point _ _ _ _ _ ?q => set (Q' := q) in * end.
    exists [o1; o2; o3], Q'. split; [reflexivity|]. assert (M3 : Rabs (B2R o3 * kv - B2R (height G)) <= 4 / 2 ^ 53 * 210000 + / 2 ^ 60) by (eapply Rle_trans; [exact E3|]; apply Rplus_le_compat_r, Rmult_le_compat_l; [lra|exact HB]).
    assert (H' : Rabs (B2R o3 * kv) <= 211000). { replace (B2R o3 * kv) with (B2R o3 * kv - B2R (height G) + B2R (height G)) by ring. eapply Rle_trans; [apply Rabs_triang|]. eapply Rle_trans; [apply Rplus_le_compat; [exact M3|exact HB]|]. lra. }
    split.
    + exists (B2R o1 * ku), (B2R o2 * ku), (Some (B2R o3 * kv)), (B2R (lon G)), (B2R (lat G)), (B2R o3 * kv), X, Y.
      split; [constructor; try assumption; split; auto|]. split; [exact CH|]. split; [apply Rabs_le; apply Rabs_le_inv in E1, EX; lra|]. split; [apply Rabs_le; apply Rabs_le_inv in E2, EY; lra|]. split; [left; reflexivity|exact GQ].
    + assert (H0 : Rabs (B2R (height G)) <= 211000) by (eapply Rle_trans; [exact HB|lra]). pose proof (gp_lift a b _ _ _ Q _ Q' B1 B2 B3 B4 GP GQ H0 H') as MV.
      eapply Rle_trans; [apply (edist_triangle _ Q)|]. eapply Rle_trans; [apply Rplus_le_compat; [exact W|eapply Rle_trans; [exact MV|apply Rmult_le_compat_l; [lra|exact M3]]]|]. lra.
  - destruct dst as [|d0 [|d1 dst]]; cbn in LD; try lia. destruct (map_out u ku e U1 Fe Be) as [O1 E1]. destruct (map_out u ku n U1 Fn Bn) as [O2 E2].
    set (o1 := length_val (ops := O) e u) in *. set (o2 := length_val (ops := O) n u) in *. exists [o1; o2], Q. split; [reflexivity|]. split; [|lra].
    exists (B2R o1 * ku), (B2R o2 * ku), None, (B2R (lon G)), (B2R (lat G)), (B2R (height G)), X, Y.
    split; [constructor; try assumption; split; auto|]. split; [exact CH|]. split; [apply Rabs_le; apply Rabs_le_inv in E1, EX; lra|]. split; [apply Rabs_le; apply Rabs_le_inv in E2, EY; lra|]. split; [right; reflexivity|exact GP].
Qed.

(** ** Routes *)
Lemma run_route fuel c1 T1 T2 c2 src dst out : obind_result (to_xyz (ops := O) fuel c1 src) (fun X => from_xyz (ops := O) c2 (from_ref (ops := O) T2 (to_ref (ops := O) T1 X)) dst) = Ret (Ok out) -> runs64 lm fuel c1 T1 T2 c2 src dst out.
Proof. intros H. split; exact H. Qed.
Lemma route_any fuel c1 T1 f1 g1 T2 f2 g2 c2 src dst P s k (good : list f64 -> R3 -> Prop) : moves64 lm T1 f1 g1 -> moves64 lm T2 f2 g2 ->
  (exists X, to_xyz (ops := O) fuel c1 src = Ret (Ok X) /\ within64 X s P /\ edist P (0, 0, 0) <= 7000000) -> s <= 800 ->
  (forall X, is_finite (x_ X) = true -> is_finite (y_ X) = true -> is_finite (z_ X) = true -> edist (pt X) (g2 (f1 P)) <= 900 -> exists out Q, from_xyz (ops := O) c2 X dst = Ret (Ok (out ++ skipn k dst)) /\ good out Q /\ edist (pt X) Q <= 22 / 10 ^ 8) ->
  exists out Q, runs64 lm fuel c1 T1 T2 c2 src dst (out ++ skipn k dst) /\ good out Q /\ edist Q (g2 (f1 P)) <= 1007 / 1000 * s + 33 / 10 ^ 8.
Proof.
  intros M1 M2 (X & EX & W & B) SB WR. destruct (through_any _ _ _ _ _ _ X P s M1 M2 W SB B) as (F1 & F2 & F3 & W2). change (edist (pt (from_ref (ops := O) T2 (to_ref (ops := O) T1 X))) (g2 (f1 P)) <= 1007 / 1000 * s + 11 / 10 ^ 8) in W2.
  assert (S9 : 1007 / 1000 * s + 11 / 10 ^ 8 <= 900) by lra. destruct (WR _ F1 F2 F3 (Rle_trans _ _ _ W2 S9)) as (out & Q & E & GQ & D). exists out, Q. split; [apply run_route; rewrite EX; exact E|]. split; [exact GQ|].
  rewrite edist_sym in D. eapply Rle_trans; [eapply edist_triangle|]. eapply Rle_trans; [apply Rplus_le_compat; [exact D|exact W2]|]. lra.
Qed.
End Lm.
