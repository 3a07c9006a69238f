(** Binary64: Web Mercator and Mercator. *)
From Coq Require Import ZArith Reals QArith Qreals Lra Lia Bool Psatz List.
From Flocq Require Import Core IEEE754.BinarySingleNaN.
From Verif.Num Require Import FOps RFun XR XRLemmas F64 F64Lemmas PIBounds Near.
From Verif.Model Require Import Fp Quantities Cs Ellipsoid Geodesics Projections.
From Verif.Spec Require Import Angles Axes Shape Maps Accurate Binary64 Maps64.
From Verif.Proofs Require Import AnglesX AnglesF EllX ProjX MercX MercInv NearX NearL LlhF LlhInvG TransB CtorF NearT MapF.
Import ListNotations.
Local Open Scope R_scope.
Ltac qr := unfold Q2R; cbn; lra.

Lemma ln_125 X : / 125 <= X <= 125 -> -5 <= ln X <= 5.
Proof.
  assert (E5 : 125 < exp 5).
  { pose proof (exp_ineq1_le (/ 16)) as U. set (v := exp (/ 16)) in *.
    assert (E1 : 11289 / 10000 <= exp (/ 8)) by (replace (/ 8) with (/ 16 + / 16) by lra; rewrite exp_plus; fold v; assert (17 / 16 * (17 / 16) <= v * v) by (apply Rmult_le_compat; lra); lra).
    assert (E2 : 12744 / 10000 <= exp (/ 4)) by (replace (/ 4) with (/ 8 + / 8) by lra; rewrite exp_plus; set (w := exp (/ 8)) in *; assert (11289 / 10000 * (11289 / 10000) <= w * w) by (apply Rmult_le_compat; lra); lra).
    assert (E3 : 1624 / 1000 <= exp (/ 2)) by (replace (/ 2) with (/ 4 + / 4) by lra; rewrite exp_plus; set (w := exp (/ 4)) in *; assert (12744 / 10000 * (12744 / 10000) <= w * w) by (apply Rmult_le_compat; lra); lra).
    assert (E4 : 2637 / 1000 <= exp 1) by (replace 1 with (/ 2 + / 2) by lra; rewrite exp_plus; set (w := exp (/ 2)) in *; assert (1624 / 1000 * (1624 / 1000) <= w * w) by (apply Rmult_le_compat; lra); lra).
    assert (E6 : 695 / 100 <= exp 2) by (replace 2 with (1 + 1) by lra; rewrite exp_plus; set (w := exp 1) in *; assert (2637 / 1000 * (2637 / 1000) <= w * w) by (apply Rmult_le_compat; lra); lra).
    replace 5 with (2 + 2 + 1) by lra. rewrite !exp_plus. set (w := exp 2) in *. assert (695 / 100 * (695 / 100) <= w * w) by (apply Rmult_le_compat; lra). assert (695 / 100 * (695 / 100) * (2637 / 1000) <= w * w * exp 1) by (apply Rmult_le_compat; lra). lra. }
  assert (K : forall Y, 0 < Y <= 125 -> ln Y <= 5) by (intros Y H; rewrite <- (ln_exp 5); left; apply ln_increasing; lra).
  intros H. split; [|apply K; lra]. assert (/ X <= 125) by (apply Rle_trans with (/ / 125); [apply Rinv_le_contravar; lra|lra]). pose proof (K (/ X) ltac:(split; [apply Rinv_0_lt_compat; lra|lra])) as L. rewrite ln_Rinv in L by lra. lra.
Qed.

Section F.
Context (lm : libm) (AC : accurate lm).
Local Notation O := (F64ops lm).

(** ** Forward *)
Section P.
Context (p : f64) (Fp : is_finite p = true) (Bp : Rabs (B2R p) <= 89 * PI / 180).
Let lat1 : f64 := lat_add (ops := O) (lat_div (ops := O) p (f64_ofZ 2)) (angle_new (ops := O) PI_4_64 (RAD (ops := O))).
Lemma np_89 : nonpolar (B2R p). Proof. pose proof PI_64_bounds. apply Rabs_le_inv in Bp. unfold nonpolar. lra. Qed.
Lemma near_tan1 : near (lm_tan lm lat1) (tan (B2R p / 2 + PI / 4)) (Qmake 1 115) 115 (Qmake 40 (10 ^ 15)) tiny.
Proof.
  pose proof (near_quarter lm p Fp Bp) as N. fold lat1 in N. apply Rabs_le_inv in Bp. pose proof PI_RGT_0. pose proof (near_tan_q lm AC _ _ _ _ _ _ N ltac:(lra) ltac:(vm_compute; reflexivity)) as T. nnorm T.
  refine (near_weak _ _ _ _ _ _ _ _ _ _ T (proj1 (proj2 T)) _ _); vm_compute; reflexivity.
Qed.
Lemma near_isom : near (lm_ln lm (lm_tan lm lat1)) (isom (B2R p)) (-5) 5 0 (Qmake 5 (10 ^ 14)).
Proof.
  pose proof near_tan1 as T. assert (B : / 115 <= tan (B2R p / 2 + PI / 4) <= 115). { destruct T as (_ & B & _). replace (Q2R (Qmake 1 115)) with (/ 115) in B by qr. replace (Q2R 115) with 115 in B by qr. exact B. }
  pose proof (near_ln lm AC _ _ _ _ _ _ (Qmake 41 (10 ^ 15)) (-5) 5 T ltac:(vm_compute; reflexivity) ltac:(replace (Q2R (-5)) with (-5) by qr; replace (Q2R 5) with 5 by qr; apply ln_125; lra)) as L. apply near_abs in L. nnorm L. unfold isom.
  refine (near_weak _ _ _ _ _ _ _ _ _ _ L (proj1 (proj2 L)) _ _); vm_compute; reflexivity.
Qed.
Section E.
Context (E : Ellipsoid f64) (a b : R) (HE : earth64 E a b).
Lemma e_range : 0 < b <= a /\ 0 <= the_e a b <= 142 / 1000.
Proof.
  destruct HE as (_ & _ & _ & B1 & B2 & B3 & B4). split; [lra|]. split; [apply sqrt_pos|]. rewrite <- (sqrt_square (142 / 1000)) by lra. apply sqrt_le_1_alt. apply (Rmult_le_reg_r (a * a)); [nra|]. unfold Rdiv at 1. rewrite Rmult_assoc, Rinv_l by nra. nra.
Qed.
Lemma near_ecc : near (ecc (ops := O) E) (the_e a b) 0 (Qmake 142 1000) (Qmake 5 (2 ^ 53)) (Qmake 2 (2 ^ 58)).
Proof.
  pose proof (near_e2 lm E a b HE) as N. replace ((a - b) * (a + b)) with (a * a - b * b) in N by ring.
  assert (P : 0 <= B2R (e_sq (ops := O) E)).
  { destruct (near_axes E a b HE) as [NA NB]. destruct HE as ((F1 & V1) & (F2 & V2) & _ & B1 & B2 & B3 & B4). unfold e_sq, a_sq. cbn [fsub fadd fmul fdiv F64ops]. nsub NA NB N1. nadd NA NB N2. nmul N1 N2 N3. nmul NA NA N4. ndiv N3 N4 N5.
    assert (P1 : 0 <= B2R (Bminus mode_NE (e_a E) (e_b E))). { destruct (f64_minus (e_a E) (e_b E) F1 F2) as [V _]. { rewrite V1, V2. apply Rle_trans with (bpow radix2 30); [cbn; apply Rabs_le; lra|apply bpow_le; lia]. } rewrite V. apply rnd_pos. rewrite V1, V2. lra. }
    assert (P2 : 0 <= B2R (Bplus mode_NE (e_a E) (e_b E))) by (apply add_sgn; [exact F1|exact F2|exact (proj1 N2)|rewrite V1; lra|rewrite V2; lra]).
    apply div_sgn; [exact (proj1 N5)|apply mul_sgn; [exact (proj1 N3)|exact P1|exact P2]|]. apply (near_pos _ _ _ _ _ _ N4). vm_compute. reflexivity. }
  pose proof (near_sqrt0 _ _ _ _ _ _ N P ltac:(vm_compute; reflexivity)) as S. nnorm S. destruct e_range as [_ R]. refine (near_weak _ _ _ _ _ _ _ _ _ _ S _ _ _); [|vm_compute; reflexivity|vm_compute; reflexivity].
  rewrite q0. replace (Q2R (Qmake 142 1000)) with (142 / 1000) by qr. exact R.
Qed.
Let es : f64 := Bmult mode_NE (ecc (ops := O) E) (lm_sin lm p).
Let Rf : f64 := lm_powf lm (Bdiv mode_NE (Bminus mode_NE (f64_ofZ 1) es) (Bplus mode_NE (f64_ofZ 1) es)) (Bdiv mode_NE (ecc (ops := O) E) (f64_ofZ 2)).
Lemma near_R : near Rf (Rpower ((1 - the_e a b * sin (B2R p)) / (1 + the_e a b * sin (B2R p))) (the_e a b / 2)) (Qmake 94 100) (Qmake 106 100) (Qmake 2 (10 ^ 15)) tiny.
Proof.
  unfold Rf, es. pose proof near_ecc as NE. destruct e_range as [_ R]. pose proof Bp as Bp'. apply Rabs_le_inv in Bp'. pose proof PI_64_bounds as PB. pose proof (near_exact p (-2) 2 Fp ltac:(split; unfold Q2R; cbn; lra)) as N0.
  pose proof (near_sin lm AC _ _ _ _ _ _ N0 ltac:(vm_compute; reflexivity)) as NS. nnorm NS. nmul NE NS N1. nZ 1%Z Z1. nZ 2%Z Z2. nsub Z1 N1 N2. nadd Z1 N1 N3. ndiv N2 N3 N4. ndiv NE Z2 N5. set (e := the_e a b) in *. set (s := sin (B2R p)) in *.
  assert (ES : Rabs (e * s) <= 142 / 1000). { rewrite Rabs_mult, (Rabs_right e) by lra. assert (Rabs s <= 1) by (apply Rabs_le, SIN_bound). pose proof (Rabs_pos s). nra. }
  apply Rabs_le_inv in ES. set (t := e * s) in *. set (q := (1 - t) / (1 + t)) in *.
  assert (QB : / 2 <= q <= 3 / 2). { unfold q. split; apply (Rmult_le_reg_r (1 + t)); try lra; unfold Rdiv; rewrite ?Rmult_assoc, Rinv_l by lra; lra. }
  apply (near_range _ _ _ _ _ _ (Qmake 1 2) (Qmake 3 2)) in N4; [|replace (Q2R (Qmake 1 2)) with (/ 2) by qr; replace (Q2R (Qmake 3 2)) with (3 / 2) by qr; exact QB].
  pose proof (ln_half q ltac:(lra)) as LQ. apply Rabs_le_inv in LQ. assert (YB : Rabs (e / 2 * ln q) <= 54 / 1000). { rewrite Rabs_mult, (Rabs_right (e / 2)) by lra. assert (Rabs (ln q) <= 3 / 4) by (apply Rabs_le; lra). pose proof (Rabs_pos (ln q)). assert (e / 2 * Rabs (ln q) <= 71 / 1000 * (3 / 4)) by (apply Rmult_le_compat; lra). lra. }
  assert (G : 94 / 100 <= Rpower q (e / 2) <= 106 / 100). { unfold Rpower. apply Rabs_le_inv in YB. set (z := e / 2 * ln q) in *. pose proof (exp_ineq1_le z). pose proof (exp_ineq1_le (- z)) as U. rewrite exp_Ropp in U. pose proof (exp_pos z). split; [lra|]. apply (Rmult_le_compat_l (exp z)) in U; [|lra]. rewrite Rinv_r in U by lra. nra. }
  pose proof (near_powf lm AC _ _ _ _ _ _ _ _ _ _ _ _ (Qmake 16 (10 ^ 16)) (Qmake 94 100) (Qmake 106 100) N4 N5 ltac:(vm_compute; reflexivity) ltac:(vm_compute; reflexivity) ltac:(vm_compute; reflexivity) ltac:(replace (Q2R (Qmake 94 100)) with (94 / 100) by qr; replace (Q2R (Qmake 106 100)) with (106 / 100) by qr; exact G)) as N6. nnorm N6.
  refine (near_weak _ _ _ _ _ _ _ _ _ _ N6 (proj1 (proj2 N6)) _ _); vm_compute; reflexivity.
Qed.
Lemma near_isom_e : near (lm_ln lm (Bmult mode_NE (lm_tan lm lat1) Rf)) (isom_e (the_e a b) (B2R p)) (-5) 5 0 (Qmake 5 (10 ^ 14)).
Proof.
  pose proof near_tan1 as T. pose proof near_R as NR. nmul T NR N9. destruct e_range as [_ R].
  assert (B : / 115 <= tan (B2R p / 2 + PI / 4) <= 115). { destruct T as (_ & B & _). replace (Q2R (Qmake 1 115)) with (/ 115) in B by qr. replace (Q2R 115) with 115 in B by qr. exact B. }
  assert (B2 : 94 / 100 <= Rpower ((1 - the_e a b * sin (B2R p)) / (1 + the_e a b * sin (B2R p))) (the_e a b / 2) <= 106 / 100). { destruct NR as (_ & B2 & _). replace (Q2R (Qmake 94 100)) with (94 / 100) in B2 by qr. replace (Q2R (Qmake 106 100)) with (106 / 100) in B2 by qr. exact B2. }
  rewrite <- (isom_e_pow (the_e a b) (B2R p) ltac:(lra) np_89). set (r := Rpower _ _) in *. set (q := tan _) in *.
  assert (B3 : / 125 <= q * r <= 125). { split; [apply Rle_trans with (/ 115 * (94 / 100)); [lra|apply Rmult_le_compat; lra]|apply Rle_trans with (115 * (106 / 100)); [apply Rmult_le_compat; lra|lra]]. }
  pose proof (near_ln lm AC _ _ _ _ _ _ (Qmake 43 (10 ^ 15)) (-5) 5 N9 ltac:(vm_compute; reflexivity) ltac:(replace (Q2R (-5)) with (-5) by qr; replace (Q2R 5) with 5 by qr; apply ln_125; exact B3)) as L. apply near_abs in L. nnorm L.
  refine (near_weak _ _ _ _ _ _ _ _ _ _ L (proj1 (proj2 L)) _ _); vm_compute; reflexivity.
Qed.
End E.
End P.

(** Scale to metres and shift. *)
Section C.
Context (cf : f64) (c : R) (NC : near cf c 3000000 13000000 (Qmake 20 (2 ^ 53)) (Qmake 1 (2 ^ 60))).
Lemma map_east (l m fe : f64) L M FE : val64 l L -> val64 m M -> val64 fe FE -> Rabs L <= 4 -> Rabs M <= 4 -> Rabs FE <= 100000000 ->
  let x := Bplus mode_NE fe (Bmult mode_NE (lon_sub (ops := O) l m) cf) in
  is_finite x = true /\ exists d, same_angle (M + d) L /\ Rabs d <= PI + 2 / 10 ^ 14 /\ Rabs (B2R x - (FE + c * d)) <= / 10 ^ 6.
Proof.
  intros [Fl Vl] [Fm Vm] [Ff Vf] Bl Bm Bf. rewrite <- Vl in Bl |- *. rewrite <- Vm in Bm |- *. rewrite <- Vf in Bf |- *. clear Vl Vm Vf. destruct (near_lon_sub lm l m Fl Fm Bl Bm) as (k & N & D). cbv zeta.
  apply Rabs_le_inv in Bf. pose proof (near_exact fe (-100000000) 100000000 Ff ltac:(split; qr)) as NF. nmul N NC N1. nadd NF N1 N2. pose proof (near_err _ _ _ _ _ _ N2) as E. split; [exact (proj1 N2)|].
  exists (B2R l - B2R m - IZR k * (2 * PI)). split; [exists (- k)%Z; rewrite opp_IZR; ring|]. split; [exact D|]. rewrite (Rmult_comm c). eapply Rle_trans; [exact E|]. replace (/ 10 ^ 6) with (Q2R (Qmake 1 (10 ^ 6))) by qmk. apply qle. vm_compute. reflexivity.
Qed.
Lemma map_north (y fn : f64) Y FN : near y Y (-5) 5 0 (Qmake 5 (10 ^ 14)) -> val64 fn FN -> Rabs FN <= 100000000 ->
  let z := Bplus mode_NE fn (Bmult mode_NE y cf) in is_finite z = true /\ Rabs (B2R z - (FN + c * Y)) <= / 10 ^ 6.
Proof.
  intros N [Ff Vf] Bf. rewrite <- Vf in Bf |- *. clear Vf. apply Rabs_le_inv in Bf. pose proof (near_exact fn (-100000000) 100000000 Ff ltac:(split; qr)) as NF. nmul N NC N1. nadd NF N1 N2. pose proof (near_err _ _ _ _ _ _ N2) as E. cbv zeta. split; [exact (proj1 N2)|].
  rewrite (Rmult_comm c). eapply Rle_trans; [exact E|]. replace (/ 10 ^ 6) with (Q2R (Qmake 1 (10 ^ 6))) by qmk. apply qle. vm_compute. reflexivity.
Qed.
(** ** Inverse *)
Lemma c_pos : 3000000 <= c <= 13000000.
Proof. destruct NC as (_ & B & _). replace (Q2R 3000000) with 3000000 in B by qr. replace (Q2R 13000000) with 13000000 in B by qr. exact B. Qed.
Lemma unmap_lon (x fe m : f64) X FE M : val64 x X -> val64 fe FE -> val64 m M -> Rabs M <= 4 -> Rabs FE <= 100000000 -> Rabs (X - FE) <= 39 / 10 * c ->
  let l := lon_add (ops := O) m (arc_div (ops := O) (Bminus mode_NE x fe) cf) in
  is_finite l = true /\ exists n, same_angle n (M + (X - FE) / c) /\ Rabs (B2R l - n) <= 3 / 10 ^ 14.
Proof.
  intros [Fx Vx] [Ff Vf] [Fm Vm] Bm Bf Bx. pose proof c_pos as CP. rewrite <- Vm in *. rewrite <- Vx in *. rewrite <- Vf in *. apply Rabs_le_inv in Bf, Bx.
  pose proof (near_exact fe (-100000000) 100000000 Ff ltac:(split; qr)) as NF. pose proof (near_exact x (-200000000) 200000000 Fx ltac:(split; qr)) as NX. nsub NX NF N1. ndiv N1 NC N2. nZ 1%Z Z1. ndiv Z1 Z1 Z2.
  assert (QB : - (39 / 10) <= (B2R x - B2R fe) / c <= 39 / 10). { split; apply (Rmult_le_reg_r c); try lra; unfold Rdiv; rewrite Rmult_assoc, Rinv_l by lra; lra. }
  apply (near_range _ _ _ _ _ _ (Qmake (-39) 10) (Qmake 39 10)) in N2; [|replace (Q2R (Qmake (-39) 10)) with (- (39 / 10)) by qr; replace (Q2R (Qmake 39 10)) with (39 / 10) by qr; exact QB].
  nmul N2 Z2 N3. replace ((B2R x - B2R fe) / c * (1 / 1)) with ((B2R x - B2R fe) / c) in N3 by (field; lra). pose proof (near_err _ _ _ _ _ _ N3) as E3.
  change (arc_div (ops := O) (Bminus mode_NE x fe) cf) with (Bmult mode_NE (Bdiv mode_NE (Bminus mode_NE x fe) cf) (Bdiv mode_NE (f64_ofZ 1) (f64_ofZ 1))). pose proof (proj1 N3) as F3. revert F3 E3. generalize (Bmult mode_NE (Bdiv mode_NE (Bminus mode_NE x fe) cf) (Bdiv mode_NE (f64_ofZ 1) (f64_ofZ 1))). intros w F3 E3.
  assert (E : Rabs (B2R w - (B2R x - B2R fe) / c) <= 12 / 10 ^ 15). { eapply Rle_trans; [exact E3|]. replace (12 / 10 ^ 15) with (Q2R (Qmake 12 (10 ^ 15))) by qmk. apply qle. vm_compute. reflexivity. } clear E3.
  destruct (near_lon_add lm m w Fm F3 Bm ltac:(apply Rabs_le_inv in E; apply Rabs_le; lra)) as (k & NL). pose proof (near_err _ _ _ _ _ _ NL) as EL. cbv zeta. split; [exact (proj1 NL)|].
  exists (B2R m + (B2R x - B2R fe) / c - IZR k * (2 * PI)). split; [exists (- k)%Z; rewrite opp_IZR; ring|]. revert EL. generalize (lon_add (ops := O) m w). intros v EL.
  assert (EL' : Rabs (B2R v - (B2R m + B2R w - IZR k * (2 * PI))) <= 6 / 2 ^ 50). { eapply Rle_trans; [exact EL|]. replace (6 / 2 ^ 50) with (Q2R (Qmake 6 (2 ^ 50))) by qmk. apply qle. vm_compute. reflexivity. }
  apply Rabs_le_inv in EL', E. apply Rabs_le. lra.
Qed.
Section Y.
Context (y fn : f64) (Y FN : R) (Vy : val64 y Y) (Vf : val64 fn FN) (Bf : Rabs FN <= 100000000) (By : Rabs (Y - FN) <= 5 * c).
Let t : f64 := lm_exp lm (Bdiv mode_NE (Bminus mode_NE fn y) cf).
Let XI : R := PI / 2 - 2 * atan (exp (- ((Y - FN) / c))).
Lemma near_2atan : near (Bmult mode_NE (f64_ofZ 2) (lm_atan lm t)) (2 * atan (exp (- ((Y - FN) / c)))) 0 (Qmake 316 100) 0 (Qmake 19 (10 ^ 15)).
Proof.
  unfold t. destruct Vy as [Fy Vy']. destruct Vf as [Ff Vf']. pose proof c_pos as CP. rewrite <- Vy' in *. rewrite <- Vf' in *. pose proof Bf as Bf'. pose proof By as By'. apply Rabs_le_inv in Bf', By'.
  pose proof (near_exact fn (-100000000) 100000000 Ff ltac:(split; qr)) as NF. pose proof (near_exact y (-200000000) 200000000 Fy ltac:(split; qr)) as NY. nsub NF NY N1. ndiv N1 NC N2.
  assert (QE : (B2R fn - B2R y) / c = - ((B2R y - B2R fn) / c)) by (field; lra). rewrite QE in N2. set (z := - ((B2R y - B2R fn) / c)) in *.
  assert (QB : - 5 <= z <= 5). { rewrite <- QE. split; apply (Rmult_le_reg_r c); try lra; unfold Rdiv; rewrite Rmult_assoc, Rinv_l by lra; lra. }
  apply (near_range _ _ _ _ _ _ (-5) 5) in N2; [|replace (Q2R (-5)) with (-5) by qr; replace (Q2R 5) with 5 by qr; lra].
  assert (EB : / 243 <= exp z <= 243). { assert (K : forall w, w <= 5 -> exp w <= 243). { intros w W. apply Rle_trans with (exp 5); [destruct (Rle_lt_or_eq_dec _ _ W) as [G|G]; [left; now apply exp_increasing|rewrite G; lra]|]. replace 5 with (1 + 1 + (1 + 1) + 1) by lra. rewrite !exp_plus. pose proof exp_le_3 as E3. pose proof (exp_pos 1). set (e := exp 1) in *. assert (e * e <= 9) by nra. assert (0 <= e * e) by nra. assert (e * e * (e * e) <= 81) by nra. assert (0 <= e * e * (e * e)) by nra. nra. }
    split; [|apply K; lra]. pose proof (K (- z) ltac:(lra)) as K1. rewrite exp_Ropp in K1. pose proof (exp_pos z) as P. rewrite <- (Rinv_inv (exp z)). apply Rinv_le_contravar; [now apply Rinv_0_lt_compat|exact K1]. }
  pose proof (near_exp lm AC _ _ _ _ _ _ (Qmake 13 (10 ^ 15)) (Qmake 1 243) 243 N2 ltac:(vm_compute; reflexivity) ltac:(replace (Q2R (Qmake 1 243)) with (/ 243) by qr; replace (Q2R 243) with 243 by qr; exact EB)) as N3. nnorm N3.
  pose proof (near_atan_r lm AC _ _ _ _ _ _ (Qmake 15 (10 ^ 15)) N3 ltac:(vm_compute; reflexivity)) as N4. nnorm N4. nZ 2%Z Z2. nmul Z2 N4 N5. apply near_abs in N5. nnorm N5.
  refine (near_weak _ _ _ _ _ _ _ _ _ _ N5 _ _ _); [|vm_compute; reflexivity|vm_compute; reflexivity]. rewrite q0. replace (Q2R (Qmake 316 100)) with (316 / 100) by qr. pose proof (atan_bound (exp z)). pose proof PI_64_bounds. pose proof (atan_increasing 0 (exp z) (exp_pos z)) as A0. rewrite atan_0 in A0. lra.
Qed.
Lemma near_xi : near (Bminus mode_NE PI_2_64 (Bmult mode_NE (f64_ofZ 2) (lm_atan lm t))) XI (Qmake (-158) 100) (Qmake 158 100) 0 (Qmake 2 (10 ^ 14)).
Proof.
  pose proof near_2atan as N. nsub near_pi2 N N1. apply near_abs in N1. nnorm N1. fold XI in N1. refine (near_weak _ _ _ _ _ _ _ _ _ _ N1 _ _ _); [|vm_compute; reflexivity|vm_compute; reflexivity].
  pose proof (isom_lat_range (- ((Y - FN) / c))) as R. fold XI in R. pose proof PI_64_bounds. replace (Q2R (Qmake (-158) 100)) with (- (158 / 100)) by qr. replace (Q2R (Qmake 158 100)) with (158 / 100) by qr. lra.
Qed.
Lemma web_lat : let p := lat_new (ops := O) (Bminus mode_NE PI_2_64 (angle_new (ops := O) (Bmult mode_NE (f64_ofZ 2) (lm_atan lm t)) (RAD (ops := O)))) in
  is_finite p = true /\ Rabs (B2R p - XI) <= 3 / 10 ^ 14.
Proof.
  pose proof near_2atan as N. nZ 1%Z Z1. ndiv Z1 Z1 Z2. nmul N Z2 N1. replace (2 * atan (exp (- ((Y - FN) / c))) * (1 / 1)) with (2 * atan (exp (- ((Y - FN) / c)))) in N1 by field. nsub near_pi2 N1 N2. pose proof (near_err _ _ _ _ _ _ N2) as E2. fold XI in E2.
  pose proof (isom_lat_range (- ((Y - FN) / c))) as R. fold XI in R. unfold angle_new, per_unit. cbn [fst snd RAD fmul fdiv F64ops]. change (fofZ (FOps := O) 1) with (f64_ofZ 1). pose proof (proj1 N2) as F2. revert F2 E2. generalize (Bminus mode_NE PI_2_64 (Bmult mode_NE (Bmult mode_NE (f64_ofZ 2) (lm_atan lm t)) (Bdiv mode_NE (f64_ofZ 1) (f64_ofZ 1)))). intros w F2 E2.
  assert (E : Rabs (B2R w - XI) <= 25 / 10 ^ 15). { eapply Rle_trans; [exact E2|]. replace (25 / 10 ^ 15) with (Q2R (Qmake 25 (10 ^ 15))) by qmk. apply qle. vm_compute. reflexivity. }
  destruct (lat_clamp lm w XI _ F2 E ltac:(apply Rabs_le; lra)) as (C1 & _ & C3). cbv zeta. split; [exact C1|]. lra.
Qed.
End Y.
End C.
End F.
