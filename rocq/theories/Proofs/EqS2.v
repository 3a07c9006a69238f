(** Proofs on equality of ellipsoids, meridians and datums, and on the sampling of bin/sample_s2.rs. *)
From Coq Require Import Reals Lra List Bool ZArith String.
From Flocq Require Import Core IEEE754.BinarySingleNaN.
From Verif.Num Require Import FOps RFun XR XRLemmas F64 F64Lemmas.
From Verif.Model Require Import Fp Quantities Cs Ellipsoid Geodesics Projections Crs Geometry.
From Verif.Spec Require Import Axes Shape NoNan.
From Verif.Proofs Require Import AnglesX EllX.
Import ListNotations.

(** ** Equality in binary64 *)
Lemma Beqb_iff (x y : f64) : Beqb x y = true <->
  (is_finite x = true /\ is_finite y = true /\ B2R x = B2R y) \/
  (exists s, x = B754_infinity s /\ y = B754_infinity s).
Proof.
  destruct (is_finite x) eqn:Fx, (is_finite y) eqn:Fy.
  - rewrite Beqb_correct by easy. split.
    + destruct (Req_bool_spec (B2R x) (B2R y)); [|easy]. intros _; left; easy.
    + intros [(_ & _ & E)|(s & -> & _)]; [now apply Req_bool_true|easy].
  - split; [|intros [(? & ? & ?)|(s & -> & ->)]; easy].
    destruct x as [s|s| |s m e B], y as [s'|s'| |s' m' e' B']; try easy; destruct s'; try easy; destruct s; easy.
  - split; [|intros [(? & ? & ?)|(s & -> & ->)]; easy].
    destruct x as [s|s| |s m e B], y as [s'|s'| |s' m' e' B']; try easy; destruct s; try easy; destruct s'; easy.
  - split.
    + destruct x as [s|s| |s m e B], y as [s'|s'| |s' m' e' B']; try easy; intros H; right.
      destruct s, s'; try easy; eexists; split; reflexivity.
    + intros [(? & ? & ?)|(s & -> & ->)]; [easy|]. now destruct s.
Qed.
Lemma Beqb_symm (x y : f64) : Beqb x y = true -> Beqb y x = true.
Proof. rewrite !Beqb_iff. intros [(A & B & C)|(s & A & B)]; [left|right; exists s]; auto. Qed.
Lemma Beqb_trans (x y z : f64) : Beqb x y = true -> Beqb y z = true -> Beqb x z = true.
Proof.
  rewrite !Beqb_iff. intros [(A & B & C)|(s & A & B)] [(A' & B' & C')|(s' & A' & B')].
  - left. repeat split; auto. congruence.
  - subst y. easy.
  - subst y. easy.
  - right. exists s. split; [easy|]. congruence.
Qed.

Lemma ellipsoid_eq_iff (lm : libm) E E' : ellipsoid_eq (ops := F64ops lm) E E' = true <->
  Beqb (e_a E) (e_a E') = true /\ Beqb (e_b E) (e_b E') = true /\ Beqb (e_invf E) (e_invf E') = true.
Proof. unfold ellipsoid_eq. cbn [feq F64ops]. rewrite !andb_true_iff. tauto. Qed.
Lemma ellipsoid_equivalence (lm : libm) :
  (forall E, ellipsoid_eq (ops := F64ops lm) E E = true <-> no_nan_ellipsoid E) /\
  (forall E E', ellipsoid_eq (ops := F64ops lm) E E' = true -> ellipsoid_eq (ops := F64ops lm) E' E = true) /\
  (forall E E' E'', ellipsoid_eq (ops := F64ops lm) E E' = true ->
     ellipsoid_eq (ops := F64ops lm) E' E'' = true -> ellipsoid_eq (ops := F64ops lm) E E'' = true).
Proof.
  split; [|split].
  - intros E. rewrite ellipsoid_eq_iff, !Beqb_refl. unfold no_nan_ellipsoid.
    rewrite !negb_true_iff. tauto.
  - intros E E'. rewrite !ellipsoid_eq_iff. intros (A & B & C). repeat split; now apply Beqb_symm.
  - intros E E' E''. rewrite !ellipsoid_eq_iff. intros (A & B & C) (A' & B' & C').
    repeat split; eapply Beqb_trans; eauto.
Qed.
Lemma ellipsoid_names (lm : libm) n n' a b i E : 
  ellipsoid_eq (ops := F64ops lm) (mkEllipsoid n a b i) E =
  ellipsoid_eq (ops := F64ops lm) (mkEllipsoid n' a b i) E /\
  ellipsoid_eq (ops := F64ops lm) E (mkEllipsoid n a b i) =
  ellipsoid_eq (ops := F64ops lm) E (mkEllipsoid n' a b i).
Proof. easy. Qed.
Lemma meridian_equivalence (lm : libm) :
  (forall P Q, pm_eq (ops := F64ops lm) P Q = true <-> Beqb (pm_lon P) (pm_lon Q) = true) /\
  (forall P, pm_eq (ops := F64ops lm) P P = true <-> is_nan (pm_lon P) = false) /\
  (forall P Q, pm_eq (ops := F64ops lm) P Q = true -> pm_eq (ops := F64ops lm) Q P = true) /\
  (forall P Q R, pm_eq (ops := F64ops lm) P Q = true -> pm_eq (ops := F64ops lm) Q R = true ->
     pm_eq (ops := F64ops lm) P R = true).
Proof.
  split; [easy|]. split; [|split].
  - intros P. change (Beqb (pm_lon P) (pm_lon P) = true <-> is_nan (pm_lon P) = false).
    rewrite Beqb_refl. now destruct (is_nan (pm_lon P)).
  - intros P Q. apply Beqb_symm.
  - intros P Q R. apply Beqb_trans.
Qed.
Lemma datum_equivalence (lm : libm) :
  (forall d d', datum_eq (ops := F64ops lm) d d' = true <->
     d_id d = d_id d' /\ ellipsoid_eq (ops := F64ops lm) (d_ellipsoid d) (d_ellipsoid d') = true /\
     pm_eq (ops := F64ops lm) (d_pm d) (d_pm d') = true) /\
  (forall d, datum_eq (ops := F64ops lm) d d = true <->
     no_nan_ellipsoid (d_ellipsoid d) /\ is_nan (pm_lon (d_pm d)) = false) /\
  (forall d d', datum_eq (ops := F64ops lm) d d' = true -> datum_eq (ops := F64ops lm) d' d = true) /\
  (forall d d' d'', datum_eq (ops := F64ops lm) d d' = true -> datum_eq (ops := F64ops lm) d' d'' = true ->
     datum_eq (ops := F64ops lm) d d'' = true).
Proof.
  assert (I : forall d d', datum_eq (ops := F64ops lm) d d' = true <->
     d_id d = d_id d' /\ ellipsoid_eq (ops := F64ops lm) (d_ellipsoid d) (d_ellipsoid d') = true /\
     pm_eq (ops := F64ops lm) (d_pm d) (d_pm d') = true).
  { intros d d'. unfold datum_eq. rewrite !andb_true_iff, String.eqb_eq. tauto. }
  destruct (ellipsoid_equivalence lm) as (E1 & E2 & E3).
  destruct (meridian_equivalence lm) as (_ & P1 & P2 & P3).
  split; [easy|]. split; [|split].
  - intros d. rewrite I, E1, P1. tauto.
  - intros d d'. rewrite !I. intros (A & B & C). auto.
  - intros d d' d''. rewrite !I. intros (A & B & C) (A' & B' & C'). split; [congruence|]. eauto.
Qed.
(** two values equal as numbers, different as bits: the names differ, a zero longitude is signed *)
Lemma equality_example (lm : libm) :
  pm_eq (ops := F64ops lm) (mkPM "A" (B754_zero false)) (mkPM "B" (B754_zero true)) = true /\
  datum_eq (ops := F64ops lm) (mkDatum "A" (WGS84 (ops := F64ops lm)) (GREENWICH (ops := F64ops lm)))
                              (mkDatum "B" (WGS84 (ops := F64ops lm)) (GREENWICH (ops := F64ops lm))) = false.
Proof. split; reflexivity. Qed.

(** ** Sampling *)
Local Open Scope R_scope.
Lemma s2_point a b x y z : 0 < b <= a -> x * x + y * y + z * z = 1 ->
  surface_point a b (Ratan2 z (b / a * sqrt ((1 - z) * (1 + z)))) (Ratan2 y x) (a * x, a * y, b * z).
Proof.
  intros Hab U. split.
  - cbn. field_simplify_eq; [|lra]. nra.
  - set (w := sqrt ((1 - z) * (1 + z))).
    assert (Z : -1 <= z <= 1) by nra.
    assert (W0 : 0 <= (1 - z) * (1 + z)) by nra.
    assert (W : w * w = x * x + y * y) by (unfold w; rewrite sqrt_sqrt by easy; lra).
    assert (Wp : 0 <= w) by apply sqrt_pos. clearbody w.
    destruct (Ratan2_spec z (b / a * w)) as [C1 S1]. destruct (Ratan2_spec y x) as [C2 S2].
    set (rho := Rhypot (b / a * w) z) in *.
    assert (Hr : Rhypot x y = w) by (apply Rhypot_unique; lra).
    rewrite Hr in C2, S2.
    assert (Q : 0 < b / a) by (apply Rdiv_lt_0_compat; lra).
    assert (R0 : 0 < rho).
    { apply Rhypot_pos. destruct (Req_dec z 0) as [->|]; [left|now right].
      intros E. apply Rmult_integral in E. destruct E; [lra|]. subst w. nra. }
    exists (rho / b). split; [now apply Rdiv_lt_0_compat; lra|].
    unfold normal. cbv beta iota.
    assert (K1 : cos (Ratan2 z (b / a * w)) = b / a * w / rho).
    { apply (Rmult_eq_reg_l rho); [|lra]. rewrite C1. field. lra. }
    assert (K2 : sin (Ratan2 z (b / a * w)) = z / rho).
    { apply (Rmult_eq_reg_l rho); [|lra]. rewrite S1. field. lra. }
    rewrite K1, K2.
    assert (X : a * x / (a * a) = w * cos (Ratan2 y x) / a) by (rewrite C2; field; lra).
    assert (Y : a * y / (a * a) = w * sin (Ratan2 y x) / a) by (rewrite S2; field; lra).
    rewrite X, Y. repeat split; field; lra.
Qed.
Lemma s2_spec a i m u x y z : 0 < a -> 1 < i -> m <> 0 -> u <> 0 -> x * x + y * y + z * z = 1 ->
  exists X Y Z l p,
  s2_to_xyz (Fin a) (Fin i) (Fin m) (Fin x) (Fin y) (Fin z) = (Fin (X / m), Fin (Y / m), Fin (Z / m)) /\
  s2_to_ll (Fin i) (Fin u) (Fin x) (Fin y) (Fin z) = (Fin (l / u), Fin (p / u)) /\
  - PI < l <= PI /\ - (PI / 2) <= p <= PI / 2 /\
  surface_point a (a * (1 - 1 / i)) p l (X, Y, Z).
Proof.
  intros Ha Hi Hm Hu U. set (b := a * (1 - 1 / i)).
  assert (Hf : 0 < 1 / i < 1).
  { split; [apply Rdiv_lt_0_compat; lra|]. apply (Rmult_lt_reg_r i); [lra|].
    replace (1 / i * i) with 1 by (field; lra). lra. }
  assert (Hb : 0 < b <= a) by (unfold b; split; nra).
  assert (Z : -1 <= z <= 1) by nra.
  exists (a * x), (a * y), (b * z), (Ratan2 y x), (Ratan2 z (b / a * sqrt ((1 - z) * (1 + z)))).
  split; [|split; [|split; [|split]]].
  - unfold s2_to_xyz. xr. rewrite !xdiv_fin by lra. xr. rewrite !xdiv_fin by lra.
    unfold b. f_equal. f_equal. field. lra.
  - unfold s2_to_ll. xr. rewrite xsqrt_fin by nra. rewrite (xdiv_fin 1 i) by lra. xr.
    rewrite !xdiv_fin by lra. f_equal. f_equal. f_equal. f_equal. unfold b. f_equal. field. lra.
  - apply Ratan2_bound.
  - apply Ratan2_range_pos. apply Rmult_le_pos; [|apply sqrt_pos].
    left. apply Rdiv_lt_0_compat; lra.
  - now apply s2_point.
Qed.
Lemma s2_spec_sphere a m u x y z : 0 < a -> m <> 0 -> u <> 0 -> x * x + y * y + z * z = 1 ->
  exists X Y Z l p,
  s2_to_xyz (Fin a) PInf (Fin m) (Fin x) (Fin y) (Fin z) = (Fin (X / m), Fin (Y / m), Fin (Z / m)) /\
  s2_to_ll PInf (Fin u) (Fin x) (Fin y) (Fin z) = (Fin (l / u), Fin (p / u)) /\
  - PI < l <= PI /\ - (PI / 2) <= p <= PI / 2 /\
  surface_point a a p l (X, Y, Z).
Proof.
  intros Ha Hm Hu U. assert (Z : -1 <= z <= 1) by nra.
  exists (a * x), (a * y), (a * z), (Ratan2 y x), (Ratan2 z (a / a * sqrt ((1 - z) * (1 + z)))).
  split; [|split; [|split; [|split]]].
  - unfold s2_to_xyz. cbn [fdiv XRops xdiv]. xr. rewrite !xdiv_fin by lra.
    f_equal. f_equal. field. lra.
  - unfold s2_to_ll. xr. rewrite xsqrt_fin by nra. xr.
    change (xdiv (Fin 1) PInf) with (Fin 0). xr. rewrite !xdiv_fin by lra.
    replace (a / a) with (1 - 0) by (field; lra). reflexivity.
  - apply Ratan2_bound.
  - apply Ratan2_range_pos. apply Rmult_le_pos; [|apply sqrt_pos].
    left. apply Rdiv_lt_0_compat; lra.
  - apply s2_point; [lra|easy].
Qed.
