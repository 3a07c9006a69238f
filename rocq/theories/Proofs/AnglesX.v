(** Angles in exact arithmetic: remainder, wrapped, normalized, diff_to, Lon, Azimuth, Interval. *)
From Coq Require Import Reals Lra Lia ZArith Bool List Psatz.
From Flocq Require Import Core.
From Verif.Num Require Import FOps RFun XR XRLemmas.
From Verif.Model Require Import Fp Quantities Cs.
From Verif.Spec Require Import Angles.
Import ListNotations.
Local Open Scope R_scope.

(** ** same_angle *)
Lemma same_angle_refl a : same_angle a a.
Proof. exists 0%Z; ring. Qed.
Lemma same_angle_sym a b : same_angle a b -> same_angle b a.
Proof. intros [k H]; exists (- k)%Z; rewrite opp_IZR; lra. Qed.
Lemma same_angle_trans a b c : same_angle a b -> same_angle b c -> same_angle a c.
Proof. intros [k H] [l G]; exists (k + l)%Z; rewrite plus_IZR; lra. Qed.
Lemma same_angle_add a b c d : same_angle a b -> same_angle c d -> same_angle (a + c) (b + d).
Proof. intros [k H] [l G]; exists (k + l)%Z; rewrite plus_IZR; lra. Qed.
Lemma same_angle_opp a b : same_angle a b -> same_angle (- a) (- b).
Proof. intros [k H]; exists (- k)%Z; rewrite opp_IZR; lra. Qed.
Lemma same_angle_sub a b c d : same_angle a b -> same_angle c d -> same_angle (a - c) (b - d).
Proof. intros; apply same_angle_add; [assumption|now apply same_angle_opp]. Qed.
Lemma same_angle_cos a b : same_angle a b -> cos a = cos b.
Proof. intros [k H]. replace a with (b + IZR k * (2 * PI)) by lra. apply cos_period_Z. Qed.
Lemma same_angle_sin a b : same_angle a b -> sin a = sin b.
Proof. intros [k H]. replace a with (b + IZR k * (2 * PI)) by lra. apply sin_period_Z. Qed.
Lemma same_angle_trig a b : sin a = sin b -> cos a = cos b -> same_angle a b.
Proof. intros Hs Hc. destruct (sin_cos_eq_period a b Hs Hc) as [k Hk]; now exists k. Qed.
Lemma same_angle_unique a b : - PI < a <= PI -> - PI < b <= PI -> same_angle a b -> a = b.
Proof.
  intros Ha Hb H. apply angle_unique; [easy|easy|now apply same_angle_sin|now apply same_angle_cos].
Qed.

(** ** remainder *)
Lemma ZnearestE_bound x : Rabs (x - IZR (ZnearestE x)) <= / 2.
Proof. apply Znearest_half. Qed.

Definition Rrem (a m : R) : R := a - IZR (ZnearestE (a / m)) * m.

Lemma remainder_fin v r : r <> 0 -> remainder (Fin v) (Fin r) = Fin (Rrem v r).
Proof. intros Hr. unfold remainder. xr. rewrite xdiv_fin by easy. now xr. Qed.

Lemma Rrem_spec v r : r <> 0 -> nearest_remainder v r (Rrem v r).
Proof.
  intros Hr. split.
  - exists (ZnearestE (v / r)). unfold Rrem; ring.
  - unfold Rrem.
    replace (v - IZR (ZnearestE (v / r)) * r) with ((v / r - IZR (ZnearestE (v / r))) * r)
      by (field; easy).
    rewrite Rabs_mult.
    pose proof (ZnearestE_bound (v / r)). pose proof (Rabs_pos r). nra.
Qed.

Lemma remainder_spec v r : r <> 0 ->
  exists w, remainder (Fin v) (Fin r) = Fin w /\ nearest_remainder v r w.
Proof. intros Hr; exists (Rrem v r); split; [now apply remainder_fin|now apply Rrem_spec]. Qed.

Lemma ZnearestE_small x : Rabs x <= / 2 -> ZnearestE x = 0%Z.
Proof.
  intros H. destruct (Rlt_le_dec (Rabs x) (/ 2)) as [Hl|Hl].
  { apply Znearest_imp. now rewrite Rminus_0_r. }
  assert (E : Rabs x = / 2) by lra.
  assert (Hx : x = / 2 \/ x = - / 2).
  { unfold Rabs in E; destruct (Rcase_abs x); lra. }
  unfold Znearest.
  destruct Hx as [-> | ->].
  - assert (Hf : Zfloor (/ 2) = 0%Z) by (apply Zfloor_imp; simpl; lra).
    rewrite Hf. rewrite Rcompare_Eq by (simpl; lra). reflexivity.
  - assert (Hf : Zfloor (- / 2) = (-1)%Z) by (apply Zfloor_imp; simpl; lra).
    assert (Hc : Zceil (- / 2) = 0%Z) by (apply Zceil_imp; simpl; lra).
    rewrite Hf. rewrite Rcompare_Eq by (simpl; lra). rewrite Hc. reflexivity.
Qed.

Lemma Rrem_id a m : 0 < m -> Rabs a <= m / 2 -> Rrem a m = a.
Proof.
  intros Hm Ha. unfold Rrem. rewrite ZnearestE_small.
  - ring.
  - unfold Rdiv. rewrite Rabs_mult, Rabs_inv, (Rabs_pos_eq m) by lra.
    apply Rmult_le_reg_r with m; [lra|]. rewrite Rmult_assoc, Rinv_l by lra. lra.
Qed.

(** ** wrapped and normalized *)
Definition Rwrap (a : R) : R := Rrem a (2 * PI).
Definition Rnorm (a : R) : R := if Rle_bool (Rrem a (2 * PI)) (- PI) then PI else Rrem a (2 * PI).

Lemma Rrem_tau a : - PI <= Rrem a (2 * PI) <= PI /\ same_angle (Rrem a (2 * PI)) a.
Proof.
  pose proof PI_pos.
  destruct (Rrem_spec a (2 * PI) ltac:(lra)) as [[k Hk] Hb].
  rewrite (Rabs_pos_eq (2 * PI)) in Hb by lra.
  replace (2 * PI / 2) with PI in Hb by field.
  apply Rabs_le_inv in Hb. split; [lra|].
  exists (- k)%Z. rewrite opp_IZR; lra.
Qed.

Lemma wrapped_fin a : wrapped (Fin a) = Fin (Rwrap a).
Proof.
  unfold wrapped. pose proof PI_pos.
  change (remainder (Fin a) ftau) with (remainder (Fin a) (Fin (2 * PI))).
  rewrite remainder_fin by lra. xr.
  rewrite Rlt_bool_f; [easy|]. apply Rrem_tau.
Qed.

Lemma Rwrap_spec a :
  - PI <= Rwrap a <= PI /\ same_angle (Rwrap a) a /\ (- PI <= a <= PI -> Rwrap a = a).
Proof.
  pose proof PI_pos. unfold Rwrap.
  destruct (Rrem_tau a) as [H1 H2]. repeat split; try easy; try lra.
  intros Ha. apply Rrem_id; [lra|]. apply Rabs_le; lra.
Qed.

Lemma normalized_fin a : normalized (Fin a) = Fin (Rnorm a).
Proof.
  unfold normalized. pose proof PI_pos.
  change (remainder (Fin a) ftau) with (remainder (Fin a) (Fin (2 * PI))).
  rewrite remainder_fin by lra. xr.
  unfold Rnorm. now destruct (Rle_bool _ _).
Qed.

Lemma Rnorm_spec a : - PI < Rnorm a <= PI /\ same_angle (Rnorm a) a.
Proof.
  pose proof PI_pos. unfold Rnorm. destruct (Rrem_tau a) as [H1 H2].
  destruct (Rle_bool_spec (Rrem a (2 * PI)) (- PI)) as [Hl|Hl].
  - split; [lra|]. apply same_angle_trans with (2 := H2).
    exists 1%Z. lra.
  - split; [lra|easy].
Qed.

Lemma Rnorm_id a : - PI < a <= PI -> Rnorm a = a.
Proof. intros Ha. destruct (Rnorm_spec a). now apply same_angle_unique. Qed.

Lemma Rnorm_eq_iff a b : Rnorm a = Rnorm b <-> same_angle a b.
Proof.
  destruct (Rnorm_spec a) as [Ha Ha'], (Rnorm_spec b) as [Hb Hb']. split.
  - intros E. apply same_angle_trans with (Rnorm a); [now apply same_angle_sym|].
    now rewrite E.
  - intros H. apply same_angle_unique; [easy|easy|].
    apply same_angle_trans with a; [easy|]. apply same_angle_trans with b; [easy|].
    now apply same_angle_sym.
Qed.

Lemma Rnorm_compat a b : same_angle a b -> Rnorm a = Rnorm b.
Proof. apply Rnorm_eq_iff. Qed.

Lemma Rwrap_compat_strict a b : same_angle a b -> - PI < Rwrap a < PI -> Rwrap b = Rwrap a.
Proof.
  intros H Ha.
  destruct (Rwrap_spec a) as (Ha1 & Ha2 & _), (Rwrap_spec b) as (Hb1 & Hb2 & _).
  assert (S : same_angle (Rwrap b) (Rwrap a)).
  { apply same_angle_trans with b; [easy|]. apply same_angle_trans with a.
    - now apply same_angle_sym.
    - now apply same_angle_sym. }
  destruct S as [k Hk]. pose proof PI_pos.
  assert (k = 0%Z) as ->; [|lra].
  apply IZR_small; split; apply Rmult_lt_reg_r with (2 * PI); lra.
Qed.

(** ** diff_to *)
Lemma diff_to_fin a b : diff_to (Fin a) (Fin b) = Fin (Rnorm (b - a)).
Proof. unfold diff_to. xr. apply normalized_fin. Qed.

Lemma diff_to_spec a b : exists d, diff_to (Fin a) (Fin b) = Fin d /\
  - PI < d <= PI /\ same_angle (a + d) b /\
  (forall d', same_angle (a + d') b -> Rabs d <= Rabs d').
Proof.
  exists (Rnorm (b - a)). destruct (Rnorm_spec (b - a)) as [Hr Hs].
  split; [apply diff_to_fin|]. split; [easy|]. split.
  - destruct Hs as [k Hk]. exists k. lra.
  - intros d' Hd'. pose proof PI_pos.
    assert (S : same_angle d' (Rnorm (b - a))).
    { apply same_angle_trans with (b - a); [|now apply same_angle_sym].
      destruct Hd' as [k Hk]. exists k. lra. }
    set (d := Rnorm (b - a)) in *. destruct S as [k Hk].
    destruct (Z.eq_dec k 0) as [->|Hk0].
    { replace d' with d by lra. lra. }
    assert (Hd : Rabs d <= PI) by (apply Rabs_le; lra).
    assert (PI <= Rabs d'); [|lra].
    assert (Hk1 : (k <= -1 \/ 1 <= k)%Z) by lia.
    destruct Hk1 as [Hk1|Hk1]; apply IZR_le in Hk1.
    + rewrite Rabs_left1; nra.
    + rewrite Rabs_pos_eq; nra.
Qed.

Lemma diff_to_antisym a b d : diff_to (Fin a) (Fin b) = Fin d ->
  (d <> PI -> diff_to (Fin b) (Fin a) = Fin (- d)) /\
  (d = PI -> diff_to (Fin b) (Fin a) = Fin PI).
Proof.
  rewrite !diff_to_fin. intros H. apply Fin_inj in H. subst d.
  destruct (Rnorm_spec (b - a)) as [Hr Hs]. pose proof PI_pos. split; intros Hd; f_equal.
  - rewrite <- (Rnorm_id (- Rnorm (b - a))) by lra.
    apply Rnorm_compat. replace (a - b) with (- (b - a)) by ring.
    now apply same_angle_opp, same_angle_sym.
  - rewrite <- (Rnorm_id PI) by lra.
    apply Rnorm_compat. rewrite Hd in Hs.
    apply same_angle_trans with (- PI).
    + replace (a - b) with (- (b - a)) by ring. now apply same_angle_opp, same_angle_sym.
    + exists (-1)%Z. lra.
Qed.

(** ** Longitudes *)
Lemma lon_new_fin a : lon_new (Fin a) = Fin (Rwrap a).
Proof. apply wrapped_fin. Qed.
Lemma lon_add_fin l a : lon_add (Fin l) (Fin a) = Fin (Rwrap (l + a)).
Proof. unfold lon_add. xr. apply lon_new_fin. Qed.
Lemma lon_sub_angle_fin l a : lon_sub_angle (Fin l) (Fin a) = Fin (Rwrap (l - a)).
Proof. unfold lon_sub_angle. xr. apply lon_new_fin. Qed.
Lemma lon_sub_fin l r : lon_sub (Fin l) (Fin r) = Fin (Rnorm (l - r)).
Proof. unfold lon_sub. apply diff_to_fin. Qed.
Lemma azimuth_new_fin a : azimuth_new (Fin a) = Fin (Rnorm a).
Proof. apply normalized_fin. Qed.

Lemma angle_new_RAD (x : XR) : angle_new x RAD = x.
Proof. unfold angle_new, per_unit, RAD. cbn [fst snd]. xr. rewrite xdiv_1_1. apply xmul_1_r. Qed.
Lemma length_new_M (x : XR) : length_new x M = x.
Proof. exact (angle_new_RAD x). Qed.

(** ** Latitudes *)
Definition Rclamp (a lo hi : R) : R := if Rlt_bool a lo then lo else if Rlt_bool hi a then hi else a.
Lemma lat_new_fin a : lat_new (Fin a) = Fin (Rclamp a (- (PI / 2)) (PI / 2)).
Proof.
  pose proof PI_pos.
  unfold lat_new, angle_clamped, fclamp. xr. unfold Rclamp.
  destruct (Rlt_bool_spec a (- (PI / 2))).
  - rewrite Rlt_bool_f by lra. easy.
  - now destruct (Rlt_bool_spec (PI / 2) a).
Qed.
Lemma Rclamp_id a lo hi : lo <= a <= hi -> Rclamp a lo hi = a.
Proof. intros H. unfold Rclamp. now rewrite !Rlt_bool_f by lra. Qed.
Lemma lat_new_id a : - (PI / 2) <= a <= PI / 2 -> lat_new (Fin a) = Fin a.
Proof. intros H. rewrite lat_new_fin. now rewrite Rclamp_id. Qed.
Lemma lat_new_fin_bound a : exists l, lat_new (Fin a) = Fin l /\ - (PI / 2) <= l <= PI / 2.
Proof.
  pose proof PI_pos. rewrite lat_new_fin. eexists; split; [reflexivity|].
  unfold Rclamp. destruct (Rlt_bool_spec a (- (PI / 2))); [lra|].
  destruct (Rlt_bool_spec (PI / 2) a); lra.
Qed.
