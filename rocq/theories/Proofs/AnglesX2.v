(** Sequences of operations, azimuths, dms and intervals in exact arithmetic. *)
From Coq Require Import Reals Lra Lia ZArith Bool List Psatz.
From Flocq Require Import Core.
From Verif.Num Require Import FOps RFun XR XRLemmas.
From Verif.Model Require Import Fp Quantities Cs.
From Verif.Spec Require Import Angles Runs.
From Verif.Proofs Require Import AnglesX.
Import ListNotations.
Local Open Scope R_scope.

(** ** Longitude runs *)
Lemma lon_run_sum a l : exists x, lon_run (Fin a) (map turn_op l) = Fin x /\
  - PI <= x <= PI /\ same_angle x (turn_sum a l).
Proof.
  unfold lon_run, turn_sum. rewrite lon_new_fin.
  destruct (Rwrap_spec a) as (H1 & H2 & _). revert H1 H2. generalize (Rwrap a). revert a.
  induction l as [|t l IH]; intros a x H1 H2; simpl.
  { now exists x. }
  destruct t as [r|r|]; simpl.
  - rewrite lon_add_fin. destruct (Rwrap_spec (x + r)) as (G1 & G2 & _).
    apply IH; [easy|]. apply same_angle_trans with (1 := G2).
    apply same_angle_add; [easy|apply same_angle_refl].
  - rewrite lon_sub_angle_fin. destruct (Rwrap_spec (x - r)) as (G1 & G2 & _).
    apply IH; [easy|]. apply same_angle_trans with (1 := G2).
    apply same_angle_sub; [easy|apply same_angle_refl].
  - unfold lon_neg. xr. apply IH; [lra|]. now apply same_angle_opp.
Qed.

Lemma lon_run_range a l : Forall op_real l -> exists x, lon_run (Fin a) l = Fin x /\ - PI <= x <= PI.
Proof.
  unfold lon_run. rewrite lon_new_fin.
  destruct (Rwrap_spec a) as (H1 & _). revert H1. generalize (Rwrap a).
  induction l as [|o l IH]; intros x H1 Hl; simpl.
  { now exists x. }
  inversion Hl as [|? ? Ho Hl']; subst.
  assert (W : forall r, exists y, lon_new (Fin r) = Fin y /\ - PI <= y <= PI).
  { intros r. exists (Rwrap r). split; [apply lon_new_fin|apply Rwrap_spec]. }
  destruct o as [b|b| | |k|k]; simpl in Ho |- *.
  - destruct Ho as [r ->]. unfold lon_add. xr. destruct (W (x + r)) as (y & -> & Hy). now apply IH.
  - destruct Ho as [r ->]. unfold lon_sub_angle. xr. destruct (W (x - r)) as (y & -> & Hy). now apply IH.
  - unfold lon_neg. xr. apply IH; [lra|easy].
  - now apply IH.
  - destruct Ho as [r ->]. unfold lon_mul. xr. destruct (W (x * r)) as (y & -> & Hy). now apply IH.
  - destruct Ho as [r [-> Hr]]. unfold lon_div. xr. rewrite xdiv_fin by easy.
    destruct (W (x / r)) as (y & -> & Hy). now apply IH.
Qed.

(** ** Azimuths *)
Lemma azimuth_sub_fin a b : azimuth_sub (Fin b) (Fin a) = Fin (Rnorm (b - a)).
Proof.
  unfold azimuth_sub. rewrite diff_to_fin, normalized_fin. f_equal.
  apply Rnorm_id, Rnorm_spec.
Qed.
Lemma azimuth_add_fin a b : azimuth_add (Fin a) (Fin b) = Fin (Rnorm (a + b)).
Proof. unfold azimuth_add. xr. apply azimuth_new_fin. Qed.
Lemma azimuth_add_sub a b : - PI < b <= PI ->
  azimuth_add (Fin a) (azimuth_sub (Fin b) (Fin a)) = Fin b.
Proof.
  intros Hb. rewrite azimuth_sub_fin, azimuth_add_fin. f_equal.
  rewrite <- (Rnorm_id b) at 2 by easy. apply Rnorm_compat.
  destruct (Rnorm_spec (b - a)) as [_ [k Hk]]. exists k. lra.
Qed.

(** ** Degrees, minutes, seconds *)
Lemma floor_le x : IZR (Zfloor x) <= x < IZR (Zfloor x) + 1.
Proof. split; [apply Zfloor_lb|apply Zfloor_ub]. Qed.
Lemma trunc_floor x : 0 <= x -> Ztrunc x = Zfloor x.
Proof. apply Ztrunc_floor. Qed.
Lemma ZnearestA_bound x : Rabs (x - IZR (ZnearestA x)) <= / 2.
Proof. apply Znearest_half. Qed.

Definition deg_of (a : R) : R := a * (180 / PI).

Lemma angle_dms_spec a : exists d m s : R,
  angle_dms (Fin a) = (Fin d, Fin m, Fin s) /\
  Rabs (Rabs d + m / 60 + s / 3600 - Rabs (deg_of a)) < 1 / 10 ^ 8 / 60 /\
  (s <> 0 -> Rabs d + m / 60 + s / 3600 = Rabs (deg_of a)) /\
  0 <= s < 60 /\
  (exists n : Z, m = IZR n /\ (0 <= n <= 60)%Z) /\
  (exists n : Z, d = IZR n) /\
  (a < 0 -> d <= 0) /\ (0 <= a -> 0 <= d).
Proof.
  pose proof PI_pos as HPI.
  assert (Hk : 0 < 180 / PI) by (apply Rdiv_lt_0_compat; lra).
  assert (Hdeg : Rabs (deg_of a) = Rabs a * (180 / PI)).
  { unfold deg_of. now rewrite Rabs_mult, (Rabs_pos_eq (180 / PI)) by lra. }
  rewrite Hdeg.
  set (g := Rabs a * (180 / PI)).
  assert (Hg : 0 <= g) by (apply Rmult_le_pos; [apply Rabs_pos|lra]).
  unfold angle_dms, fto_degrees, ffract.
  xr. fold g. rewrite (trunc_floor g Hg).
  set (D := IZR (Zfloor g)).
  assert (HD : D <= g < D + 1) by apply floor_le.
  assert (HD0 : 0 <= D).
  { unfold D. apply IZR_le. apply Zfloor_lub. now simpl. }
  set (h := 60 * (g - D)).
  assert (Hh : 0 <= h < 60) by (unfold h; lra).
  set (sg := if Rlt_bool a 0 then -1 else 1).
  assert (Hsg : Rabs (sg * D) = D).
  { rewrite Rabs_mult, (Rabs_pos_eq D) by easy. unfold sg.
    destruct (Rlt_bool a 0); [rewrite Rabs_left by lra|rewrite Rabs_pos_eq by lra]; ring. }
  assert (Hsd : (exists n : Z, sg * D = IZR n) /\ (a < 0 -> sg * D <= 0) /\ (0 <= a -> 0 <= sg * D)).
  { unfold sg. split; [|split].
    - unfold D. destruct (Rlt_bool a 0).
      + exists (- Zfloor g)%Z. rewrite opp_IZR. ring.
      + exists (Zfloor g). ring.
    - intros Ha. rewrite Rlt_bool_t by easy. lra.
    - intros Ha. rewrite Rlt_bool_f by easy. lra. }
  assert (HR : Rlit 1 8 = 1 / 10 ^ 8) by (unfold Rlit; simpl; lra).
  rewrite HR.
  destruct (Rlt_bool_spec (Rabs (h - IZR (ZnearestA h))) (1 / 10 ^ 8)) as [L|L].
  - exists (sg * D), (IZR (ZnearestA h)), 0. split; [reflexivity|].
    rewrite Hsg. split.
    { apply Rabs_def2 in L. apply Rabs_def1; unfold h in *; lra. }
    split; [easy|]. split; [lra|]. split; [|easy].
    exists (ZnearestA h). split; [easy|].
    pose proof (ZnearestA_bound h) as B. apply Rabs_le_inv in B.
    split; apply Z.lt_succ_r, lt_IZR; rewrite ?succ_IZR; simpl IZR; lra.
  - rewrite (trunc_floor h) by lra.
    pose proof (floor_le h) as B.
    exists (sg * D), (IZR (Zfloor h)), (60 * (h - IZR (Zfloor h))). split; [reflexivity|].
    rewrite Hsg.
    assert (E : D + IZR (Zfloor h) / 60 + 60 * (h - IZR (Zfloor h)) / 3600 = g)
      by (unfold h; field).
    split.
    { rewrite E. rewrite Rminus_diag_eq by easy. rewrite Rabs_R0. lra. }
    split; [easy|]. split; [lra|]. split; [|easy].
    exists (Zfloor h). split; [easy|].
    split; apply Z.lt_succ_r, lt_IZR; rewrite ?succ_IZR; simpl IZR; lra.
Qed.

(** An angle just below one degree is split into 60 minutes. *)
Lemma angle_dms_60 : exists a : R, 0 < a /\ angle_dms (Fin a) = (Fin 0, Fin 60, Fin 0).
Proof.
  pose proof PI_pos as HPI.
  set (g := 1 - 1 / 10 ^ 12).
  assert (Hgp : 0 < g * (PI / 180)) by (apply Rmult_lt_0_compat; unfold g; lra).
  exists (g * (PI / 180)). split; [easy|].
  unfold angle_dms, fto_degrees, ffract. xr.
  rewrite (Rabs_pos_eq (g * (PI / 180))) by lra.
  replace (g * (PI / 180) * (180 / PI)) with g by (field; lra).
  rewrite (trunc_floor g) by (unfold g; lra).
  rewrite (Zfloor_imp 0 g) by (unfold g; simpl; lra).
  rewrite (Rlt_bool_f (g * (PI / 180)) 0) by lra.
  assert (N : ZnearestA (60 * (g - 0)) = 60%Z).
  { apply Znearest_imp. apply Rabs_def1; unfold g; lra. }
  rewrite N. rewrite Rlt_bool_t.
  2:{ unfold Rlit. simpl. apply Rabs_def1; unfold g; lra. }
  f_equal. f_equal. f_equal. ring.
Qed.

(** Rebuilding an angle from its parts. *)
Lemma dms_degrees_fin d m s : dms_degrees (Fin d) (Fin m) (Fin s) =
  Fin ((if Rlt_bool d 0 then -1 else 1) * (Rabs d + m / 60 + s / 3600)).
Proof.
  unfold dms_degrees. xr. rewrite !xdiv_fin by lra. now xr.
Qed.
Lemma angle_new_deg x : angle_new (Fin x) DEG = Fin (x * (PI / 180)).
Proof. unfold angle_new, per_unit, DEG. cbn [fst snd]. xr. rewrite xdiv_fin by lra. now xr. Qed.

Lemma dms_rebuild a d m s : angle_dms (Fin a) = (Fin d, Fin m, Fin s) ->
  (0 <= a \/ PI / 180 <= Rabs a) ->
  exists b, angle_new (dms_degrees (Fin d) (Fin m) (Fin s)) DEG = Fin b /\
            Rabs (b - a) < 1 / 10 ^ 8 / 60 * (PI / 180).
Proof.
  intros E Ha. pose proof PI_pos as HPI.
  destruct (angle_dms_spec a) as (d' & m' & s' & E' & H1 & _ & _ & _ & _ & Hn & Hp).
  rewrite E' in E. inversion E; subst d' m' s'. clear E.
  rewrite dms_degrees_fin, angle_new_deg. eexists. split; [reflexivity|].
  set (sg := if Rlt_bool d 0 then -1 else 1).
  assert (Hs : a = sg * Rabs a).
  { unfold sg. destruct (Rlt_bool_spec d 0) as [L|L].
    - assert (a < 0) by (apply Rnot_le_lt; intros G; specialize (Hp G); lra).
      rewrite Rabs_left by easy. ring.
    - destruct (Rlt_le_dec a 0) as [N|N].
      + exfalso. specialize (Hn N). assert (d = 0) by lra. subst d.
        destruct Ha as [Ha|Ha]; [lra|].
        revert E'. unfold angle_dms, fto_degrees, ffract. xr.
        set (g := Rabs a * (180 / PI)).
        assert (Hg : 1 <= g).
        { unfold g. apply Rmult_le_reg_r with (PI / 180); [lra|].
          replace (Rabs a * (180 / PI) * (PI / 180)) with (Rabs a) by (field; lra). lra. }
        assert (Hf : (1 <= Zfloor g)%Z) by (apply Zfloor_lub; simpl; lra).
        apply IZR_le in Hf. intros E'.
        assert (Ed : (if Rlt_bool a 0 then -1 else 1) * IZR (Zfloor g) = 0).
        { destruct (Rlt_bool (Rabs _) _); injection E'; intros; assumption. }
        rewrite Rlt_bool_t in Ed by easy. lra.
      + rewrite Rabs_pos_eq by easy. ring. }
  rewrite Hs at 1.
  replace (Rabs (deg_of a)) with (Rabs a * (180 / PI)) in H1.
  2:{ unfold deg_of. rewrite Rabs_mult, (Rabs_pos_eq (180 / PI)); [easy|].
      apply Rlt_le, Rdiv_lt_0_compat; lra. }
  replace (sg * (Rabs d + m / 60 + s / 3600) * (PI / 180) - sg * Rabs a)
    with (sg * ((Rabs d + m / 60 + s / 3600 - Rabs a * (180 / PI)) * (PI / 180))) by (field; lra).
  rewrite !Rabs_mult.
  replace (Rabs sg) with 1.
  2:{ unfold sg. destruct (Rlt_bool d 0); [rewrite Rabs_left by lra|rewrite Rabs_pos_eq by lra]; ring. }
  rewrite (Rabs_pos_eq (PI / 180)) by lra. rewrite Rmult_1_l.
  apply Rmult_lt_compat_r; lra.
Qed.

(** ** Intervals *)
Definition ilo (l h : R) : R := if Req_bool l (- PI) && negb (Req_bool h PI) then PI else l.
Lemma interval_new_fin a b :
  interval_new (Fin a) (Fin b) = mkI (Fin (ilo (Rwrap a) (Rwrap b))) (Fin (Rwrap b)).
Proof.
  unfold interval_new. rewrite !wrapped_fin. xr. unfold ilo.
  now destruct (_ && _).
Qed.
Lemma interval_new_spec a b : exists l h,
  interval_new (Fin a) (Fin b) = mkI (Fin l) (Fin h) /\
  - PI <= l <= PI /\ - PI <= h <= PI /\ same_angle l a /\ same_angle h b /\
  (l = - PI -> h = PI).
Proof.
  rewrite interval_new_fin. exists (ilo (Rwrap a) (Rwrap b)), (Rwrap b). split; [easy|].
  pose proof PI_pos.
  destruct (Rwrap_spec a) as (A1 & A2 & _), (Rwrap_spec b) as (B1 & B2 & _).
  unfold ilo. destruct (Req_bool_spec (Rwrap a) (- PI)) as [E|E]; simpl;
    [destruct (Req_bool_spec (Rwrap b) PI) as [G|G]; simpl|].
  - repeat split; try easy.
  - repeat split; try easy; try lra.
    apply same_angle_trans with (2 := A2). rewrite E. exists 1%Z. lra.
  - repeat split; try easy; try lra.
Qed.
Lemma interval_length_spec dbg l h : - PI <= l <= PI -> - PI <= h <= PI ->
  exists len, interval_length dbg (mkI (Fin l) (Fin h)) = Ret (Fin len) /\
    0 <= len <= 2 * PI /\ same_angle (l + len) h /\
    (interval_is_inverted (mkI (Fin l) (Fin h)) = false -> len = h - l).
Proof.
  intros Hl Hh. pose proof PI_pos. unfold interval_length, interval_is_inverted, rassert.
  cbn [lo hi]. xr.
  destruct (Rlt_bool_spec (h - l) 0) as [L|L]; xr.
  - rewrite Rle_bool_t by lra. rewrite orb_true_r.
    exists (h - l + 2 * PI). repeat split; try lra.
    + exists 1%Z. lra.
    + rewrite Rlt_bool_t by lra. easy.
  - rewrite Rle_bool_t by lra. rewrite orb_true_r.
    exists (h - l). repeat split; try lra. exists 0%Z. lra.
Qed.
Lemma interval_singleton_spec dbg p : exists q,
  interval_singleton (Fin p) = mkI (Fin q) (Fin q) /\ - PI < q <= PI /\ same_angle q p /\
  interval_is_empty (interval_singleton (Fin p)) = false /\
  interval_is_full (interval_singleton (Fin p)) = false /\
  interval_length dbg (interval_singleton (Fin p)) = Ret (Fin 0).
Proof.
  exists (Rnorm p). pose proof PI_pos.
  unfold interval_singleton. rewrite normalized_fin.
  destruct (Rnorm_spec p) as [H1 H2].
  split; [easy|]. split; [easy|]. split; [easy|].
  unfold interval_is_empty, interval_is_full. cbn [lo hi]. xr.
  rewrite (Req_bool_f (Rnorm p) (- PI)) by lra. rewrite andb_false_r.
  split; [easy|]. split; [easy|].
  destruct (interval_length_spec dbg (Rnorm p) (Rnorm p)) as (len & -> & _ & _ & H3); [lra|lra|].
  rewrite H3.
  - f_equal; f_equal; ring.
  - unfold interval_is_inverted. cbn [lo hi]. xr. apply Rlt_bool_f; lra.
Qed.
Lemma interval_classes :
  interval_is_empty (interval_empty : Interval XR) = true /\
  interval_is_full (interval_empty : Interval XR) = false /\
  interval_is_full (interval_full : Interval XR) = true /\
  interval_is_empty (interval_full : Interval XR) = false /\
  interval_length true (interval_empty : Interval XR) = Ret (Fin 0) /\
  interval_length true (interval_full : Interval XR) = Ret (Fin (2 * PI)).
Proof.
  pose proof PI_pos.
  unfold interval_is_empty, interval_is_full, interval_length, interval_empty, interval_full, rassert.
  cbn [lo hi]. xr.
  rewrite (Req_bool_t PI PI), (Req_bool_t (- PI) (- PI)), (Req_bool_f PI (- PI)),
    (Req_bool_f (- PI) PI) by lra.
  simpl.
  rewrite (Rlt_bool_t (- PI - PI) 0), (Rlt_bool_f (PI - - PI) 0) by lra.
  xr. rewrite !Rle_bool_t by lra. repeat split; try easy; f_equal; f_equal; ring.
Qed.
Lemma interval_not_both (i : Interval XR) :
  interval_is_empty i = true -> interval_is_full i = true -> False.
Proof.
  destruct i as [l h]. unfold interval_is_empty, interval_is_full. cbn [lo hi].
  rewrite !andb_true_iff. intros [H1 _] [H2 _].
  destruct l as [l| | |]; xr_in H1; xr_in H2; try discriminate.
  pose proof PI_pos.
  destruct (Req_bool_spec l PI); [|discriminate]. destruct (Req_bool_spec l (- PI)); [|discriminate].
  lra.
Qed.
Lemma interval_new_same a : - PI < a <= PI ->
  interval_new (Fin a) (Fin a) = interval_singleton (Fin a).
Proof.
  intros Ha. rewrite interval_new_fin. unfold interval_singleton. rewrite normalized_fin.
  destruct (Rwrap_spec a) as (_ & _ & H). rewrite H by lra. rewrite Rnorm_id by easy.
  unfold ilo. rewrite (Req_bool_f a (- PI)) by lra. easy.
Qed.
Lemma interval_new_mpi :
  interval_new (Fin (- PI)) (Fin (- PI)) = (interval_empty : Interval XR) /\
  interval_is_empty (interval_new (Fin (- PI)) (Fin (- PI))) = true.
Proof.
  pose proof PI_pos.
  assert (E : interval_new (Fin (- PI)) (Fin (- PI)) = (interval_empty : Interval XR)).
  { rewrite interval_new_fin. destruct (Rwrap_spec (- PI)) as (_ & _ & H0). rewrite H0 by lra.
    unfold ilo. rewrite (Req_bool_t (- PI) (- PI)), (Req_bool_f (- PI) PI) by lra. reflexivity. }
  split; [easy|]. rewrite E. apply interval_classes.
Qed.
