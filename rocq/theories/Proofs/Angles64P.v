(** Binary64: normalized angles, differences of directions, sequences of turns. *)
From Coq Require Import Reals Lra Lia ZArith Bool List Psatz.
From Flocq Require Import Core IEEE754.BinarySingleNaN.
From Verif.Num Require Import FOps F64 F64Lemmas PIBounds.
From Verif.Model Require Import Fp Quantities Cs.
From Verif.Spec Require Import Runs Angles64.
From Verif.Proofs Require Import AnglesF.
Import ListNotations.
Local Open Scope R_scope.

Section A.
Variable lm : libm.
Local Notation O := (F64ops lm).

Lemma le_opp_pi (r : f64) : is_finite r = true -> fle (FOps := O) r (fneg (FOps := O) (fpi (FOps := O))) = Rle_bool (B2R r) (- p64).
Proof. intros F. cbn [fle fneg fpi F64ops]. rewrite Bleb_correct; [|exact F|rewrite is_finite_Bopp; apply PI64_val]. now rewrite B2R_Bopp, p64_val. Qed.
Lemma normalized_exact (a : f64) : is_finite a = true -> Rabs (B2R a) <= B2R PI64 -> (B2R a <> - B2R PI64 -> is_finite (normalized (ops := O) a) = true /\ B2R (normalized (ops := O) a) = B2R a) /\ (B2R a = - B2R PI64 -> normalized (ops := O) a = PI64).
Proof.
  intros Fa Ha. destruct (remainder_exact lm a Fa Ha) as [R1 R2]. change (ops lm) with O in *. rewrite p64_val in *. unfold normalized. change (ftau (FOps := O)) with TAU64. cbv zeta. rewrite (le_opp_pi _ R1). rewrite R2. apply Rabs_le_inv in Ha. split; intros H.
  - rewrite Rle_bool_false by lra. split; [exact R1|exact R2].
  - rewrite Rle_bool_true by lra. reflexivity.
Qed.
Lemma normalized_error (a : f64) : is_finite a = true -> Rabs (B2R a) <= 2 ^ 50 ->
  is_finite (normalized (ops := O) a) = true /\ - B2R PI64 < B2R (normalized (ops := O) a) <= B2R PI64 + / 2 ^ 52 * (Rabs (B2R a) + 8) /\ near_angle (B2R (normalized (ops := O) a)) (B2R a) (/ 2 ^ 52 * (Rabs (B2R a) + 8)).
Proof.
  intros Fa Ha. pose proof p64_bounds as Hp. rewrite p64_val. destruct (remainder_bounds lm a Fa Ha) as (k & R1 & B1 & Er & Bn). change (ops lm) with O in *.
  set (x := B2R a) in *. set (n := IZR k) in *. set (X := Rabs x) in *. assert (HX0 : 0 <= X) by apply Rabs_pos. set (dl := PI - p64) in *. assert (Hdl : 0 < dl < 122465 / 10 ^ 21) by (unfold dl; lra).
  assert (Bnd : Rabs (n * (2 * dl)) <= (X * (17 / 100) + / 2 + / 2 ^ 40) * (244930 / 10 ^ 21)).
  { rewrite Rabs_mult, (Rabs_pos_eq (2 * dl)) by lra. pose proof (Rabs_pos n). apply Rle_trans with ((X * (17 / 100) + / 2 + / 2 ^ 40) * (2 * dl)); [apply Rmult_le_compat_r; lra|apply Rmult_le_compat_l; lra]. }
  assert (Hpi : 2 * PI = 2 * p64 + 2 * dl) by (unfold dl; ring). unfold normalized. change (ftau (FOps := O)) with TAU64. cbv zeta. rewrite (le_opp_pi _ R1). set (r := B2R (remainder (ops := O) a TAU64)) in *.
  destruct (Rle_bool_spec r (- p64)) as [L|L].
  - change (fpi (FOps := O)) with PI64. rewrite p64_val. split; [apply PI64_val|]. split; [lra|]. exists (1 - k)%Z. rewrite minus_IZR. fold n.
    replace (p64 - (x + (1 - n) * (2 * PI))) with (- ((x - n * (2 * p64)) + p64) + n * (2 * dl) - 2 * dl) by (rewrite Hpi; ring). apply Rabs_le. apply Rabs_le_inv in B1, Er, Bnd. lra.
  - fold r. split; [exact R1|]. split.
    + split; [lra|]. apply Rabs_le_inv in B1, Er. lra.
    + exists (- k)%Z. rewrite opp_IZR. fold n. replace (r - (x + - n * (2 * PI))) with ((r - (x - n * (2 * p64))) + n * (2 * dl)) by (rewrite Hpi; ring). apply Rabs_le. apply Rabs_le_inv in Er, Bnd. lra.
Qed.
Lemma wrapped_near (a : f64) : is_finite a = true -> Rabs (B2R a) <= 2 ^ 50 ->
  is_finite (wrapped (ops := O) a) = true /\ - B2R PI64 <= B2R (wrapped (ops := O) a) <= B2R PI64 + / 2 ^ 52 * (Rabs (B2R a) + 8) /\ near_angle (B2R (wrapped (ops := O) a)) (B2R a) (/ 2 ^ 52 * (Rabs (B2R a) + 8)).
Proof.
  intros F H. destruct (wrapped_error lm a F H) as (H1 & H2 & k & H3). split; [exact H1|]. split; [exact H2|]. exists (- k)%Z. rewrite opp_IZR. change (ops lm) with O in H3. eapply Rle_trans; [|exact H3]. right. f_equal. ring.
Qed.

(** ** near_angle *)
Lemma na_exact x y e : Rabs (x - y) <= e -> near_angle x y e.
Proof. intros H. exists 0%Z. eapply Rle_trans; [|exact H]. right. f_equal. ring. Qed.
Lemma na_trans x y z e f : near_angle x y e -> near_angle y z f -> near_angle x z (e + f).
Proof. intros [j J] [k K]. exists (j + k)%Z. rewrite plus_IZR. replace (x - (z + (IZR j + IZR k) * (2 * PI))) with ((x - (y + IZR j * (2 * PI))) + (y - (z + IZR k * (2 * PI)))) by ring. eapply Rle_trans; [apply Rabs_triang|]. lra. Qed.
Lemma na_le x y e f : near_angle x y e -> e <= f -> near_angle x y f.
Proof. intros [k K] H. exists k. lra. Qed.
Lemma na_add x y e c : near_angle x y e -> near_angle (x + c) (y + c) e.
Proof. intros [k K]. exists k. eapply Rle_trans; [|exact K]. right. f_equal. ring. Qed.
Lemma na_opp x y e : near_angle x y e -> near_angle (- x) (- y) e.
Proof. intros [k K]. exists (- k)%Z. rewrite opp_IZR. rewrite <- Rabs_Ropp in K. eapply Rle_trans; [|exact K]. right. f_equal. ring. Qed.
Lemma na_eq x x' y y' e : near_angle x y e -> x = x' -> y = y' -> near_angle x' y' e.
Proof. now intros H <- <-. Qed.

(** ** Sums and differences *)
Lemma pi64_b : 3 < B2R PI64 < 4.
Proof. rewrite p64_val. pose proof p64_bounds. unfold p64, m_pi in *. lra. Qed.
Lemma u_small : 0 < / 2 ^ 53 /\ / 2 ^ 52 = 2 * / 2 ^ 53 /\ / 2 ^ 51 = 4 * / 2 ^ 53 /\ / 2 ^ 53 <= / 2 ^ 50 * / 8.
Proof. repeat split; [apply Rinv_0_lt_compat, pow_lt; lra|field|field|right; field]. Qed.
Lemma sum_err (x y : f64) (z : f64) S : is_finite x = true -> is_finite y = true -> Rabs S <= Rabs (B2R x) + Rabs (B2R y) -> B2R z = rnd S -> Rabs (B2R x) + Rabs (B2R y) <= 2 ^ 49 ->
  Rabs (B2R z - S) <= / 2 ^ 53 * (Rabs (B2R x) + Rabs (B2R y) + 1) /\ Rabs (B2R z) <= Rabs (B2R x) + Rabs (B2R y) + 1 /\ Rabs (B2R z) <= 2 ^ 50.
Proof.
  intros Fx Fy HS V M. pose proof (rnd_err S) as R. rewrite <- V in R. set (m := Rabs (B2R x) + Rabs (B2R y)) in *. destruct u_small as (U & _). assert (T : / 2 ^ 100 <= / 2 ^ 53) by (apply Rinv_le_contravar; [apply pow_lt; lra|apply Rle_pow; [lra|lia]]).
  assert (K : / 2 ^ 53 * Rabs S <= / 2 ^ 53 * m) by (apply Rmult_le_compat_l; lra). assert (D : Rabs (B2R z - S) <= / 2 ^ 53 * (m + 1)) by lra. assert (DM : / 2 ^ 53 * (m + 1) <= 1). { apply Rle_trans with (/ 2 ^ 53 * 2 ^ 53); [apply Rmult_le_compat_l; [lra|]; cbn; lra|rewrite Rinv_l; [lra|apply pow_nonzero; lra]]. }
  split; [exact D|]. assert (Z : Rabs (B2R z) <= m + 1). { replace (B2R z) with (S + (B2R z - S)) by ring. eapply Rle_trans; [apply Rabs_triang|]. lra. } split; [exact Z|]. cbn in *. lra.
Qed.
Lemma add_fin (x y : f64) : is_finite x = true -> is_finite y = true -> Rabs (B2R x) + Rabs (B2R y) <= 2 ^ 49 ->
  let z := Bplus mode_NE x y in is_finite z = true /\ Rabs (B2R z - (B2R x + B2R y)) <= / 2 ^ 53 * (Rabs (B2R x) + Rabs (B2R y) + 1) /\ Rabs (B2R z) <= Rabs (B2R x) + Rabs (B2R y) + 1 /\ Rabs (B2R z) <= 2 ^ 50.
Proof.
  intros Fx Fy M z. destruct (f64_plus x y Fx Fy) as [V F]. { apply (big_bound _ (2 ^ 49)); [eapply Rle_trans; [apply Rabs_triang|exact M]|apply Rle_pow; [lra|lia]]. }
  split; [exact F|]. apply (sum_err x y z); [exact Fx|exact Fy|apply Rabs_triang|exact V|exact M].
Qed.
Lemma sub_fin (x y : f64) : is_finite x = true -> is_finite y = true -> Rabs (B2R x) + Rabs (B2R y) <= 2 ^ 49 ->
  let z := Bminus mode_NE x y in is_finite z = true /\ Rabs (B2R z - (B2R x - B2R y)) <= / 2 ^ 53 * (Rabs (B2R x) + Rabs (B2R y) + 1) /\ Rabs (B2R z) <= Rabs (B2R x) + Rabs (B2R y) + 1 /\ Rabs (B2R z) <= 2 ^ 50.
Proof.
  intros Fx Fy M z. assert (T : Rabs (B2R x - B2R y) <= Rabs (B2R x) + Rabs (B2R y)) by (unfold Rminus; eapply Rle_trans; [apply Rabs_triang|rewrite Rabs_Ropp; lra]). destruct (f64_minus x y Fx Fy) as [V F]. { apply (big_bound _ (2 ^ 49)); [eapply Rle_trans; [exact T|exact M]|apply Rle_pow; [lra|lia]]. }
  split; [exact F|]. apply (sum_err x y z); [exact Fx|exact Fy|exact T|exact V|exact M].
Qed.
(** The common shape: a rounded sum, then reduced. *)
Lemma then_reduced w (z : f64) S m : 0 <= m -> Rabs (B2R z - S) <= / 2 ^ 53 * (m + 1) -> Rabs (B2R z) <= m + 1 -> near_angle w (B2R z) (/ 2 ^ 52 * (Rabs (B2R z) + 8)) -> w <= B2R PI64 + / 2 ^ 52 * (Rabs (B2R z) + 8) ->
  near_angle w S (/ 2 ^ 51 * (m + 8)) /\ w <= B2R PI64 + / 2 ^ 51 * (m + 8).
Proof.
  intros M0 D Z N W. destruct u_small as (U & U2 & U1 & _). rewrite U2 in *. rewrite U1. set (u := / 2 ^ 53) in *. assert (K : u * Rabs (B2R z) <= u * (m + 1)) by (apply Rmult_le_compat_l; lra). assert (K0 : 0 <= u * m) by (apply Rmult_le_pos; lra). split; [|lra].
  apply (na_le _ _ _ _ (na_trans _ _ _ _ _ N (na_exact _ _ _ D))). lra.
Qed.
Definition small (x y : f64) : Prop := is_finite x = true /\ is_finite y = true /\ Rabs (B2R x) + Rabs (B2R y) <= 2 ^ 49.
Lemma m_pos (x y : f64) : 0 <= Rabs (B2R x) + Rabs (B2R y). Proof. pose proof (Rabs_pos (B2R x)). pose proof (Rabs_pos (B2R y)). lra. Qed.
Lemma diff_to64 (a b : f64) : is_finite a = true -> is_finite b = true -> Rabs (B2R a) + Rabs (B2R b) <= 2 ^ 49 ->
  let e := / 2 ^ 51 * (Rabs (B2R a) + Rabs (B2R b) + 8) in let d := diff_to (ops := O) a b in
  is_finite d = true /\ - B2R PI64 < B2R d <= B2R PI64 + e /\ near_angle (B2R a + B2R d) (B2R b) e.
Proof.
  intros Fa Fb M e d. rewrite Rplus_comm in M. destruct (sub_fin b a Fb Fa M) as (F & D & Z & Y). destruct (normalized_error _ F Y) as (F1 & [L U] & N). destruct (then_reduced _ _ _ _ (m_pos b a) D Z N U) as [N2 U2]. change (normalized (ops := O) (Bminus mode_NE b a)) with d in *. rewrite (Rplus_comm (Rabs (B2R b))) in *. fold e in N2, U2.
  split; [exact F1|]. split; [now split|]. apply (na_eq _ _ _ _ _ (na_add _ _ _ (B2R a) N2)); ring.
Qed.
Lemma lon_sub64 (l r : f64) : is_finite l = true -> is_finite r = true -> Rabs (B2R l) + Rabs (B2R r) <= 2 ^ 49 ->
  let e := / 2 ^ 51 * (Rabs (B2R l) + Rabs (B2R r) + 8) in let d := lon_sub (ops := O) l r in
  is_finite d = true /\ - B2R PI64 < B2R d <= B2R PI64 + e /\ near_angle (B2R r + B2R d) (B2R l) e.
Proof. intros Fl Fr M e d. unfold e, d, lon_sub. rewrite (Rplus_comm (Rabs (B2R l))) in *. now apply diff_to64. Qed.
Lemma azimuth_sub64 (z r : f64) : is_finite z = true -> is_finite r = true -> Rabs (B2R z) + Rabs (B2R r) <= 2 ^ 49 ->
  let e := / 2 ^ 51 * (Rabs (B2R z) + Rabs (B2R r) + 16) in let d := azimuth_sub (ops := O) z r in
  is_finite d = true /\ - B2R PI64 < B2R d <= B2R PI64 + / 2 ^ 48 /\ near_angle (B2R r + B2R d) (B2R z) e.
Proof.
  intros Fl Fr M e d. unfold d, azimuth_sub. assert (M' := M). rewrite (Rplus_comm (Rabs (B2R z))) in M'. destruct (diff_to64 r z Fr Fl M') as (F & [L U] & N). set (y := diff_to (ops := O) r z) in *. pose proof pi64_b as PB. destruct u_small as (U0 & U2 & U1 & U3).
  assert (EB : / 2 ^ 51 * (Rabs (B2R r) + Rabs (B2R z) + 8) <= 1). { rewrite U1. apply Rle_trans with (4 * / 2 ^ 53 * (2 ^ 53 * / 4)); [apply Rmult_le_compat_l; [lra|]; cbn in *; lra|right; field]. }
  assert (Y : Rabs (B2R y) <= 5) by (apply Rabs_le; lra). destruct (normalized_error y F ltac:(eapply Rle_trans; [exact Y|cbn; lra])) as (F1 & [L1 H1] & N1). split; [exact F1|].
  assert (E1 : / 2 ^ 52 * (Rabs (B2R y) + 8) <= / 2 ^ 52 * 13) by (apply Rmult_le_compat_l; lra). split; [split; [exact L1|]; apply (Rle_trans _ _ _ H1); apply Rplus_le_compat_l; apply (Rle_trans _ _ _ E1); replace (/ 2 ^ 48) with (16 * / 2 ^ 52) by field; lra|].
  pose proof (na_add _ _ _ (B2R r) N1) as N2. rewrite !(Rplus_comm _ (B2R r)) in N2. apply (na_le _ _ _ _ (na_trans _ _ _ _ _ N2 N)). unfold e. rewrite U2, U1 in *. set (u := / 2 ^ 53) in *. lra.
Qed.
Lemma lon_add64 (l a : f64) : is_finite l = true -> is_finite a = true -> Rabs (B2R l) + Rabs (B2R a) <= 2 ^ 49 ->
  let e := / 2 ^ 51 * (Rabs (B2R l) + Rabs (B2R a) + 8) in
  (let x := lon_add (ops := O) l a in is_finite x = true /\ - B2R PI64 <= B2R x <= B2R PI64 + e /\ near_angle (B2R x) (B2R l + B2R a) e) /\
  (let x := lon_sub_angle (ops := O) l a in is_finite x = true /\ - B2R PI64 <= B2R x <= B2R PI64 + e /\ near_angle (B2R x) (B2R l - B2R a) e).
Proof.
  intros Fl Fa M e. split.
  - destruct (add_fin l a Fl Fa M) as (F & D & Z & Y). destruct (wrapped_near _ F Y) as (F1 & [L U] & N). destruct (then_reduced _ _ _ _ (m_pos l a) D Z N U) as [N2 U2]. fold e in N2, U2. split; [exact F1|]. split; [split; [exact L|exact U2]|exact N2].
  - destruct (sub_fin l a Fl Fa M) as (F & D & Z & Y). destruct (wrapped_near _ F Y) as (F1 & [L U] & N). destruct (then_reduced _ _ _ _ (m_pos l a) D Z N U) as [N2 U2]. fold e in N2, U2. split; [exact F1|]. split; [split; [exact L|exact U2]|exact N2].
Qed.
Lemma azimuth_add64 (z a : f64) : is_finite z = true -> is_finite a = true -> Rabs (B2R z) + Rabs (B2R a) <= 2 ^ 49 ->
  let e := / 2 ^ 51 * (Rabs (B2R z) + Rabs (B2R a) + 8) in let x := azimuth_add (ops := O) z a in
  is_finite x = true /\ - B2R PI64 < B2R x <= B2R PI64 + e /\ near_angle (B2R x) (B2R z + B2R a) e.
Proof.
  intros Fl Fa M e x. destruct (add_fin z a Fl Fa M) as (F & D & Z & Y). destruct (normalized_error _ F Y) as (F1 & [L U] & N). destruct (then_reduced _ _ _ _ (m_pos z a) D Z N U) as [N2 U2]. fold e in N2, U2. split; [exact F1|]. split; [split; [exact L|exact U2]|exact N2].
Qed.
(** Turning from one azimuth by the difference leads to the other. *)
Lemma turn_back64 (z r : f64) : is_finite z = true -> is_finite r = true -> Rabs (B2R z) <= 4 -> Rabs (B2R r) <= 4 ->
  let x := azimuth_add (ops := O) r (azimuth_sub (ops := O) z r) in is_finite x = true /\ near_angle (B2R x) (B2R z) (/ 2 ^ 45).
Proof.
  intros Fz Fr Bz Br x. assert (P49 : 20 <= 2 ^ 49) by (cbn; lra). destruct (azimuth_sub64 z r Fz Fr ltac:(lra)) as (F & [L U] & N). set (d := azimuth_sub (ops := O) z r) in *. pose proof pi64_b as PB. destruct u_small as (U0 & U2 & U1 & U3).
  assert (E48 : / 2 ^ 48 = 32 * / 2 ^ 53) by field. assert (U4 : / 2 ^ 53 <= / 1000) by (apply Rinv_le_contravar; [lra|cbn; lra]). assert (D5 : Rabs (B2R d) <= 5) by (apply Rabs_le; rewrite E48 in U; lra).
  destruct (azimuth_add64 r d Fr F ltac:(lra)) as (F2 & _ & N2). split; [exact F2|]. apply (na_le _ _ _ _ (na_trans _ _ _ _ _ N2 N)). rewrite U1. replace (/ 2 ^ 45) with (256 * / 2 ^ 53) by field. set (u := / 2 ^ 53) in *.
  assert (4 * u * (Rabs (B2R r) + Rabs (B2R d) + 8) <= 4 * u * 17) by (apply Rmult_le_compat_l; lra). assert (4 * u * (Rabs (B2R z) + Rabs (B2R r) + 16) <= 4 * u * 24) by (apply Rmult_le_compat_l; lra). lra.
Qed.

(** ** Any number of turns *)
Lemma turn_sum_shift l : forall x y e, near_angle x y e -> near_angle (turn_sum x l) (turn_sum y l) e.
Proof. induction l as [|t l IH]; intros x y e H; [exact H|]. cbn [turn_sum fold_left]. apply IH. destruct t; [now apply na_add|unfold Rminus; now apply na_add|now apply na_opp]. Qed.
Lemma runs64_from (t : R) l : 0 <= t <= 2 ^ 40 -> Forall (turns_by t) l -> forall x : f64, is_finite x = true -> Rabs (B2R x) <= B2R PI64 + / 2 ^ 51 * (t + 16) ->
  let y := fold_left (lon_step (ops := O)) l x in is_finite y = true /\ Rabs (B2R y) <= B2R PI64 + / 2 ^ 51 * (t + 16) /\ near_angle (B2R y) (turn_sum (B2R x) (map turn_of l)) (INR (length l) * (/ 2 ^ 51 * (t + 16))).
Proof.
  intros T. assert (EB : / 2 ^ 51 * (t + 16) <= / 2). { apply Rle_trans with (/ 2 ^ 51 * 2 ^ 50); [apply Rmult_le_compat_l; [left; apply Rinv_0_lt_compat, pow_lt; lra|]; cbn in *; lra|right; field]. } assert (E0 : 0 <= / 2 ^ 51 * (t + 16)) by (apply Rmult_le_pos; [left; apply Rinv_0_lt_compat, pow_lt; lra|lra]).
  pose proof pi64_b as PB. assert (P49 : 2 ^ 40 + 20 <= 2 ^ 49) by (cbn; lra). induction l as [|o l IH]; intros HL x Fx Bx.
  - cbn [fold_left map turn_sum length]. split; [exact Fx|]. split; [exact Bx|]. apply na_exact. rewrite Rminus_diag_eq, Rabs_R0 by reflexivity. cbn [INR]. lra.
  - inversion HL as [|? ? Ho HL']; subst. assert (S : is_finite (lon_step (ops := O) x o) = true /\ Rabs (B2R (lon_step (ops := O) x o)) <= B2R PI64 + / 2 ^ 51 * (t + 16) /\ near_angle (B2R (lon_step (ops := O) x o)) (turn_sum (B2R x) [turn_of o]) (/ 2 ^ 51 * (t + 16))).
    { assert (EE : forall a : f64, Rabs (B2R a) <= t -> / 2 ^ 51 * (Rabs (B2R x) + Rabs (B2R a) + 8) <= / 2 ^ 51 * (t + 16)) by (intros a Ba; apply Rmult_le_compat_l; [left; apply Rinv_0_lt_compat, pow_lt; lra|lra]).
      destruct o as [a|a| | |k|k]; cbn [turns_by] in Ho; try contradiction; cbn [lon_step turn_of turn_sum fold_left].
      - destruct Ho as [Fa Ba]. specialize (EE a Ba). destruct (lon_add64 x a Fx Fa ltac:(lra)) as [(F & [L U] & N) _]. split; [exact F|]. split; [apply Rabs_le; lra|]. exact (na_le _ _ _ _ N EE).
      - destruct Ho as [Fa Ba]. specialize (EE a Ba). destruct (lon_add64 x a Fx Fa ltac:(lra)) as [_ (F & [L U] & N)]. split; [exact F|]. split; [apply Rabs_le; lra|]. exact (na_le _ _ _ _ N EE).
      - unfold lon_neg. cbn [fneg F64ops]. rewrite is_finite_Bopp, B2R_Bopp, Rabs_Ropp. split; [exact Fx|]. split; [exact Bx|]. apply na_exact. rewrite Rminus_diag_eq, Rabs_R0 by reflexivity. lra. }
    destruct S as (F1 & B1 & N1). destruct (IH HL' _ F1 B1) as (F2 & B2 & N2). cbn [fold_left map]. split; [exact F2|]. split; [exact B2|]. pose proof (turn_sum_shift (map turn_of l) _ _ _ N1) as N3. pose proof (na_trans _ _ _ _ _ N2 N3) as N4. change (length (o :: l)) with (S (length l)). rewrite S_INR.
    apply (na_le _ _ _ _ N4). lra.
Qed.
Lemma runs64 (t : R) (a : f64) l : is_finite a = true -> Rabs (B2R a) <= t -> t <= 2 ^ 40 -> Forall (turns_by t) l ->
  let x := lon_run (ops := O) a l in is_finite x = true /\ Rabs (B2R x) <= B2R PI64 + / 2 ^ 51 * (t + 16) /\ near_angle (B2R x) (turn_sum (B2R a) (map turn_of l)) (INR (S (length l)) * (/ 2 ^ 51 * (t + 16))).
Proof.
  intros Fa Ba T HL x. pose proof (Rabs_pos (B2R a)) as A0. assert (P50 : 2 ^ 40 <= 2 ^ 50) by (cbn; lra). destruct (wrapped_near a Fa ltac:(lra)) as (F & [L U] & N). destruct u_small as (U0 & U2 & U1 & U3). assert (E0 : / 2 ^ 52 * (Rabs (B2R a) + 8) <= / 2 ^ 51 * (t + 16)). { apply Rmult_le_compat; lra. }
  assert (Q0 : 0 <= / 2 ^ 51 * (t + 16)) by (apply Rmult_le_pos; lra). pose proof pi64_b as PB. destruct (runs64_from t l ltac:(lra) HL (lon_new (ops := O) a) F) as (F2 & B2 & N2). { apply Rabs_le. unfold lon_new. lra. }
  split; [exact F2|]. split; [exact B2|]. pose proof (na_trans _ _ _ _ _ N2 (turn_sum_shift (map turn_of l) _ _ _ N)) as N3. rewrite S_INR. apply (na_le _ _ _ _ N3). lra.
Qed.
End A.
