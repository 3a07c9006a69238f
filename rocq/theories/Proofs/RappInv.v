(** Rapp's inverse solution: the iteration contracts away from opposite points. *)
From Coq Require Import Reals QArith Qreals Lra Psatz Lia List Bool.
From Flocq Require Import Core.Raux.
From Coquelicot Require Import Coquelicot.
From Verif.Num Require Import FOps RFun XR XRLemmas PIBounds TMod.
From Verif.Model Require Import Fp Quantities Complex Cs Ellipsoid Geodesics.
From Verif.Spec Require Import Angles Axes Shape Frames Sphere Geodesic Maps Series.
From Verif.Proofs Require Import AnglesX EllX SphereG SphereN GeoG GeoV GeoVD GeoR GeoI GeoIS GeoRI VincAcc VincInv.
Import ListNotations.
Local Open Scope R_scope.

(** the longitude correction and the distance over the variables of VincInv.v *)
Definition e_n2 : ex := (EZ 2 * (e_n * e_n) - e_q * e_q)%ex.
Definition e_n3 : ex := (e_n * (EZ 4 * (e_n * e_n) - EZ 3 * (e_q * e_q)))%ex.
Definition e_s3 : ex := (EZ 3 - EZ 4 * (EV 2 * EV 2))%ex.
Definition e_h : ex := (qc 1 4 * EV 5 * (EZ 1 + EV 5 * (EZ 1 + EV 5)))%ex.
Definition e_g : ex := (EV 5 * EV 5 * (EZ 1 + qc 9 4 * EV 5))%ex.
Definition e_c : ex := (EV 5 * EV 5 * EV 5)%ex.
Definition e_A0 : ex := (EZ 1 + e_q * (EZ 0 - e_h + e_q * (qc 3 16 * e_g - qc 25 128 * e_c * e_q)))%ex.
Definition e_A2 : ex := (e_h + e_q * (qc 75 256 * e_c * e_q - qc 1 4 * e_g))%ex.
Definition e_A4 : ex := (qc 1 32 * e_g - qc 15 256 * e_c * e_q)%ex.
Definition e_A6 : ex := (qc 5 768 * e_c)%ex.
Definition e_W : ex := (e_A2 * e_n + EZ 2 * EV 1 * e_A4 * e_n2 + e_s3 * e_A6 * e_n3)%ex.
Definition e_L : ex := (EV 0 * (e_A0 * EV 3 + e_W))%ex.
Lemma s2_iss b1 b2 l : sin (2 * isg b1 b2 l) = 2 * iss b1 b2 l * ics b1 b2 l.
Proof. rewrite sin_2a. now destruct (isg_spec b1 b2 l) as [-> ->]. Qed.
Lemma s3_iss b1 b2 l : sin (3 * isg b1 b2 l) = iss b1 b2 l * (3 - 4 * (iss b1 b2 l * iss b1 b2 l)).
Proof. rewrite <- sin3_R. destruct (isg_spec b1 b2 l) as [-> ->]. pose proof (aux_sc b1 b2 l) as U. replace (ics b1 b2 l * ics b1 b2 l) with (1 - iss b1 b2 l * iss b1 b2 l) by lra. ring. Qed.
Lemma s4_iss b1 b2 l : sin (4 * isg b1 b2 l) = 4 * iss b1 b2 l * ics b1 b2 l * (1 - 2 * (iss b1 b2 l * iss b1 b2 l)).
Proof. replace (4 * isg b1 b2 l) with (2 * (2 * isg b1 b2 l)) by ring. rewrite sin_2a, cos_2a_sin, s2_iss. destruct (isg_spec b1 b2 l) as [-> _]. ring. Qed.
Lemma poly4 a b c d x : polynomial [a; b; c; d]%list x = a + x * (b + x * (c + x * d)).
Proof. unfold polynomial. cbn. ring. Qed.
Lemma Rrlam_fun f b1 b2 L l : iss b1 b2 l <> 0 -> Rrlam f b1 b2 L l = L + f * vfun b1 b2 f e_L l.
Proof.
  intros H. unfold Rrlam, vfun. cbv zeta. rewrite s2_iss, s3_iss. destruct (isg_spec b1 b2 l) as [-> _]. destruct (Req_bool_spec (iq b1 b2 l) 0) as [Z|Z].
  - pose proof (q0_sines _ _ _ H Z) as S. unfold e_L, e_W, e_A0, e_A2, e_A4, e_A6, e_h, e_g, e_c, e_s3, e_n3, e_n2, e_n, e_q. ev. rewrite S. unfold iq in Z. replace (isa b1 b2 l * isa b1 b2 l) with 1 by lra. field. exact H.
  - unfold rax. unfold e_L, e_W, e_A0, e_A2, e_A4, e_A6, e_h, e_g, e_c, e_s3, e_n3, e_n2, e_n, e_q. ev. rewrite !poly4. unfold icm, iq in *. field. split; assumption.
Qed.
Definition e_B0r : ex := (EZ 1 + e_v * (qc 1 4 + e_v * (qc (-3) 64 + e_v * (qc 5 256 + qc (-175) 16384 * e_v))))%ex.
Definition e_B2r : ex := (qc (-1) 4 + e_v * (qc 1 16 + e_v * (qc (-15) 512 + qc 35 2048 * e_v)))%ex.
Definition e_B4r : ex := (qc (-1) 128 + e_v * (qc 3 512 + qc (-35) 8192 * e_v))%ex.
Definition e_B6r : ex := (qc (-1) 1536 + qc 5 6144 * e_v)%ex.
Definition e_q2 : ex := (e_q * e_q)%ex.
Definition e_t2 : ex := (EZ 4 * ((EV 2 * EV 2) * (EV 1 * EV 1)))%ex.
Definition e_nn : ex := (e_n * e_n)%ex.
Definition e_n4 : ex := (e_nn * e_nn - EZ 6 * e_nn * e_q2 * e_t2 + (e_q2 * e_t2) * (e_q2 * e_t2))%ex.
Definition e_ep2 : ex := (EV 5 * EV 5)%ex.
Definition e_Wr : ex := (EV 5 * e_B2r * e_n + EZ 2 * EV 1 * (e_ep2 * e_B4r * e_n2) + e_s3 * (e_ep2 * EV 5 * e_B6r * e_n3)
  + EZ 4 * EV 1 * (EZ 1 - EZ 2 * (EV 2 * EV 2)) * (qc (-5) 65536 * (e_ep2 * e_ep2) * e_n4))%ex.
Definition e_S : ex := (e_B0r * EV 3 + e_Wr)%ex.
Lemma Rrdist_fun a b b1 b2 l : iss b1 b2 l <> 0 ->
  Rrdist a b (iq b1 b2 l) (isg b1 b2 l) (icm b1 b2 l) (ric8 b1 b2 l) = b * vfun b1 b2 ((a * a - b * b) / (b * b)) e_S l.
Proof.
  intros H. unfold Rrdist, vfun, ric8. cbv zeta. set (ep := (a * a - b * b) / (b * b)). clearbody ep. rewrite s2_iss, s3_iss, s4_iss. destruct (isg_spec b1 b2 l) as [-> _]. destruct (Req_bool_spec (iq b1 b2 l) 0) as [Z|Z].
  - pose proof (q0_sines _ _ _ H Z) as S. unfold e_S, e_Wr, e_B0r, e_B2r, e_B4r, e_B6r, e_n4, e_nn, e_t2, e_q2, e_ep2, e_s3, e_n3, e_n2, e_v, e_n, e_q. ev. rewrite S. unfold iq in Z. replace (isa b1 b2 l * isa b1 b2 l) with 1 by lra. field. exact H.
  - unfold Rb0, Rb2, Rb4, Rb6, Rb8. unfold e_S, e_Wr, e_B0r, e_B2r, e_B4r, e_B6r, e_n4, e_nn, e_t2, e_q2, e_ep2, e_s3, e_n3, e_n2, e_v, e_n, e_q. ev. unfold icm, iq in *. field. split; assumption.
Qed.
(** what is left to know when the loop has ended *)
Definition rsettled (b1 b2 f ep L x y : R) : Prop :=
  iss b1 b2 x <> 0 /\ iss b1 b2 y <> 0 /\ y = Rrlam f b1 b2 L x /\ Rabs (y - x) < 5 / 10 ^ 15 /\
  Rabs (Rrlam f b1 b2 L y - Rrlam f b1 b2 L x) <= 2 * / 10 ^ 15 /\
  Rabs (vfun b1 b2 ep e_S y - vfun b1 b2 ep e_S x) <= 8 * / 10 ^ 15 /\
  0 < vfun b1 b2 ep e_S x /\ - (936 / 1000) <= ics b1 b2 y /\
  (0 < sin x * sin y \/ L = 0 /\ x = 0 /\ y = 0).
Section Loop.
Context (b1 b2 L f ep : R) (C1 : - (PI / 2) < b1 < PI / 2) (C2 : - (PI / 2) < b2 < PI / 2).
Context (HL : 0 <= L <= PI) (HD : b1 = b2 -> 0 < L) (HI : - (886 / 1000) <= ics b1 b2 L) (Hf : 0 <= f <= / 100) (He : 0 <= ep <= 21 / 1000).
Notation reg := (reg b1 b2 L).
Notation lam := (Rrlam f b1 b2 L).
Let Hf' : Rabs f <= Q2R (Qmake 1 100). Proof. rewrite Rabs_right by lra. unfold Q2R. cbn. lra. Qed.
Let He' : Rabs ep <= Q2R (Qmake 21 1000). Proof. rewrite Rabs_right by lra. unfold Q2R. cbn. lra. Qed.
Lemma rlam_lip x y : reg x -> reg y -> Rabs (lam x - lam y) <= 29 / 100 * Rabs (x - y).
Proof.
  intros X Y. rewrite !Rrlam_fun by (apply (reg_iss b1 b2 L C1 C2 HL HD HI); assumption).
  pose proof (reg_lip b1 b2 L C1 C2 HL HD HI f (Qmake 1 100) e_L 1 (Qmake 29 1) x y Hf' X Y ltac:(vm_compute; reflexivity)) as B.
  replace (L + f * vfun b1 b2 f e_L x - (L + f * vfun b1 b2 f e_L y)) with (f * (vfun b1 b2 f e_L x - vfun b1 b2 f e_L y)) by ring. rewrite Rabs_mult, (Rabs_right f) by lra.
  replace (Q2R (Qmake 29 1)) with 29 in B by (unfold Q2R; cbn; lra). pose proof (Rabs_pos (x - y)). pose proof (Rabs_pos (vfun b1 b2 f e_L x - vfun b1 b2 f e_L y)). nra.
Qed.
Lemma rdist_lip x y : reg x -> reg y -> Rabs (vfun b1 b2 ep e_S x - vfun b1 b2 ep e_S y) <= 16 / 10 * Rabs (x - y).
Proof.
  intros X Y. pose proof (reg_lip b1 b2 L C1 C2 HL HD HI ep (Qmake 21 1000) e_S 1 (Qmake 16 10) x y He' X Y ltac:(vm_compute; reflexivity)) as B.
  replace (Q2R (Qmake 16 10)) with (16 / 10) in B by (unfold Q2R; cbn; lra). exact B.
Qed.
Lemma rlam_parts x : reg x -> exists k r, 9 / 10 <= k <= 11 / 10 /\ Rabs r <= 2 / 100 /\ lam x - L = f * isa b1 b2 x * (k * isg b1 b2 x + iss b1 b2 x * r).
Proof.
  intros X. pose proof (reg_iss b1 b2 L C1 C2 HL HD HI x X) as N. rewrite Rrlam_fun by exact N.
  pose proof (reg_small b1 b2 L C1 C2 HL HD HI f (Qmake 1 100) (e_A0 - EZ 1)%ex 1 (Qmake 1 10) x Hf' X ltac:(vm_compute; reflexivity)) as B1.
  pose proof (reg_small b1 b2 L C1 C2 HL HD HI f (Qmake 1 100) e_W 1 (Qmake 2 100) x Hf' X ltac:(vm_compute; reflexivity)) as B2.
  replace (Q2R (Qmake 1 10)) with (1 / 10) in B1 by (unfold Q2R; cbn; lra). replace (Q2R (Qmake 2 100)) with (2 / 100) in B2 by (unfold Q2R; cbn; lra).
  exists (eval (venv b1 b2 f x) nofe e_A0), (eval (venv b1 b2 f x) nofe e_W). cbn [eval EZ] in B1. rewrite Q2R_Z in B1. apply Rabs_le_inv in B1. split; [lra|]. split; [exact B2|].
  unfold vfun, e_L. cbn [eval venv]. field. exact N.
Qed.
Lemma rlam_size x : reg x -> Rabs (lam x - L) <= / 20.
Proof.
  intros X. pose proof (reg_iss b1 b2 L C1 C2 HL HD HI x X) as N. destruct (rlam_parts x X) as (k & r & Hk & Hr & ->). pose proof (isa_bound b1 b2 x N) as SA. pose proof (isg_bound b1 b2 x) as G. pose proof PI_up as P.
  assert (S1 : Rabs (iss b1 b2 x) <= 1) by (destruct (isg_spec b1 b2 x) as [<- _]; apply Rabs_le, SIN_bound).
  assert (W : Rabs (k * isg b1 b2 x + iss b1 b2 x * r) <= 4).
  { eapply Rle_trans; [apply Rabs_triang|]. rewrite !Rabs_mult, (Rabs_right (isg b1 b2 x)), (Rabs_right k) by lra. pose proof (Rabs_pos r). pose proof (Rabs_pos (iss b1 b2 x)). nra. }
  rewrite !Rabs_mult, (Rabs_right f) by lra. pose proof (Rabs_pos (isa b1 b2 x)). pose proof (Rabs_pos (k * isg b1 b2 x + iss b1 b2 x * r)).
  assert (0 <= f * Rabs (isa b1 b2 x) <= / 100) by nra. nra.
Qed.
Lemma rlam_sign x : reg x -> 0 <= sin x -> L <= lam x.
Proof.
  intros X S. pose proof (reg_iss b1 b2 L C1 C2 HL HD HI x X) as N. destruct (rlam_parts x X) as (k & r & Hk & Hr & E). pose proof (isg_bound b1 b2 x) as G. pose proof (iss_ge b1 b2 x) as I.
  assert (GS : iss b1 b2 x <= isg b1 b2 x) by (destruct (isg_spec b1 b2 x) as [<- _]; apply sin_le_x; lra).
  assert (0 < cos b1) by (apply cos_gt_0; lra). assert (0 < cos b2) by (apply cos_gt_0; lra).
  assert (SA : 0 <= isa b1 b2 x) by (unfold isa; apply Rdiv_le_0_compat; [apply Rmult_le_pos; [|exact S]; apply Rlt_le, Rmult_lt_0_compat; lra|lra]).
  apply Rabs_le_inv in Hr. assert (0 <= k * isg b1 b2 x + iss b1 b2 x * r) by nra. assert (0 <= f * isa b1 b2 x * (k * isg b1 b2 x + iss b1 b2 x * r)) by (apply Rmult_le_pos; [apply Rmult_le_pos|]; lra). lra.
Qed.
Lemma rlam_reg x : reg x -> reg (lam x).
Proof.
  intros X. split; [apply rlam_size; exact X|]. intros E. pose proof (HD E) as HD'. destruct (Rle_dec (/ 10) L) as [K|K].
  - pose proof (Rabs_le_inv _ _ (rlam_size x X)). lra.
  - assert (0 <= sin x). { destruct X as [X1 X2]. specialize (X2 E). apply Rabs_le_inv in X1. apply sin_ge_0; [lra|]. pose proof PI_64_bounds. lra. } pose proof (rlam_sign x X H). lra.
Qed.
(** the iterates stay between the difference of longitude and the opposite meridian *)
Lemma rlam_below x : L < PI -> reg x -> L <= x < PI -> L <= lam x < PI.
Proof.
  intros LP X B. assert (SX : 0 <= sin x) by (apply sin_ge_0; lra). split; [apply rlam_sign; assumption|].
  destruct (Rle_dec (PI - L) (/ 20)) as [K|K].
  - assert (RP : reg PI) by (split; [rewrite Rabs_right; lra|intros _; lra]). pose proof (rlam_lip x PI X RP) as D.
    assert (EP : lam PI = L). { destruct (rlam_parts PI RP) as (k & r & _ & _ & E). unfold isa in E. rewrite sin_PI in E. unfold Rdiv in E. rewrite Rmult_0_r, Rmult_0_l, Rmult_0_r, Rmult_0_l in E. lra. }
    rewrite EP, (Rabs_minus_sym x), (Rabs_right (PI - x)) in D by lra. apply Rabs_le_inv in D. lra.
  - pose proof (Rabs_le_inv _ _ (rlam_size x X)). lra.
Qed.
Context (a b : R) (Ef : f = (a - b) / a).
Lemma rloop_turn n l : Rrloop a b (S n) b1 b2 L l = if Req_bool (iss b1 b2 l) 0 then None else if Rlt_bool (Rabs (lam l - l)) (5 / 10 ^ 15) then Some (l, lam l) else Rrloop a b n b1 b2 L (lam l).
Proof. cbn [Rrloop]. rewrite <- Ef. reflexivity. Qed.
Lemma rloop_ends n l d : L < PI -> reg l -> L <= l < PI -> Rabs (lam l - l) <= d -> (29 / 100) ^ n * d < 5 / 10 ^ 15 ->
  exists x y, Rrloop a b (S n) b1 b2 L l = Some (x, y) /\ reg x /\ L <= x < PI.
Proof.
  intros LP. revert l d. induction n as [|n IH]; intros l d X B D H; rewrite rloop_turn, Req_bool_f by (apply (reg_iss b1 b2 L C1 C2 HL HD HI); exact X).
  - rewrite Rlt_bool_t by (cbn [pow] in H; lra). do 2 eexists. split; [reflexivity|split; assumption].
  - destruct (Rlt_bool _ _); [do 2 eexists; split; [reflexivity|split; assumption]|]. apply (IH (lam l) (29 / 100 * d)); [apply rlam_reg; exact X|apply rlam_below; assumption| |].
    + eapply Rle_trans; [apply rlam_lip; [apply rlam_reg|]; exact X|]. lra.
    + cbn [pow] in H. replace ((29 / 100) ^ n * (29 / 100 * d)) with (29 / 100 * (29 / 100) ^ n * d) by ring. exact H.
Qed.
Lemma rloop_settles : L < PI -> exists x y, Rrloop a b 30 b1 b2 L L = Some (x, y) /\ rsettled b1 b2 f ep L x y.
Proof.
  intros LP. assert (RL : reg L) by (split; [rewrite Rminus_eq_0, Rabs_R0; lra|intros _; lra]).
  assert (EX : exists x y, Rrloop a b 30 b1 b2 L L = Some (x, y) /\ reg x /\ L <= x < PI /\ (L = 0 -> x = 0)).
  { destruct (Req_dec L 0) as [Z|Z].
    - assert (EL : lam L = L). { destruct (rlam_parts L RL) as (k & r & _ & _ & E). unfold isa in E. rewrite Z, sin_0 in E. unfold Rdiv in E. rewrite Rmult_0_r, Rmult_0_l, Rmult_0_r, Rmult_0_l in E. rewrite Z. lra. }
      exists L, L. split; [|split; [exact RL|split; [lra|tauto]]]. change 30%nat with (S 29). generalize 29%nat. intros n. rewrite rloop_turn, Req_bool_f by (apply (reg_iss b1 b2 L C1 C2 HL HD HI); exact RL). rewrite EL, Rminus_eq_0, Rabs_R0, Rlt_bool_t; [reflexivity|]. apply Rdiv_lt_0_compat; [lra|apply pow_lt; lra].
    - destruct (rloop_ends 29 L (/ 20) LP RL ltac:(lra) (rlam_size L RL)) as (x & y & EQ & X & B).
      { apply (Rle_lt_trans _ ((29 / 100) ^ 28)).
        - change ((29 / 100) ^ 29) with (29 / 100 * (29 / 100) ^ 28). pose proof (pow_lt (29 / 100) 28 ltac:(lra)). nra.
        - change 28%nat with (2 * 14)%nat. rewrite pow_mult. apply (Rle_lt_trans _ ((841 / 10000) ^ 14)); [apply pow_incr; cbn [pow]; lra|]. cbn [pow]. lra. }
      exists x, y. split; [exact EQ|]. split; [exact X|]. split; [exact B|]. intros; lra. }
  destruct EX as (x & y & EQ & X & B & Z). exists x, y. split; [exact EQ|]. destruct (Rrloop_some a b _ _ _ _ _ _ _ EQ) as (N & Y & T). rewrite <- Ef in Y. assert (RY : reg y) by (rewrite Y; apply rlam_reg; exact X).
  pose proof (reg_iss b1 b2 L C1 C2 HL HD HI y RY) as NY. assert (T15 : 5 / 10 ^ 15 = 5 * / 10 ^ 15) by reflexivity. assert (P15 : 0 < / 10 ^ 15) by (apply Rinv_0_lt_compat, pow_lt; lra).
  split; [exact N|]. split; [exact NY|]. split; [exact Y|]. split; [exact T|]. rewrite T15 in T. split; [|split; [|split; [|split]]].
  - eapply Rle_trans; [apply rlam_lip; assumption|]. lra.
  - eapply Rle_trans; [apply rdist_lip; assumption|]. lra.
  - unfold vfun, e_S. cbn [eval]. pose proof (iss_ge b1 b2 x) as I. apply Rmult_lt_0_compat; [lra|].
    pose proof (reg_small b1 b2 L C1 C2 HL HD HI ep (Qmake 21 1000) e_Wr 1 (Qmake 1 10) x He' X ltac:(vm_compute; reflexivity)) as B1.
    pose proof (reg_small b1 b2 L C1 C2 HL HD HI ep (Qmake 21 1000) (e_B0r - EZ 1)%ex 1 (Qmake 1 2) x He' X ltac:(vm_compute; reflexivity)) as B2.
    replace (Q2R (Qmake 1 2)) with (1 / 2) in B2 by (unfold Q2R; cbn; lra). replace (Q2R (Qmake 1 10)) with (1 / 10) in B1 by (unfold Q2R; cbn; lra). cbn [eval EZ] in B2. rewrite Q2R_Z in B2. apply Rabs_le_inv in B1, B2. cbn [venv] in *.
    assert (GS : iss b1 b2 x <= isg b1 b2 x) by (pose proof (isg_bound b1 b2 x) as G; destruct (isg_spec b1 b2 x) as [<- _]; apply sin_le_x; lra).
    assert (1 <= isg b1 b2 x / iss b1 b2 x) by (apply (Rmult_le_reg_r (iss b1 b2 x)); [lra|]; replace (isg b1 b2 x / iss b1 b2 x * iss b1 b2 x) with (isg b1 b2 x) by (field; exact N); lra).
    nra.
  - apply (reg_ics b1 b2 L HI). exact RY.
  - destruct (Req_dec L 0) as [L0|L0].
    + right. specialize (Z L0). split; [exact L0|]. split; [exact Z|]. rewrite Y. destruct (rlam_parts x X) as (k & r & _ & _ & E). unfold isa in E. rewrite Z, sin_0 in E. unfold Rdiv in E. rewrite Rmult_0_r, Rmult_0_l, Rmult_0_r, Rmult_0_l in E. rewrite Z. lra.
    + left. pose proof (rlam_below x LP X B) as BY. rewrite <- Y in BY. apply Rmult_lt_0_compat; apply sin_gt_0; lra.
Qed.
End Loop.

(** ** The end of the loop in terms of the distance, for either sign of the longitude *)
Section Swap.
Context (b1 b2 K : R) (HK : same_angle K 0).
Lemma ric8_swap l : ric8 b2 b1 (K - l) = ric8 b1 b2 l.
Proof. unfold ric8. rewrite icm_swap, isg_swap by exact HK. reflexivity. Qed.
Lemma Rrlam_swap f L l : Rrlam f b2 b1 (K - L) (K - l) = K - Rrlam f b1 b2 L l.
Proof. unfold Rrlam. cbv zeta. rewrite iq_swap, isa_swap, isg_swap, icm_swap by exact HK. destruct (Req_bool _ _); [ring|]. destruct (rax f) as [[[x0 x2] x4] x6]. ring. Qed.
Lemma Rrloop_swap a b n L l : Rrloop a b n b2 b1 (K - L) (K - l) = match Rrloop a b n b1 b2 L l with Some (x, y) => Some (K - x, K - y) | None => None end.
Proof.
  revert l. induction n as [|n IH]; intros l; [reflexivity|]. cbn [Rrloop]. rewrite iss_swap, Rrlam_swap by exact HK. set (f := (a - b) / a).
  destruct (Req_bool _ _); [reflexivity|]. replace (K - Rrlam f b1 b2 L l - (K - l)) with (- (Rrlam f b1 b2 L l - l)) by ring. rewrite Rabs_Ropp.
  destruct (Rlt_bool _ _); [reflexivity|]. apply IH.
Qed.
End Swap.
Definition rd_at (a b b1 b2 x : R) : R := Rrdist a b (iq b1 b2 x) (isg b1 b2 x) (icm b1 b2 x) (ric8 b1 b2 x).
Lemma rd_swap a b b1 b2 K x : same_angle K 0 -> rd_at a b b2 b1 (K - x) = rd_at a b b1 b2 x.
Proof. intros HK. unfold rd_at. rewrite iq_swap, isg_swap, icm_swap, ric8_swap by exact HK. reflexivity. Qed.
Definition rdone (a b b1 b2 L x y : R) : Prop := let f := (a - b) / a in
  iss b1 b2 x <> 0 /\ iss b1 b2 y <> 0 /\ y = Rrlam f b1 b2 L x /\ Rabs (y - x) < 5 / 10 ^ 15 /\
  Rabs (Rrlam f b1 b2 L y - Rrlam f b1 b2 L x) <= 2 * / 10 ^ 15 /\
  Rabs (rd_at a b b1 b2 y - rd_at a b b1 b2 x) <= b * (8 * / 10 ^ 15) /\
  0 < rd_at a b b1 b2 x /\ - (936 / 1000) <= ics b1 b2 y /\
  (0 < sin x * sin y \/ L = 0 /\ x = 0 /\ y = 0).
Lemma rdone_swap a b b1 b2 L x y : rdone a b b2 b1 (0 - L) (0 - x) (0 - y) -> rdone a b b1 b2 L x y.
Proof.
  pose proof (same_angle_refl 0) as K. intros (A & A' & B & C & D & E & F & G & H). rewrite iss_swap in A, A' by exact K. rewrite (Rrlam_swap b1 b2 0 K) in B. rewrite !(Rrlam_swap b1 b2 0 K) in D. rewrite (rd_swap a b b1 b2 0 x K), (rd_swap a b b1 b2 0 y K) in E. rewrite (rd_swap a b b1 b2 0 x K) in F. rewrite ics_swap in G by exact K.
  split; [exact A|]. split; [exact A'|]. split; [lra|]. split; [rewrite Rabs_minus_sym; replace (x - y) with (0 - y - (0 - x)) by ring; exact C|]. split; [|split; [exact E|split; [exact F|split; [exact G|]]]].
  - rewrite Rabs_minus_sym. set (u := Rrlam _ b1 b2 L x) in *. set (w := Rrlam _ b1 b2 L y) in *. replace (u - w) with (0 - w - (0 - u)) by ring. exact D.
  - destruct H as [H|(H1 & H2 & H3)]; [left|right; lra]. rewrite !(sin_K 0 K) in H. lra.
Qed.
Lemma rloop_done a b b1 b2 L : 0 < b <= a -> 99 * a <= 100 * b -> - (PI / 2) < b1 < PI / 2 -> - (PI / 2) < b2 < PI / 2 -> - PI < L < PI -> (b1 = b2 -> L <> 0) ->
  - (886 / 1000) <= ics b1 b2 L -> exists x y, Rrloop a b 30 b1 b2 L L = Some (x, y) /\ rdone a b b1 b2 L x y.
Proof.
  intros Hab Hf C1 C2 HL HD HI. pose proof (f_bound a b Hab Hf) as Bf. pose proof (ep2_bound a b Hab Hf) as Be.
  assert (P : forall b1 b2 L, - (PI / 2) < b1 < PI / 2 -> - (PI / 2) < b2 < PI / 2 -> 0 <= L < PI -> (b1 = b2 -> L <> 0) -> - (886 / 1000) <= ics b1 b2 L ->
    exists x y, Rrloop a b 30 b1 b2 L L = Some (x, y) /\ rdone a b b1 b2 L x y).
  { clear - Hab Bf Be. intros b1 b2 L C1 C2 HL HD HI.
    destruct (rloop_settles b1 b2 L ((a - b) / a) ((a * a - b * b) / (b * b)) C1 C2 ltac:(lra) ltac:(intros E; specialize (HD E); lra) HI Bf Be a b eq_refl ltac:(lra)) as (x & y & EQ & S).
    exists x, y. split; [exact EQ|]. destruct S as (A & A' & B & C & D & E & F & G & H). unfold rdone, rd_at. cbv zeta. rewrite !Rrdist_fun by assumption. repeat (split; [assumption|]). split; [|split; [|split; assumption]].
    - rewrite <- Rmult_minus_distr_l, Rabs_mult, (Rabs_right b) by lra. apply Rmult_le_compat_l; lra.
    - apply Rmult_lt_0_compat; lra. }
  destruct (Rle_dec 0 L) as [Q|Q]; [apply P; try assumption; lra|]. pose proof (same_angle_refl 0) as K.
  destruct (P b2 b1 (0 - L) C2 C1 ltac:(lra) ltac:(intros E; symmetry in E; specialize (HD E); lra) ltac:(rewrite ics_swap by exact K; exact HI)) as (x & y & EQ & S).
  rewrite Rrloop_swap in EQ by exact K. destruct (Rrloop a b 30 b1 b2 L L) as [[x' y']|]; [|discriminate]. injection EQ; intros <- <-. exists x', y'. split; [reflexivity|]. apply rdone_swap. exact S.
Qed.
