(** Exact arithmetic: the scale of the transverse Mercator projection on the central meridian. *)
From Coq Require Import String Reals Lra Lia ZArith QArith Qreals Bool Psatz List.
From Coquelicot Require Import Coquelicot.
From Flocq Require Import Core.Raux.
From Verif.Num Require Import FOps RFun XR XRLemmas TMod TModL.
From Verif.Model Require Import Fp Quantities Cs Ellipsoid Geodesics Projections Crs.
From Verif.Spec Require Import Angles Series Axes Shape Maps Krueger Conformal.
From Verif.Proofs Require Import AnglesX MathX AxesX EllX DatumX EllEx ProjX MercX TransG TMX TMInv MercInv TMConf.
From Verif.Proofs Require KarnSer.
Import ListNotations.
Local Open Scope R_scope.

(** ** Remainders *)
Lemma mono_pow (f f' : R -> R) (k r : R) (m : nat) : f 0 = 0 -> (forall x, 0 <= x <= r -> is_derive f x (f' x)) ->
  (forall x, 0 <= x <= r -> 0 <= f' x <= k * x ^ m) -> forall x, 0 <= x <= r -> 0 <= f x <= k / INR (S m) * x ^ S m.
Proof.
  intros H0 D B x Hx. assert (SN : 0 < INR (S m)) by (apply lt_0_INR; lia). split.
  - destruct (MVT_gen f 0 x f') as (z & Hz & M).
    + intros t Ht. rewrite Rmin_left, Rmax_right in Ht by lra. apply D. lra.
    + intros t Ht. rewrite Rmin_left, Rmax_right in Ht by lra. apply continuity_pt_filterlim. apply (ex_derive_continuous (V := R_NormedModule)). eexists. apply D. lra.
    + rewrite Rmin_left, Rmax_right in Hz by lra. rewrite H0 in M. replace (f x) with (f x - 0) by ring. rewrite M. apply Rmult_le_pos; [apply B; lra|lra].
  - assert (DD : forall t, 0 <= t <= r -> is_derive (fun t => k / INR (S m) * t ^ S m - f t) t (k * t ^ m - f' t)).
    { intros t Ht. apply (is_derive_minus (fun t => k / INR (S m) * t ^ S m) f); [|apply D; lra]. auto_derive; [trivial|]. change (match m with 0%nat => 1 | S _ => INR m + 1 end) with (INR (S m)). cbn [pred]. field. lra. }
    destruct (MVT_gen (fun t => k / INR (S m) * t ^ S m - f t) 0 x (fun t => k * t ^ m - f' t)) as (z & Hz & M).
    + intros t Ht. rewrite Rmin_left, Rmax_right in Ht by lra. apply DD. lra.
    + intros t Ht. rewrite Rmin_left, Rmax_right in Ht by lra. apply derivable_continuous_pt. eexists. apply is_derive_Reals. apply DD. lra.
    + rewrite Rmin_left, Rmax_right in Hz by lra. rewrite H0, pow_i in M by lia. assert (0 <= (k * z ^ m - f' z) * (x - 0)) by (apply Rmult_le_pos; [pose proof (B z ltac:(lra)); lra|lra]). lra.
Qed.
Lemma cosh_small x : 0 <= x <= / 10 -> 0 <= cosh x <= 112 / 100 * x ^ 0.
Proof.
  intros H. split; [left; apply cosh_pos|]. rewrite pow_O, Rmult_1_r. assert (L : exp (- x) <= exp x) by (destruct (Req_dec x 0) as [->|]; [rewrite Ropp_0; lra|left; apply exp_increasing; lra]).
  assert (K : exp x <= / (1 - x)).
  { pose proof (exp_ineq1_le (- x)) as I. pose proof (exp_pos x) as P0. assert (Q : exp x * exp (- x) = 1) by (rewrite <- exp_plus, Rplus_opp_r; apply exp_0).
    apply (Rmult_le_reg_r (1 - x)); [lra|]. rewrite Rinv_l by lra. apply (Rle_trans _ (exp x * exp (- x))); [apply Rmult_le_compat_l; lra|lra]. }
  assert (J : / (1 - x) <= 112 / 100). { apply (Rmult_le_reg_r (1 - x)); [lra|]. rewrite Rinv_l by lra. lra. }
  unfold cosh. lra.
Qed.
Lemma hyp_taylor x : 0 <= x <= / 10 -> 0 <= sinh x - (x + x ^ 3 / 6 + x ^ 5 / 120) <= x ^ 7 / 4000 /\ 0 <= cosh x - (1 + x ^ 2 / 2 + x ^ 4 / 24 + x ^ 6 / 720) <= x ^ 8 / 32000.
Proof.
  assert (S1 := mono_pow sinh cosh (112 / 100) (/ 10) 0 sinh_0' (fun x _ => sinh_deriv x) cosh_small).
  assert (S2 : forall x, 0 <= x <= / 10 -> 0 <= cosh x - 1 <= 112 / 100 / INR 1 / INR 2 * x ^ 2).
  { apply (mono_pow (fun x => cosh x - 1) sinh); [rewrite cosh_0; ring| |exact S1]. intros y _. auto_derive; [trivial|]. unfold sinh, cosh. field. }
  assert (S3 : forall x, 0 <= x <= / 10 -> 0 <= sinh x - x <= 112 / 100 / INR 1 / INR 2 / INR 3 * x ^ 3).
  { apply (mono_pow (fun x => sinh x - x) (fun x => cosh x - 1)); [rewrite sinh_0'; ring| |exact S2]. intros y _. auto_derive; [trivial|]. unfold sinh, cosh. field. }
  assert (S4 : forall x, 0 <= x <= / 10 -> 0 <= cosh x - (1 + x ^ 2 / 2) <= 112 / 100 / INR 1 / INR 2 / INR 3 / INR 4 * x ^ 4).
  { apply (mono_pow (fun x => cosh x - (1 + x ^ 2 / 2)) (fun x => sinh x - x)); [rewrite cosh_0; field| |exact S3]. intros y _. auto_derive; [trivial|]. unfold sinh, cosh. field. }
  assert (S5 : forall x, 0 <= x <= / 10 -> 0 <= sinh x - (x + x ^ 3 / 6) <= 112 / 100 / INR 1 / INR 2 / INR 3 / INR 4 / INR 5 * x ^ 5).
  { apply (mono_pow (fun x => sinh x - (x + x ^ 3 / 6)) (fun x => cosh x - (1 + x ^ 2 / 2))); [rewrite sinh_0'; field| |exact S4]. intros y _. auto_derive; [trivial|]. unfold sinh, cosh. field. }
  assert (S6 : forall x, 0 <= x <= / 10 -> 0 <= cosh x - (1 + x ^ 2 / 2 + x ^ 4 / 24) <= 112 / 100 / INR 1 / INR 2 / INR 3 / INR 4 / INR 5 / INR 6 * x ^ 6).
  { apply (mono_pow (fun x => cosh x - (1 + x ^ 2 / 2 + x ^ 4 / 24)) (fun x => sinh x - (x + x ^ 3 / 6))); [rewrite cosh_0; field| |exact S5]. intros y _. auto_derive; [trivial|]. unfold sinh, cosh. field. }
  assert (S7 : forall x, 0 <= x <= / 10 -> 0 <= sinh x - (x + x ^ 3 / 6 + x ^ 5 / 120) <= 112 / 100 / INR 1 / INR 2 / INR 3 / INR 4 / INR 5 / INR 6 / INR 7 * x ^ 7).
  { apply (mono_pow (fun x => sinh x - (x + x ^ 3 / 6 + x ^ 5 / 120)) (fun x => cosh x - (1 + x ^ 2 / 2 + x ^ 4 / 24))); [rewrite sinh_0'; field| |exact S6]. intros y _. auto_derive; [trivial|]. unfold sinh, cosh. field. }
  assert (S8 : forall x, 0 <= x <= / 10 -> 0 <= cosh x - (1 + x ^ 2 / 2 + x ^ 4 / 24 + x ^ 6 / 720) <= 112 / 100 / INR 1 / INR 2 / INR 3 / INR 4 / INR 5 / INR 6 / INR 7 / INR 8 * x ^ 8).
  { apply (mono_pow (fun x => cosh x - (1 + x ^ 2 / 2 + x ^ 4 / 24 + x ^ 6 / 720)) (fun x => sinh x - (x + x ^ 3 / 6 + x ^ 5 / 120))); [rewrite cosh_0; field| |exact S7]. intros y _. auto_derive; [trivial|]. unfold sinh, cosh. field. }
  intros H. pose proof (S7 x H) as A. pose proof (S8 x H) as B. assert (0 <= x ^ 7) by (apply pow_le; lra). assert (0 <= x ^ 8) by (apply pow_le; lra).
  change (INR 1) with 1 in *. replace (INR 2) with 2 in * by (cbn; ring). replace (INR 3) with 3 in * by (cbn; ring). replace (INR 4) with 4 in * by (cbn; ring). replace (INR 5) with 5 in * by (cbn; ring). replace (INR 6) with 6 in * by (cbn; ring). replace (INR 7) with 7 in * by (cbn; ring). replace (INR 8) with 8 in * by (cbn; ring). lra.
Qed.
Definition atp (x : R) : R := x + x ^ 3 / 3 + x ^ 5 / 5 + x ^ 7 / 7 + x ^ 9 / 9 + x ^ 11 / 11.
Lemma atanh_taylor x : 0 <= x <= / 5 -> 0 <= Ratanh x - atp x <= 9 / 100 * x ^ 13.
Proof.
  intros H. assert (K : forall x, 0 <= x <= / 5 -> 0 <= Ratanh x - atp x <= 105 / 100 / INR 13 * x ^ 13).
  { intros y Hy. pose proof (mono_pow (fun x => Ratanh x - atp x) (fun x => x ^ 12 / (1 - x * x)) (105 / 100) (/ 5) 12) as M. apply M; [rewrite Ratanh_0; unfold atp; field| | |exact Hy].
    - intros t Ht. assert (T : -1 < t < 1) by lra. pose proof (Ratanh_deriv t T) as D. unfold atp. auto_derive; [now exists (/ (1 - t * t))|]. rewrite (is_derive_unique (fun x : R => Ratanh x) _ _ D). field. nra.
    - intros t Ht. assert (0 < 1 - t * t) by nra. assert (0 <= t ^ 12) by (apply pow_le; lra). split; [apply Rdiv_le_0_compat; lra|]. apply (Rmult_le_reg_r (1 - t * t)); [lra|]. replace (t ^ 12 / (1 - t * t) * (1 - t * t)) with (t ^ 12) by (field; lra). assert (t ^ 12 * (t * t) <= t ^ 12 * / 25) by (apply Rmult_le_compat_l; nra). replace (105 / 100 * t ^ 12 * (1 - t * t)) with (105 / 100 * t ^ 12 - 105 / 100 * (t ^ 12 * (t * t))) by ring. lra. }
  pose proof (K x H) as A. assert (0 <= x ^ 13) by (apply pow_le; lra). replace (INR 13) with 13 in A by (cbn; ring). lra.
Qed.

(** ** The residual: [mc] the cosine of twice the latitude, [mn] the third flattening *)
Definition mc := EV 0. Definition q0 := EV 1. Definition qa := EV 2. Definition qch := EV 3. Definition qsh := EV 4. Definition qg := EV 5. Definition mn := EV 6.
Definition mrd (i : nat) : Q := match i with 0%nat => 1%Q | 1%nat => 7%Q | 2%nat => Qmake 9 100 | 3%nat => Qmake 1 32000 | 4%nat => Qmake 1 4000 | 5%nat => Qmake 11 10 | _ => Qmake 1 190 end.
Definition mev (c r0 ra rc rs rg n : R) (i : nat) : R := match i with 0%nat => c | 1%nat => r0 | 2%nat => ra | 3%nat => rc | 4%nat => rs | 5%nat => rg | _ => n end.
Lemma mev_ok c r0 ra rc rs rg n : -1 <= c <= 1 -> Rabs r0 <= 7 -> Rabs ra <= 9 / 100 -> Rabs rc <= / 32000 -> Rabs rs <= / 4000 -> Rabs rg <= 11 / 10 -> 0 <= n <= / 190 ->
  forall i, (i <= 6)%nat -> Rabs (mev c r0 ra rc rs rg n i) <= Q2R (mrd i).
Proof. intros HC H0 HA H1 H2 H3 HE [|[|[|[|[|[|[|i]]]]]]] Hi; [| | | | | | |lia]; unfold Q2R; cbn [mev mrd Qnum Qden]; try (apply Rabs_le; lra); lra. Qed.
Definition LA : list ex :=
  [(EZ 1 - mc) * qc 1 2;
   EZ 4 * (mn * (EZ 1 - mn * (EZ 2 - mn * (EZ 3 - mn * (EZ 4 - mn * (EZ 5 - mn * (EZ 6 - mn * q0)))))));
   EF 1 * EF 0;
   EZ 1 + EF 2 * (qc 1 3 + EF 2 * (qc 1 5 + EF 2 * (qc 1 7 + EF 2 * (qc 1 9 + EF 2 * (qc 1 11 + EF 2 * qa)))));
   EF 1 * EF 2 * (EF 3 * EF 3);
   EZ 1 + EF 4 * (qc 1 2 + EF 4 * (qc 1 24 + EF 4 * (qc 1 720 + EF 4 * qch)));
   EF 2 * EF 3 * (EZ 1 + EF 4 * (qc 1 6 + EF 4 * (qc 1 120 + EF 4 * qsh)));
   EZ 1 + EF 6 - EF 5]%ex.
Definition eh1 : ex := (mn * (qc 1 2 + mn * (qc (-2) 3 + mn * (qc 5 16 + mn * qc 41 180))))%ex.
Definition eh2 : ex := (mn * mn * (qc 13 48 + mn * (qc (-3) 5 + mn * qc 557 1440)))%ex.
Definition eh3 : ex := (mn * mn * mn * (qc 61 240 + mn * qc (-103) 140))%ex.
Definition eh4 : ex := (mn * mn * mn * mn * qc 49561 161280)%ex.
Definition LB : list ex := (LA ++
  [EZ 1 + EF 7 * (EZ 1 + EF 7 * (EZ 1 + EF 7 * (EZ 1 + EF 7 * (EZ 1 + EF 7 * (EZ 1 + EF 7 * (EZ 1 + EF 7 * qg))))));
   (EZ 1 + mc) * (EF 8 * EF 8) - EZ 1;
   EF 9 * EF 9;
   EZ 1 + EZ 2 * (eh1 * EF 9) + EZ 4 * (eh2 * (EZ 2 * EF 10 - EZ 1)) + EZ 6 * (eh3 * (EF 9 * (EZ 4 * EF 10 - EZ 3))) + EZ 8 * (eh4 * (EZ 8 * (EF 10 * EF 10) - EZ 8 * EF 10 + EZ 1));
   (EZ 1 + mn * mn * (qc 1 4 + mn * mn * qc 1 64)) * EF 11 * EF 8])%ex.
Definition T2 : ex := (EZ 2 * (mc * mc) - EZ 1)%ex.
Definition T3 : ex := (mc * (EZ 4 * (mc * mc) - EZ 3))%ex.
Definition T4 : ex := (EZ 8 * (mc * mc * (mc * mc)) - EZ 8 * (mc * mc) + EZ 1)%ex.
Definition T5 : ex := (mc * (EZ 16 * (mc * mc * (mc * mc)) - EZ 20 * (mc * mc) + EZ 5))%ex.
Definition T6 : ex := (EZ 32 * (mc * mc * mc * (mc * mc * mc)) - EZ 48 * (mc * mc * (mc * mc)) + EZ 18 * (mc * mc) - EZ 1)%ex.
Definition eL5 : ex := (qc 127 72 * mc + qc (-1124) 315 * T2 + qc (-15061) 2240 * T3 + qc 358 21 * T4 + qc (-34729) 4032 * T5)%ex.
Definition eL6 : ex := (qc 1013 384 + qc (-29618) 4725 * mc + qc (-11482529) 241920 * T2 + qc 800867 7560 * T3 + qc 14073923 907200 * T4 + qc (-7239809) 49896 * T5 + qc 990980909 13305600 * T6)%ex.
Definition eN4 : ex := ((EZ 1 + mn) * (EZ 1 + mn) * ((EZ 1 + mn) * (EZ 1 + mn)))%ex.
Definition eX2 : ex := (EF 12 * EF 12 * ((EZ 1 + mn) * (EZ 1 + mn) - EZ 2 * mn * (EZ 1 - mc)))%ex.
Definition eRes : ex := (eX2 - eN4 - epow mn 5 * eL5 - epow mn 6 * eL6)%ex.
Lemma eRes_small c r0 ra rc rs rg n : -1 <= c <= 1 -> Rabs r0 <= 7 -> Rabs ra <= 9 / 100 -> Rabs rc <= / 32000 -> Rabs rs <= / 4000 -> Rabs rg <= 11 / 10 -> 0 <= n <= / 190 ->
  let v := mev c r0 ra rc rs rg n in Rabs (eval v (fvals v LB) eRes) <= 300000 * n ^ 7 /\ Rabs (eval v (fvals v LB) (EF 11 - EZ 1)%ex) <= / 20.
Proof.
  intros HC H0 HA H1 H2 H3 Hn v. pose proof (mev_ok c r0 ra rc rs rg n HC H0 HA H1 H2 H3 Hn) as OK. split.
  - replace 300000 with (Q2R (Qmake 300000 1)) by (unfold Q2R; cbn [Qnum Qden]; field). replace (n ^ 7) with (Rabs n ^ 7) by (rewrite Rabs_right by lra; reflexivity). apply (let_smallj 6 8 mrd v OK). vm_compute. reflexivity.
  - replace (/ 20) with (Q2R (Qmake 1 20) * Rabs n ^ 0) by (unfold Q2R; cbn [Qnum Qden pow]; field). apply (let_smallj 6 3 mrd v OK). vm_compute. reflexivity.
Qed.
Lemma eDel_small c r0 ra rc rs n : -1 <= c <= 1 -> Rabs r0 <= 7 -> Rabs ra <= 9 / 100 -> Rabs rc <= / 32000 -> Rabs rs <= / 4000 -> 0 <= n <= / 190 ->
  let v := mev c r0 ra rc rs 0 n in Rabs (fvals v LA 7) <= / 20.
Proof.
  intros HC H0 HA H1 H2 Hn v. assert (OK : forall i, (i <= 6)%nat -> Rabs (v i) <= Q2R (mrd i)) by (apply mev_ok; try assumption; rewrite Rabs_R0; lra).
  replace (/ 20) with (Q2R (Qmake 1 20) * Rabs n ^ 0) by (unfold Q2R; cbn [Qnum Qden pow]; field). change (fvals v LA 7) with (eval v (fvals v LA) (EF 7)). apply (let_smallj 6 3 mrd v OK). vm_compute. reflexivity.
Qed.

Definition Sx (n c2 : R) : R := let '(h1, h2, h3, h4) := hs n in
  1 + 2 * h1 * c2 + 4 * h2 * (2 * (c2 * c2) - 1) + 6 * h3 * (c2 * (4 * (c2 * c2) - 3)) + 8 * h4 * (8 * (c2 * c2 * (c2 * c2)) - 8 * (c2 * c2) + 1).
Definition rL5 (c : R) : R := 127 / 72 * c - 1124 / 315 * (2 * (c * c) - 1) - 15061 / 2240 * (c * (4 * (c * c) - 3)) + 358 / 21 * (8 * (c * c * (c * c)) - 8 * (c * c) + 1) - 34729 / 4032 * (c * (16 * (c * c * (c * c)) - 20 * (c * c) + 5)).
Definition rL6 (c : R) : R := 1013 / 384 - 29618 / 4725 * c - 11482529 / 241920 * (2 * (c * c) - 1) + 800867 / 7560 * (c * (4 * (c * c) - 3)) + 14073923 / 907200 * (8 * (c * c * (c * c)) - 8 * (c * c) + 1) - 7239809 / 49896 * (c * (16 * (c * c * (c * c)) - 20 * (c * c) + 5)) + 990980909 / 13305600 * (32 * (c * c * c * (c * c * c)) - 48 * (c * c * (c * c)) + 18 * (c * c) - 1).
Lemma rL_bound c : -1 <= c <= 1 -> Rabs (rL5 c) <= 38 /\ Rabs (rL6 c) <= 398.
Proof.
  intros H. assert (EX : exists x, c = cos x) by (exists (acos c); symmetry; now apply cos_acos). destruct EX as [x ->].
  pose proof (COS_bound x). pose proof (COS_bound (2 * x)) as B2. pose proof (COS_bound (3 * x)) as B3. pose proof (COS_bound (4 * x)) as B4. pose proof (COS_bound (5 * x)) as B5. pose proof (COS_bound (6 * x)) as B6.
  rewrite KarnSer.c2x in B2. rewrite KarnSer.c3x in B3. rewrite KarnSer.c4x in B4. rewrite KarnSer.c5x in B5. rewrite KarnSer.c6x in B6. generalize dependent (cos x). intros C. intros. unfold rL5, rL6. split; apply Rabs_le; lra.
Qed.
Section Point.
Context (e n u : R) (He : 0 <= e) (Hn : 0 <= n <= / 190) (Hen : e * e = 4 * n / ((1 + n) * (1 + n))) (Hu : 0 <= u <= 1).
Let ep := e * Ratanh (e * u).
Definition pD : R := cosh ep - u * sinh ep.
Let c := 1 - 2 * (u * u).
Lemma e_small : e <= 3 / 20.
Proof.
  assert (e * e <= 4 / 190). { rewrite Hen. apply (Rmult_le_reg_r ((1 + n) * (1 + n))); [nra|]. replace (4 * n / ((1 + n) * (1 + n)) * ((1 + n) * (1 + n))) with (4 * n) by (field; lra). nra. }
  nra.
Qed.
Lemma point_rem : exists r0 ra rc rs, Rabs r0 <= 7 /\ Rabs ra <= 9 / 100 /\ Rabs rc <= / 32000 /\ Rabs rs <= / 4000 /\
  forall rg, let v := mev c r0 ra rc rs rg n in fvals v LA 7 = 1 - pD.
Proof.
  pose proof e_small as ES. set (x := e * u). assert (HX : 0 <= x <= 3 / 20) by (unfold x; nra).
  exists ((7 + 6 * n) / ((1 + n) * (1 + n))).
  destruct (multiple (Ratanh x - atp x) (x ^ 13) (9 / 100) ltac:(lra)) as (ra & A1 & A2).
  { pose proof (atanh_taylor x ltac:(lra)) as A. assert (0 <= x ^ 13) by (apply pow_le; lra). rewrite !Rabs_right by lra. lra. }
  assert (EP : 0 <= ep <= / 10).
  { pose proof (atanh_taylor x ltac:(lra)) as A. assert (T : 0 <= Ratanh x <= 2 * x).
    { assert (X2 : 0 <= x * x <= 1 / 40) by nra. assert (P0 : forall k, 0 <= x ^ k) by (intros; apply pow_le; lra). assert (P1 : forall k, x ^ S k <= x).
      { induction k as [|k IH]; [rewrite pow_1; lra|]. change (x ^ S (S k)) with (x * x ^ S k). apply (Rle_trans _ (x * x)); [apply Rmult_le_compat_l; lra|nra]. }
      pose proof (P0 3%nat). pose proof (P0 5%nat). pose proof (P0 7%nat). pose proof (P0 9%nat). pose proof (P0 11%nat). pose proof (P0 13%nat). pose proof (P1 2%nat). pose proof (P1 4%nat). pose proof (P1 6%nat). pose proof (P1 8%nat). pose proof (P1 10%nat). pose proof (P1 12%nat).
      unfold atp in A. lra. }
    unfold ep. fold x. nra. }
  destruct (hyp_taylor ep EP) as [SH CH].
  destruct (multiple (cosh ep - (1 + ep ^ 2 / 2 + ep ^ 4 / 24 + ep ^ 6 / 720)) (ep ^ 8) (/ 32000) ltac:(lra)) as (rc & C1 & C2).
  { assert (0 <= ep ^ 8) by (apply pow_le; lra). rewrite !Rabs_right by lra. lra. }
  destruct (multiple (sinh ep - (ep + ep ^ 3 / 6 + ep ^ 5 / 120)) (ep ^ 7) (/ 4000) ltac:(lra)) as (rs & S1 & S2).
  { assert (0 <= ep ^ 7) by (apply pow_le; lra). rewrite !Rabs_right by lra. lra. }
  exists ra, rc, rs. split.
  { rewrite Rabs_right. - apply (Rmult_le_reg_r ((1 + n) * (1 + n))); [nra|]. replace ((7 + 6 * n) / ((1 + n) * (1 + n)) * ((1 + n) * (1 + n))) with (7 + 6 * n) by (field; lra). nra.
    - apply Rle_ge, Rdiv_le_0_compat; nra. }
  split; [exact A1|]. split; [exact C1|]. split; [exact S1|]. intros rg. cbv zeta. set (v := mev _ _ _ _ _ _ _).
  assert (NV : forall k, (k <= 7)%nat -> fvals v LA k = eval v (fvals v LA) (nth k LA (EZ 0))) by (intros [|[|[|[|[|[|[|[|k]]]]]]]] Hk; [reflexivity..|lia]).
  Ltac nv := cbn [nth LA]; unfold EZ, qc, mc, mn, q0, qa, qch, qsh, qg; cbn [eval].
  Ltac nq := cbn [mev]; unfold Q2R; cbn [Qnum Qden inject_Z].
  assert (V0 : fvals v LA 0 = u * u) by (rewrite NV by lia; nv; unfold v, c; nq; field).
  assert (V1 : fvals v LA 1 = e * e) by (rewrite NV by lia; nv; rewrite Hen; unfold v; nq; field; lra).
  assert (V2 : fvals v LA 2 = x * x) by (rewrite NV by lia; nv; rewrite V0, V1; unfold x; ring).
  set (tau := 1 + x * x * (/ 3 + x * x * (/ 5 + x * x * (/ 7 + x * x * (/ 9 + x * x * (/ 11 + x * x * ra)))))).
  assert (V3 : fvals v LA 3 = tau) by (rewrite NV by lia; nv; rewrite V2; unfold v, tau; nq; field).
  assert (XT : Ratanh x = x * tau). { unfold tau. replace (Ratanh x) with (atp x + x ^ 13 * ra) by lra. unfold atp. field. }
  assert (EPT : ep = e * (x * tau)) by (unfold ep; fold x; now rewrite XT).
  assert (V4 : fvals v LA 4 = ep * ep) by (rewrite NV by lia; nv; rewrite V1, V2, V3, EPT; ring).
  assert (V5 : fvals v LA 5 = cosh ep) by (rewrite NV by lia; nv; rewrite V4; unfold v; nq; replace (cosh ep) with (1 + ep ^ 2 / 2 + ep ^ 4 / 24 + ep ^ 6 / 720 + ep ^ 8 * rc) by lra; field).
  assert (UE : u * ep = x * x * tau) by (rewrite EPT; unfold x; ring).
  assert (V6 : fvals v LA 6 = u * sinh ep).
  { rewrite NV by lia; nv; rewrite V2, V3, V4; unfold v; nq. replace (sinh ep) with (ep + ep ^ 3 / 6 + ep ^ 5 / 120 + ep ^ 7 * rs) by lra.
    replace (u * (ep + ep ^ 3 / 6 + ep ^ 5 / 120 + ep ^ 7 * rs)) with (u * ep * (1 + ep * ep * (/ 6 + ep * ep * (/ 120 + ep * ep * rs)))) by field. rewrite UE. field. }
  rewrite NV by lia; nv. rewrite V5, V6. unfold pD. nq. field.
Qed.
Lemma point_main : 95 / 100 <= pD /\ let G := / pD in let S := Sx n ((1 + c) * (G * G) - 1) in 95 / 100 <= S /\
  let X := (1 + n ^ 2 / 4 + n ^ 4 / 64) * S * G in Rabs (X * X * ((1 + n) * (1 + n) - 2 * n * (1 - c)) - (1 + n) ^ 4) <= 97 / 2 * n ^ 5.
Proof.
  destruct point_rem as (r0 & ra & rc & rs & R0 & RA & RC & RS & K). assert (HC : -1 <= c <= 1) by (unfold c; nra).
  pose proof (eDel_small c r0 ra rc rs n HC R0 RA RC RS Hn) as D. cbv zeta in D. rewrite K in D. apply Rabs_le_inv in D. split; [lra|]. cbv zeta.
  set (G := / pD). assert (HG : 0 < G <= 11 / 10). { split; [apply Rinv_0_lt_compat; lra|]. unfold G. apply (Rmult_le_reg_r pD); [lra|]. rewrite Rinv_l by lra. lra. }
  assert (RG : Rabs G <= 11 / 10) by (rewrite Rabs_right; lra). destruct (eRes_small c r0 ra rc rs G n HC R0 RA RC RS RG Hn) as [E1 E2]. specialize (K G). cbv zeta in K, E1, E2. set (v := mev _ _ _ _ _ _ _) in *.
  assert (NV : forall k, (k <= 12)%nat -> fvals v LB k = eval v (fvals v LB) (nth k LB (EZ 0))) by (intros [|[|[|[|[|[|[|[|[|[|[|[|[|k]]]]]]]]]]]]] Hk; [reflexivity..|lia]).
  Ltac nw := cbn [nth LB LA app]; unfold eh1, eh2, eh3, eh4, EZ, qc, mc, mn, q0, qa, qch, qsh, qg; cbn [eval].
  assert (W7 : fvals v LB 7 = 1 - pD) by exact K. set (f := fvals v LB) in *. clearbody f.
  assert (W8 : f 8%nat = G).
  { rewrite NV by lia; nw; rewrite W7; unfold v; nq. set (d := 1 - pD). assert (Q : 1 + d * G = G) by (unfold d, G; field; lra). replace (1 * / 1) with 1 by field. now rewrite !Q. }
  set (c2 := (1 + c) * (G * G) - 1). assert (W9 : f 9%nat = c2) by (rewrite NV by lia; nw; rewrite W8; unfold v, c2; nq; field).
  assert (W10 : f 10%nat = c2 * c2) by (rewrite NV by lia; nw; rewrite W9; reflexivity).
  assert (W11 : f 11%nat = Sx n c2).
  { rewrite NV by lia; nw; rewrite W9, W10; unfold v; nq. unfold Sx, hs, polynomial. cbn [Rsum length nth pow]. field. }
  assert (W12 : f 12%nat = (1 + n ^ 2 / 4 + n ^ 4 / 64) * Sx n c2 * G) by (rewrite NV by lia; nw; rewrite W11, W8; unfold v; nq; field).
  split.
  { unfold EZ in E2. cbn [eval] in E2. rewrite W11 in E2. unfold Q2R in E2. cbn [Qnum Qden inject_Z] in E2. apply Rabs_le_inv in E2. lra. }
  clear E2. set (X := (1 + n ^ 2 / 4 + n ^ 4 / 64) * Sx n c2 * G) in *. destruct (rL_bound c HC) as [L5 L6].
  assert (EV : eval v f eRes = X * X * ((1 + n) * (1 + n) - 2 * n * (1 - c)) - (1 + n) ^ 4 - n ^ 5 * rL5 c - n ^ 6 * rL6 c).
  { unfold eRes, eX2, eN4, eL5, eL6, T2, T3, T4, T5, T6. cbn [epow]. unfold EZ, qc, mc, mn. cbn [eval]. rewrite W12. unfold v. nq. unfold rL5, rL6. field. }
  rewrite EV in E1. set (Y := X * X * _ - _) in *. apply Rabs_le_inv in E1. apply Rabs_le_inv in L5. apply Rabs_le_inv in L6.
  assert (N5 : 0 <= n ^ 5) by (apply pow_le; lra). replace (n ^ 6) with (n ^ 5 * n) in E1 by ring. replace (n ^ 7) with (n ^ 5 * (n * n)) in E1 by ring.
  assert (A5 : - (n ^ 5 * 38) <= n ^ 5 * rL5 c <= n ^ 5 * 38) by (split; [rewrite Ropp_mult_distr_r|]; apply Rmult_le_compat_l; lra).
  assert (N6 : 0 <= n ^ 5 * n <= n ^ 5 * / 190) by (split; [apply Rmult_le_pos; lra|apply Rmult_le_compat_l; lra]).
  assert (A6 : - (n ^ 5 * n * 398) <= n ^ 5 * n * rL6 c <= n ^ 5 * n * 398) by (split; [rewrite Ropp_mult_distr_r|]; apply Rmult_le_compat_l; lra).
  assert (N7 : n ^ 5 * (n * n) <= n ^ 5 * / 36100) by (apply Rmult_le_compat_l; [lra|nra]).
  apply Rabs_le. split; lra.
Qed.
End Point.

(** ** Scale *)
Lemma cosh_minus x y : cosh (x - y) = cosh x * cosh y - sinh x * sinh y.
Proof. unfold cosh, sinh. replace (- (x - y)) with (- x + y) by ring. unfold Rminus. rewrite !exp_plus. field. Qed.
Lemma cosh_isom p : nonpolar p -> cosh (isom p) = / cos p.
Proof.
  intros H. assert (0 < cos p) by (unfold nonpolar in H; apply cos_gt_0; lra). pose proof (cosh_sq (isom p)) as Q. rewrite sinh_isom in Q by exact H. pose proof (cosh_pos (isom p)).
  assert (0 < / cos p) by now apply Rinv_0_lt_compat. apply Rsqr_inj; [lra|lra|]. unfold Rsqr. rewrite Q. unfold tan. pose proof (sc2 p) as S. field_simplify_eq; [|lra]. replace (sin p ^ 2) with (sin p * sin p) by ring. rewrite S. ring.
Qed.
Lemma jr_Sx n x : jr (hs n) x 0 = Sx n (cos (2 * x)).
Proof.
  unfold jr, Sx. destruct (hs n) as [[[h1 h2] h3] h4]. rewrite !Rmult_0_r, cosh_0. replace (4 * x) with (2 * (2 * x)) by ring. replace (6 * x) with (3 * (2 * x)) by ring. replace (8 * x) with (4 * (2 * x)) by ring.
  set (y := 2 * x). rewrite (KarnSer.c2x y), (KarnSer.c3x y), (KarnSer.c4x y). ring.
Qed.
Section Central.
Context (E : Ellipsoid XR) (a b : R) (HE : shape E a b) (Hf : 99 * a <= 100 * b) (lon0 k0 : R) (Hk : 0 < k0).
Let Hab : 0 < b <= a. Proof. apply HE. Qed.
Let ee := the_e a b.
Let n := tn a b.
Lemma tn_small : 0 <= n <= / 190.
Proof. split; [apply Rdiv_le_0_compat; lra|]. apply (Rmult_le_reg_r (a + b)); [lra|]. unfold n, tn. replace ((a - b) / (a + b) * (a + b)) with (a - b) by (field; lra). lra. Qed.
Lemma ee_n : ee * ee = 4 * n / ((1 + n) * (1 + n)).
Proof. unfold ee. rewrite (the_e_sq E a b HE). unfold n, tn. field. lra. Qed.
Lemma cosh_cq p : nonpolar p -> cosh (cq a b p) = pD ee (Rabs (sin p)) / cos p.
Proof.
  intros H. assert (C : 0 < cos p) by (unfold nonpolar in H; apply cos_gt_0; lra). unfold cq, isom_e. rewrite cosh_minus, sinh_isom, cosh_isom by exact H. fold ee. unfold pD, tan.
  assert (He : 0 <= ee < 1) by apply (the_e_bound E a b HE).
  destruct (Rcase_abs (sin p)) as [L|L].
  - rewrite (Rabs_left (sin p)) by exact L. replace (ee * - sin p) with (- (ee * sin p)) by ring. rewrite Ratanh_odd by now apply esin_bound. replace (ee * - Ratanh (ee * sin p)) with (- (ee * Ratanh (ee * sin p))) by ring. rewrite cosh_opp, sinh_opp. field. lra.
  - rewrite (Rabs_right (sin p)) by exact L. field. lra.
Qed.
Lemma central_scale l p : nonpolar p -> same_angle l lon0 -> Rabs (cscale a b lon0 k0 l p - k0) <= 25 * n ^ 5 * k0 /\ cturn a b lon0 l p = 0.
Proof.
  intros Hp Hl. assert (C : 0 < cos p) by (unfold nonpolar in Hp; apply cos_gt_0; lra).
  assert (S0 : sin (l - lon0) = 0 /\ cos (l - lon0) = 1).
  { pose proof (same_angle_sin _ _ Hl) as A. pose proof (same_angle_cos _ _ Hl) as B. rewrite sin_minus, cos_minus, A, B. split; [ring|]. pose proof (sc2 lon0). lra. }
  destruct S0 as [SS CC]. set (q := cq a b p).
  assert (T0 : te q (l - lon0) = 0) by (unfold te; rewrite SS; unfold Rdiv; rewrite Rmult_0_l; apply Ratanh_0).
  assert (X0 : tx q (l - lon0) = gd q) by (unfold tx, gd; rewrite CC; f_equal; field).
  assert (J0 : ji (hs n) (gd q) 0 = 0) by (unfold ji; destruct (hs n) as [[[h1 h2] h3] h4]; rewrite !Rmult_0_r, sinh_0'; ring).
  pose proof (cosh_ge_1 q) as CQ. pose proof (cosh_sq q) as CS.
  assert (W0 : tW q (l - lon0) = cosh q * cosh q) by (unfold tW; rewrite CC; lra).
  assert (V0 : sV a b lon0 l p = 0). { unfold sV. fold q n. cbv zeta. rewrite T0, X0, J0, SS. unfold Rdiv. ring. }
  pose proof (Rabs_pos (sin p)) as U0. pose proof (sc2 p) as SC. set (u := Rabs (sin p)) in *. assert (UU : u * u = sin p * sin p) by (unfold u; rewrite <- Rabs_mult; apply Rabs_right; apply Rle_ge, Rle_0_sqr).
  assert (U1 : 0 <= u <= 1) by (split; [exact U0|]; unfold u; apply Rabs_le, SIN_bound).
  destruct (the_e_bound E a b HE) as [E0 E1]. fold ee in E0, E1.
  destruct (point_main ee n u E0 tn_small ee_n U1) as (D0 & S1 & R). cbv zeta in S1, R.
  pose proof (cosh_cq p Hp) as CD. fold q u in CD. set (D := pD ee u) in *. set (G := / D) in *.
  assert (C2 : cos (2 * gd q) = (1 + (1 - 2 * (u * u))) * (G * G) - 1).
  { rewrite cos_2a_cos, cos_gd, CD, UU. unfold G. replace (1 + (1 - 2 * (sin p * sin p))) with (2 * (cos p * cos p)) by lra. field. lra. }
  assert (JS : jr (hs n) (gd q) 0 = Sx n ((1 + (1 - 2 * (u * u))) * (G * G) - 1)) by (rewrite jr_Sx, C2; reflexivity).
  set (S := Sx n _) in *.
  assert (SU : sU a b lon0 l p = S * (cos p * G)). { unfold sU. fold q n. cbv zeta. rewrite T0, X0, J0, JS, CC, W0, CD. unfold G. field. lra. }
  assert (GP : 0 < G) by (apply Rinv_0_lt_compat; lra). assert (SUP : 0 < S * (cos p * G)) by (apply Rmult_lt_0_compat; [lra|now apply Rmult_lt_0_compat]).
  split; [|unfold cturn; rewrite V0, SU; apply Ratan2_0_pos; lra].
  pose proof (gell_pos E a b HE p) as GE. pose proof (gell_sq a b Hab p) as GS. pose proof tn_small as N. pose proof (tB_pos E a b HE) as BP.
  assert (HY : Rhypot (sU a b lon0 l p) (sV a b lon0 l p) = S * (cos p * G)) by (rewrite V0, SU; apply Rhypot_unique; [lra|ring]).
  set (X := (1 + n ^ 2 / 4 + n ^ 4 / 64) * S * G) in *. set (w := gell a b p / a). assert (WP : 0 < w) by (apply Rdiv_lt_0_compat; lra).
  assert (CSC : cscale a b lon0 k0 l p = k0 * (X * w / (1 + n))).
  { unfold cscale. rewrite HY. unfold tB, rectify, mer_x, polynomial. cbn [Rsum length nth]. fold n. unfold X, w. field. repeat split; lra. }
  assert (WW : (1 + n) * (1 + n) - 2 * n * (1 - (1 - 2 * (u * u))) = (1 + n) * (1 + n) * (w * w)).
  { unfold w. replace (gell a b p / a * (gell a b p / a)) with (gell a b p * gell a b p / (a * a)) by (field; lra). rewrite GS, UU. replace (cos p * cos p) with (1 - sin p * sin p) by lra. unfold n, tn. field. lra. }
  rewrite WW in R. assert (X0' : 0 < X). { unfold X. apply Rmult_lt_0_compat; [apply Rmult_lt_0_compat; [|lra]|exact GP]. assert (0 <= n ^ 2) by (apply pow_le; lra). assert (0 <= n ^ 4) by (apply pow_le; lra). lra. }
  set (rho := X * w / (1 + n)) in *. assert (RP : 0 < rho) by (apply Rdiv_lt_0_compat; [now apply Rmult_lt_0_compat|lra]).
  assert (RR : X * X * ((1 + n) * (1 + n) * (w * w)) - (1 + n) ^ 4 = (1 + n) ^ 4 * ((rho + 1) * (rho - 1))) by (unfold rho; field; lra).
  rewrite RR, Rabs_mult in R. assert (N4 : 1 <= (1 + n) ^ 4) by (apply pow_R1_Rle; lra). rewrite (Rabs_right ((1 + n) ^ 4)) in R by lra. rewrite Rabs_mult, (Rabs_right (rho + 1)) in R by lra.
  assert (N5 : 0 <= n ^ 5) by (apply pow_le; lra). assert (N5' : n ^ 5 <= / 1000000).
  { apply (Rle_trans _ ((/ 190) ^ 5)); [apply pow_incr; lra|]. replace ((/ 190) ^ 5) with (/ (190 * 190 * 190 * 190 * 190)) by (field). lra. }
  pose proof (Rabs_pos (rho - 1)) as A0. assert (R' : (rho + 1) * Rabs (rho - 1) <= 97 / 2 * n ^ 5).
  { assert (0 <= (rho + 1) * Rabs (rho - 1)) by (apply Rmult_le_pos; lra). nra. }
  assert (L1 : Rabs (rho - 1) <= 97 / 2 * n ^ 5) by nra. apply Rabs_le_inv in L1. assert (R'' : (197 / 100) * Rabs (rho - 1) <= 97 / 2 * n ^ 5) by nra.
  rewrite CSC. replace (k0 * rho - k0) with (k0 * (rho - 1)) by ring. rewrite Rabs_mult, (Rabs_right k0) by lra. replace (25 * n ^ 5 * k0) with (k0 * (25 * n ^ 5)) by ring. apply Rmult_le_compat_l; lra.
Qed.
Lemma conf_positive l p : nonpolar p -> / 2 <= cos (l - lon0) * cos (l - lon0) -> 0 < cos (l - lon0) -> 0 < cscale a b lon0 k0 l p.
Proof.
  intros Hp H2 Hc. set (q := cq a b p). set (d := l - lon0) in *. pose proof (tW_pos q d Hc) as W. pose proof (cosh_ge_1 q) as C1. pose proof tn_small as N.
  pose proof (cosh_te q d Hc) as CT. pose proof (cosh_ge_1 (te q d)) as CG. pose proof (cosh_sq q) as QQ.
  assert (Y2 : cosh (te q d) * cosh (te q d) <= 2). { rewrite CT. apply (Rmult_le_reg_r (tW q d)); [exact W|]. replace (cosh q * cosh q / tW q d * tW q d) with (cosh q * cosh q) by (field; lra). unfold tW. nra. }
  set (y := te q d) in *. set (x := tx q d).
  assert (D2 : forall t, cosh (2 * t) = 2 * (cosh t * cosh t) - 1). { intros t. rewrite cosh_2. pose proof (cosh_sq t). lra. }
  assert (K2 : 1 <= cosh (2 * y) <= 3) by (split; [apply cosh_ge_1|rewrite D2; lra]).
  assert (K4 : 1 <= cosh (4 * y) <= 17) by (split; [apply cosh_ge_1|replace (4 * y) with (2 * (2 * y)) by ring; rewrite D2; nra]).
  assert (K6 : 1 <= cosh (6 * y) <= 99).
  { split; [apply cosh_ge_1|]. replace (6 * y) with (2 * y - (-4) * y) by ring. rewrite cosh_minus. replace (-4 * y) with (- (4 * y)) by ring. rewrite cosh_opp, sinh_opp.
    pose proof (cosh_sq (2 * y)) as A2. pose proof (cosh_sq (4 * y)) as A4. assert (SS : sinh (2 * y) * sinh (4 * y) <= 48).
    { assert (B2 : sinh (2 * y) * sinh (2 * y) <= 8) by nra. assert (B4 : sinh (4 * y) * sinh (4 * y) <= 288) by nra. assert (0 <= (6 * sinh (2 * y) - sinh (4 * y)) * (6 * sinh (2 * y) - sinh (4 * y))) by apply Rle_0_sqr. nra. }
    assert (cosh (2 * y) * cosh (4 * y) <= 3 * 17) by (apply Rmult_le_compat; lra). lra. }
  assert (K8 : 1 <= cosh (8 * y) <= 577) by (split; [apply cosh_ge_1|replace (8 * y) with (2 * (4 * y)) by ring; rewrite D2; nra]).
  assert (J : 9 / 10 <= jr (hs n) x y).
  { unfold jr, hs, polynomial. cbn [Rsum length nth pow]. pose proof (COS_bound (2 * x)) as G2. pose proof (COS_bound (4 * x)) as G4. pose proof (COS_bound (6 * x)) as G6. pose proof (COS_bound (8 * x)) as G8.
    assert (N2 : 0 <= n * n <= / 36100) by nra. assert (N3 : 0 <= n * n * n <= / 6859000) by nra. assert (N4 : 0 <= n * n * (n * n) <= / 1000000000) by nra.
    assert (P : forall h c k m M, Rabs h <= m -> -1 <= c <= 1 -> 1 <= k <= M -> - (m * M) <= h * c * k).
    { intros h c k m M Hh Hc' Hk'. assert (Rabs (h * c * k) <= m * M). { rewrite !Rabs_mult. pose proof (Rabs_pos h). assert (Rabs c <= 1) by (apply Rabs_le; lra). rewrite (Rabs_right k) by lra. pose proof (Rabs_pos c). assert (Rabs h * Rabs c <= m) by nra. assert (0 <= Rabs h * Rabs c) by nra. apply Rmult_le_compat; lra. } apply Rabs_le_inv in H. lra. }
    match goal with |- _ <= 1 + 2 * ?h1 * _ * _ + 4 * ?h2 * _ * _ + 6 * ?h3 * _ * _ + 8 * ?h4 * _ * _ =>
      assert (M1 : Rabs h1 <= / 300) by (apply Rabs_le; lra || nra); assert (M2 : Rabs h2 <= / 100000) by (apply Rabs_le; lra || nra);
      assert (M3 : Rabs h3 <= / 1000000) by (apply Rabs_le; lra || nra); assert (M4 : Rabs h4 <= / 1000000000) by (apply Rabs_le; lra || nra) end.
    pose proof (P _ _ _ _ _ M1 G2 K2) as P1. pose proof (P _ _ _ _ _ M2 G4 K4) as P2. pose proof (P _ _ _ _ _ M3 G6 K6) as P3. pose proof (P _ _ _ _ _ M4 G8 K8) as P4. lra. }
  set (A := cosh q * cos d / tW q d). set (B := sinh q * sin d / tW q d). assert (AP : 0 < A) by (apply Rdiv_lt_0_compat; [apply Rmult_lt_0_compat|]; lra).
  set (u := jr (hs n) x y) in *. set (v := ji (hs n) x y).
  assert (SU : sU a b lon0 l p = u * A - v * B) by reflexivity. assert (SV : sV a b lon0 l p = u * B + v * A) by reflexivity.
  assert (HP : 0 < Rhypot (sU a b lon0 l p) (sV a b lon0 l p)).
  { apply sqrt_lt_R0. rewrite SU, SV. replace ((u * A - v * B) * (u * A - v * B) + (u * B + v * A) * (u * B + v * A)) with ((u * u + v * v) * (A * A + B * B)) by ring.
    assert (0 < u * u) by nra. assert (0 <= v * v) by apply Rle_0_sqr. assert (0 < A * A) by nra. assert (0 <= B * B) by apply Rle_0_sqr. apply Rmult_lt_0_compat; lra. }
  unfold cscale. apply Rdiv_lt_0_compat; [|apply (mer_x_pos E a b HE p Hp)]. apply Rmult_lt_0_compat; [|exact HP]. apply Rmult_lt_0_compat; [exact Hk|apply (tB_pos E a b HE)].
Qed.
End Central.
