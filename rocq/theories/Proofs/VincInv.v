(** Vincenty's inverse solution: the iteration contracts away from opposite points, and the answer
    belongs to a geodesic of the ellipsoid. *)
From Coq Require Import Reals QArith Qreals Lra Psatz Lia Bool.
From Flocq Require Import Core.Raux.
From Coquelicot Require Import Coquelicot.
From Verif.Num Require Import FOps RFun XR XRLemmas PIBounds TMod.
From Verif.Model Require Import Fp Quantities Complex Cs Ellipsoid Geodesics.
From Verif.Spec Require Import Angles Axes Shape Frames Sphere Geodesic Maps.
From Verif.Proofs Require Import AnglesX EllX SphereG SphereN GeoG GeoV GeoVD GeoI GeoIS Bessel BesselP GeoAcc VincAcc VincDir.
Local Open Scope R_scope.

Lemma Q2R_Z z : Q2R (inject_Z z) = IZR z. Proof. unfold Q2R; simpl. field. Qed.

(** the variables: sine of the azimuth at the equator, cosine and sine of the arc, arc over sine, product of the sines, f *)
Section Var.
Context (b1 b2 k : R).
Definition venv (l : R) (i : nat) : R :=
  match i with
  | 0%nat => isa b1 b2 l | 1%nat => ics b1 b2 l | 2%nat => iss b1 b2 l | 3%nat => isg b1 b2 l / iss b1 b2 l
  | 4%nat => sin b1 * sin b2 | _ => k
  end.
Definition vder (i : nat) : ex :=
  (match i with
  | 0%nat => (EZ 1 - EV 0 * EV 0) * EV 1 - EV 4 | 1%nat => EZ (-1) * EV 0 * (EV 2 * EV 2) | 2%nat => EV 1 * EV 0 * EV 2
  | 3%nat => EV 0 - EV 3 * EV 1 * EV 0 | _ => EZ 0
  end)%ex.
Lemma isg_acos l : isg b1 b2 l = acos (ics b1 b2 l).
Proof. destruct (isg_spec b1 b2 l) as [_ <-]. symmetry. apply acos_cos. pose proof (isg_bound b1 b2 l). lra. Qed.
Lemma ics_der l : iss b1 b2 l <> 0 -> derivable_pt_lim (ics b1 b2) l (- isa b1 b2 l * iss b1 b2 l).
Proof.
  intros H. replace (- isa b1 b2 l * iss b1 b2 l) with (0 + cos b1 * cos b2 * - sin l) by (unfold isa; field; exact H).
  apply (derivable_pt_lim_plus (fun _ => sin b1 * sin b2) (fun l => cos b1 * cos b2 * cos l)); [apply derivable_pt_lim_const|]. apply (derivable_pt_lim_scal cos). apply derivable_pt_lim_cos.
Qed.
Lemma aux_sc l : iss b1 b2 l * iss b1 b2 l + ics b1 b2 l * ics b1 b2 l = 1.
Proof. rewrite iss_sq. apply aux_unit. Qed.
Lemma isg_der l : iss b1 b2 l <> 0 -> derivable_pt_lim (isg b1 b2) l (isa b1 b2 l).
Proof.
  intros H. pose proof (iss_ge b1 b2 l). pose proof (aux_sc l) as U. assert (-1 < ics b1 b2 l < 1) by nra.
  apply is_derive_Reals. apply (is_derive_ext (fun l => acos (ics b1 b2 l))); [intros; symmetry; apply isg_acos|]. apply is_derive_Reals.
  replace (isa b1 b2 l) with (- / sqrt (1 - (ics b1 b2 l)²) * (- isa b1 b2 l * iss b1 b2 l)).
  - apply (derivable_pt_lim_comp (ics b1 b2) acos); [apply ics_der; exact H|]. replace (- / sqrt (1 - (ics b1 b2 l)²)) with (-1 / sqrt (1 - (ics b1 b2 l)²)) by (unfold Rdiv; ring). apply (derive_pt_eq_1 _ _ _ (derivable_pt_acos _ H1)). apply derive_pt_acos.
  - unfold Rsqr. rewrite <- iss_alt. field. exact H.
Qed.
Lemma iss_der l : iss b1 b2 l <> 0 -> derivable_pt_lim (iss b1 b2) l (ics b1 b2 l * isa b1 b2 l).
Proof.
  intros H. apply is_derive_Reals. apply (is_derive_ext (fun l => sin (isg b1 b2 l))); [intros; apply isg_spec|]. apply is_derive_Reals.
  replace (ics b1 b2 l) with (cos (isg b1 b2 l)) by apply isg_spec. apply (derivable_pt_lim_comp (isg b1 b2) sin); [apply isg_der; exact H|apply derivable_pt_lim_sin].
Qed.
Lemma isa_der l : iss b1 b2 l <> 0 -> derivable_pt_lim (isa b1 b2) l (((1 - isa b1 b2 l * isa b1 b2 l) * ics b1 b2 l - sin b1 * sin b2) / iss b1 b2 l).
Proof.
  intros H. replace (_ / iss b1 b2 l) with ((cos b1 * cos b2 * cos l * iss b1 b2 l - (ics b1 b2 l * isa b1 b2 l) * (cos b1 * cos b2 * sin l)) / (Rsqr (iss b1 b2 l))).
  - apply (derivable_pt_lim_div (fun l => cos b1 * cos b2 * sin l) (iss b1 b2)); [apply (derivable_pt_lim_scal sin), derivable_pt_lim_sin|apply iss_der; exact H|exact H].
  - replace (cos b1 * cos b2 * sin l) with (isa b1 b2 l * iss b1 b2 l) by (unfold isa; field; exact H). replace (cos b1 * cos b2 * cos l) with (ics b1 b2 l - sin b1 * sin b2) by (unfold ics; ring). unfold Rsqr. field. exact H.
Qed.
Lemma venv_der l : iss b1 b2 l <> 0 -> forall i, derivable_pt_lim (fun l => venv l i) l (eval (venv l) nofe (vder i) / iss b1 b2 l).
Proof.
  intros H i. destruct i as [|[|[|[|[|i]]]]]; cbn [venv vder eval EZ]; try change (EZ 0) with (EC 0); cbn [eval]; rewrite ?Q2R_Z.
  - apply isa_der. exact H.
  - replace (_ / iss b1 b2 l) with (- isa b1 b2 l * iss b1 b2 l) by (field; exact H). apply ics_der. exact H.
  - replace (_ / iss b1 b2 l) with (ics b1 b2 l * isa b1 b2 l) by (field; exact H). apply iss_der. exact H.
  - replace (_ / iss b1 b2 l) with ((isa b1 b2 l * iss b1 b2 l - (ics b1 b2 l * isa b1 b2 l) * isg b1 b2 l) / Rsqr (iss b1 b2 l)) by (unfold Rsqr; field; exact H).
    apply (derivable_pt_lim_div (isg b1 b2) (iss b1 b2)); [apply isg_der|apply iss_der|]; exact H.
  - replace (_ / _) with 0 by (unfold Rdiv; cbn; ring). apply derivable_pt_lim_const.
  - replace (_ / _) with 0 by (unfold Rdiv; cbn; ring). apply derivable_pt_lim_const.
Qed.
Definition vfun (m : ex) (l : R) : R := iss b1 b2 l * eval (venv l) nofe m.
Definition vfun' (m : ex) : ex := (EV 1 * EV 0 * m + dex vder m)%ex.
Lemma vfun_der m l : iss b1 b2 l <> 0 -> derivable_pt_lim (vfun m) l (eval (venv l) nofe (vfun' m)).
Proof.
  intros H. cbn [vfun' eval]. replace (_ + _) with (ics b1 b2 l * isa b1 b2 l * eval (venv l) nofe m + iss b1 b2 l * (eval (venv l) nofe (dex vder m) / iss b1 b2 l)) by (cbn [venv]; field; exact H).
  apply (derivable_pt_lim_mult (iss b1 b2) (fun l => eval (venv l) nofe m)); [apply iss_der; exact H|]. apply dex_deriv; [exact H|]. apply venv_der. exact H.
Qed.
End Var.

(** The Taylor models of an expression and of its derivative together: nothing is computed twice. *)
Section Dual.
Context (n N : nat) (rad : nat -> Q) (ft : nat -> tm n) (d : nat -> ex).
Fixpoint dtm (e : ex) : tm n * tm n :=
  match e with
  | EC q => (tcut n N rad (pcon (S n) q) 0, tcut n N rad (pcon (S n) 0) 0)
  | EV i => (tcut n N rad (pvar (S n) i) 0, etm n N rad ft (d i))
  | EF j => (ft j, tcut n N rad (pcon (S n) 0) 0)
  | EAdd a b => let '(A, A') := dtm a in let '(B, B') := dtm b in (tadd n A B, tadd n A' B')
  | ESub a b => let '(A, A') := dtm a in let '(B, B') := dtm b in (tsub n A B, tsub n A' B')
  | EMul a b => let '(A, A') := dtm a in let '(B, B') := dtm b in (tmul n N rad A B, tadd n (tmul n N rad A' B) (tmul n N rad A B'))
  end.
Lemma dtm_ok e : dtm e = (etm n N rad ft e, etm n N rad ft (dex d e)).
Proof. induction e as [q|i|j|a IA b IB|a IA b IB|a IA b IB]; cbn [dtm dex etm]; rewrite ?IA, ?IB; reflexivity. Qed.
End Dual.
Definition vtm (N : nat) (rad : nat -> Q) (m : ex) : tm 5 :=
  let '(M, M') := dtm 5 N rad (noft 5) vder m in tadd 5 (tmul 5 N rad (etm 5 N rad (noft 5) (EV 1 * EV 0)%ex) M) M'.
Lemma vtm_ok N rad m : vtm N rad m = etm 5 N rad (noft 5) (vfun' m).
Proof. unfold vtm. rewrite dtm_ok. reflexivity. Qed.

(** the longitude correction and the distance over these variables *)
Definition e_q : ex := (EZ 1 - EV 0 * EV 0)%ex.
Definition e_k : ex := (qc 1 16 * EV 5 * (EZ 4 + EV 5 * (EZ 4 - EZ 3 * e_q)))%ex.
Definition e_n : ex := (e_q * EV 1 - EZ 2 * EV 4)%ex.
Definition e_C : ex := (e_q * e_k)%ex.
Definition e_X : ex := (e_k * e_n)%ex.
Definition e_D1 : ex := (e_X + EV 1 * (EZ 2 * (e_X * e_X) - e_C * e_C))%ex.
Definition e_D : ex := ((EZ 1 - e_C) * EV 0 * (EV 3 + e_D1))%ex.
Definition e_v : ex := (e_q * EV 5)%ex.
Definition e_A : ex := (EZ 1 + e_v * qc 1 16384 * (EZ 4096 + e_v * (EZ (-768) + e_v * (EZ 320 - EZ 175 * e_v))))%ex.
Definition e_B0 : ex := (qc 1 1024 * (EZ 256 + e_v * (EZ (-128) + e_v * (EZ 74 - EZ 47 * e_v))))%ex.
Definition e_B : ex := (e_v * e_B0)%ex.
Definition e_Y : ex := (EV 5 * e_B0 * e_n)%ex.
Definition e_R1 : ex := (e_Y + qc 1 4 * (EV 1 * (EZ 2 * (e_Y * e_Y) - e_B * e_B)) - qc 1 24 * (e_Y * (EZ 4 * (EV 2 * EV 2) - EZ 3) * (EZ 4 * (e_Y * e_Y) - EZ 3 * (e_B * e_B))))%ex.
Definition e_R : ex := (e_A * (EV 3 - e_R1))%ex.
Definition vrad (k : Q) (i : nat) : Q := match i with 3%nat => 9 | 5%nat => k | _ => 1 end.
(** turns [eval] of these expressions into plain formulas *)
Ltac ev := cbn [eval EZ qc venv]; rewrite ?Q2R_Z; unfold Q2R; cbn [Qnum Qden].
Lemma q0_sines b1 b2 l : iss b1 b2 l <> 0 -> iq b1 b2 l = 0 -> sin b1 * sin b2 = 0.
Proof.
  intros H Q. unfold iq in Q. assert (S2 : cos b1 * ew b2 l * (cos b1 * ew b2 l) = iss b1 b2 l * iss b1 b2 l).
  { replace (cos b1 * ew b2 l) with (isa b1 b2 l * iss b1 b2 l) by (unfold isa, ew; field; exact H). transitivity (isa b1 b2 l * isa b1 b2 l * (iss b1 b2 l * iss b1 b2 l)); [ring|]. replace (isa b1 b2 l * isa b1 b2 l) with 1 by lra. ring. }
  rewrite iss_sq in S2. pose proof (sc b1) as C. assert (Z : Rsqr (sin b1 * ew b2 l) + Rsqr (ns b1 b2 l) = 0).
  { unfold Rsqr. replace (sin b1 * ew b2 l * (sin b1 * ew b2 l)) with ((sin b1 * sin b1 + cos b1 * cos b1) * (ew b2 l * ew b2 l) - cos b1 * ew b2 l * (cos b1 * ew b2 l)) by ring. rewrite C. lra. }
  pose proof (Rle_0_sqr (sin b1 * ew b2 l)) as A1. pose proof (Rle_0_sqr (ns b1 b2 l)) as A2. assert (X : ns b1 b2 l = 0) by (apply Rsqr_0_uniq; lra). assert (Y : sin b1 * ew b2 l = 0) by (apply Rsqr_0_uniq; lra).
  apply Rmult_integral in Y as [Y|Y]; [rewrite Y; ring|]. exfalso. apply H. pose proof (iss_sq b1 b2 l) as I. rewrite X, Y in I. nra.
Qed.
Lemma Rlam_fun f b1 b2 L l : iss b1 b2 l <> 0 -> Rlam f b1 b2 L l = L + f * vfun b1 b2 f e_D l.
Proof.
  intros H. unfold Rlam, vfun. destruct (Req_bool_spec (iq b1 b2 l) 0) as [Z|Z].
  - pose proof (q0_sines _ _ _ H Z) as S. unfold e_D, e_D1, e_X, e_C, e_k, e_n, e_q. ev. rewrite S. unfold iq in Z. replace (isa b1 b2 l * isa b1 b2 l) with 1 by lra. field. exact H.
  - unfold e_D, e_D1, e_X, e_C, e_k, e_n, e_q. ev. unfold RC, icm, iq in *. field. split; assumption.
Qed.
Lemma Rdist_fun b ep b1 b2 l c : iss b1 b2 l <> 0 -> (iq b1 b2 l <> 0 -> c = icm b1 b2 l) -> Rdist b ep (iq b1 b2 l) (isg b1 b2 l) c = b * vfun b1 b2 ep e_R l.
Proof.
  intros H Hc. unfold Rdist, vfun. destruct (isg_spec b1 b2 l) as [-> ->]. destruct (Req_bool_spec (iq b1 b2 l) 0) as [Z|Z].
  - pose proof (q0_sines _ _ _ H Z) as S. unfold e_R, e_R1, e_Y, e_B, e_B0, e_A, e_v, e_n, e_q. ev. rewrite S. unfold iq in Z. replace (isa b1 b2 l * isa b1 b2 l) with 1 by lra. field. exact H.
  - rewrite (Hc Z). unfold Rdelta, RA, RB, icm. unfold e_R, e_R1, e_Y, e_B, e_B0, e_A, e_v, e_n, e_q. ev. unfold iq in *. field. split; assumption.
Qed.

(** sizes *)
Lemma sin_xcos x : 0 <= x <= PI -> x * cos x <= sin x.
Proof.
  intros H. destruct (MVT_gen (fun x => sin x - x * cos x) 0 x (fun x => x * sin x)) as (z & Z & E).
  - intros y _. auto_derive; [trivial|ring].
  - intros y _. apply continuity_pt_filterlim. apply (ex_derive_continuous (V := R_NormedModule) (fun x => sin x - x * cos x)). auto_derive. trivial.
  - rewrite Rmin_left, Rmax_right in Z by lra. rewrite sin_0 in E. assert (0 <= sin z) by (apply sin_ge_0; lra). assert (0 <= z * sin z) by (apply Rmult_le_pos; lra). assert (0 <= z * sin z * (x - 0)) by (apply Rmult_le_pos; lra). lra.
Qed.
Lemma PI_up : PI < 315 / 100.
Proof. pose proof PI_64_bounds. lra. Qed.
Lemma isa_bound b1 b2 l : iss b1 b2 l <> 0 -> Rabs (isa b1 b2 l) <= 1.
Proof.
  intros H. rewrite <- (g_sa b1 b2 l H). pose proof (q01 b1 (iaz1 b1 b2 l)). apply Rabs_le. nra.
Qed.
Lemma arc_ratio b1 b2 l : iss b1 b2 l <> 0 -> - (936 / 1000) <= ics b1 b2 l -> 0 <= isg b1 b2 l / iss b1 b2 l <= 9.
Proof.
  intros H B. pose proof (iss_ge b1 b2 l). pose proof (isg_bound b1 b2 l) as G. destruct (isg_spec b1 b2 l) as [S C]. pose proof PI_up as P. pose proof (aux_sc b1 b2 l) as U.
  split; [apply Rdiv_le_0_compat; lra|]. apply (Rmult_le_reg_r (iss b1 b2 l)); [lra|]. replace (isg b1 b2 l / iss b1 b2 l * iss b1 b2 l) with (isg b1 b2 l) by (field; exact H).
  destruct (Rle_dec 0 (ics b1 b2 l)) as [K|K].
  - set (g := isg b1 b2 l) in *. pose proof (sin_xcos (g / 2) ltac:(lra)) as X. assert (CH : 0 <= cos (g / 2)) by (apply cos_ge_0; lra).
    assert (S2 : sin g = 2 * sin (g / 2) * cos (g / 2)) by (replace g with (2 * (g / 2)) at 1 by field; apply sin_2a).
    assert (C2 : cos g = 2 * cos (g / 2) * cos (g / 2) - 1) by (replace g with (2 * (g / 2)) at 1 by field; apply cos_2a_cos).
    assert (g / 2 * cos (g / 2) * cos (g / 2) <= sin (g / 2) * cos (g / 2)) by (apply Rmult_le_compat_r; lra). assert (0 <= g * cos g) by (apply Rmult_le_pos; lra). nra.
  - assert (isg b1 b2 l <= 315 / 100) by lra. assert (ics b1 b2 l * ics b1 b2 l <= 936 / 1000 * (936 / 1000)) by nra. assert (351 / 1000 <= iss b1 b2 l) by nra. lra.
Qed.
Lemma cos_one x : cos x = 1 -> - (2 * PI) < x < 2 * PI -> x = 0.
Proof.
  intros C B. assert (S : sin (x / 2) * sin (x / 2) = 0) by (assert (cos x = 1 - 2 * sin (x / 2) * sin (x / 2)) by (replace x with (2 * (x / 2)) at 1 by field; apply cos_2a_sin); lra).
  assert (Z : sin (x / 2) = 0) by (apply Rmult_integral in S as [S|S]; exact S). destruct (Rtotal_order x 0) as [N|[N|N]]; [|exact N|].
  - assert (sin (x / 2) < 0) by (apply sin_lt_0_var; lra). lra.
  - assert (0 < sin (x / 2)) by (apply sin_gt_0; lra). lra.
Qed.
Lemma cos_lip x y : Rabs (cos x - cos y) <= Rabs (x - y).
Proof. rewrite <- (Rmult_1_l (Rabs (x - y))). apply (lipschitz cos (fun x => - sin x)); [intros; apply is_derive_Reals, derivable_pt_lim_cos|]. intros z. rewrite Rabs_Ropp. apply Rabs_le, SIN_bound. Qed.
Lemma sin_lip x y : Rabs (sin x - sin y) <= Rabs (x - y).
Proof. rewrite <- (Rmult_1_l (Rabs (x - y))). apply (lipschitz sin cos); [intros; apply is_derive_Reals, derivable_pt_lim_sin|]. intros z. apply Rabs_le, COS_bound. Qed.

Section Region.
Context (b1 b2 L : R) (C1 : - (PI / 2) < b1 < PI / 2) (C2 : - (PI / 2) < b2 < PI / 2).
Context (HL : 0 <= L <= PI) (HD : b1 = b2 -> 0 < L) (HI : - (886 / 1000) <= ics b1 b2 L).
Definition reg (l : R) : Prop := Rabs (l - L) <= / 20 /\ (b1 = b2 -> L / 2 <= l).
Lemma reg_ics l : reg l -> - (936 / 1000) <= ics b1 b2 l.
Proof.
  intros [H _]. assert (D : Rabs (ics b1 b2 l - ics b1 b2 L) <= / 20); [|apply Rabs_le_inv in D; lra].
  replace (ics b1 b2 l - ics b1 b2 L) with (cos b1 * cos b2 * (cos l - cos L)) by (unfold ics; ring). rewrite Rabs_mult. pose proof (cos_lip l L). pose proof (Rabs_pos (cos l - cos L)).
  assert (Rabs (cos b1 * cos b2) <= 1) by (apply Rabs_le; pose proof (COS_bound b1); pose proof (COS_bound b2); nra). pose proof (Rabs_pos (cos b1 * cos b2)). nra.
Qed.
Lemma reg_iss l : reg l -> iss b1 b2 l <> 0.
Proof.
  intros H Z. pose proof (reg_ics l H) as I. destruct H as [H E]. apply Rabs_le_inv in H. pose proof (aux_sc b1 b2 l) as U. rewrite Z in U.
  assert (I1 : ics b1 b2 l = 1) by nra. unfold ics in I1. assert (0 < cos b1) by (apply cos_gt_0; lra). assert (0 < cos b2) by (apply cos_gt_0; lra). assert (P : 0 < cos b1 * cos b2) by (apply Rmult_lt_0_compat; lra).
  pose proof (COS_bound l) as CL. pose proof (cos_minus b1 b2) as CM. pose proof (COS_bound (b1 - b2)) as CB.
  assert (cos b1 * cos b2 * cos l <= cos b1 * cos b2) by nra. assert (M1 : cos (b1 - b2) = 1) by lra. pose proof (cos_one _ M1 ltac:(lra)) as EQ.
  assert (EB : b1 = b2) by lra. specialize (E EB). specialize (HD EB). assert (CL1 : cos l = 1) by nra. pose proof PI_RGT_0. pose proof PI_up. assert (3 < PI) by (pose proof PI_64_bounds; lra).
  pose proof (cos_one _ CL1 ltac:(lra)). lra.
Qed.
Lemma reg_rad k K l : Rabs k <= Q2R K -> reg l -> forall i, (i <= 5)%nat -> Rabs (venv b1 b2 k l i) <= Q2R (vrad K i).
Proof.
  intros HK H i Hi. pose proof (reg_iss l H) as N. pose proof (reg_ics l H) as I. pose proof (arc_ratio b1 b2 l N I) as A.
  destruct i as [|[|[|[|[|[|i]]]]]]; cbn [venv vrad]; [| | | | |exact HK|lia]; unfold Q2R; cbn [Qnum Qden]; rewrite ?Rinv_1, ?Rmult_1_r.
  - apply isa_bound. exact N.
  - destruct (isg_spec b1 b2 l) as [_ <-]. apply Rabs_le, COS_bound.
  - destruct (isg_spec b1 b2 l) as [<- _]. apply Rabs_le, SIN_bound.
  - apply Rabs_le. lra.
  - apply Rabs_le. pose proof (SIN_bound b1). pose proof (SIN_bound b2). nra.
Qed.
Lemma reg_between x y z : reg x -> reg y -> Rmin x y <= z <= Rmax x y -> reg z.
Proof.
  intros [X1 X2] [Y1 Y2] Z. apply Rabs_le_inv in X1, Y1. unfold Rmin, Rmax in Z. split; [apply Rabs_le|intros E; specialize (X2 E); specialize (Y2 E)]; destruct (Rle_dec x y); lra.
Qed.
Lemma reg_lip k K m N B x y : Rabs k <= Q2R K -> reg x -> reg y ->
  ewf 5 (vfun' m) && smallj 5 N (vrad K) 0 B (vtm N (vrad K) m) = true ->
  Rabs (vfun b1 b2 k m x - vfun b1 b2 k m y) <= Q2R B * Rabs (x - y).
Proof.
  intros HK X Y T. rewrite vtm_ok in T. destruct (MVT_gen (vfun b1 b2 k m) y x (fun l => eval (venv b1 b2 k l) nofe (vfun' m))) as (z & Z & E).
  - intros z Hz. apply is_derive_Reals. apply vfun_der, reg_iss. apply (reg_between y x); [exact Y|exact X|lra].
  - intros z Hz. apply continuity_pt_filterlim. apply (ex_derive_continuous (V := R_NormedModule) (vfun b1 b2 k m)). eexists. apply is_derive_Reals, vfun_der, reg_iss. apply (reg_between y x); assumption.
  - rewrite E, Rabs_mult. apply Rmult_le_compat_r; [apply Rabs_pos|]. apply (series_bound 5 N (vrad K)); [|exact T]. apply reg_rad; [exact HK|]. apply (reg_between y x); assumption.
Qed.
Lemma reg_small k K m N B x : Rabs k <= Q2R K -> reg x -> ewf 5 m && smallj 5 N (vrad K) 0 B (etm 5 N (vrad K) (noft 5) m) = true -> Rabs (eval (venv b1 b2 k x) nofe m) <= Q2R B.
Proof. intros HK X T. apply (series_bound 5 N (vrad K)); [|exact T]. now apply reg_rad. Qed.
End Region.

(** what is left to know when the loop has ended *)
Definition settled (b1 b2 f ep L x y c : R) : Prop :=
  iss b1 b2 y <> 0 /\ y = Rlam f b1 b2 L x /\
  Rabs (Rlam f b1 b2 L y - Rlam f b1 b2 L x) <= 3 * / 10 ^ 13 /\
  Rabs (Rdist 1 ep (iq b1 b2 y) (isg b1 b2 y) (icm b1 b2 y) - Rdist 1 ep (iq b1 b2 x) (isg b1 b2 x) c) <= 14 * / 10 ^ 13 /\
  0 < Rdist 1 ep (iq b1 b2 x) (isg b1 b2 x) c.
Lemma sin_le_x x : 0 <= x -> sin x <= x.
Proof. intros [H| <-]; [apply Rlt_le, sin_lt_x; exact H|rewrite sin_0; lra]. Qed.
Section Loop.
Context (b1 b2 L f ep : R) (C1 : - (PI / 2) < b1 < PI / 2) (C2 : - (PI / 2) < b2 < PI / 2).
Context (HL : 0 <= L <= PI) (HD : b1 = b2 -> 0 < L) (HI : - (886 / 1000) <= ics b1 b2 L) (Hf : 0 <= f <= / 100) (He : 0 <= ep <= 21 / 1000).
Notation reg := (reg b1 b2 L).
Notation lam := (Rlam f b1 b2 L).
Let Hf' : Rabs f <= Q2R (Qmake 1 100). Proof. rewrite Rabs_right by lra. unfold Q2R. cbn. lra. Qed.
Let He' : Rabs ep <= Q2R (Qmake 21 1000). Proof. rewrite Rabs_right by lra. unfold Q2R. cbn. lra. Qed.
Lemma lam_lip x y : reg x -> reg y -> Rabs (lam x - lam y) <= 29 / 100 * Rabs (x - y).
Proof.
  intros X Y. rewrite !Rlam_fun by (apply (reg_iss b1 b2 L C1 C2 HL HD HI); assumption).
  pose proof (reg_lip b1 b2 L C1 C2 HL HD HI f (Qmake 1 100) e_D 2 (Qmake 29 1) x y Hf' X Y ltac:(vm_compute; reflexivity)) as B.
  replace (L + f * vfun b1 b2 f e_D x - (L + f * vfun b1 b2 f e_D y)) with (f * (vfun b1 b2 f e_D x - vfun b1 b2 f e_D y)) by ring. rewrite Rabs_mult, (Rabs_right f) by lra.
  replace (Q2R (Qmake 29 1)) with 29 in B by (unfold Q2R; cbn; lra). pose proof (Rabs_pos (x - y)). pose proof (Rabs_pos (vfun b1 b2 f e_D x - vfun b1 b2 f e_D y)). nra.
Qed.
Lemma dist_lip x y : reg x -> reg y -> Rabs (vfun b1 b2 ep e_R x - vfun b1 b2 ep e_R y) <= 14 / 10 * Rabs (x - y).
Proof.
  intros X Y. pose proof (reg_lip b1 b2 L C1 C2 HL HD HI ep (Qmake 21 1000) e_R 2 (Qmake 14 10) x y He' X Y ltac:(vm_compute; reflexivity)) as B.
  replace (Q2R (Qmake 14 10)) with (14 / 10) in B by (unfold Q2R; cbn; lra). exact B.
Qed.
Lemma lam_parts x : reg x -> exists k r, 0 <= k <= 11 / 10 /\ Rabs r <= 2 / 100 /\ lam x - L = f * k * isa b1 b2 x * (isg b1 b2 x + iss b1 b2 x * r).
Proof.
  intros X. pose proof (reg_iss b1 b2 L C1 C2 HL HD HI x X) as N. rewrite Rlam_fun by exact N.
  pose proof (reg_small b1 b2 L C1 C2 HL HD HI f (Qmake 1 100) e_C 2 (Qmake 1 10) x Hf' X ltac:(vm_compute; reflexivity)) as B1.
  pose proof (reg_small b1 b2 L C1 C2 HL HD HI f (Qmake 1 100) e_D1 2 (Qmake 2 100) x Hf' X ltac:(vm_compute; reflexivity)) as B2.
  replace (Q2R (Qmake 1 10)) with (1 / 10) in B1 by (unfold Q2R; cbn; lra). replace (Q2R (Qmake 2 100)) with (2 / 100) in B2 by (unfold Q2R; cbn; lra).
  exists (1 - eval (venv b1 b2 f x) nofe e_C), (eval (venv b1 b2 f x) nofe e_D1). apply Rabs_le_inv in B1. split; [lra|]. split; [exact B2|].
  unfold vfun, e_D. cbn [eval EZ venv]. rewrite Q2R_Z. field. exact N.
Qed.
Lemma lam_size x : reg x -> Rabs (lam x - L) <= / 20.
Proof.
  intros X. pose proof (reg_iss b1 b2 L C1 C2 HL HD HI x X) as N. destruct (lam_parts x X) as (k & r & Hk & Hr & ->). pose proof (isa_bound b1 b2 x N) as SA. pose proof (isg_bound b1 b2 x) as G. pose proof PI_up as P.
  assert (S1 : Rabs (iss b1 b2 x) <= 1) by (destruct (isg_spec b1 b2 x) as [<- _]; apply Rabs_le, SIN_bound).
  assert (W : Rabs (isg b1 b2 x + iss b1 b2 x * r) <= 32 / 10).
  { eapply Rle_trans; [apply Rabs_triang|]. rewrite Rabs_mult, (Rabs_right (isg b1 b2 x)) by lra. pose proof (Rabs_pos r). pose proof (Rabs_pos (iss b1 b2 x)). nra. }
  rewrite !Rabs_mult, (Rabs_right f), (Rabs_right k) by lra. pose proof (Rabs_pos (isa b1 b2 x)). pose proof (Rabs_pos (isg b1 b2 x + iss b1 b2 x * r)).
  assert (f * k <= 11 / 1000) by nra. assert (0 <= f * k) by nra. assert (0 <= f * k * Rabs (isa b1 b2 x) <= 11 / 1000) by nra. nra.
Qed.
Lemma lam_sign x : reg x -> 0 <= sin x -> L <= lam x.
Proof.
  intros X S. pose proof (reg_iss b1 b2 L C1 C2 HL HD HI x X) as N. destruct (lam_parts x X) as (k & r & Hk & Hr & E). pose proof (isg_bound b1 b2 x) as G. pose proof (iss_ge b1 b2 x) as I.
  assert (GS : iss b1 b2 x <= isg b1 b2 x) by (destruct (isg_spec b1 b2 x) as [<- _]; apply sin_le_x; lra).
  assert (0 < cos b1) by (apply cos_gt_0; lra). assert (0 < cos b2) by (apply cos_gt_0; lra).
  assert (SA : 0 <= isa b1 b2 x) by (unfold isa; apply Rdiv_le_0_compat; [apply Rmult_le_pos; [|exact S]; apply Rlt_le, Rmult_lt_0_compat; lra|lra]).
  apply Rabs_le_inv in Hr. assert (0 <= isg b1 b2 x + iss b1 b2 x * r) by nra. assert (0 <= f * k * isa b1 b2 x * (isg b1 b2 x + iss b1 b2 x * r)) by (apply Rmult_le_pos; [apply Rmult_le_pos; [apply Rmult_le_pos|]|]; lra). lra.
Qed.
Lemma lam_reg x : reg x -> reg (lam x).
Proof.
  intros X. split; [apply lam_size; exact X|]. intros E. pose proof (HD E) as HD'. destruct (Rle_dec (/ 10) L) as [K|K].
  - pose proof (Rabs_le_inv _ _ (lam_size x X)). lra.
  - assert (0 <= sin x). { destruct X as [X1 X2]. specialize (X2 E). apply Rabs_le_inv in X1. apply sin_ge_0; [lra|]. pose proof PI_64_bounds. lra. } pose proof (lam_sign x X H). lra.
Qed.
Lemma loop_ends n l m d : reg l -> Rabs (lam l - l) <= d -> (29 / 100) ^ n * d < / 10 ^ 12 ->
  exists x y c, Rloop (S n) f b1 b2 L l m = Some (x, y, c) /\ reg x.
Proof.
  revert l m d. induction n as [|n IH]; intros l m d X D H; cbn [Rloop]; rewrite Req_bool_f by (apply (reg_iss b1 b2 L C1 C2 HL HD HI); exact X).
  - rewrite Rlt_bool_t by (cbn [pow] in H; lra). do 3 eexists. split; [reflexivity|exact X].
  - destruct (Rlt_bool _ _); [do 3 eexists; split; [reflexivity|exact X]|]. apply (IH (lam l) _ (29 / 100 * d)); [apply lam_reg; exact X| |].
    + eapply Rle_trans; [apply lam_lip; [apply lam_reg|]; exact X|]. lra.
    + cbn [pow] in H. replace ((29 / 100) ^ n * (29 / 100 * d)) with (29 / 100 * (29 / 100) ^ n * d) by ring. exact H.
Qed.
Lemma loop_settles m : exists x y c, Rloop 30 f b1 b2 L L m = Some (x, y, c) /\ settled b1 b2 f ep L x y c.
Proof.
  assert (RL : reg L) by (split; [rewrite Rminus_eq_0, Rabs_R0; lra|intros _; lra]).
  destruct (loop_ends 29 L m (/ 20) RL (lam_size L RL)) as (x & y & c & EQ & X).
  { apply (Rle_lt_trans _ ((29 / 100) ^ 28)); [|].
    - change ((29 / 100) ^ 29) with (29 / 100 * (29 / 100) ^ 28). pose proof (pow_lt (29 / 100) 28 ltac:(lra)). nra.
    - change 28%nat with (2 * 14)%nat. rewrite pow_mult. apply (Rle_lt_trans _ ((/ 10) ^ 14)).
      + apply pow_incr. cbn [pow]. lra.
      + rewrite pow_inv. apply Rinv_lt_contravar; cbn [pow]; lra. }
  exists x, y, c. split; [exact EQ|]. destruct (Rloop_some _ _ _ _ _ _ _ _ _ _ EQ) as (N & Y & T & Hc). assert (RY : reg y) by (rewrite Y; apply lam_reg; exact X).
  pose proof (reg_iss b1 b2 L C1 C2 HL HD HI y RY) as NY. assert (T13 : / 10 ^ 12 = 10 * / 10 ^ 13) by (cbn [pow]; field). assert (P13 : 0 < / 10 ^ 13) by (apply Rinv_0_lt_compat, pow_lt; lra).
  split; [exact NY|]. split; [exact Y|]. split; [|split].
  - eapply Rle_trans; [apply lam_lip; assumption|]. lra.
  - rewrite (Rdist_fun 1 ep b1 b2 x c N Hc), (Rdist_fun 1 ep b1 b2 y _ NY (fun _ => eq_refl)), !Rmult_1_l. eapply Rle_trans; [apply dist_lip; assumption|]. lra.
  - rewrite (Rdist_fun 1 ep b1 b2 x c N Hc), Rmult_1_l. unfold vfun, e_R. cbn [eval]. pose proof (iss_ge b1 b2 x) as I. apply Rmult_lt_0_compat; [lra|].
    pose proof (reg_small b1 b2 L C1 C2 HL HD HI ep (Qmake 21 1000) e_R1 2 (Qmake 1 2) x He' X ltac:(vm_compute; reflexivity)) as B1.
    pose proof (reg_small b1 b2 L C1 C2 HL HD HI ep (Qmake 21 1000) (e_A - EZ 1)%ex 2 (Qmake 1 2) x He' X ltac:(vm_compute; reflexivity)) as B2.
    replace (Q2R (Qmake 1 2)) with (1 / 2) in B1, B2 by (unfold Q2R; cbn; lra). cbn [eval EZ] in B2. rewrite Q2R_Z in B2. apply Rabs_le_inv in B1, B2. cbn [venv] in *.
    assert (GS : iss b1 b2 x <= isg b1 b2 x) by (pose proof (isg_bound b1 b2 x) as G; destruct (isg_spec b1 b2 x) as [<- _]; apply sin_le_x; lra).
    assert (1 <= isg b1 b2 x / iss b1 b2 x) by (apply (Rmult_le_reg_r (iss b1 b2 x)); [lra|]; replace (isg b1 b2 x / iss b1 b2 x * iss b1 b2 x) with (isg b1 b2 x) by (field; exact N); lra).
    apply Rmult_lt_0_compat; lra.
Qed.
End Loop.
Lemma settled_swap b1 b2 f ep L x y c : settled b2 b1 f ep (0 - L) (0 - x) (0 - y) c -> settled b1 b2 f ep L x y c.
Proof.
  pose proof (same_angle_refl 0) as K. intros (A & B & C & D & E). rewrite iss_swap in A by exact K. rewrite (Rlam_swap b1 b2 0 K) in B. rewrite !(Rlam_swap b1 b2 0 K) in C. rewrite !iq_swap, !isg_swap, !icm_swap in D by exact K. rewrite iq_swap, isg_swap in E by exact K.
  split; [exact A|]. split; [lra|]. split; [|split; assumption]. rewrite <- Rabs_Ropp. replace (- _) with (0 - Rlam f b1 b2 L y - (0 - Rlam f b1 b2 L x)) by ring. exact C.
Qed.
Lemma loop_settles_all b1 b2 L f ep m : - (PI / 2) < b1 < PI / 2 -> - (PI / 2) < b2 < PI / 2 -> - PI <= L <= PI -> (b1 = b2 -> L <> 0) ->
  - (886 / 1000) <= ics b1 b2 L -> 0 <= f <= / 100 -> 0 <= ep <= 21 / 1000 ->
  exists x y c, Rloop 30 f b1 b2 L L m = Some (x, y, c) /\ settled b1 b2 f ep L x y c.
Proof.
  intros C1 C2 HL HD HI Hf He. destruct (Rle_dec 0 L) as [P|P].
  - apply loop_settles; try assumption; [lra|]. intros E. specialize (HD E). lra.
  - pose proof (same_angle_refl 0) as K.
    destruct (loop_settles b2 b1 (0 - L) f ep C2 C1 ltac:(lra) ltac:(intros E; symmetry in E; specialize (HD E); lra) ltac:(rewrite ics_swap by exact K; exact HI) Hf He m) as (x & y & c & EQ & S).
    rewrite Rloop_swap in EQ by exact K. destruct (Rloop 30 f b1 b2 L L m) as [[[x' y'] c']|]; [|discriminate]. injection EQ; intros <- <- <-. exists x', y', c'. split; [reflexivity|]. apply settled_swap. exact S.
Qed.
