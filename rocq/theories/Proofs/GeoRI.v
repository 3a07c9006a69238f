(** Rapp's inverse solution in exact arithmetic. *)
From Coq Require Import Reals Lra Psatz ZArith List Bool Lia.
From Flocq Require Import Core.Raux.
From Verif.Num Require Import FOps RFun XR XRLemmas.
From Verif.Model Require Import Fp Quantities Complex Cs Ellipsoid Geodesics.
From Verif.Spec Require Import Angles Axes Shape Frames Sphere Series.
From Verif.Proofs Require Import AnglesX EllX MathX SphereG SphereN GeoG GeoV GeoVD GeoR GeoI GeoIS.
Import ListNotations.
Local Open Scope R_scope.

Definition Rrlam (f b1 b2 L l : R) : R :=
  let q := iq b1 b2 l in let sg := isg b1 b2 l in let c := icm b1 b2 l in
  if Req_bool q 0 then L + f * isa b1 b2 l * sg else
  let '(x0, x2, x4, x6) := rax f in
  L + f * isa b1 b2 l * (polynomial x0 q * sg + polynomial x2 q * sin sg * c + polynomial x4 q * sin (2 * sg) * (2 * (c * c) - 1) + polynomial x6 q * sin (3 * sg) * (c * c * c - 3 * c * (1 - c * c))).
Definition ric8 (b1 b2 l : R) : R := let c := icm b1 b2 l in let s := sin (2 * isg b1 b2 l) in c * c * (c * c) - 6 * (c * c) * (s * s) + s * s * (s * s).
Section Step.
Context (E : Ellipsoid XR) (a b : R) (HE : shape E a b).
Notation f := ((a - b) / a).
Lemma rstep_fin b1 b2 L l st : ri_lambda st = Fin l -> iss b1 b2 l <> 0 ->
  let st' := rapp_inverse_step E (Fin b1) (Fin b2) (Fin L) st in
  ri_lambda st' = Fin (Rrlam f b1 b2 L l) /\ ri_cos_lambda st' = Fin (cos l) /\ ri_sigma st' = Fin (isg b1 b2 l) /\
  ri_sin_sigma st' = Fin (sin (isg b1 b2 l)) /\ ri_cos_sigma st' = Fin (cos (isg b1 b2 l)) /\ ri_sin_alpha st' = Fin (isa b1 b2 l) /\ ri_cos_alpha_sq st' = Fin (iq b1 b2 l) /\
  (iq b1 b2 l <> 0 -> let c := icm b1 b2 l in ri_cos_2_sigma_m st' = Fin c /\ ri_cos_4_sigma_m st' = Fin (2 * (c * c) - 1) /\
    ri_cos_6_sigma_m st' = Fin (c * c * c - 3 * c * (1 - c * c)) /\ ri_cos_8_sigma_m st' = Fin (ric8 b1 b2 l)).
Proof.
  intros Hl HS. unfold rapp_inverse_step. cbv zeta. rewrite Hl, (ef_fin E a b HE), (axs_fin E f (ef_fin E a b HE)).
  assert (T1 : fsqrt (fadd (fsq (fmul (fsin (Fin l)) (fcos (Fin b2)))) (fsq (fsub (fmul (fsin (Fin b2)) (fcos (Fin b1))) (fmul (fmul (fsin (Fin b1)) (fcos (Fin b2))) (fcos (Fin l)))))) = Fin (iss b1 b2 l)).
  { xr. rewrite xsqrt_fin by (apply Rplus_le_le_0_compat; apply Rle_0_sqr). unfold iss. do 2 f_equal. unfold ew, ns. ring. }
  rewrite T1. assert (T2 : fadd (fmul (fsin (Fin b1)) (fsin (Fin b2))) (fmul (fmul (fcos (Fin b1)) (fcos (Fin b2))) (fcos (Fin l))) = Fin (ics b1 b2 l)) by reflexivity.
  rewrite T2. assert (T3 : fatan2 (Fin (iss b1 b2 l)) (Fin (ics b1 b2 l)) = Fin (isg b1 b2 l)) by reflexivity. rewrite T3.
  assert (T4 : fdiv (fmul (fmul (fcos (Fin b1)) (fcos (Fin b2))) (fsin (Fin l))) (Fin (iss b1 b2 l)) = Fin (isa b1 b2 l)) by (xr; rewrite xdiv_fin by exact HS; reflexivity).
  rewrite T4. assert (T5 : fsub (fofZ 1) (fsq (Fin (isa b1 b2 l))) = Fin (iq b1 b2 l)) by reflexivity. rewrite T5.
  destruct (isg_spec b1 b2 l) as [SS CS]. rewrite <- SS, <- CS. rewrite r_sin2, r_sin3. unfold Rrlam. cbv zeta. unfold rax. cbn iota beta. rewrite !poly_eval_fin. xr.
  destruct (Req_bool_spec (iq b1 b2 l) 0) as [Z|Z].
  - cbn [ri_lambda ri_cos_lambda ri_sigma ri_sin_sigma ri_cos_sigma ri_sin_alpha ri_cos_alpha_sq]. repeat split; try reflexivity; exfalso; now apply Z || apply H.
  - rewrite xdiv_fin by exact Z. xr. assert (IC : cos (isg b1 b2 l) - 2 * sin b1 * sin b2 / iq b1 b2 l = icm b1 b2 l) by (unfold icm; now rewrite CS). rewrite IC. unfold rapp_cos_2, rapp_cos_3. xr.
    cbn [ri_lambda ri_cos_lambda ri_sigma ri_sin_sigma ri_cos_sigma ri_sin_alpha ri_cos_alpha_sq ri_cos_2_sigma_m ri_cos_4_sigma_m ri_cos_6_sigma_m ri_cos_8_sigma_m].
    repeat split; try reflexivity; f_equal; unfold ric8; cbv zeta; ring.
Qed.
Lemma rstep_nan b1 b2 L l st : ri_lambda st = Fin l -> iss b1 b2 l = 0 -> ri_lambda (rapp_inverse_step E (Fin b1) (Fin b2) (Fin L) st) = NaN.
Proof.
  intros Hl HS. unfold rapp_inverse_step. cbv zeta. rewrite Hl, (ef_fin E a b HE), (axs_fin E f (ef_fin E a b HE)).
  assert (T1 : fsqrt (fadd (fsq (fmul (fsin (Fin l)) (fcos (Fin b2)))) (fsq (fsub (fmul (fsin (Fin b2)) (fcos (Fin b1))) (fmul (fmul (fsin (Fin b1)) (fcos (Fin b2))) (fcos (Fin l)))))) = Fin (iss b1 b2 l)).
  { xr. rewrite xsqrt_fin by (apply Rplus_le_le_0_compat; apply Rle_0_sqr). unfold iss. do 2 f_equal. unfold ew, ns. ring. }
  rewrite T1, HS. assert (T4 : fdiv (fmul (fmul (fcos (Fin b1)) (fcos (Fin b2))) (fsin (Fin l))) (Fin 0) = NaN).
  { xr. pose proof (iss_sq b1 b2 l) as Q. rewrite HS in Q. assert (W : ew b2 l = 0) by nra. replace (cos b1 * cos b2 * sin l) with (cos b1 * ew b2 l) by (unfold ew; ring). rewrite W, Rmult_0_r. apply xdiv00. }
  rewrite T4. xr. unfold rax. cbn iota beta. cbn [ri_lambda]. xr. reflexivity.
Qed.
Lemma rnan_step b1 b2 L st : ri_lambda st = NaN -> ri_lambda (rapp_inverse_step E (Fin b1) (Fin b2) (Fin L) st) = NaN.
Proof. intros Hl. unfold rapp_inverse_step. cbv zeta. rewrite Hl, (ef_fin E a b HE), (axs_fin E f (ef_fin E a b HE)). xr. cbn [xsqrt xdiv]. xr. unfold rax. cbn iota beta. cbn [ri_lambda]. xr. reflexivity. Qed.
Lemma rnan_loop n b1 b2 L st : ri_lambda st = NaN -> rapp_inverse_loop n E (Fin b1) (Fin b2) (Fin L) st = Err tt.
Proof.
  revert st. induction n as [|n IH]; intros st H; [reflexivity|]. cbn [rapp_inverse_loop]. pose proof (rnan_step b1 b2 L st H) as N. cbv zeta. rewrite N. xr. apply IH, N.
Qed.
Fixpoint Rrloop (n : nat) (b1 b2 L l : R) : option (R * R) :=
  match n with
  | O => None
  | S n' => if Req_bool (iss b1 b2 l) 0 then None else
      if Rlt_bool (Rabs (Rrlam f b1 b2 L l - l)) (5 / 10 ^ 15) then Some (l, Rrlam f b1 b2 L l) else Rrloop n' b1 b2 L (Rrlam f b1 b2 L l)
  end.
Definition ristate (b1 b2 x y : R) (st : rinv_state XR) : Prop :=
  ri_lambda st = Fin y /\ ri_cos_lambda st = Fin (cos x) /\ ri_sigma st = Fin (isg b1 b2 x) /\
  ri_sin_sigma st = Fin (sin (isg b1 b2 x)) /\ ri_cos_sigma st = Fin (cos (isg b1 b2 x)) /\ ri_sin_alpha st = Fin (isa b1 b2 x) /\ ri_cos_alpha_sq st = Fin (iq b1 b2 x) /\
  (iq b1 b2 x <> 0 -> let c := icm b1 b2 x in ri_cos_2_sigma_m st = Fin c /\ ri_cos_4_sigma_m st = Fin (2 * (c * c) - 1) /\
    ri_cos_6_sigma_m st = Fin (c * c * c - 3 * c * (1 - c * c)) /\ ri_cos_8_sigma_m st = Fin (ric8 b1 b2 x)).
Lemma rloop_fin n b1 b2 L l st : ri_lambda st = Fin l ->
  match Rrloop n b1 b2 L l with
  | Some (x, y) => exists st', rapp_inverse_loop n E (Fin b1) (Fin b2) (Fin L) st = Ok st' /\ ristate b1 b2 x y st'
  | None => rapp_inverse_loop n E (Fin b1) (Fin b2) (Fin L) st = Err tt end.
Proof.
  revert l st. induction n as [|n IH]; intros l st H; [reflexivity|]. cbn [rapp_inverse_loop Rrloop]. cbv zeta.
  destruct (Req_bool_spec (iss b1 b2 l) 0) as [Z|Z].
  - pose proof (rstep_nan b1 b2 L l st H Z) as N. rewrite N. xr. now apply rnan_loop.
  - pose proof (rstep_fin b1 b2 L l st H Z) as N. cbv zeta in N. set (st' := rapp_inverse_step E (Fin b1) (Fin b2) (Fin L) st) in *. destruct N as (N & N').
    rewrite N, H, tol515. xr. destruct (Rlt_bool _ _); [exists st'; split; [reflexivity|split; assumption]|]. now apply IH.
Qed.
Lemma Rrloop_some n b1 b2 L l x y : Rrloop n b1 b2 L l = Some (x, y) -> iss b1 b2 x <> 0 /\ y = Rrlam f b1 b2 L x /\ Rabs (y - x) < 5 / 10 ^ 15.
Proof.
  revert l. induction n as [|n IH]; intros l; cbn [Rrloop]; [discriminate|].
  destruct (Req_bool_spec (iss b1 b2 l) 0) as [Z|Z]; [discriminate|].
  destruct (Rlt_bool_spec (Rabs (Rrlam f b1 b2 L l - l)) (5 / 10 ^ 15)) as [T|T]; [|apply IH].
  intros H. injection H; intros <- <-. repeat split; assumption.
Qed.
Definition Rrdist (q sg c c8 : R) : R :=
  if Req_bool q 0 then sg * b else let u := (a * a - b * b) / (b * b) * q in
  (Rb0 u * sg + Rb2 u * sin sg * c + Rb4 u * sin (2 * sg) * (2 * (c * c) - 1) + Rb6 u * sin (3 * sg) * (c * c * c - 3 * c * (1 - c * c)) + Rb8 u * sin (4 * sg) * c8) * b.
Lemma rdist_fin b1 b2 x y st : ristate b1 b2 x y st -> rapp_inverse_s E st = Fin (Rrdist (iq b1 b2 x) (isg b1 b2 x) (icm b1 b2 x) (ric8 b1 b2 x)).
Proof.
  intros (_ & _ & H1 & H2 & H3 & _ & H4 & H5). unfold rapp_inverse_s, Rrdist. rewrite H1, H2, H3, H4, (e_prime_sq_fin E a b HE), !length_new_M. rewrite (proj1 (proj2 (proj2 HE))). unfold length_scale. cbv zeta.
  change (fmul (Fin ((a * a - b * b) / (b * b))) (Fin (iq b1 b2 x))) with (Fin ((a * a - b * b) / (b * b) * iq b1 b2 x)). rewrite b0_fin, b2_fin, b4_fin, b6_fin, b8_fin, r_sin2, r_sin3, r_sin4. xr.
  destruct (Req_bool_spec (iq b1 b2 x) 0) as [Z|Z]; [reflexivity|]. destruct (H5 Z) as (-> & -> & -> & ->). xr. reflexivity.
Qed.
(** the azimuths away from the meridian *)
Lemma tan_quot u k d : 0 < k -> u <> 0 -> xatan2 (Fin (u * k)) (xdiv (Fin (u * k)) (xdiv (Fin u) (Fin d))) = Fin (Ratan2 u d).
Proof.
  intros K U. unfold xdiv at 2. destruct (Req_bool_spec d 0) as [Z|Z].
  - assert (X : xinf_sign u = PInf \/ xinf_sign u = MInf) by (unfold xinf_sign; destruct (Rlt_bool_spec 0 u); [tauto|rewrite Rlt_bool_t by lra; tauto]).
    assert (Y : xdiv (Fin (u * k)) (xinf_sign u) = Fin 0) by (destruct X as [-> | ->]; reflexivity). rewrite Y. cbn [xatan2]. f_equal. rewrite Z.
    rewrite <- (Ratan2_scale u 0 k) by exact K. f_equal; ring.
  - rewrite xdiv_fin; [|intros N; apply U; apply (Rmult_eq_reg_r (/ d)); [rewrite Rmult_0_l; exact N|now apply Rinv_neq_0_compat]].
    cbn [xatan2]. f_equal. rewrite <- (Ratan2_scale u d k) by exact K. f_equal; [ring|]. field. now split.
Qed.
Lemma raz_fin b1 b2 p1 p2 x y st s : 0 < cos b1 -> 0 < cos b2 -> iss b1 b2 x <> 0 -> ristate b1 b2 x y st -> 0 < sin x * sin y ->
  rapp_inverse_azimuths (Fin b1) (Fin b2) p1 p2 st (Fin s) =
  let z := if Rlt_bool s 10000 then x else y in (Fin (Ratan2 (ew b2 y) (ns b1 b2 z)), Fin (Ratan2 (cos b1 * sin y) (- sin b1 * cos b2 + cos b1 * sin b2 * cos z))).
Proof.
  intros C1 C2 HS (H0 & H1 & _ & _ & _ & H2 & _) SXY. unfold rapp_inverse_azimuths. rewrite H0, H1, H2. cbv zeta.
  assert (SY : sin y <> 0) by (intros Z; rewrite Z, Rmult_0_r in SXY; lra). assert (SI : 0 < iss b1 b2 x) by (pose proof (iss_ge b1 b2 x); lra).
  xr. rewrite (Req_bool_f y 0) by (intros ->; apply SY, sin_0). rewrite (Req_bool_f y PI) by (intros ->; apply SY, sin_PI).
  rewrite (xdiv_fin (isa b1 b2 x) (cos b1)), (xdiv_fin (isa b1 b2 x) (cos b2)), (xdiv_fin _ 2) by lra. xr.
  assert (KP : 0 < sin x / (sin y * iss b1 b2 x)).
  { replace (sin x / (sin y * iss b1 b2 x)) with (sin x * sin y / (sin y * sin y * iss b1 b2 x)) by (field; lra). apply Rdiv_lt_0_compat; [exact SXY|]. apply Rmult_lt_0_compat; [nra|exact SI]. }
  assert (E1 : isa b1 b2 x / cos b1 = ew b2 y * (sin x / (sin y * iss b1 b2 x))) by (unfold isa, ew; field; lra).
  assert (E2 : isa b1 b2 x / cos b2 = cos b1 * sin y * (sin x / (sin y * iss b1 b2 x))) by (unfold isa; field; lra).
  assert (N1 : ew b2 y <> 0) by (unfold ew; apply Rmult_integral_contrapositive; split; lra). assert (N2 : cos b1 * sin y <> 0) by (apply Rmult_integral_contrapositive; split; lra).
  rewrite E1, E2. replace (sin y * cos b2) with (ew b2 y) by (unfold ew; ring). replace (sin y * cos b1) with (cos b1 * sin y) by ring.
  destruct (Rlt_bool s 10000); xr; (f_equal; [etransitivity; [exact (tan_quot (ew b2 y) _ _ KP N1)|]|etransitivity; [exact (tan_quot (cos b1 * sin y) _ _ KP N2)|]]); f_equal; f_equal; unfold ns; rewrite ?sin_minus; field.
Qed.
Notation be p := (vbe a b p).
Lemma rinv_fin l1 p1 l2 p2 : - (PI / 2) < p1 < PI / 2 -> - (PI / 2) < p2 < PI / 2 ->
  match Rrloop 30 (be p1) (be p2) (Rnorm (l2 - l1)) (Rnorm (l2 - l1)) with
  | None => rapp_inverse E (Fin l1, Fin p1) (Fin l2, Fin p2) = Err tt
  | Some (x, y) => exists st, ristate (be p1) (be p2) x y st /\ rapp_inverse E (Fin l1, Fin p1) (Fin l2, Fin p2) =
     let s := Rrdist (iq (be p1) (be p2) x) (isg (be p1) (be p2) x) (icm (be p1) (be p2) x) (ric8 (be p1) (be p2) x) in
     let '(az1, az2) := rapp_inverse_azimuths (Fin (be p1)) (Fin (be p2)) (Fin p1) (Fin p2) st (Fin s) in
     Ok (mkGeodesic (Fin l1, Fin p1) (azimuth_new az1) (Fin l2, Fin p2) (azimuth_new az2) (Fin s)) end.
Proof.
  intros H1 H2. unfold rapp_inverse. cbv zeta. rewrite !(reduced_fin E a b HE) by assumption. fold (be p1) (be p2). rewrite lon_sub_fin. unfold MAX_ITERATIONS.
  match goal with |- context [rapp_inverse_loop _ _ _ _ _ ?st] => pose proof (rloop_fin 30 (be p1) (be p2) (Rnorm (l2 - l1)) (Rnorm (l2 - l1)) st eq_refl) as H end.
  destruct (Rrloop _ _ _ _ _) as [[x y]|]; [|now rewrite H]. destruct H as (st' & E' & S'). exists st'. split; [exact S'|]. rewrite E', (rdist_fin _ _ _ _ _ S').
  destruct (rapp_inverse_azimuths _ _ _ _ _ _) as [z1 z2]. now rewrite !angle_new_RAD.
Qed.
Lemma rinv_self l p : - (PI / 2) < p < PI / 2 -> rapp_inverse E (Fin l, Fin p) (Fin l, Fin p) = Err tt.
Proof.
  intros Hp. pose proof (rinv_fin l p l p Hp Hp) as H. replace (l - l) with 0 in H by ring. rewrite (Rnorm_id 0) in H by (pose proof PI_pos; lra). cbn [Rrloop] in H.
  rewrite Req_bool_t in H; [exact H|]. rewrite iss_alt. unfold ics. rewrite cos_0. set (b1 := be p). pose proof (sc b1).
  replace (1 - _) with 0; [apply sqrt_0|]. replace (sin b1 * sin b1 + cos b1 * cos b1 * 1) with 1 by lra. ring.
Qed.
End Step.

Section Sphere.
Context (E : Ellipsoid XR) (a : R) (HE : shape E a a).
Lemma rinv_once l1 p1 l2 p2 : - (PI / 2) < p1 < PI / 2 -> - (PI / 2) < p2 < PI / 2 -> let l := Rnorm (l2 - l1) in iss p1 p2 l <> 0 ->
  exists st, ristate p1 p2 l l st /\ rapp_inverse E (Fin l1, Fin p1) (Fin l2, Fin p2) =
    let '(az1, az2) := rapp_inverse_azimuths (Fin p1) (Fin p2) (Fin p1) (Fin p2) st (Fin (a * isg p1 p2 l)) in
    Ok (mkGeodesic (Fin l1, Fin p1) (azimuth_new az1) (Fin l2, Fin p2) (azimuth_new az2) (Fin (a * isg p1 p2 l))).
Proof.
  intros H1 H2 l HS. pose proof (proj1 HE) as Ha. pose proof (rinv_fin E a a HE l1 p1 l2 p2 H1 H2) as H. fold l in H. rewrite !(vbe_sphere E a HE) in H by assumption.
  assert (LL : Rrlam ((a - a) / a) p1 p2 l l = l). { replace ((a - a) / a) with 0 by (field; lra). unfold Rrlam. cbv zeta. destruct (Req_bool _ _); [|unfold rax]; ring. }
  change 30%nat with (S 29) in H. revert H. generalize 29%nat. intros n H. cbn [Rrloop] in H. rewrite Req_bool_f, LL, Rminus_diag_eq, Rabs_R0, Rlt_bool_t in H by first [exact HS|reflexivity|lra].
  destruct H as (st & S & R). exists st. split; [exact S|]. rewrite R. cbv zeta.
  assert (D : Rrdist a a (iq p1 p2 l) (isg p1 p2 l) (icm p1 p2 l) (ric8 p1 p2 l) = a * isg p1 p2 l).
  { unfold Rrdist. replace ((a * a - a * a) / (a * a)) with 0 by (field; lra). rewrite Rmult_0_l. cbv zeta. destruct (Req_bool _ _); [ring|].
    unfold Rb0, Rb2, Rb4, Rb6, Rb8. field. }
  rewrite D. reflexivity.
Qed.
Lemma rinv_sphere l1 p1 l2 p2 : - (PI / 2) < p1 < PI / 2 -> - (PI / 2) < p2 < PI / 2 -> sin (l2 - l1) <> 0 ->
  exists al1 al2 s, rapp_inverse E (Fin l1, Fin p1) (Fin l2, Fin p2) = Ok (mkGeodesic (Fin l1, Fin p1) (Fin al1) (Fin l2, Fin p2) (Fin al2) (Fin s)) /\
    0 < s < PI * a /\ - PI < al1 <= PI /\ - PI < al2 <= PI /\
    travel (position l1 p1) (heading l1 p1 al1) (s / a) = position l2 p2 /\
    course (position l1 p1) (heading l1 p1 al1) (s / a) = heading l2 p2 al2.
Proof.
  intros H1 H2 N. pose proof (proj1 HE) as Ha. set (l := Rnorm (l2 - l1)). assert (SL : sin l = sin (l2 - l1)) by (apply same_angle_sin, Rnorm_spec).
  pose proof (cos_nz _ H1) as C1. pose proof (cos_nz _ H2) as C2.
  assert (HS : iss p1 p2 l <> 0). { intros Z. pose proof (iss_sq p1 p2 l) as Q. rewrite Z in Q. assert (W : ew p2 l = 0) by nra. unfold ew in W. apply Rmult_integral in W. lra. }
  destruct (rinv_once l1 p1 l2 p2 H1 H2 HS) as (st & S & R). fold l in S, R. rewrite R, (raz_fin p1 p2 _ _ l l st _ C1 C2 HS S) by (rewrite SL; nra). cbv zeta.
  replace (if Rlt_bool (a * isg p1 p2 l) 10000 then l else l) with l by (destruct (Rlt_bool _ _); reflexivity).
  fold (iaz1 p1 p2 l) (iaz2 p1 p2 l). rewrite !azimuth_new_fin, !Rnorm_id by apply Ratan2_bound.
  do 3 eexists. split; [reflexivity|]. pose proof (isg_bound p1 p2 l) as B. destruct (isg_spec p1 p2 l) as [S' _].
  assert (isg p1 p2 l <> 0) by (intros Z; rewrite Z, sin_0 in S'; lra). assert (isg p1 p2 l <> PI) by (intros Z; rewrite Z, sin_PI in S'; lra).
  split; [split; nra|]. split; [apply Ratan2_bound|]. split; [apply Ratan2_bound|]. replace (a * isg p1 p2 l / a) with (isg p1 p2 l) by (field; lra). now apply sphere_route.
Qed.
(** on one meridian *)
Lemma rinv_meridian l p1 p2 : - (PI / 2) < p1 < PI / 2 -> - (PI / 2) < p2 < PI / 2 -> p1 <> p2 ->
  rapp_inverse E (Fin l, Fin p1) (Fin l, Fin p2) = let az := if Rlt_bool p1 p2 then 0 else PI in
    Ok (mkGeodesic (Fin l, Fin p1) (Fin az) (Fin l, Fin p2) (Fin az) (Fin (a * Rabs (p2 - p1)))).
Proof.
  intros H1 H2 N. pose proof PI_pos as PP. assert (L0 : Rnorm (l - l) = 0) by (replace (l - l) with 0 by ring; apply Rnorm_id; lra).
  assert (Q : iss p1 p2 0 = Rabs (sin (p2 - p1))).
  { unfold iss, ew, ns. rewrite sin_0, cos_0. rewrite sin_minus. rewrite <- sqrt_Rsqr_abs. f_equal. unfold Rsqr. ring. }
  assert (SN : sin (p2 - p1) <> 0) by (destruct (Rlt_le_dec p1 p2); [pose proof (sin_gt_0 (p2 - p1)); lra|pose proof (sin_lt_0_var (p2 - p1)); lra]).
  assert (HS : iss p1 p2 (Rnorm (l - l)) <> 0) by (rewrite L0, Q; now apply Rabs_no_R0).
  destruct (rinv_once l p1 l p2 H1 H2 HS) as (st & S & R). rewrite L0 in S, R.
  assert (G : isg p1 p2 0 = Rabs (p2 - p1)).
  { unfold isg. rewrite Q. assert (C : ics p1 p2 0 = cos (p2 - p1)) by (unfold ics; rewrite cos_0, cos_minus; ring). rewrite C.
    apply (Ratan2_unique _ _ 1); [lra| | |].
    - rewrite Rmult_1_l. destruct (Rle_lt_dec 0 (p2 - p1)); [rewrite Rabs_pos_eq by lra; reflexivity|]. rewrite Rabs_left by lra. now rewrite cos_neg.
    - rewrite Rmult_1_l. destruct (Rle_lt_dec 0 (p2 - p1)); [pose proof (sin_gt_0 (p2 - p1)); rewrite !Rabs_pos_eq by lra; reflexivity|]. pose proof (sin_lt_0_var (p2 - p1)). rewrite !Rabs_left by lra. now rewrite sin_neg.
    - pose proof (Rabs_pos (p2 - p1)). split; [lra|]. apply Rabs_le. lra. }
  rewrite R, G. unfold rapp_inverse_azimuths. rewrite (proj1 S). cbv zeta. xr. rewrite Req_bool_t by reflexivity.
  destruct (Rlt_bool p1 p2); rewrite !azimuth_new_fin, !Rnorm_id by lra; reflexivity.
Qed.
(** on opposite meridians the azimuths follow the sign of the first latitude alone *)
Lemma rinv_opposite l1 p1 l2 p2 : - (PI / 2) < p1 < PI / 2 -> - (PI / 2) < p2 < PI / 2 -> Rnorm (l2 - l1) = PI -> sin (p1 + p2) <> 0 ->
  rapp_inverse E (Fin l1, Fin p1) (Fin l2, Fin p2) = let '(az1, az2) := if Rle_bool 0 p1 then (0, PI) else (PI, 0) in
    Ok (mkGeodesic (Fin l1, Fin p1) (Fin az1) (Fin l2, Fin p2) (Fin az2) (Fin (a * isg p1 p2 PI))).
Proof.
  intros H1 H2 L N. pose proof PI_pos as PP. assert (HS : iss p1 p2 (Rnorm (l2 - l1)) <> 0).
  { rewrite L. intros Z. pose proof (iss_sq p1 p2 PI) as Q. rewrite Z in Q. unfold ew, ns in Q. rewrite sin_PI, cos_PI in Q. rewrite sin_plus in N. nra. }
  destruct (rinv_once l1 p1 l2 p2 H1 H2 HS) as (st & S & R). rewrite L in S, R.
  rewrite R. unfold rapp_inverse_azimuths. rewrite (proj1 S). cbv zeta. xr. rewrite Req_bool_f, Req_bool_t by (reflexivity || lra).
  destruct (Rle_bool 0 p1); rewrite !azimuth_new_fin, !Rnorm_id by lra; reflexivity.
Qed.
End Sphere.
