(** Vincenty's inverse solution in exact arithmetic. *)
From Coq Require Import Reals Lra Psatz ZArith List Bool Lia.
From Flocq Require Import Core.Raux.
From Verif.Num Require Import FOps RFun XR XRLemmas.
From Verif.Model Require Import Fp Quantities Complex Cs Ellipsoid Geodesics.
From Verif.Spec Require Import Angles Axes Shape Frames Sphere.
From Verif.Proofs Require Import AnglesX EllX SphereG SphereN GeoG GeoV.
Import ListNotations.
Local Open Scope R_scope.

(** the auxiliary sphere seen from the end points: latitudes b1 b2, longitude difference l *)
Section Aux.
Context (b1 b2 l : R).
Definition ns : R := cos b1 * sin b2 - sin b1 * cos b2 * cos l.
Definition ew : R := cos b2 * sin l.
Definition ics : R := sin b1 * sin b2 + cos b1 * cos b2 * cos l.
Definition iss : R := sqrt (ew * ew + ns * ns).
Definition isg : R := Ratan2 iss ics.
Lemma aux_unit : ew * ew + ns * ns + ics * ics = 1.
Proof.
  unfold ew, ns, ics. pose proof (sc b1). pose proof (sc b2). pose proof (sc l).
  transitivity (cos b2 * cos b2 * (sin l * sin l) + (sin b1 * sin b1 + cos b1 * cos b1) * (sin b2 * sin b2) + (sin b1 * sin b1 + cos b1 * cos b1) * (cos b2 * cos b2) * (cos l * cos l)); [ring|].
  rewrite H. replace (cos l * cos l) with (1 - sin l * sin l) by lra. replace (sin b2 * sin b2) with (1 - cos b2 * cos b2) by lra. ring.
Qed.
Lemma iss_ge : 0 <= iss. Proof. apply sqrt_pos. Qed.
Lemma iss_sq : iss * iss = ew * ew + ns * ns.
Proof. apply sqrt_sqrt. nra. Qed.
Lemma isg_spec : sin isg = iss /\ cos isg = ics.
Proof.
  destruct (Ratan2_spec iss ics) as [C S]. fold isg in C, S. assert (H : Rhypot ics iss = 1) by (apply Rhypot_unique; [lra|]; rewrite iss_sq; pose proof aux_unit; lra).
  rewrite H in *. lra.
Qed.
Lemma isg_bound : 0 <= isg <= PI.
Proof.
  destruct isg_spec as [S _]. pose proof (Ratan2_bound iss ics) as B. fold isg in B. pose proof iss_ge. split; [|lra].
  apply Rnot_lt_le. intros N. assert (sin isg < 0) by (apply sin_lt_0_var; lra). lra.
Qed.
Definition isa : R := cos b1 * cos b2 * sin l / iss.
Definition iq : R := 1 - isa * isa.
Definition icm : R := ics - 2 * sin b1 * sin b2 / iq.
End Aux.

Lemma xdiv00 : xdiv (Fin 0) (Fin 0) = NaN.
Proof. unfold xdiv. rewrite Req_bool_t by reflexivity. unfold xinf_sign. now rewrite !Rlt_bool_f by lra. Qed.
(** one turn, when the points are neither equal nor opposite on the auxiliary sphere *)
Section Step.
Context (f b1 b2 L l m : R).
Notation q := (iq b1 b2 l).
Definition Rlam : R :=
  if Req_bool q 0 then f * isa b1 b2 l * isg b1 b2 l + L
  else (1 - RC f q) * f * isa b1 b2 l * (isg b1 b2 l + RC f q * iss b1 b2 l * (icm b1 b2 l + RC f q * ics b1 b2 l * (- 1 + 2 * (icm b1 b2 l * icm b1 b2 l)))) + L.
Definition Rcm : R := if Req_bool q 0 then m else icm b1 b2 l.
Lemma step_fin : iss b1 b2 l <> 0 ->
  vincenty_inverse_step (Fin f) (Fin (sin b1)) (Fin (cos b1)) (Fin (sin b2)) (Fin (cos b2)) (Fin L) (Fin l) (Fin m) =
  mkVI (Fin Rlam) (Fin (isg b1 b2 l)) (Fin q) (Fin Rcm).
Proof.
  intros H. unfold vincenty_inverse_step. cbv zeta. xr.
  change (cos b2 * sin l) with (ew b2 l). change (cos b1 * sin b2 - sin b1 * cos b2 * cos l) with (ns b1 b2 l).
  change (sin b1 * sin b2 + cos b1 * cos b2 * cos l) with (ics b1 b2 l).
  rewrite xsqrt_fin by (apply Rplus_le_le_0_compat; apply Rle_0_sqr). fold (iss b1 b2 l). xr. fold (isg b1 b2 l). destruct (isg_spec b1 b2 l) as [S C]. rewrite S, C.
  rewrite (xdiv_fin _ (iss b1 b2 l)) by exact H. fold (isa b1 b2 l). xr. fold (iq b1 b2 l). unfold Rlam, Rcm.
  destruct (Req_bool_spec q 0) as [Z|Z]; [reflexivity|]. rewrite !xdiv_fin by (exact Z || lra). xr. reflexivity.
Qed.
Lemma step_nan : iss b1 b2 l = 0 ->
  vi_lambda (vincenty_inverse_step (Fin f) (Fin (sin b1)) (Fin (cos b1)) (Fin (sin b2)) (Fin (cos b2)) (Fin L) (Fin l) (Fin m)) = NaN.
Proof.
  intros H. unfold vincenty_inverse_step. cbv zeta. xr.
  change (cos b2 * sin l) with (ew b2 l). change (cos b1 * sin b2 - sin b1 * cos b2 * cos l) with (ns b1 b2 l).
  change (sin b1 * sin b2 + cos b1 * cos b2 * cos l) with (ics b1 b2 l).
  rewrite xsqrt_fin by (apply Rplus_le_le_0_compat; apply Rle_0_sqr). fold (iss b1 b2 l). xr. fold (isg b1 b2 l). destruct (isg_spec b1 b2 l) as [S C]. rewrite S, C, H.
  pose proof (iss_sq b1 b2 l) as Q. rewrite H in Q. assert (W : ew b2 l = 0) by nra. replace (cos b1 * cos b2 * sin l) with (cos b1 * ew b2 l) by (unfold ew; ring). rewrite W, Rmult_0_r.
  rewrite xdiv00. xr. cbn [vi_lambda]. rewrite ?xdiv_fin by lra. xr. reflexivity.
Qed.
End Step.
Lemma nan_step f s1 c1 s2 c2 L m :
  vi_lambda (vincenty_inverse_step (Fin f) (Fin s1) (Fin c1) (Fin s2) (Fin c2) (Fin L) NaN m) = NaN.
Proof. unfold vincenty_inverse_step. cbv zeta. xr. rewrite ?(xdiv_fin f) by lra. cbn [xsqrt xdiv]. xr. cbn [vi_lambda]. xr. reflexivity. Qed.
Lemma nan_loop n f s1 c1 s2 c2 L m :
  vincenty_inverse_loop n (Fin f) (Fin s1) (Fin c1) (Fin s2) (Fin c2) (Fin L) NaN m = Err tt.
Proof.
  revert m. induction n as [|n IH]; intros m; [reflexivity|]. cbn [vincenty_inverse_loop]. rewrite nan_step. xr. apply IH.
Qed.
(** the loop in reals: [None] when it does not end *)
Fixpoint Rloop (n : nat) (f b1 b2 L l m : R) : option (R * R * R) :=
  match n with
  | O => None
  | S n' => if Req_bool (iss b1 b2 l) 0 then None else
      if Rlt_bool (Rabs (Rlam f b1 b2 L l - l)) (/ 10 ^ 12) then Some (l, Rlam f b1 b2 L l, Rcm b1 b2 l m)
      else Rloop n' f b1 b2 L (Rlam f b1 b2 L l) (Rcm b1 b2 l m)
  end.
Lemma loop_fin n f b1 b2 L l m :
  vincenty_inverse_loop n (Fin f) (Fin (sin b1)) (Fin (cos b1)) (Fin (sin b2)) (Fin (cos b2)) (Fin L) (Fin l) (Fin m) =
  match Rloop n f b1 b2 L l m with
  | Some (x, y, c) => Ok (mkVI (Fin y) (Fin (isg b1 b2 x)) (Fin (iq b1 b2 x)) (Fin c)) | None => Err tt end.
Proof.
  revert l m. induction n as [|n IH]; intros l m; [reflexivity|]. cbn [vincenty_inverse_loop Rloop].
  destruct (Req_bool_spec (iss b1 b2 l) 0) as [Z|Z].
  - rewrite step_nan by exact Z. xr. apply nan_loop.
  - rewrite step_fin by exact Z. cbn [vi_lambda vi_cos_2_sigma_m]. rewrite tol12. xr. destruct (Rlt_bool _ _); [reflexivity|]. apply IH.
Qed.
Lemma Rloop_some n f b1 b2 L l m x y c : Rloop n f b1 b2 L l m = Some (x, y, c) ->
  iss b1 b2 x <> 0 /\ y = Rlam f b1 b2 L x /\ Rabs (y - x) < / 10 ^ 12 /\ (iq b1 b2 x <> 0 -> c = icm b1 b2 x).
Proof.
  revert l m. induction n as [|n IH]; intros l m; cbn [Rloop]; [discriminate|].
  destruct (Req_bool_spec (iss b1 b2 l) 0) as [Z|Z]; [discriminate|].
  destruct (Rlt_bool_spec (Rabs (Rlam f b1 b2 L l - l)) (/ 10 ^ 12)) as [T|T]; [|apply IH].
  intros H. injection H; intros <- <- <-. repeat split; try assumption. intros Q. unfold Rcm. now rewrite Req_bool_f.
Qed.
Definition Rdist (b ep2 q sg c : R) : R :=
  if Req_bool q 0 then b * sg else b * RA (q * ep2) * (sg - Rdelta (RB (q * ep2)) (sin sg) (cos sg) c).
Lemma dist_fin E a b y sg q c : shape E a b ->
  vincenty_inverse_s E (mkVI (Fin y) (Fin sg) (Fin q) (Fin c)) = Fin (Rdist b ((a * a - b * b) / (b * b)) q sg c).
Proof.
  intros HE. unfold vincenty_inverse_s, Rdist. cbn [vi_sigma vi_cos_alpha_sq vi_cos_2_sigma_m]. rewrite (e_prime_sq_fin E a b HE), !length_new_M.
  destruct HE as (_ & _ & Hb & _). rewrite Hb. cbv zeta. change (fmul (Fin q) (Fin ((a * a - b * b) / (b * b)))) with (Fin (q * ((a * a - b * b) / (b * b)))).
  rewrite vA_fin, vB_fin. xr. rewrite vdelta_fin. xr. destruct (Req_bool q 0); reflexivity.
Qed.

Section I.
Context (E : Ellipsoid XR) (a b : R) (HE : shape E a b).
Let Hab : 0 < b <= a := proj1 HE.
Notation be p := (vbe a b p).
Definition iaz1 (b1 b2 y : R) : R := Ratan2 (ew b2 y) (ns b1 b2 y).
Definition iaz2 (b1 b2 y : R) : R := Ratan2 (cos b1 * sin y) (- sin b1 * cos b2 + cos b1 * sin b2 * cos y).
(** the reduced latitude, including the poles *)
Lemma vinv_gen l1 p1 l2 p2 b1 b2 : reduced_latitude E (Fin p1) = Fin b1 -> reduced_latitude E (Fin p2) = Fin b2 ->
  vincenty_inverse E (Fin l1, Fin p1) (Fin l2, Fin p2) =
  match Rloop 30 ((a - b) / a) b1 b2 (Rnorm (l2 - l1)) (Rnorm (l2 - l1)) 0 with
  | Some (x, y, c) => Ok (mkGeodesic (Fin l1, Fin p1) (Fin (Rnorm (iaz1 b1 b2 y))) (Fin l2, Fin p2) (Fin (Rnorm (iaz2 b1 b2 y)))
      (Fin (Rdist b ((a * a - b * b) / (b * b)) (iq b1 b2 x) (isg b1 b2 x) c)))
  | None => Err tt end.
Proof.
  intros H1 H2. unfold vincenty_inverse. cbv zeta. rewrite H1, H2, lon_sub_fin, (ef_fin E a b HE).
  change (fsin (Fin b1)) with (Fin (sin b1)). change (fcos (Fin b1)) with (Fin (cos b1)). change (fsin (Fin b2)) with (Fin (sin b2)). change (fcos (Fin b2)) with (Fin (cos b2)).
  change (fofZ 0) with (Fin 0). unfold MAX_ITERATIONS. rewrite loop_fin. destruct (Rloop _ _ _ _ _ _) as [[[x y] c]|]; [|reflexivity].
  rewrite (dist_fin E a b _ _ _ _ HE), !angle_new_RAD. cbn [vi_lambda]. xr. rewrite !azimuth_new_fin. reflexivity.
Qed.
Lemma vinv_fin l1 p1 l2 p2 : - (PI / 2) < p1 < PI / 2 -> - (PI / 2) < p2 < PI / 2 ->
  vincenty_inverse E (Fin l1, Fin p1) (Fin l2, Fin p2) =
  match Rloop 30 ((a - b) / a) (be p1) (be p2) (Rnorm (l2 - l1)) (Rnorm (l2 - l1)) 0 with
  | Some (x, y, c) => Ok (mkGeodesic (Fin l1, Fin p1) (Fin (Rnorm (iaz1 (be p1) (be p2) y))) (Fin l2, Fin p2) (Fin (Rnorm (iaz2 (be p1) (be p2) y)))
      (Fin (Rdist b ((a * a - b * b) / (b * b)) (iq (be p1) (be p2) x) (isg (be p1) (be p2) x) c)))
  | None => Err tt end.
Proof. intros H1 H2. apply vinv_gen; now apply reduced_fin. Qed.
(** every real latitude has a finite reduced latitude *)
Lemma reduced_any p : exists be, reduced_latitude E (Fin p) = Fin be.
Proof.
  unfold reduced_latitude. rewrite (ef_fin E a b HE), angle_new_RAD. xr. replace (1 - (a - b) / a) with (b / a) by (field; lra).
  assert (0 < b / a) by (apply Rdiv_lt_0_compat; lra).
  unfold xtan. destruct (Req_bool_spec (cos p) 0) as [C|C]; [|eexists; reflexivity].
  assert (sin p <> 0) by (pose proof (sc p) as SC; rewrite C in SC; nra). unfold xinf_sign. destruct (Rlt_bool_spec 0 (sin p)).
  - xr. unfold xinf_sign. rewrite Rlt_bool_t by assumption. eexists; reflexivity.
  - rewrite Rlt_bool_t by lra. xr. unfold xinf_sign. rewrite Rlt_bool_t by assumption. eexists; reflexivity.
Qed.
End I.
