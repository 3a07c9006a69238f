(** Karney's direct solution in exact arithmetic. *)
From Coq Require Import Reals Lra Psatz ZArith List Bool Lia.
From Flocq Require Import Core.Raux.
From Verif.Num Require Import FOps RFun XR XRLemmas.
From Verif.Model Require Import Fp Quantities Complex Cs Ellipsoid Geodesics.
From Verif.Spec Require Import Angles Axes Shape Frames Sphere Series.
From Verif.Proofs Require Import AnglesX EllX MathX SphereG SphereN GeoG GeoV.
Import ListNotations.
Local Open Scope R_scope.

Definition PA1R : list R := [1; 0; 1 / 4; 0; 1 / 64; 0; 1 / 256].
Definition C1R : list (list R) :=
  [ [0; 0; 0; 0; 0; 0; 0]; [0; - (1 / 2); 0; 3 / 16; 0; - 1 / 32; 0]; [0; 0; - 1 / 16; 0; 1 / 32; 0; - 9 / 2048];
    [0; 0; 0; - 1 / 48; 0; 3 / 256; 0]; [0; 0; 0; 0; - 5 / 512; 0; 3 / 512]; [0; 0; 0; 0; 0; - 7 / 1280; 0]; [0; 0; 0; 0; 0; 0; - 7 / 2048] ].
Definition CP1R : list (list R) :=
  [ [0; 1 / 2; 0; - 9 / 32; 0; 205 / 1536; 0]; [0; 0; 5 / 16; 0; - 37 / 96; 0; 1335 / 4096]; [0; 0; 0; 29 / 96; 0; - 75 / 128; 0];
    [0; 0; 0; 0; 539 / 1536; 0; - 2391 / 2560]; [0; 0; 0; 0; 0; 3467 / 7680; 0]; [0; 0; 0; 0; 0; 0; 38081 / 61440] ].
Definition A3R (n : R) : list R :=
  [ 1; - polynomial [1 / 2; - 1 / 2] n; - polynomial [1 / 4; 1 / 8; - 3 / 8] n; - polynomial [1 / 16; 3 / 16; 1 / 16] n;
    - polynomial [3 / 64; 1 / 32] n; - 3 / 128 ].
Definition C3R (n : R) : list (list R) :=
  [ [0; 0; 0; 0; 0; 0];
    [0; polynomial [1 / 4; - 1 / 4] n; polynomial [1 / 8; 0; - 1 / 8] n; polynomial [3 / 64; 3 / 64; - 1 / 64] n; polynomial [5 / 128; 1 / 64] n; 3 / 128];
    [0; 0; polynomial [1 / 16; - 3 / 32; 1 / 32] n; polynomial [3 / 64; - 1 / 32; - 3 / 64] n; polynomial [3 / 128; 1 / 128] n; 5 / 256];
    [0; 0; 0; polynomial [5 / 192; - 3 / 64; 5 / 192] n; polynomial [3 / 128; - 5 / 192] n; 7 / 512];
    [0; 0; 0; 0; polynomial [7 / 512; - 7 / 256] n; 7 / 512];
    [0; 0; 0; 0; 0; 21 / 2560] ].

Lemma PA1_fin : karney_PA1 = map Fin PA1R.
Proof. unfold karney_PA1, PA1R. cbn [map]. xr. rewrite !xdiv_fin by lra. reflexivity. Qed.
Lemma C1_fin : karney_C1L = map (map Fin) C1R.
Proof.
  unfold karney_C1L, C1R. cbn [map]. xr. rewrite !xdiv_fin by lra. replace (Rlit 5 1) with (1 / 2); [reflexivity|].
  unfold Rlit. change (10 ^ 1)%Z with 10%Z. lra.
Qed.
Lemma CP1_fin : karney_CP1L = map (map Fin) CP1R.
Proof. unfold karney_CP1L, CP1R. cbn [map]. xr. rewrite !xdiv_fin by lra. reflexivity. Qed.
Ltac evals := repeat match goal with |- context [fast_eval_at ?l (Fin ?x)] =>
   let l' := eval cbv [map] in l in
   match l' with [Fin ?a; Fin ?b; Fin ?c] => change (fast_eval_at l (Fin x)) with (fast_eval_at (map Fin [a; b; c]) (Fin x))
   | [Fin ?a; Fin ?b] => change (fast_eval_at l (Fin x)) with (fast_eval_at (map Fin [a; b]) (Fin x)) end; rewrite fast_eval_fin end.
Lemma A3_fin n : karney_A3 (Fin n) = map Fin (A3R n).
Proof. unfold karney_A3, A3R. xr. rewrite !xdiv_fin by lra. evals. cbn [map]. xr. reflexivity. Qed.
Lemma C3_fin n : karney_C3L (Fin n) = map (map Fin) (C3R n).
Proof. unfold karney_C3L, C3R. xr. rewrite !xdiv_fin by lra. evals. cbn [map]. xr. reflexivity. Qed.

Definition evals (L : list (list R)) (e : R) : list R := map (fun p => polynomial p e) L.
Lemma evals_fin L e : map (fun p => fast_eval_at p (Fin e)) (map (map Fin) L) = map Fin (evals L e).
Proof. unfold evals. rewrite !map_map. apply map_ext. intros p. apply fast_eval_fin. Qed.

Definition kA1 (e : R) : R := polynomial PA1R e / (1 - e).
Definition kI1 (e s : R) : R := s + sine_series (evals C1R e) (2 * s).
Definition kA3 (n e : R) : R := polynomial (A3R n) e.
Definition kI3 (n e s : R) : R := kA3 n e * (s + sine_series (evals (C3R n) e) (2 * s)).
Fixpoint Rterms (ix : nat) (cs : list R) (tau : R) : R :=
  match cs with [] => 0 | c :: cs' => c * sin (2 * tau * IZR (Z.of_nat (S ix))) + Rterms (S ix) cs' tau end.
Definition kS (e t : R) : R := t + Rterms 0 (evals CP1R e) t.
Lemma terms_fin cs t ix acc : fold_left fadd (karney_sigma_terms ix (map Fin cs) (Fin t)) (Fin acc) = Fin (acc + Rterms ix cs t).
Proof.
  revert ix acc. induction cs as [|c cs IH]; intros ix acc; [cbn; f_equal; ring|].
  cbn [map karney_sigma_terms fold_left Rterms].
  replace (fadd (Fin acc) _) with (Fin (acc + c * sin (2 * t * IZR (Z.of_nat (S ix))))) by (xr; reflexivity). rewrite IH. f_equal. ring.
Qed.
Lemma kA1_fin e : e <> 1 -> karney_fA1 (Fin e) = Fin (kA1 e).
Proof. intros H. unfold karney_fA1. rewrite PA1_fin, fast_eval_fin. xr. rewrite xdiv_fin by lra. reflexivity. Qed.
Lemma kI1_fin e A s : karney_fI1 (Fin e) (Fin A) (Fin s) = Fin (A * kI1 e s).
Proof. unfold karney_fI1. cbv zeta. rewrite C1_fin, evals_fin. xr. rewrite clenshaw_fin. xr. reflexivity. Qed.
Lemma kA3_fin E n e : en E = Fin n -> karney_fA3 E (Fin e) = Fin (kA3 n e).
Proof. intros H. unfold karney_fA3. rewrite H, A3_fin, fast_eval_fin. reflexivity. Qed.
Lemma kI3_fin E n A e s : en E = Fin n -> karney_fI3 E (Fin A) (Fin e) (Fin s) = Fin (A * (s + sine_series (evals (C3R n) e) (2 * s))).
Proof. intros H. unfold karney_fI3. cbv zeta. rewrite H, C3_fin, evals_fin. xr. rewrite clenshaw_fin. xr. reflexivity. Qed.
Lemma kS_fin e t : karney_Sigma (Fin e) (Fin t) = Fin (kS e t).
Proof. unfold karney_Sigma. cbv zeta. rewrite CP1_fin, evals_fin, angle_new_RAD. unfold fsum. change (fofZ 0) with (Fin 0). rewrite terms_fin. xr. f_equal. unfold kS. ring. Qed.

Section Tri.
Context (be al : R).
Notation sa := (sa be al). Notation ca0 := (ca0 be al).
Definition al0 : R := Ratan2 sa ca0.
Lemma al0_spec : cos al0 = ca0 /\ sin al0 = sa.
Proof.
  destruct (Ratan2_spec sa ca0) as [C S]. fold al0 in C, S. assert (H : Rhypot ca0 sa = 1) by (apply Rhypot_unique; [lra|]; rewrite ca0_sq; ring).
  rewrite H in *. lra.
Qed.
Lemma from_p_fin : solve_triangle_from_p (Fin be) (Fin al) =
  mkTriangle (Fin al0) (Fin al) (Fin be) (Fin (arc1 be al)) (Fin (node_lon be al (arc1 be al))).
Proof.
  unfold solve_triangle_from_p, carg, cabs. cbv zeta. cbn [re im]. rewrite !angle_new_RAD. xr.
  replace (Ratan2 (sin al * cos be) (Rhypot (cos al) (sin al * sin be))) with al0.
  2:{ unfold al0. f_equal; [unfold SphereG.sa; ring|]. unfold SphereN.ca0, Rhypot. f_equal. unfold SphereG.sa. pose proof (sc be). pose proof (sc al).
      replace (sin al * sin be * (sin al * sin be)) with (sin al * sin al * (1 - cos be * cos be)) by (rewrite <- H; ring). 
      replace (cos al * cos al) with (1 - sin al * sin al) by lra. ring. }
  destruct al0_spec as [C S]. rewrite azimuth_new_fin, S. rewrite Rnorm_id by apply Ratan2_bound.
  replace (cos al * cos be) with (cos be * cos al) by ring. reflexivity.
Qed.
Lemma from_e_fin s : solve_triangle_from_e (Fin al0) (Fin s) =
  mkTriangle (Fin al0) (Fin (Ratan2 sa (ca0 * cos s))) (Fin (Ratan2 (ca0 * sin s) (Rhypot (ca0 * cos s) sa))) (Fin s) (Fin (node_lon be al s)).
Proof.
  unfold solve_triangle_from_e, carg, cabs. cbv zeta. cbn [re im]. rewrite !angle_new_RAD. xr. destruct al0_spec as [C S]. rewrite C, S, azimuth_new_fin.
  rewrite Rnorm_id by apply Ratan2_bound. reflexivity.
Qed.
(** the triangle at arc length t from the start *)
Lemma from_e_end t : Ratan2 sa (ca0 * cos (arc1 be al + t)) = end_az be al t /\
  ca0 * sin (arc1 be al + t) = qz be al t /\ Rhypot (ca0 * cos (arc1 be al + t)) sa = end_cos be al t.
Proof. rewrite <- wz_node, <- qz_node. split; [reflexivity|]. split; [reflexivity|]. symmetry. apply end_cos_sa. Qed.
End Tri.

Section D.
Context (E : Ellipsoid XR) (a b : R) (HE : shape E a b).
Let Hab : 0 < b <= a := proj1 HE.
Let Hb : e_b E = Fin b. Proof. apply HE. Qed.
Notation be p := (vbe a b p).
Notation f := ((a - b) / a).
Notation n := ((a - b) / (a + b)).
Definition keps (u : R) : R := (sqrt (1 + u) - 1) / (sqrt (1 + u) + 1).
Lemma keps_bound u : 0 <= u -> 0 <= keps u < 1.
Proof.
  intros U. unfold keps. assert (S : 1 <= sqrt (1 + u)) by (rewrite <- sqrt_1 at 1; apply sqrt_le_1; lra).
  split; [apply Rmult_le_pos; [lra|left; apply Rinv_0_lt_compat; lra]|]. apply (Rmult_lt_reg_r (sqrt (1 + u) + 1)); [lra|]. unfold Rdiv. rewrite Rmult_assoc, Rinv_l by lra. lra.
Qed.
Lemma vu_pos p al : 0 <= vu a b p al.
Proof. unfold vu. apply Rmult_le_pos; [apply q01|]. apply Rmult_le_pos; [nra|left; apply Rinv_0_lt_compat; nra]. Qed.
Lemma eps_fin p al : karney_epsilon E (fcos (Fin (al0 (be p) al))) = Fin (keps (vu a b p al)).
Proof.
  unfold karney_epsilon. cbv zeta. rewrite (e_prime_sq_fin E a b HE). pose proof (vu_pos p al) as U. xr. destruct (al0_spec (be p) al) as [C _]. rewrite C.
  assert (K : (a * a - b * b) / (b * b) * ca0 (be p) al * ca0 (be p) al = vu a b p al).
  { unfold vu, vq. rewrite <- ca0_sq. ring. }
  rewrite K, xsqrt_fin by lra. xr. pose proof (sqrt_pos (1 + vu a b p al)). rewrite xdiv_fin by lra. reflexivity.
Qed.
Definition ktau (e s1 s : R) : R := kI1 e s1 + s / (kA1 e * b).
Definition klat (p al s2 : R) : XR := let b2 := Ratan2 (ca0 (be p) al * sin s2) (Rhypot (ca0 (be p) al * cos s2) (sa (be p) al)) in
  lat_new (fatan (fdiv (ftan (Fin b2)) (Fin (b / a)))).
Definition kout (l p al s s2 : R) : Geodesic XR :=
  let e := keps (vu a b p al) in let s1 := arc1 (be p) al in
  mkGeodesic (Fin l, Fin p) (Fin al)
    (Fin (Rwrap (l + (node_lon (be p) al s2 - f * sa (be p) al * kI3 n e s2 - (node_lon (be p) al s1 - f * sa (be p) al * kI3 n e s1)))),
     klat p al s2) (Fin (Ratan2 (sa (be p) al) (ca0 (be p) al * cos s2))) (Fin s).
Lemma kdir_fin l p al s : - (PI / 2) < p < PI / 2 -> kA1 (keps (vu a b p al)) <> 0 ->
  karney_direct E (Fin l, Fin p) (Fin al) (Fin s) = kout l p al s (kS (keps (vu a b p al)) (ktau (keps (vu a b p al)) (arc1 (be p) al) s)).
Proof.
  intros Hp HA. unfold karney_direct. cbv zeta. rewrite (reduced_fin E a b HE) by exact Hp. fold (vbe a b p). rewrite from_p_fin. cbn [t_alpha0 t_sigma t_omega t_beta t_alpha].
  rewrite eps_fin. pose proof (keps_bound _ (vu_pos p al)) as KB. rewrite kA1_fin by lra. rewrite (kA3_fin E n) by apply (en_fin E a b HE). rewrite kI1_fin, Hb, (ef_fin E a b HE).
  unfold arc_div, length_scale. rewrite !angle_new_RAD. set (e := keps (vu a b p al)) in *.
  assert (T : fdiv (fadd (fmul (Fin (kA1 e * kI1 e (arc1 (be p) al))) (Fin b)) (Fin s)) (fmul (Fin (kA1 e)) (Fin b)) = Fin (ktau e (arc1 (be p) al) s)).
  { xr. rewrite xdiv_fin by (apply Rmult_integral_contrapositive; lra). f_equal. unfold ktau. field. split; [lra|exact HA]. }
  rewrite T, kS_fin. set (s2 := kS e _). rewrite from_e_fin. cbn [t_alpha0 t_sigma t_omega t_beta t_alpha].
  rewrite !(kI3_fin E n) by apply (en_fin E a b HE). unfold kout, klat. cbv zeta. fold e. f_equal. f_equal.
  - xr. rewrite lon_add_fin. destruct (al0_spec (be p) al) as [_ S]. rewrite S. reflexivity.
  - f_equal. f_equal. f_equal. xr. f_equal. field. lra.
Qed.
End D.
