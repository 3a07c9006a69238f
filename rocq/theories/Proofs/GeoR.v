(** Rapp's direct solution in exact arithmetic. *)
From Coq Require Import Reals Lra Psatz ZArith List Bool Lia.
From Coquelicot Require Import Coquelicot.
From Flocq Require Import Core.Raux.
From Verif.Num Require Import FOps RFun XR XRLemmas.
From Verif.Model Require Import Fp Quantities Complex Cs Ellipsoid Geodesics.
From Verif.Spec Require Import Angles Axes Shape Frames Sphere Series.
From Verif.Proofs Require Import AnglesX EllX MathX SphereG SphereN GeoG GeoV GeoVD.
Import ListNotations.
Local Open Scope R_scope.

Definition Rb0 (u : R) : R := 1 + u * (1 / 4 + u * (- 3 / 64 + u * (5 / 256 + u * - 175 / 16384))).
Definition Rb2 (u : R) : R := u * (- 1 / 4 + u * (1 / 16 + u * (- 15 / 512 + u * 35 / 2048))).
Definition Rb4 (u : R) : R := u * u * (- 1 / 128 + u * (3 / 512 + u * - 35 / 8192)).
Definition Rb6 (u : R) : R := u * u * u * (- 1 / 1536 + u * 5 / 6144).
Definition Rb8 (u : R) : R := u * u * u * u * (- 5 / 65536).
Lemma b0_fin u : rapp_b0 (Fin u) = Fin (Rb0 u).
Proof. unfold rapp_b0, Rb0. xr. rewrite !xdiv_fin by lra. reflexivity. Qed.
Lemma b2_fin u : rapp_b2 (Fin u) = Fin (Rb2 u).
Proof. unfold rapp_b2, Rb2. xr. rewrite !xdiv_fin by lra. reflexivity. Qed.
Lemma b4_fin u : rapp_b4 (Fin u) = Fin (Rb4 u).
Proof. unfold rapp_b4, Rb4. xr. rewrite !xdiv_fin by lra. reflexivity. Qed.
Lemma b6_fin u : rapp_b6 (Fin u) = Fin (Rb6 u).
Proof. unfold rapp_b6, Rb6. xr. rewrite !xdiv_fin by lra. reflexivity. Qed.
Lemma b8_fin u : rapp_b8 (Fin u) = Fin (Rb8 u).
Proof. unfold rapp_b8, Rb8. xr. rewrite !xdiv_fin by lra. reflexivity. Qed.
Definition rax (f : R) : list R * list R * list R * list R :=
  ([1; - (f / 4 * (1 + f * (1 + f))); 3 * f * f / 16 * (1 + 9 * f / 4); - 25 * f * f * f / 128],
   [0; f / 4 * (1 + f * (1 + f)); - f * f / 4 * (1 + 9 * f / 4); 75 * f * f * f / 256],
   [0; 0; f * f / 32 * (1 + 9 * f / 4); - 15 * f * f * f / 256],
   [0; 0; 0; 5 * f * f * f / 768]).
Lemma axs_fin E f : ef E = Fin f -> rapp_axs E = let '(x, y, z, w) := rax f in (map Fin x, map Fin y, map Fin z, map Fin w).
Proof.
  intros H. unfold rapp_axs, rax. rewrite H. cbv zeta. cbn [map]. xr. rewrite !xdiv_fin by lra. xr. reflexivity.
Qed.

Lemma sin2_R x : 2 * sin x * cos x = sin (2 * x). Proof. now rewrite sin_2a. Qed.
Lemma sin3_R x : 3 * sin x * (cos x * cos x) - sin x * sin x * sin x = sin (3 * x).
Proof. replace (3 * x) with (2 * x + x) by ring. rewrite sin_plus, sin_2a, cos_2a. ring. Qed.
Lemma sin4_R x : 4 * sin x * (cos x * cos x * cos x) - 4 * (sin x * sin x * sin x) * cos x = sin (4 * x).
Proof. replace (4 * x) with (2 * (2 * x)) by ring. rewrite (sin_2a (2 * x)), sin_2a, cos_2a. ring. Qed.
Lemma cos2_R x : 2 * (cos x * cos x) - 1 = cos (2 * x).
Proof. rewrite cos_2a_cos. ring. Qed.
Lemma cos3_R x : cos x * cos x * cos x - 3 * cos x * (1 - cos x * cos x) = cos (3 * x).
Proof. replace (3 * x) with (2 * x + x) by ring. rewrite cos_plus, sin_2a, cos_2a. pose proof (sc x). replace (1 - cos x * cos x) with (sin x * sin x) by lra. ring. Qed.

(** the three waves of the series *)
Definition wave (k s1 x : R) : R := sin (k * x) * cos (k * (2 * s1 + x)).
Definition Rrd (c2 c4 c6 s1 s0 x : R) : R := s0 - c2 * sin x * cos (2 * s1 + x) - c4 * sin (2 * x) * cos (2 * (2 * s1 + x)) - c6 * sin (3 * x) * cos (3 * (2 * s1 + x)).
Lemma tol515 : flit 5 15 = Fin (5 / 10 ^ 15).
Proof. change (Fin (Rlit 5 15) = Fin (5 / 10 ^ 15)). unfold Rlit. do 2 f_equal. rewrite pow_IZR. reflexivity. Qed.
Lemma r_sin2 x : rapp_sin_2 (Fin (sin x)) (Fin (cos x)) = Fin (sin (2 * x)).
Proof. unfold rapp_sin_2. xr. now rewrite sin2_R. Qed.
Lemma r_sin3 x : rapp_sin_3 (Fin (sin x)) (Fin (cos x)) = Fin (sin (3 * x)).
Proof. unfold rapp_sin_3. xr. f_equal. rewrite <- sin3_R. ring. Qed.
Lemma r_sin4 x : rapp_sin_4 (Fin (sin x)) (Fin (cos x)) = Fin (sin (4 * x)).
Proof. unfold rapp_sin_4. xr. f_equal. rewrite <- sin4_R. ring. Qed.
Lemma r_cos2 x : rapp_cos_2 (Fin (cos x)) = Fin (cos (2 * x)).
Proof. unfold rapp_cos_2. xr. now rewrite cos2_R. Qed.
Lemma r_cos3 x : rapp_cos_3 (Fin (cos x)) = Fin (cos (3 * x)).
Proof. unfold rapp_cos_3. xr. f_equal. rewrite <- cos3_R. ring. Qed.

Definition rloop_ok (c2 c4 c6 s1 s0 sg old : R) : Prop := sg = Rrd c2 c4 c6 s1 s0 old /\ Rabs (sg - old) < 5 / 10 ^ 15.
Lemma rd_step n b0 b2 b4 b6 s1 s0 x : b0 <> 0 ->
  rapp_direct_loop (S n) (Fin b0) (Fin b2) (Fin b4) (Fin b6) (Fin s1) (Fin s0) (Fin x) =
  let y := Rrd (b2 / b0) (b4 / b0) (b6 / b0) s1 s0 x in
  if Rlt_bool (Rabs (y - x)) (5 / 10 ^ 15) then Ok (mkRD (Fin y) (Fin x))
  else rapp_direct_loop n (Fin b0) (Fin b2) (Fin b4) (Fin b6) (Fin s1) (Fin s0) (Fin y).
Proof.
  intros B. cbn [rapp_direct_loop]. rewrite tol515.
  assert (N : forall (K : XR -> result (rdir_state XR) unit),
    K (fsub (fsub (fsub (Fin s0) (fmul (fmul (fdiv (Fin b2) (Fin b0)) (fsin (Fin x))) (fcos (fadd (fmul (fofZ 2) (Fin s1)) (Fin x)))))
        (fmul (fmul (fdiv (Fin b4) (Fin b0)) (rapp_sin_2 (fsin (Fin x)) (fcos (Fin x)))) (rapp_cos_2 (fcos (fadd (fmul (fofZ 2) (Fin s1)) (Fin x))))))
        (fmul (fmul (fdiv (Fin b6) (Fin b0)) (rapp_sin_3 (fsin (Fin x)) (fcos (Fin x)))) (rapp_cos_3 (fcos (fadd (fmul (fofZ 2) (Fin s1)) (Fin x))))))
    = K (Fin (Rrd (b2 / b0) (b4 / b0) (b6 / b0) s1 s0 x))).
  { intros K. f_equal. unfold Rrd. xr. rewrite r_sin2, r_sin3, r_cos2, r_cos3, !xdiv_fin by exact B. reflexivity. }
  cbv zeta. rewrite (N (fun y => if flt (fabs (fsub y (Fin x))) (Fin (5 / 10 ^ 15)) then Ok (mkRD y (Fin x)) else rapp_direct_loop n (Fin b0) (Fin b2) (Fin b4) (Fin b6) (Fin s1) (Fin s0) y)).
  reflexivity.
Qed.
Lemma rd_loop_fin n b0 b2 b4 b6 s1 s0 x : b0 <> 0 ->
  match rapp_direct_loop n (Fin b0) (Fin b2) (Fin b4) (Fin b6) (Fin s1) (Fin s0) (Fin x) with
  | Ok r => exists sg old, r = mkRD (Fin sg) (Fin old) /\ rloop_ok (b2 / b0) (b4 / b0) (b6 / b0) s1 s0 sg old
  | Err _ => forall k, (k < n)%nat -> let y := iter k (Rrd (b2 / b0) (b4 / b0) (b6 / b0) s1 s0) x in 5 / 10 ^ 15 <= Rabs (Rrd (b2 / b0) (b4 / b0) (b6 / b0) s1 s0 y - y) end.
Proof.
  intros B. revert x. induction n as [|n IH]; intros x; [cbn; intros; lia|]. rewrite rd_step by exact B. cbv zeta.
  destruct (Rlt_bool_spec (Rabs (Rrd (b2 / b0) (b4 / b0) (b6 / b0) s1 s0 x - x)) (5 / 10 ^ 15)) as [L|L].
  - do 2 eexists. split; [reflexivity|]. split; [reflexivity|exact L].
  - specialize (IH (Rrd (b2 / b0) (b4 / b0) (b6 / b0) s1 s0 x)). destruct (rapp_direct_loop _ _ _ _ _ _ _ _); [exact IH|].
    intros [|k] K; [exact L|]. cbn [iter]. apply IH. lia.
Qed.

Section D.
Context (E : Ellipsoid XR) (a b : R) (HE : shape E a b).
Let Hab : 0 < b <= a := proj1 HE.
Let Hb : e_b E = Fin b. Proof. apply HE. Qed.
Notation be p := (vbe a b p).
Notation f := ((a - b) / a).
Definition rsl (al old b2 : R) : R := sin old * sin al / cos b2.
Definition rcl (be old b2 : R) : R := (cos old - sin be * sin b2) / (cos be * cos b2).
Definition rdlon (q s sg old s1 : R) : R := let '(x0, x2, x4, x6) := rax f in
  f * s * (polynomial x0 q * sg + polynomial x2 q * sin old * cos (2 * s1 + old) + polynomial x4 q * sin (2 * old) * cos (2 * (2 * s1 + old)) + polynomial x6 q * sin (3 * old) * cos (3 * (2 * s1 + old))).
Definition rbe2 (p al sg : R) : R := asin (qz (be p) al sg).
Definition raz (be b2 sl cl : R) : R := Ratan2 (sl * cos be) (sin b2 * cos be * cl - sin be * cos b2).
Definition rout (l p al s sg old : R) : Geodesic XR :=
  let b2 := rbe2 p al sg in
  mkGeodesic (Fin l, Fin p) (Fin al)
    (Fin (Rwrap (l + (Ratan2 (rsl al old b2) (rcl (be p) old b2) - rdlon (vq a b p al) (sa (be p) al) sg old (arc1 (be p) al)))),
     Fin (Ratan2 (tan b2) (b / a))) (Fin (Rnorm (raz (be p) b2 (rsl al old b2) (rcl (be p) old b2)))) (Fin s).
Lemma arc1_alt p al : Ratan2 (tan (be p)) (cos al) = arc1 (be p) al.
Proof.
  unfold arc1. pose proof (cos_vbe_pos a b p). rewrite <- (Ratan2_scale (tan (be p)) (cos al) (cos (be p))) by assumption.
  f_equal. unfold tan. field. lra.
Qed.
Lemma vs1_arc1 p al : vs1 a b p al = arc1 (be p) al.
Proof. rewrite <- arc1_alt. unfold vs1, vbe. now rewrite tan_atan. Qed.
Lemma rdir_fin l p al s : - (PI / 2) < p < PI / 2 -> Rb0 (vu a b p al) <> 0 ->
  match rapp_direct_loop MAX_ITERATIONS (Fin (Rb0 (vu a b p al))) (Fin (Rb2 (vu a b p al))) (Fin (Rb4 (vu a b p al))) (Fin (Rb6 (vu a b p al))) (Fin (arc1 (be p) al)) (Fin (s / (Rb0 (vu a b p al) * b))) (Fin (s / (Rb0 (vu a b p al) * b))) with
  | Ok (mkRD (Fin sg) (Fin old)) => -1 < qz (be p) al sg < 1 -> rapp_direct E (Fin l, Fin p) (Fin al) (Fin s) = Ok (rout l p al s sg old)
  | Ok _ => True | Err m => rapp_direct E (Fin l, Fin p) (Fin al) (Fin s) = Err m end.
Proof.
  intros Hp HB. unfold rapp_direct. cbv zeta. rewrite (reduced_fin E a b HE) by exact Hp. fold (vbe a b p).
  rewrite (e_prime_sq_fin E a b HE), Hb, (axs_fin E f (ef_fin E a b HE)), (ef_fin E a b HE).
  pose proof (cos_vbe_pos a b p) as CB. unfold length_scale.
  assert (T6 : fmul (fsin (Fin al)) (fcos (Fin (be p))) = Fin (sa (be p) al)) by (xr; f_equal; unfold sa; ring). rewrite T6.
  assert (T7 : fsub (fofZ 1) (fsq (Fin (sa (be p) al))) = Fin (vq a b p al)) by (xr; reflexivity). rewrite T7.
  assert (T8 : fmul (Fin ((a * a - b * b) / (b * b))) (Fin (vq a b p al)) = Fin (vu a b p al)) by (xr; f_equal; unfold vu; ring). rewrite T8.
  rewrite b0_fin, b2_fin, b4_fin, b6_fin.
  assert (T9 : fdiv (Fin s) (fmul (Fin (Rb0 (vu a b p al))) (Fin b)) = Fin (s / (Rb0 (vu a b p al) * b))).
  { xr. rewrite xdiv_fin; [reflexivity|]. intros Z. apply Rmult_integral in Z. lra. }
  rewrite T9. assert (T5 : fatan2 (ftan (Fin (be p))) (fcos (Fin al)) = Fin (arc1 (be p) al)).
  { xr. rewrite xtan_fin by lra. xr. now rewrite arc1_alt. }
  rewrite T5. pose proof (rd_loop_fin MAX_ITERATIONS (Rb0 (vu a b p al)) (Rb2 (vu a b p al)) (Rb4 (vu a b p al)) (Rb6 (vu a b p al)) (arc1 (be p) al) (s / (Rb0 (vu a b p al) * b)) (s / (Rb0 (vu a b p al) * b)) HB) as L.
  destruct (rapp_direct_loop _ _ _ _ _ _ _ _) as [r|m]; [|reflexivity]. destruct L as (sg & old & -> & _). intros Q.
  cbn [rd_sigma rd_sigma_old]. pose proof (q01 (be p) al) as Q1.
  assert (SA : -1 <= sa (be p) al <= 1) by nra.
  assert (U1 : fmul (fsin (fadd (Fin (arc1 (be p) al)) (Fin sg))) (fcos (fasin (Fin (sa (be p) al)))) = Fin (qz (be p) al sg)).
  { xr. rewrite xasin_fin by exact SA. xr. f_equal. rewrite cos_asin by exact SA. rewrite qz_node. unfold ca0, Rsqr. ring. }
  rewrite U1. assert (U2 : fasin (Fin (qz (be p) al sg)) = Fin (rbe2 p al sg)) by (xr; rewrite xasin_fin by lra; reflexivity).
  rewrite U2, !angle_new_RAD.
  assert (CB2 : 0 < cos (rbe2 p al sg)).
  { unfold rbe2. rewrite cos_asin by lra. apply sqrt_lt_R0. unfold Rsqr. nra. }
  cbn [rax]. cbn iota beta. rewrite !fast_eval_fin. xr. rewrite r_sin2, r_sin3, r_cos2, r_cos3, xtan_fin by lra.
  rewrite !xdiv_fin by (try lra; apply Rmult_integral_contrapositive; lra). xr.
  rewrite ?angle_new_RAD, lon_add_fin.
  replace (1 - f) with (b / a) by (field; lra). rewrite lat_new_id by (apply Ratan2_range_pos; left; apply Rdiv_lt_0_compat; lra).
  unfold rout. cbv zeta. f_equal. f_equal. destruct (Rlt_bool s 1000); xr; rewrite azimuth_new_fin; [|reflexivity].
  f_equal. f_equal. unfold raz. f_equal. fold (rcl (be p) old (rbe2 p al sg)). rewrite sin_minus. field.
Qed.
Lemma rdir_ok l p al s st : - (PI / 2) < p < PI / 2 -> Rb0 (vu a b p al) <> 0 ->
  rapp_direct_loop MAX_ITERATIONS (Fin (Rb0 (vu a b p al))) (Fin (Rb2 (vu a b p al))) (Fin (Rb4 (vu a b p al))) (Fin (Rb6 (vu a b p al))) (Fin (arc1 (be p) al)) (Fin (s / (Rb0 (vu a b p al) * b))) (Fin (s / (Rb0 (vu a b p al) * b))) = Ok st ->
  exists g, rapp_direct E (Fin l, Fin p) (Fin al) (Fin s) = Ok g.
Proof.
  intros Hp HB L. unfold rapp_direct. cbv zeta. rewrite (reduced_fin E a b HE) by exact Hp. fold (vbe a b p).
  rewrite (e_prime_sq_fin E a b HE), Hb, (axs_fin E f (ef_fin E a b HE)), (ef_fin E a b HE).
  pose proof (cos_vbe_pos a b p) as CB. unfold length_scale.
  assert (T6 : fmul (fsin (Fin al)) (fcos (Fin (be p))) = Fin (sa (be p) al)) by (xr; f_equal; unfold sa; ring). rewrite T6.
  assert (T7 : fsub (fofZ 1) (fsq (Fin (sa (be p) al))) = Fin (vq a b p al)) by (xr; reflexivity). rewrite T7.
  assert (T8 : fmul (Fin ((a * a - b * b) / (b * b))) (Fin (vq a b p al)) = Fin (vu a b p al)) by (xr; f_equal; unfold vu; ring). rewrite T8.
  rewrite b0_fin, b2_fin, b4_fin, b6_fin.
  assert (T9 : fdiv (Fin s) (fmul (Fin (Rb0 (vu a b p al))) (Fin b)) = Fin (s / (Rb0 (vu a b p al) * b))).
  { xr. rewrite xdiv_fin; [reflexivity|]. intros Z. apply Rmult_integral in Z. lra. }
  rewrite T9. assert (T5 : fatan2 (ftan (Fin (be p))) (fcos (Fin al)) = Fin (arc1 (be p) al)).
  { xr. rewrite xtan_fin by lra. xr. now rewrite arc1_alt. }
  rewrite T5, L. cbn [rax]. cbn iota beta. eexists. reflexivity.
Qed.
End D.
