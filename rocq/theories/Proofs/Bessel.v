(** Bessel's construction: the geodesics of an ellipsoid from the great circles of a sphere. *)
From Coq Require Import Reals Lra Psatz.
From Coquelicot Require Import Coquelicot.
From Verif.Num Require Import RFun XRLemmas.
From Verif.Spec Require Import Angles Axes Shape Frames Sphere Geodesic.
From Verif.Proofs Require Import SphereG SphereN.
Local Open Scope R_scope.

Section B.
Context (a b s c t1 l0 : R) (Hab : 0 < b <= a) (Hsc : s * s + c * c = 1).
Notation e2 := ((a * a - b * b) / (a * a)).
(** the reduced latitude has the sine [c sin x] *)
Definition bw (x : R) : R := sqrt (1 - (a * a - b * b) / (a * a) * (1 - c * sin x * (c * sin x))).
Lemma e2_bound : 0 <= e2 < 1.
Proof.
  split; [apply Rmult_le_pos; [nra|apply Rlt_le, Rinv_0_lt_compat; nra]|]. apply (Rmult_lt_reg_r (a * a)); [nra|]. unfold Rdiv. rewrite Rmult_assoc, Rinv_l by nra. nra.
Qed.
Lemma e2_b : 1 - e2 = b / a * (b / a). Proof. field. lra. Qed.
Lemma cs_bound x : 0 <= c * sin x * (c * sin x) <= 1.
Proof. pose proof (sc x) as Q. assert (c * c <= 1) by nra. assert (sin x * sin x <= 1) by nra. replace (c * sin x * (c * sin x)) with (c * c * (sin x * sin x)) by ring. split; nra. Qed.
Lemma bw_sq x : bw x * bw x = 1 - e2 * (1 - c * sin x * (c * sin x)).
Proof. unfold bw. apply sqrt_sqrt. pose proof e2_bound. pose proof (cs_bound x). nra. Qed.
Lemma bw_ge x : b / a <= bw x.
Proof.
  unfold bw. rewrite <- (sqrt_Rsqr (b / a)) by (apply Rlt_le, Rdiv_lt_0_compat; lra). apply sqrt_le_1_alt. unfold Rsqr. rewrite <- e2_b.
  pose proof e2_bound. pose proof (cs_bound x). nra.
Qed.
Lemma ba_pos : 0 < b / a. Proof. apply Rdiv_lt_0_compat; lra. Qed.
Lemma bw_pos x : 0 < bw x. Proof. pose proof (bw_ge x). pose proof ba_pos. lra. Qed.
Lemma bw_le x : bw x <= 1.
Proof. pose proof (bw_sq x) as Q. pose proof e2_bound. pose proof (cs_bound x). pose proof (bw_pos x). nra. Qed.
Definition bw' (x : R) : R := e2 * (c * c) * sin x * cos x / bw x.
Lemma bw_deriv x : is_derive bw x (bw' x).
Proof.
  pose proof (bw_pos x) as P. pose proof (bw_sq x) as Q. pose proof ba_pos as BA. unfold bw. auto_derive.
  - change (sqrt _) with (bw x) in *. replace (1 + - _) with (bw x * bw x) by (rewrite Q; ring). nra.
  - unfold bw'. fold (bw x). unfold Rsqr. change (sqrt _) with (bw x). field. split; [lra|]. lra.
Qed.
(** rate at which the longitudes on the sphere and on the ellipsoid part *)
Definition brate (x : R) : R := e2 / (1 + bw x).
Lemma brate_cont x : continuous brate x.
Proof. apply (ex_derive_continuous (V := R_NormedModule) brate). exists (- e2 * bw' x / ((1 + bw x) * (1 + bw x))). unfold brate. pose proof (bw_pos x). auto_derive. { split; [eexists; apply bw_deriv|]. split; [lra|easy]. }
  replace (Derive _ _) with (bw' x) by (symmetry; apply is_derive_unique, bw_deriv). field. split; lra. Qed.
Definition bth (t : R) : R := s * RInt (fun x => brate (t1 + x)) 0 t.
Lemma shift_cont (f : R -> R) (x : R) : (forall x : R, continuous f x) -> continuous (fun x => f (t1 + x)) x.
Proof. intros C. apply (continuous_comp (fun x => t1 + x) f); [|apply C]. apply (continuous_plus (fun _ => t1) (fun x => x)); [apply continuous_const|apply continuous_id]. Qed.
Lemma bth_deriv t : is_derive bth t (s * brate (t1 + t)).
Proof.
  unfold bth. apply (is_derive_scal (fun t => RInt (fun x => brate (t1 + x)) 0 t)). apply (is_derive_RInt (fun x => brate (t1 + x)) _ 0).
  - apply filter_forall. intros y. apply (@RInt_correct R_CompleteNormedModule). apply (@ex_RInt_continuous R_CompleteNormedModule). intros z _. apply shift_cont, brate_cont.
  - apply shift_cont, brate_cont.
Qed.
Definition blen (t : R) : R := RInt (fun x => a * bw (t1 + x)) 0 t.
Lemma abw_cont x : continuous (fun x => a * bw x) x.
Proof. apply (ex_derive_continuous (V := R_NormedModule) (fun x => a * bw x)). exists (a * bw' x). apply (is_derive_scal bw). apply bw_deriv. Qed.
Lemma blen_deriv t : is_derive blen t (a * bw (t1 + t)).
Proof.
  unfold blen. apply (is_derive_RInt (fun x => a * bw (t1 + x)) _ 0).
  - apply filter_forall. intros y. apply (@RInt_correct R_CompleteNormedModule). apply (@ex_RInt_continuous R_CompleteNormedModule). intros z _. apply (shift_cont (fun x => a * bw x)). apply abw_cont.
  - apply (shift_cont (fun x => a * bw x)). apply abw_cont.
Qed.
Lemma blen_0 : blen 0 = 0. Proof. apply (RInt_point (V := R_CompleteNormedModule)). Qed.
Lemma bth_0 : bth 0 = 0. Proof. unfold bth. rewrite (RInt_point (V := R_CompleteNormedModule)). apply Rmult_0_r. Qed.

Definition bps (t : R) : R := l0 - bth t.
Definition bpt (t : R) : R3 :=
  (a * (cos (t1 + t) * cos (bps t) - s * sin (t1 + t) * sin (bps t)),
   a * (cos (t1 + t) * sin (bps t) + s * sin (t1 + t) * cos (bps t)),
   b * (c * sin (t1 + t))).
Definition bp (x : R) : R := - (s * brate x).
Definition h1 (x : R) : R := - sin x * (1 + s * bp x) / bw x.
Definition h2 (x : R) : R := cos x * (s + bp x) / bw x.
Definition h3 (x : R) : R := b / a * (c * cos x) / bw x.
Definition bdir (t : R) : R3 :=
  (h1 (t1 + t) * cos (bps t) - h2 (t1 + t) * sin (bps t),
   h1 (t1 + t) * sin (bps t) + h2 (t1 + t) * cos (bps t), h3 (t1 + t)).
Lemma bps_deriv t : is_derive bps t (bp (t1 + t)).
Proof. unfold bps. evar_last; [apply (is_derive_minus (fun _ => l0) bth t (@zero R_NormedModule) (s * brate (t1 + t))); [apply (@is_derive_const R_AbsRing R_NormedModule)|apply bth_deriv]|]. unfold minus, plus, opp, zero, bp; simpl. ring. Qed.

Lemma on_ell t : on_ellipsoid a b (bpt t).
Proof.
  unfold on_ellipsoid, bpt. pose proof (sc (t1 + t)) as Q. pose proof (sc (bps t)) as Q'.
  set (C := cos (t1 + t)) in *. set (S := sin (t1 + t)) in *. set (U := cos (bps t)) in *. set (V := sin (bps t)) in *.
  replace ((a * (C * U - s * S * V) * (a * (C * U - s * S * V)) + a * (C * V + s * S * U) * (a * (C * V + s * S * U))) / (a * a)) with ((C * C + s * s * (S * S)) * (V * V + U * U)) by (field; lra).
  replace (b * (c * S) * (b * (c * S)) / (b * b)) with (c * c * (S * S)) by (field; lra). rewrite Q'. replace (c * c) with (1 - s * s) by lra. lra.
Qed.
Lemma bp_eq x : bp x * (1 + bw x) = - (s * e2).
Proof. pose proof (bw_pos x). unfold bp, brate. field. split; lra. Qed.
Lemma unit_h x : h1 x * h1 x + h2 x * h2 x + h3 x * h3 x = 1.
Proof.
  pose proof (bw_pos x) as P. pose proof (bw_sq x) as Q. pose proof (sc x) as QS. pose proof (bp_eq x) as E.
  assert (K : bp x * bp x * (1 - c * sin x * (c * sin x)) + 2 * s * bp x = - (s * s * e2)).
  { apply (Rmult_eq_reg_r (1 + bw x)); [|lra]. replace ((bp x * bp x * (1 - c * sin x * (c * sin x)) + 2 * s * bp x) * (1 + bw x)) with (bp x * (1 + bw x) * (bp x * (1 - c * sin x * (c * sin x)) + 2 * s)) by ring.
    rewrite E. replace (- (s * e2) * (bp x * (1 - c * sin x * (c * sin x)) + 2 * s)) with (- s * (bp x * (e2 * (1 - c * sin x * (c * sin x))) + 2 * s * e2)) by ring.
    replace (e2 * (1 - c * sin x * (c * sin x))) with ((1 + bw x) * (1 - bw x)) by lra. replace (bp x * ((1 + bw x) * (1 - bw x))) with (bp x * (1 + bw x) * (1 - bw x)) by ring. rewrite E. ring. }
  unfold h1, h2, h3. apply (Rmult_eq_reg_r (bw x * bw x)); [|nra]. 
  replace ((_ + _ + _) * _) with (sin x * sin x * ((1 + s * bp x) * (1 + s * bp x)) + cos x * cos x * ((s + bp x) * (s + bp x)) + b / a * (b / a) * (c * c * (cos x * cos x))) by (field; lra).
  rewrite <- e2_b, Rmult_1_l, Q. replace (cos x * cos x) with (1 - sin x * sin x) by lra. replace (c * sin x * (c * sin x)) with ((1 - s * s) * (sin x * sin x)) in * by (replace (1 - s * s) with (c * c) by lra; ring).
  replace (c * c) with (1 - s * s) by lra. set (X := sin x * sin x) in *. 
  replace (X * ((1 + s * bp x) * (1 + s * bp x)) + (1 - X) * ((s + bp x) * (s + bp x))) with (X + s * s * (1 - X) + (bp x * bp x * (1 - (1 - s * s) * X) + 2 * s * bp x)) by ring. rewrite K. ring.
Qed.
Lemma vnorm_dir t : vnorm (bdir t) = 1.
Proof.
  unfold vnorm, edist, bdir. pose proof (unit_h (t1 + t)) as U. pose proof (sc (bps t)) as Q. 
  rewrite <- sqrt_1. f_equal. rewrite <- U. set (H := h1 (t1 + t)) in *. set (H' := h2 (t1 + t)) in *. set (C := cos (bps t)) in *. set (S := sin (bps t)) in *.
  transitivity ((H * H + H' * H') * (S * S + C * C) + h3 (t1 + t) * h3 (t1 + t)); [unfold Rsqr; ring|]. rewrite Q. ring.
Qed.

(** the derivative of the point *)
Lemma bpt_deriv t : velocity bpt t (vscale (a * bw (t1 + t)) (bdir t)).
Proof.
  pose proof (bps_deriv t) as D. pose proof (bw_pos (t1 + t)) as P.
  assert (DU : Derive (fun x => bps x) t = bp (t1 + t)) by (apply is_derive_unique; exact D).
  assert (DE : ex_derive (fun x => bps x) t) by (eexists; exact D).
  unfold velocity, bpt, vscale, bdir, xcoord, ycoord, zcoord, h1, h2, h3. repeat split; apply is_derive_Reals; auto_derive; try (repeat split; exact DE); try easy; rewrite ?DU; field; lra.
Qed.
Definition bmu (x : R) : R := - (b * b / a) * (1 - e2 * (s * s)) / (bw x * bw x * bw x).
Lemma brate_deriv x : is_derive brate x (- e2 * bw' x / ((1 + bw x) * (1 + bw x))).
Proof.
  unfold brate. pose proof (bw_pos x). auto_derive. { split; [eexists; apply bw_deriv|]. split; [lra|easy]. }
  replace (Derive _ _) with (bw' x) by (symmetry; apply is_derive_unique, bw_deriv). field. split; lra.
Qed.
Lemma bp_deriv x : is_derive bp x (- bp x * bw' x / (1 + bw x)).
Proof.
  pose proof (bw_pos x) as P. pose proof (brate_deriv x) as D. unfold bp. auto_derive; [eexists; exact D|]. replace (Derive _ _) with (- e2 * bw' x / ((1 + bw x) * (1 + bw x))) by (symmetry; apply is_derive_unique, D).
  unfold brate. field. split; lra.
Qed.
Lemma h1_deriv x : is_derive h1 x (bp x * h2 x + bmu x * cos x / a).
Proof.
  pose proof (bw_pos x) as P. pose proof (bp_deriv x) as D. pose proof (bw_deriv x) as D'. pose proof (bw_sq x) as Q. pose proof (sc x) as QS. unfold h1. auto_derive.
  { repeat split; try (eexists; exact D); try (eexists; exact D'); lra. }
  replace (Derive (fun x => bp x) x) with (- bp x * bw' x / (1 + bw x)) by (symmetry; apply is_derive_unique, D).
  replace (Derive (fun x => bw x) x) with (bw' x) by (symmetry; apply is_derive_unique, D').
  unfold bw', h2, bmu. replace (b * b / a) with (a * (1 - e2)) by (field; lra). 
  assert (M : e2 * (c * c) * (sin x * sin x) = bw x * bw x - 1 + e2) by lra.
  assert (E : bp x = - (s * e2) / (1 + bw x)) by (unfold bp, brate; field; split; lra).
  set (W := bw x) in *. set (p := bp x) in *. set (e := e2) in *. clearbody W p e.
  transitivity (cos x * (- (1 + s * p) / W + s * p * (e * (c * c) * (sin x * sin x)) / (W * W * (1 + W)) + (1 + s * p) * (e * (c * c) * (sin x * sin x)) / (W * W * W))); [field; lra|].
  rewrite M, E. field. lra.
Qed.
Lemma h2_deriv x : is_derive h2 x (- bp x * h1 x + bmu x * (s * sin x) / a).
Proof.
  pose proof (bw_pos x) as P. pose proof (bp_deriv x) as D. pose proof (bw_deriv x) as D'. pose proof (bw_sq x) as Q. pose proof (sc x) as QS. unfold h2. auto_derive.
  { repeat split; try (eexists; exact D); try (eexists; exact D'); lra. }
  replace (Derive (fun x => bp x) x) with (- bp x * bw' x / (1 + bw x)) by (symmetry; apply is_derive_unique, D).
  replace (Derive (fun x => bw x) x) with (bw' x) by (symmetry; apply is_derive_unique, D').
  unfold bw', h1, bmu. replace (b * b / a) with (a * (1 - e2)) by (field; lra). 
  assert (M : e2 * (c * c) * (cos x * cos x) = 1 - e2 * (s * s) - bw x * bw x).
  { rewrite Q. replace (cos x * cos x) with (1 - sin x * sin x) by lra. replace (s * s) with (1 - c * c) by lra. ring. }
  assert (E : bp x = - (s * e2) / (1 + bw x)) by (unfold bp, brate; field; split; lra).
  set (W := bw x) in *. set (p := bp x) in *. set (e := e2) in *. clearbody W p e.
  transitivity (sin x * (- (s + p) / W - p * (e * (c * c) * (cos x * cos x)) / (W * W * (1 + W)) - (s + p) * (e * (c * c) * (cos x * cos x)) / (W * W * W))); [field; lra|].
  rewrite M, E. field. lra.
Qed.
Lemma h3_deriv x : is_derive h3 x (bmu x * (c * sin x) / b).
Proof.
  pose proof (bw_pos x) as P. pose proof (bw_deriv x) as D'. pose proof (bw_sq x) as Q. pose proof (sc x) as QS. unfold h3. auto_derive.
  { repeat split; try (eexists; exact D'); lra. }
  replace (Derive (fun x => bw x) x) with (bw' x) by (symmetry; apply is_derive_unique, D').
  unfold bw', bmu.
  assert (M : e2 * (c * c) * (cos x * cos x) = 1 - e2 * (s * s) - bw x * bw x).
  { rewrite Q. replace (cos x * cos x) with (1 - sin x * sin x) by lra. replace (s * s) with (1 - c * c) by lra. ring. }
  set (W := bw x) in *. set (e := e2) in *. clearbody W e.
  transitivity (- b / a * c * sin x * (1 / W + (e * (c * c) * (cos x * cos x)) / (W * W * W))); [field; lra|].
  rewrite M. field. lra.
Qed.
Lemma shift_deriv (f : R -> R) (f' t : R) : is_derive f (t1 + t) f' -> is_derive (fun t => f (t1 + t)) t f'.
Proof. intros D. evar_last; [apply (is_derive_comp f (fun t => t1 + t)); [exact D|]; auto_derive; [easy|reflexivity]|]. unfold scal; simpl; unfold mult; simpl. ring. Qed.
Lemma bdir_deriv t : velocity bdir t (vscale (bmu (t1 + t)) (gradient a b (bpt t))).
Proof.
  pose proof (bps_deriv t) as D. pose proof (shift_deriv _ _ _ (h1_deriv (t1 + t))) as D1. pose proof (shift_deriv _ _ _ (h2_deriv (t1 + t))) as D2. pose proof (shift_deriv _ _ _ (h3_deriv (t1 + t))) as D3.
  unfold velocity, bdir, gradient, bpt, vscale, xcoord, ycoord, zcoord.
  assert (Dc : is_derive (fun t => cos (bps t)) t (- sin (bps t) * bp (t1 + t))).
  { auto_derive; [eexists; exact D|]. replace (Derive _ _) with (bp (t1 + t)) by (symmetry; apply is_derive_unique, D). ring. }
  assert (Ds : is_derive (fun t => sin (bps t)) t (cos (bps t) * bp (t1 + t))).
  { auto_derive; [eexists; exact D|]. replace (Derive _ _) with (bp (t1 + t)) by (symmetry; apply is_derive_unique, D). ring. }
  repeat split; apply is_derive_Reals.
  - evar_last; [apply (is_derive_minus (fun t => h1 (t1 + t) * cos (bps t)) (fun t => h2 (t1 + t) * sin (bps t))); [apply (is_derive_mult (fun t => h1 (t1 + t)) (fun t => cos (bps t)) t _ _ D1 Dc)|apply (is_derive_mult (fun t => h2 (t1 + t)) (fun t => sin (bps t)) t _ _ D2 Ds)]; intros; apply Rmult_comm|].
    unfold minus, plus, opp, mult; simpl; unfold mult; simpl. field. lra.
  - evar_last; [apply (is_derive_plus (fun t => h1 (t1 + t) * sin (bps t)) (fun t => h2 (t1 + t) * cos (bps t))); [apply (is_derive_mult (fun t => h1 (t1 + t)) (fun t => sin (bps t)) t _ _ D1 Ds)|apply (is_derive_mult (fun t => h2 (t1 + t)) (fun t => cos (bps t)) t _ _ D2 Dc)]; intros; apply Rmult_comm|].
    unfold minus, plus, opp, mult; simpl; unfold mult; simpl. field. lra.
  - evar_last; [exact D3|]. field. lra.
Qed.
Theorem bessel_geodesic : geodesic a b bpt bdir blen.
Proof.
  intros t. split; [apply on_ell|]. split; [apply vnorm_dir|]. split.
  - exists (a * bw (t1 + t)). split; [apply Rmult_lt_0_compat; [lra|apply bw_pos]|]. split; [apply is_derive_Reals, blen_deriv|apply bpt_deriv].
  - exists (bmu (t1 + t)). apply bdir_deriv.
Qed.
End B.
