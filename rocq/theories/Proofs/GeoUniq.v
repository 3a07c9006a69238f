(** A geodesic is determined by its start and its direction there. *)
From Coq Require Import Reals Lra Psatz.
From Flocq Require Import Core.Raux.
From Coquelicot Require Import Coquelicot.
From Verif.Spec Require Import Axes Shape Frames Sphere Geodesic.
Local Open Scope R_scope.

Definition dot (u v : R3) : R := xcoord u * xcoord v + ycoord u * ycoord v + zcoord u * zcoord v.
Definition nrm3 (u : R3) : R := sqrt (dot u u).
Lemma dot_self u : 0 <= dot u u.
Proof. destruct u as [[x y] z]. unfold dot. cbn [xcoord ycoord zcoord]. nra. Qed.
Lemma nrm3_sq u : nrm3 u * nrm3 u = dot u u.
Proof. apply sqrt_sqrt, dot_self. Qed.
Lemma nrm3_ge u : 0 <= nrm3 u. Proof. apply sqrt_pos. Qed.
Lemma nrm3_le u k : 0 <= k -> dot u u <= k * k -> nrm3 u <= k.
Proof. intros H D. unfold nrm3. rewrite <- (sqrt_square k H). apply sqrt_le_1_alt. exact D. Qed.
Lemma cauchy u v : Rabs (dot u v) <= nrm3 u * nrm3 v.
Proof.
  pose proof (nrm3_ge u). pose proof (nrm3_ge v). rewrite <- (Rabs_right (nrm3 u * nrm3 v)) by (apply Rle_ge, Rmult_le_pos; assumption). apply Rsqr_le_abs_0. unfold Rsqr.
  replace (nrm3 u * nrm3 v * (nrm3 u * nrm3 v)) with ((nrm3 u * nrm3 u) * (nrm3 v * nrm3 v)) by ring. rewrite !nrm3_sq. destruct u as [[x y] z], v as [[x' y'] z']. unfold dot. cbn [xcoord ycoord zcoord].
  assert (0 <= (x * y' - y * x') * (x * y' - y * x')) by apply Rle_0_sqr. assert (0 <= (x * z' - z * x') * (x * z' - z * x')) by apply Rle_0_sqr. assert (0 <= (y * z' - z * y') * (y * z' - z * y')) by apply Rle_0_sqr. nra.
Qed.
Definition add3 (u v : R3) : R3 := (xcoord u + xcoord v, ycoord u + ycoord v, zcoord u + zcoord v).
Definition sub3 (u v : R3) : R3 := (xcoord u - xcoord v, ycoord u - ycoord v, zcoord u - zcoord v).
Section A.
Context (a b : R) (Hab : 0 < b <= a).
Let p := / (a * a).
Let q := / (b * b).
Definition am (u : R3) : R3 := (/ (a * a) * xcoord u, / (a * a) * ycoord u, / (b * b) * zcoord u).
Lemma pq : 0 < p <= q.
Proof. unfold p, q. split; [apply Rinv_0_lt_compat; nra|]. apply Rinv_le_contravar; nra. Qed.
Lemma am_norm u : nrm3 (am u) <= q * nrm3 u.
Proof.
  pose proof pq as H. pose proof (nrm3_ge u). apply nrm3_le; [apply Rmult_le_pos; lra|]. replace (q * nrm3 u * (q * nrm3 u)) with (q * q * (nrm3 u * nrm3 u)) by ring. rewrite nrm3_sq. destruct u as [[x y] z]. unfold dot, am. cbn [xcoord ycoord zcoord]. fold p q.
  assert (p * p <= q * q) by nra. assert (p * p * (x * x) <= q * q * (x * x)) by (apply Rmult_le_compat_r; [apply Rle_0_sqr|assumption]). assert (p * p * (y * y) <= q * q * (y * y)) by (apply Rmult_le_compat_r; [apply Rle_0_sqr|assumption]). nra.
Qed.
Lemma on_dot P : on_ellipsoid a b P -> dot P (am P) = 1.
Proof. destruct P as [[x y] z]. unfold on_ellipsoid, dot, am. cbn [xcoord ycoord zcoord]. intros <-. field. lra. Qed.
Lemma am_sq P : on_ellipsoid a b P -> p <= dot (am P) (am P) <= q.
Proof.
  intros H. apply on_dot in H. pose proof pq as K. destruct P as [[x y] z]. unfold dot, am in *. cbn [xcoord ycoord zcoord] in *. fold p q in H |- *.
  assert (0 <= p * (x * x)) by (apply Rmult_le_pos; [lra|apply Rle_0_sqr]). assert (0 <= p * (y * y)) by (apply Rmult_le_pos; [lra|apply Rle_0_sqr]). assert (0 <= q * (z * z)) by (apply Rmult_le_pos; [lra|apply Rle_0_sqr]).
  set (X := p * (x * x)) in *. set (Y := p * (y * y)) in *. set (Z := q * (z * z)) in *.
  replace (p * x * (p * x) + p * y * (p * y) + q * z * (q * z)) with (p * (X + Y) + q * Z) by (unfold X, Y, Z; ring). assert (X + Y + Z = 1) by (unfold X, Y, Z; lra). nra.
Qed.
Lemma unit_dot T : vnorm T = 1 -> dot T T = 1.
Proof.
  destruct T as [[x y] z]. unfold vnorm, edist, dot. cbn [xcoord ycoord zcoord]. rewrite !Rminus_0_r. intros H. assert (0 <= x * x + y * y + z * z) by nra. rewrite <- (sqrt_sqrt (x * x + y * y + z * z)) by assumption. rewrite H. ring.
Qed.
Lemma dot_am u v : dot (am u) v = dot u (am v).
Proof. destruct u as [[x y] z], v as [[x' y'] z']. unfold dot, am. cbn [xcoord ycoord zcoord]. ring. Qed.
Lemma grow P1 P2 T1 T2 k1 k2 : on_ellipsoid a b P1 -> on_ellipsoid a b P2 -> vnorm T1 = 1 -> vnorm T2 = 1 ->
  k1 * dot (am P1) (am P1) = - dot T1 (am T1) -> k2 * dot (am P2) (am P2) = - dot T2 (am T2) ->
  let d := sub3 P1 P2 in let e := sub3 T1 T2 in
  Rabs (dot d e + (k1 * dot e (am P1) - k2 * dot e (am P2))) <= (1 + q * q / p + / b * (2 * q / p + 2 * (q * q) * / b / (p * p))) * (dot d d + dot e e).
Proof.
  intros E1 E2 U1 U2 K1 K2 d e. apply unit_dot in U1, U2. pose proof (am_sq P1 E1) as N1. pose proof (am_sq P2 E2) as N2. pose proof pq as H.
  set (n1 := dot (am P1) (am P1)) in *. set (n2 := dot (am P2) (am P2)) in *. set (Q1 := dot T1 (am T1)) in *. set (Q2 := dot T2 (am T2)) in *.
  assert (r0 : 0 < / b) by (apply Rinv_0_lt_compat; lra). set (r := / b) in *. assert (rr : r * r = q) by (unfold r, q; field; lra).
  set (D := nrm3 d). set (E := nrm3 e). pose proof (nrm3_ge d : 0 <= D) as D0. pose proof (nrm3_ge e : 0 <= E) as E0. pose proof (nrm3_sq d : D * D = _) as DD. pose proof (nrm3_sq e : E * E = _) as EE.
  assert (T1n : nrm3 T1 <= 1) by (apply nrm3_le; lra). assert (T2n : nrm3 T2 <= 1) by (apply nrm3_le; lra).
  assert (A1 : nrm3 (am P1) <= r) by (apply nrm3_le; [lra|]; fold n1; lra). assert (A2 : nrm3 (am P2) <= r) by (apply nrm3_le; [lra|]; fold n2; lra).
  assert (AT : forall T, nrm3 T <= 1 -> nrm3 (am T) <= q) by (intros T HT; eapply Rle_trans; [apply am_norm|]; nra).
  assert (Q1b : Rabs Q1 <= q) by (unfold Q1; eapply Rle_trans; [apply cauchy|]; pose proof (nrm3_ge T1); pose proof (AT _ T1n); pose proof (nrm3_ge (am T1)); nra).
  assert (Q2b : Rabs Q2 <= q) by (unfold Q2; eapply Rle_trans; [apply cauchy|]; pose proof (nrm3_ge T2); pose proof (AT _ T2n); pose proof (nrm3_ge (am T2)); nra).
  assert (DE : Rabs (dot d e) <= D * E) by apply cauchy.
  assert (ADE : Rabs (dot e (am d)) <= q * D * E) by (eapply Rle_trans; [apply cauchy|]; pose proof (am_norm d); fold D in H0; fold E; pose proof (nrm3_ge (am d)); nra).
  assert (AP2 : Rabs (dot e (am P2)) <= E * r) by (eapply Rle_trans; [apply cauchy|]; apply Rmult_le_compat_l; assumption).
  assert (QD : Rabs (Q1 - Q2) <= 2 * q * E).
  { replace (Q1 - Q2) with (dot e (am T1) + dot e (am T2)) by (unfold Q1, Q2, e; destruct T1 as [[x y] z], T2 as [[x' y'] z']; unfold dot, am, sub3; cbn [xcoord ycoord zcoord]; ring).
    eapply Rle_trans; [apply Rabs_triang|]. pose proof (cauchy e (am T1)) as X1. pose proof (cauchy e (am T2)) as X2. fold E in X1, X2. pose proof (AT _ T1n). pose proof (AT _ T2n). nra. }
  assert (ND : Rabs (n1 - n2) <= 2 * q * r * D).
  { replace (n1 - n2) with (dot (am d) (am P1) + dot (am d) (am P2)) by (unfold n1, n2, d; destruct P1 as [[x y] z], P2 as [[x' y'] z']; unfold dot, am, sub3; cbn [xcoord ycoord zcoord]; ring).
    eapply Rle_trans; [apply Rabs_triang|]. pose proof (cauchy (am d) (am P1)) as X1. pose proof (cauchy (am d) (am P2)) as X2. pose proof (am_norm d) as X3. fold D in X3. pose proof (nrm3_ge (am d)). pose proof (nrm3_ge (am P1)). pose proof (nrm3_ge (am P2)).
    assert (nrm3 (am d) * nrm3 (am P1) <= q * D * r) by (apply Rmult_le_compat; assumption). assert (nrm3 (am d) * nrm3 (am P2) <= q * D * r) by (apply Rmult_le_compat; assumption). lra. }
  assert (k1v : k1 = - Q1 / n1) by (apply (Rmult_eq_reg_r n1); [|lra]; rewrite K1; field; lra). assert (k2v : k2 = - Q2 / n2) by (apply (Rmult_eq_reg_r n2); [|lra]; rewrite K2; field; lra).
  assert (I1 : 0 < / n1 <= / p) by (split; [apply Rinv_0_lt_compat; lra|apply Rinv_le_contravar; lra]). assert (I2 : 0 < / n2 <= / p) by (split; [apply Rinv_0_lt_compat; lra|apply Rinv_le_contravar; lra]).
  assert (Ip : 0 < / p) by (apply Rinv_0_lt_compat; lra).
  assert (k1b : Rabs k1 <= q / p) by (rewrite k1v; unfold Rdiv; rewrite Rabs_mult, Rabs_Ropp, (Rabs_right (/ n1)) by lra; pose proof (Rabs_pos Q1); nra).
  assert (kd : Rabs (k1 - k2) <= 2 * q / p * E + 2 * (q * q) * r / (p * p) * D).
  { replace (k1 - k2) with (- (Q1 - Q2) * / n1 + Q2 * (n1 - n2) * (/ n1 * / n2)) by (rewrite k1v, k2v; field; lra). eapply Rle_trans; [apply Rabs_triang|]. rewrite !Rabs_mult, Rabs_Ropp, (Rabs_right (/ n1)), (Rabs_right (/ n2)) by lra.
    apply Rplus_le_compat.
    - replace (2 * q / p * E) with (2 * q * E * / p) by (unfold Rdiv; ring). apply Rmult_le_compat; try lra. apply Rabs_pos.
    - replace (2 * (q * q) * r / (p * p) * D) with (q * (2 * q * r * D) * (/ p * / p)) by (field; lra). apply Rmult_le_compat.
      + apply Rmult_le_pos; apply Rabs_pos.
      + apply Rmult_le_pos; lra.
      + apply Rmult_le_compat; try apply Rabs_pos; assumption.
      + apply Rmult_le_compat; lra. }
  replace (k1 * dot e (am P1) - k2 * dot e (am P2)) with (k1 * dot e (am d) + (k1 - k2) * dot e (am P2)) by (unfold d; destruct P1 as [[x y] z], P2 as [[x' y'] z'], e as [[x'' y''] z'']; unfold dot, am, sub3; cbn [xcoord ycoord zcoord]; ring).
  assert (B1 : Rabs (k1 * dot e (am d)) <= q / p * (q * D * E)) by (rewrite Rabs_mult; apply Rmult_le_compat; try apply Rabs_pos; assumption).
  assert (B2 : Rabs ((k1 - k2) * dot e (am P2)) <= (2 * q / p * E + 2 * (q * q) * r / (p * p) * D) * (E * r)) by (rewrite Rabs_mult; apply Rmult_le_compat; try apply Rabs_pos; assumption).
  eapply Rle_trans; [apply Rabs_triang|]. eapply Rle_trans; [apply Rplus_le_compat; [exact DE|eapply Rle_trans; [apply Rabs_triang|apply Rplus_le_compat; [exact B1|exact B2]]]|].
  rewrite <- DD, <- EE. clear - D0 E0 H r0 Ip. assert (X0 : 0 <= D * E) by (apply Rmult_le_pos; assumption). assert (X1 : D * E <= D * D + E * E) by nra. assert (X2 : E * E <= D * D + E * E) by nra.
  set (S := D * D + E * E) in *. set (c1 := q * q / p). set (c2 := 2 * q / p). set (c3 := 2 * (q * q) * r / (p * p)). replace (q / p * (q * D * E)) with (c1 * (D * E)) by (unfold c1; field; lra).
  replace ((c2 * E + c3 * D) * (E * r)) with (r * (c2 * (E * E) + c3 * (D * E))) by ring.
  assert (0 <= c1) by (unfold c1; apply Rdiv_le_0_compat; nra). assert (0 <= c2) by (unfold c2; apply Rdiv_le_0_compat; nra). assert (0 <= c3) by (unfold c3; apply Rdiv_le_0_compat; [apply Rmult_le_pos; nra|nra]).
  assert (c1 * (D * E) <= c1 * S) by (apply Rmult_le_compat_l; assumption). assert (c2 * (E * E) <= c2 * S) by (apply Rmult_le_compat_l; assumption). assert (c3 * (D * E) <= c3 * S) by (apply Rmult_le_compat_l; assumption).
  assert (r * (c2 * (E * E) + c3 * (D * E)) <= r * (c2 * S + c3 * S)) by (apply Rmult_le_compat_l; lra). replace ((1 + c1 + r * (c2 + c3)) * S) with (S + c1 * S + r * (c2 * S + c3 * S)) by ring. lra.
Qed.
End A.

(** a nonnegative function that starts at zero and grows at most in proportion to itself stays zero *)
Lemma gronwall (phi dphi len v : R -> R) K : (forall t, 0 <= phi t) -> phi 0 = 0 -> (forall t, derivable_pt_lim phi t (dphi t)) ->
  (forall t, derivable_pt_lim len t (v t)) -> (forall t, Rabs (dphi t) <= K * v t * phi t) -> forall t, phi t = 0.
Proof.
  intros P0 Z D DL B t. apply Rle_antisym; [|apply P0].
  assert (DE : forall s u, derivable_pt_lim (fun u => exp (s * len u) * phi u) u (exp (s * len u) * (dphi u + s * v u * phi u))).
  { intros s u. apply is_derive_Reals. pose proof (proj2 (is_derive_Reals _ _ _) (D u)) as D1. pose proof (proj2 (is_derive_Reals _ _ _) (DL u)) as D2. auto_derive.
    - split; [eexists; exact D2|]. split; [eexists; exact D1|trivial].
    - replace (Derive (fun x => len x) u) with (v u) by (symmetry; apply is_derive_unique; exact D2). replace (Derive (fun x => phi x) u) with (dphi u) by (symmetry; apply is_derive_unique; exact D1). ring. }
  assert (F : forall s, exp (s * len t) * phi t <= 0 -> phi t <= 0).
  { intros s H. pose proof (exp_pos (s * len t)). apply (Rmult_le_reg_l (exp (s * len t))); [assumption|]. rewrite Rmult_0_r. exact H. }
  destruct (Rtotal_order t 0) as [H|[->|H]].
  - apply (F K). destruct (MVT_cor2 (fun u => exp (K * len u) * phi u) _ t 0 H (fun u _ => DE K u)) as (u & E & _). rewrite Z in E.
    pose proof (exp_pos (K * len u)). pose proof (Rabs_le_inv _ _ (B u)). assert (0 <= exp (K * len u) * (dphi u + K * v u * phi u) * (0 - t)) by (apply Rmult_le_pos; [apply Rmult_le_pos|]; lra). lra.
  - lra.
  - apply (F (- K)). destruct (MVT_cor2 (fun u => exp (- K * len u) * phi u) _ 0 t H (fun u _ => DE (- K) u)) as (u & E & _). rewrite Z in E.
    pose proof (exp_pos (- K * len u)). pose proof (Rabs_le_inv _ _ (B u)). assert (0 <= exp (- K * len u) * - (dphi u + - K * v u * phi u) * (t - 0)) by (apply Rmult_le_pos; [apply Rmult_le_pos|]; lra). lra.
Qed.
Section U.
Context (a b : R) (Hab : 0 < b <= a).
Lemma gradient_am P : gradient a b P = am a b P.
Proof. destruct P as [[x y] z]. unfold gradient, am. cbn [xcoord ycoord zcoord]. apply f_equal2; [apply f_equal2|]; field; lra. Qed.
Lemma vel_dot g h t vg vh : velocity g t vg -> velocity h t vh -> derivable_pt_lim (fun u => dot (g u) (h u)) t (dot vg (h t) + dot (g t) vh).
Proof.
  intros (A1 & A2 & A3) (B1 & B2 & B3). unfold dot.
  replace (_ + _) with ((xcoord vg * xcoord (h t) + xcoord (g t) * xcoord vh) + (ycoord vg * ycoord (h t) + ycoord (g t) * ycoord vh) + (zcoord vg * zcoord (h t) + zcoord (g t) * zcoord vh)) by ring.
  apply (derivable_pt_lim_plus (fun u => xcoord (g u) * xcoord (h u) + ycoord (g u) * ycoord (h u)) (fun u => zcoord (g u) * zcoord (h u))).
  - apply (derivable_pt_lim_plus (fun u => xcoord (g u) * xcoord (h u)) (fun u => ycoord (g u) * ycoord (h u))).
    + now apply (derivable_pt_lim_mult (fun u => xcoord (g u)) (fun u => xcoord (h u))).
    + now apply (derivable_pt_lim_mult (fun u => ycoord (g u)) (fun u => ycoord (h u))).
  - now apply (derivable_pt_lim_mult (fun u => zcoord (g u)) (fun u => zcoord (h u))).
Qed.
Lemma vel_am g t v : velocity g t v -> velocity (fun u => am a b (g u)) t (am a b v).
Proof.
  intros (A & B & C). unfold velocity, am. cbn [xcoord ycoord zcoord].
  repeat split; [apply (derivable_pt_lim_scal (fun u => xcoord (g u)))|apply (derivable_pt_lim_scal (fun u => ycoord (g u)))|apply (derivable_pt_lim_scal (fun u => zcoord (g u)))]; assumption.
Qed.
Lemma vel_sub g h t v w : velocity g t v -> velocity h t w -> velocity (fun u => sub3 (g u) (h u)) t (sub3 v w).
Proof.
  intros (A & B & C) (A' & B' & C'). unfold velocity, sub3. cbn [xcoord ycoord zcoord].
  repeat split; [apply (derivable_pt_lim_minus (fun u => xcoord (g u)) (fun u => xcoord (h u)))|apply (derivable_pt_lim_minus (fun u => ycoord (g u)) (fun u => ycoord (h u)))|apply (derivable_pt_lim_minus (fun u => zcoord (g u)) (fun u => zcoord (h u)))]; assumption.
Qed.
Lemma dot_scale k u v : dot (vscale k u) v = k * dot u v.
Proof. destruct u as [[x y] z], v as [[x' y'] z']. unfold dot, vscale. cbn [xcoord ycoord zcoord]. ring. Qed.
Lemma dot_sym u v : dot u v = dot v u.
Proof. unfold dot. ring. Qed.
Lemma dot_sub u v w : dot (sub3 u v) w = dot u w - dot v w.
Proof. unfold dot, sub3. cbn [xcoord ycoord zcoord]. ring. Qed.
Lemma const_deriv (f : R -> R) k t l : (forall u, f u = k) -> derivable_pt_lim f t l -> l = 0.
Proof.
  intros H D. apply (uniqueness_limite f t); [exact D|]. apply is_derive_Reals. apply (is_derive_ext (fun _ => k)); [intros; symmetry; apply H|]. apply is_derive_Reals, derivable_pt_lim_const.
Qed.
(** the direction is tangent, and turns as fast as the surface bends *)
Lemma bend g T len t v k : geodesic a b g T len -> 0 < v -> velocity g t (vscale v (T t)) -> velocity T t (vscale k (gradient a b (g t))) ->
  k * dot (am a b (g t)) (am a b (g t)) = - v * dot (T t) (am a b (T t)).
Proof.
  intros G V0 VG VT.
  assert (TG : forall u, dot (T u) (am a b (g u)) = 0).
  { intros u. destruct (G u) as (_ & _ & (w & W0 & _ & W) & _). pose proof (vel_dot _ _ _ _ _ W (vel_am _ _ _ W)) as D. cbv beta in D.
    apply (const_deriv _ 1) in D; [|intros u'; apply on_dot; [exact Hab|apply G]]. rewrite <- (dot_am a b (g u)), (dot_sym (am a b (g u))) in D. assert (E : 2 * w * dot (T u) (am a b (g u)) = 0).
    { rewrite <- D. rewrite !dot_scale. ring. } apply Rmult_integral in E as [E|E]; lra. }
  pose proof (vel_dot _ _ _ _ _ VT (vel_am _ _ _ VG)) as D. cbv beta in D. apply (const_deriv _ 0) in D; [|exact TG]. rewrite gradient_am, dot_scale in D.
  rewrite <- (dot_am a b (T t)), (dot_sym (am a b (T t))), dot_scale in D. lra.
Qed.
Lemma zero3 u : dot u u = 0 -> xcoord u = 0 /\ ycoord u = 0 /\ zcoord u = 0.
Proof.
  unfold dot. intros H. pose proof (Rle_0_sqr (xcoord u)). pose proof (Rle_0_sqr (ycoord u)). pose proof (Rle_0_sqr (zcoord u)). unfold Rsqr in *. repeat split; apply Rsqr_0_uniq; unfold Rsqr; lra.
Qed.
Lemma sub3_0 u v : dot (sub3 u v) (sub3 u v) = 0 -> u = v.
Proof. intros H. apply zero3 in H. destruct u as [[x y] z], v as [[x' y'] z']. unfold sub3 in H. cbn [xcoord ycoord zcoord] in H. apply f_equal2; [apply f_equal2|]; lra. Qed.
(** two geodesics with the same length function, the same start and the same first direction are the same *)
Lemma geodesic_unique g T h S len : geodesic a b g T len -> geodesic a b h S len -> g 0 = h 0 -> T 0 = S 0 -> forall t, g t = h t /\ T t = S t.
Proof.
  intros G H E0 F0 t. set (phi := fun u => dot (sub3 (g u) (h u)) (sub3 (g u) (h u)) + dot (sub3 (T u) (S u)) (sub3 (T u) (S u))).
  set (K := 2 * (1 + / (b * b) * / (b * b) / / (a * a) + / b * (2 * / (b * b) / / (a * a) + 2 * (/ (b * b) * / (b * b)) * / b / (/ (a * a) * / (a * a))))).
  assert (Z : phi t = 0).
  { assert (X : forall u, exists v dp, derivable_pt_lim len u v /\ derivable_pt_lim phi u dp /\ Rabs dp <= K * v * phi u).
    { intros u. pose proof (G u) as (G1 & G2 & (v & V0 & VL & VG) & (k1 & W1)). pose proof (H u) as (H1 & H2 & (v' & V0' & VL' & VH) & (k2 & W2)).
      assert (v' = v) by (eapply uniqueness_limite; eassumption). subst v'. pose proof (bend _ _ _ _ _ _ G V0 VG W1) as B1. pose proof (bend _ _ _ _ _ _ H V0 VH W2) as B2.
      exists v. eexists. split; [exact VL|]. split.
      - apply (derivable_pt_lim_plus (fun u => dot (sub3 (g u) (h u)) (sub3 (g u) (h u))) (fun u => dot (sub3 (T u) (S u)) (sub3 (T u) (S u)))).
        + apply (vel_dot (fun u => sub3 (g u) (h u)) (fun u => sub3 (g u) (h u))); apply vel_sub; eassumption.
        + apply (vel_dot (fun u => sub3 (T u) (S u)) (fun u => sub3 (T u) (S u))); apply vel_sub; eassumption.
      - rewrite !gradient_am. set (d := sub3 (g u) (h u)). set (e := sub3 (T u) (S u)).
        pose proof (grow a b Hab (g u) (h u) (T u) (S u) (k1 / v) (k2 / v) G1 H1 G2 H2 ltac:(apply (Rmult_eq_reg_l v); [|lra]; transitivity (k1 * dot (am a b (g u)) (am a b (g u))); [field; lra|rewrite B1; ring]) ltac:(apply (Rmult_eq_reg_l v); [|lra]; transitivity (k2 * dot (am a b (h u)) (am a b (h u))); [field; lra|rewrite B2; ring])) as B. fold d e in B.
        match goal with |- Rabs ?X <= _ => replace X with (2 * v * (dot d e + (k1 / v * dot e (am a b (g u)) - k2 / v * dot e (am a b (h u))))) end.
        + rewrite Rabs_mult, (Rabs_right (2 * v)) by lra. unfold K, phi. fold d e. match goal with |- _ * ?L <= 2 * ?C * v * ?P => replace (2 * C * v * P) with (2 * v * (C * P)) by ring end. apply Rmult_le_compat_l; [lra|exact B].
        + rewrite (dot_sym d (sub3 _ _)), (dot_sym e (sub3 _ _)), !dot_sub, !dot_scale. rewrite !(dot_sym _ d), !(dot_sym _ e). unfold e at 1. rewrite (dot_sym d), dot_sub, !(dot_sym _ d). field. lra. }
    apply (gronwall phi (Derive phi) len (Derive len) K).
    - intros u. unfold phi. pose proof (dot_self (sub3 (g u) (h u))). pose proof (dot_self (sub3 (T u) (S u))). lra.
    - unfold phi. rewrite E0, F0. unfold dot, sub3. cbn [xcoord ycoord zcoord]. ring.
    - intros u. destruct (X u) as (v & dp & _ & D & _). apply is_derive_Reals in D. apply is_derive_Reals. apply Derive_correct. now exists dp.
    - intros u. destruct (X u) as (v & dp & D & _ & _). apply is_derive_Reals in D. apply is_derive_Reals. apply Derive_correct. now exists v.
    - intros u. destruct (X u) as (v & dp & D1 & D2 & B). apply is_derive_Reals in D1, D2. rewrite (is_derive_unique _ _ _ D1). rewrite (is_derive_unique _ _ _ D2). exact B. }
  unfold phi in Z. pose proof (dot_self (sub3 (g t) (h t))). pose proof (dot_self (sub3 (T t) (S t))). split; apply sub3_0; lra.
Qed.
(** the inverse of a growing length *)
Lemma inverse_deriv (f tau : R -> R) (F : R -> R) m t v w : 0 < m -> (forall x y, x <= y -> m * (y - x) <= f y - f x) -> (forall u, f (tau u) = F u) ->
  derivable_pt_lim f (tau t) w -> 0 < w -> derivable_pt_lim F t v -> derivable_pt_lim tau t (v / w).
Proof.
  intros Hm G FT DF W0 DV eps He.
  assert (GA : forall x y, m * Rabs (y - x) <= Rabs (f y - f x)).
  { intros x y. destruct (Rle_dec x y) as [L|L].
    - rewrite (Rabs_right (y - x)) by lra. eapply Rle_trans; [apply (G x y L)|apply Rle_abs].
    - rewrite (Rabs_left (y - x)) by lra. rewrite <- Rabs_Ropp. eapply Rle_trans; [|apply Rle_abs]. pose proof (G y x ltac:(lra)). lra. }
  pose proof (Rabs_pos v) as V0. set (n1 := Rmin (w / 2) (eps * w * w / (8 * (Rabs v + 1)))). set (n2 := eps * w / 8).
  assert (N1 : 0 < n1) by (unfold n1; apply Rmin_pos; [lra|]; apply Rdiv_lt_0_compat; [repeat apply Rmult_lt_0_compat; lra|lra]). assert (N2 : 0 < n2) by (unfold n2; apply Rdiv_lt_0_compat; [apply Rmult_lt_0_compat; lra|lra]).
  destruct (DF n1 N1) as [d1 D1]. destruct (DV n2 N2) as [d2 D2].
  set (B := Rabs v + n2). assert (B0 : 0 < B) by (unfold B; lra).
  assert (P3 : 0 < Rmin d2 (m * d1 / B)) by (apply Rmin_pos; [apply cond_pos|]; apply Rdiv_lt_0_compat; [apply Rmult_lt_0_compat; [exact Hm|apply cond_pos]|exact B0]).
  exists (mkposreal _ P3). cbn. intros h H0 Hh. assert (Hd2 : Rabs h < d2) by (eapply Rlt_le_trans; [exact Hh|apply Rmin_l]). assert (Hd1 : Rabs h < m * d1 / B) by (eapply Rlt_le_trans; [exact Hh|apply Rmin_r]).
  specialize (D2 h H0 Hd2). set (k := tau (t + h) - tau t). set (e2 := (F (t + h) - F t) / h - v) in *. assert (EF : F (t + h) - F t = h * (v + e2)) by (unfold e2; field; exact H0).
  assert (Ek : f (tau t + k) - f (tau t) = h * (v + e2)) by (unfold k; replace (tau t + (tau (t + h) - tau t)) with (tau (t + h)) by ring; rewrite !FT; exact EF).
  assert (Kb : m * Rabs k <= Rabs h * B).
  { pose proof (GA (tau t) (tau t + k)) as X. replace (tau t + k - tau t) with k in X by ring. rewrite Ek, Rabs_mult in X. eapply Rle_trans; [exact X|]. apply Rmult_le_compat_l; [apply Rabs_pos|]. unfold B. eapply Rle_trans; [apply Rabs_triang|]. lra. }
  assert (Kd : Rabs k < d1).
  { apply (Rmult_lt_reg_l m); [exact Hm|]. eapply Rle_lt_trans; [exact Kb|]. replace (m * d1) with (m * d1 / B * B) by (field; lra). apply Rmult_lt_compat_r; assumption. }
  assert (W1 : exists e1, Rabs e1 <= n1 /\ k * (w + e1) = h * (v + e2)).
  { destruct (Req_dec k 0) as [Z|Z].
    - exists 0. split; [rewrite Rabs_R0; lra|]. rewrite <- Ek, Z, (Rplus_0_r (tau t)). ring.
    - exists ((f (tau t + k) - f (tau t)) / k - w). split; [left; apply D1; assumption|]. rewrite <- Ek. field. exact Z. }
  destruct W1 as (e1 & E1 & EQ). assert (A1 : Rabs e1 <= w / 2) by (eapply Rle_trans; [exact E1|apply Rmin_l]). assert (A2 : Rabs e1 <= eps * w * w / (8 * (Rabs v + 1))) by (eapply Rle_trans; [exact E1|apply Rmin_r]). pose proof (Rabs_le_inv _ _ A1) as A1'.
  assert (KH : k / h = (v + e2) / (w + e1)) by (apply (Rmult_eq_reg_r (h * (w + e1))); [|apply Rmult_integral_contrapositive; split; [exact H0|lra]]; transitivity (k * (w + e1)); [field; exact H0|]; rewrite EQ; field; lra).
  fold k. rewrite KH. replace ((v + e2) / (w + e1) - v / w) with ((e2 * w - v * e1) * / (w * (w + e1))) by (field; lra). rewrite Rabs_mult.
  assert (I : 0 < / (w * (w + e1)) <= 2 / (w * w)).
  { split; [apply Rinv_0_lt_compat; nra|]. replace (2 / (w * w)) with (/ (w * (w / 2))) by (field; lra). apply Rinv_le_contravar; nra. }
  rewrite (Rabs_right (/ (w * (w + e1)))) by lra. apply (Rle_lt_trans _ ((n2 * w + Rabs v * (eps * w * w / (8 * (Rabs v + 1)))) * (2 / (w * w)))).
  - apply Rmult_le_compat; [apply Rabs_pos|lra| |apply I]. unfold Rminus. eapply Rle_trans; [apply Rabs_triang|]. rewrite Rabs_Ropp, !Rabs_mult, (Rabs_right w) by lra. apply Rplus_le_compat; [apply Rmult_le_compat_r; lra|]. apply Rmult_le_compat_l; assumption.
  - unfold n2. replace ((eps * w / 8 * w + Rabs v * (eps * w * w / (8 * (Rabs v + 1)))) * (2 / (w * w))) with (eps / 4 + eps / 4 * (Rabs v / (Rabs v + 1))) by (field; lra).
    assert (Rabs v / (Rabs v + 1) <= 1) by (apply (Rmult_le_reg_r (Rabs v + 1)); [lra|]; replace (Rabs v / (Rabs v + 1) * (Rabs v + 1)) with (Rabs v) by (field; lra); lra). nra.
Qed.
Lemma vel_comp g tau t v w : velocity g (tau t) v -> derivable_pt_lim tau t w -> velocity (fun u => g (tau u)) t (vscale w v).
Proof.
  intros (A & B & C) D. destruct v as [[x y] z]. unfold velocity, vscale. cbn [xcoord ycoord zcoord] in *. rewrite !(Rmult_comm w).
  repeat split; [apply (derivable_pt_lim_comp tau (fun u => xcoord (g u)))|apply (derivable_pt_lim_comp tau (fun u => ycoord (g u)))|apply (derivable_pt_lim_comp tau (fun u => zcoord (g u)))]; assumption.
Qed.
Lemma vscale_vscale k m u : vscale k (vscale m u) = vscale (k * m) u.
Proof. destruct u as [[x y] z]. unfold vscale. rewrite !Rmult_assoc. reflexivity. Qed.
(** a geodesic at another pace *)
Lemma geodesic_pace h S ln len tau m : 0 < m -> (forall x y, x <= y -> m * (y - x) <= ln y - ln x) -> geodesic a b h S ln -> (forall u, ln (tau u) = len u) ->
  (forall u, exists v, 0 < v /\ derivable_pt_lim len u v) -> geodesic a b (fun u => h (tau u)) (fun u => S (tau u)) len.
Proof.
  intros Hm HG G E L u. destruct (G (tau u)) as (G1 & G2 & (w & W0 & WL & WV) & (k & K)). destruct (L u) as (v & V0 & VL).
  pose proof (inverse_deriv ln tau len m u v w Hm HG E WL W0 VL) as DT. split; [exact G1|]. split; [exact G2|]. split.
  - exists v. split; [exact V0|]. split; [exact VL|]. pose proof (vel_comp _ _ _ _ _ WV DT) as X. rewrite vscale_vscale in X. replace (v / w * w) with v in X by (field; lra). exact X.
  - exists (v / w * k). rewrite <- vscale_vscale. apply vel_comp; assumption.
Qed.
(** every geodesic from the same start in the same direction follows one whose length grows without end *)
Lemma geodesic_follows h S ln g T len t m : 0 < m -> (forall x y, x <= y -> m * (y - x) <= ln y - ln x) -> (forall d, {u | ln u = d}) -> geodesic a b h S ln -> ln 0 = 0 ->
  geodesic a b g T len -> len 0 = 0 -> g 0 = h 0 -> T 0 = S 0 -> forall u, ln u = len t -> g t = h u /\ T t = S u.
Proof.
  intros Hm HG ON H L0 G Z0 E0 F0 u Hu. set (tau := fun v => proj1_sig (ON (len v))). assert (TE : forall v, ln (tau v) = len v) by (intros v; unfold tau; apply (proj2_sig (ON (len v)))).
  assert (INJ : forall x y, ln x = ln y -> x = y).
  { intros x y E. destruct (Rtotal_order x y) as [O|[O|O]]; [|exact O|]; [pose proof (HG x y ltac:(lra))|pose proof (HG y x ltac:(lra))]; nra. }
  assert (T0 : tau 0 = 0) by (apply INJ; rewrite TE, L0; exact Z0). assert (TT : tau t = u) by (apply INJ; rewrite TE; symmetry; exact Hu).
  assert (GP : geodesic a b (fun u => h (tau u)) (fun u => S (tau u)) len).
  { apply (geodesic_pace h S ln len tau m Hm HG H TE). intros v. destruct (G v) as (_ & _ & (w & W0 & WL & _) & _). now exists w. }
  destruct (geodesic_unique g T _ _ len G GP ltac:(cbv beta; rewrite T0; exact E0) ltac:(cbv beta; rewrite T0; exact F0) t) as [A B]. cbv beta in A, B. now rewrite TT in A, B.
Qed.
End U.
