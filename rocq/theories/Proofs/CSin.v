(** Complex sine and cosine: addition formulas and Taylor remainders. *)
From Coq Require Import Reals Lra Lia Psatz.
From Coquelicot Require Import Coquelicot.
From Verif.Num Require Import TModC.
From Verif.Proofs Require Import MathX TMX TMScale.
Local Open Scope R_scope.

Definition csin (z : C) : C := (sin (fst z) * cosh (snd z), cos (fst z) * sinh (snd z)).
Definition ccos (z : C) : C := (cos (fst z) * cosh (snd z), - (sin (fst z) * sinh (snd z))).
Lemma cosh_add x y : cosh (x + y) = cosh x * cosh y + sinh x * sinh y.
Proof. unfold cosh, sinh. replace (- (x + y)) with (- x + - y) by ring. rewrite !exp_plus. field. Qed.
Lemma sinh_add x y : sinh (x + y) = sinh x * cosh y + cosh x * sinh y.
Proof. unfold cosh, sinh. replace (- (x + y)) with (- x + - y) by ring. rewrite !exp_plus. field. Qed.
Ltac cx := apply injective_projections; cbn [fst snd Cplus Cmult Cminus Copp RtoC].
Lemma csin_plus z w : csin (z + w)%C = (csin z * ccos w + ccos z * csin w)%C.
Proof. unfold csin, ccos. cx; rewrite ?sin_plus, ?cos_plus, ?cosh_add, ?sinh_add; ring. Qed.
Lemma ccos_plus z w : ccos (z + w)%C = (ccos z * ccos w - csin z * csin w)%C.
Proof. unfold csin, ccos. cx; rewrite ?sin_plus, ?cos_plus, ?cosh_add, ?sinh_add; ring. Qed.
Lemma csc2 z : (csin z * csin z = 1 - ccos z * ccos z)%C.
Proof.
  unfold csin, ccos. pose proof (sin2_cos2 (fst z)) as Q. unfold Rsqr in Q. pose proof (cosh_sq (snd z)) as H. cx; [|ring].
  assert (E : sin (fst z) * sin (fst z) = 1 - cos (fst z) * cos (fst z)) by lra.
  transitivity (sin (fst z) * sin (fst z) * (cosh (snd z) * cosh (snd z)) - cos (fst z) * cos (fst z) * (sinh (snd z) * sinh (snd z))); [ring|].
  transitivity (1 - (cos (fst z) * cos (fst z) * (cosh (snd z) * cosh (snd z)) - sin (fst z) * sin (fst z) * (sinh (snd z) * sinh (snd z)))); [|ring]. rewrite E, H. ring.
Qed.
Lemma cmod_le (z : C) k : 0 <= k -> fst z * fst z + snd z * snd z <= k * k -> Cmod z <= k.
Proof. intros K H. unfold Cmod. rewrite <- (sqrt_Rsqr k K). apply sqrt_le_1_alt. unfold Rsqr. cbn [pow]. lra. Qed.
Lemma cmod_sq (z : C) : Cmod z * Cmod z = fst z * fst z + snd z * snd z.
Proof. unfold Cmod. rewrite sqrt_sqrt; [ring|]. cbn [pow]. nra. Qed.
Lemma csin_mod z : Cmod (csin z) <= cosh (snd z).
Proof.
  pose proof (cosh_ge_1 (snd z)) as G. apply cmod_le; [lra|]. unfold csin. cbn [fst snd]. pose proof (sin2_cos2 (fst z)) as Q. unfold Rsqr in Q. pose proof (cosh_sq (snd z)) as H.
  replace (sin (fst z) * cosh (snd z) * (sin (fst z) * cosh (snd z)) + cos (fst z) * sinh (snd z) * (cos (fst z) * sinh (snd z))) with (sin (fst z) * sin (fst z) * (cosh (snd z) * cosh (snd z)) + cos (fst z) * cos (fst z) * (sinh (snd z) * sinh (snd z))) by ring. nra.
Qed.
Lemma ccos_mod z : Cmod (ccos z) <= cosh (snd z).
Proof.
  pose proof (cosh_ge_1 (snd z)) as G. apply cmod_le; [lra|]. unfold ccos. cbn [fst snd]. pose proof (sin2_cos2 (fst z)) as Q. unfold Rsqr in Q. pose proof (cosh_sq (snd z)) as H.
  replace (cos (fst z) * cosh (snd z) * (cos (fst z) * cosh (snd z)) + - (sin (fst z) * sinh (snd z)) * - (sin (fst z) * sinh (snd z))) with (cos (fst z) * cos (fst z) * (cosh (snd z) * cosh (snd z)) + sin (fst z) * sin (fst z) * (sinh (snd z) * sinh (snd z))) by ring. nra.
Qed.

(** ** Growth along a ray *)
Definition cderiv (f : R -> C) (t : R) (v : C) : Prop := is_derive (fun t => fst (f t)) t (fst v) /\ is_derive (fun t => snd (f t)) t (snd v).
Lemma lin_d (f1 f2 : R -> R) u v M K m s d1 d2 : is_derive f1 s d1 -> is_derive f2 s d2 ->
  is_derive (fun s => u * f1 s + v * f2 s - M * (K * s ^ S m)) s (u * d1 + v * d2 - M * (K * (INR (S m) * s ^ m))).
Proof.
  intros D1 D2. auto_derive; [repeat split; [now exists d1|now exists d2]|]. rewrite (is_derive_unique (fun x : R => f1 x) _ _ D1), (is_derive_unique (fun x : R => f2 x) _ _ D2). cbn [Init.Nat.pred]. change (match m with O => 1 | S _ => INR m + 1 end) with (INR (S m)). match goal with |- ?a = ?b => change (a = b :> R) end. ring.
Qed.
Lemma cgrow (f g : R -> C) K m : f 0 = RtoC 0 -> (forall t, 0 <= t <= 1 -> cderiv f t (g t)) -> (forall t, 0 <= t <= 1 -> Cmod (g t) <= K * t ^ m) ->
  forall t, 0 <= t <= 1 -> Cmod (f t) <= K / INR (S m) * t ^ S m.
Proof.
  intros F0 D B t Ht. assert (SN : 0 < INR (S m)) by (apply lt_0_INR; lia).
  assert (K0 : 0 <= K) by (pose proof (B 1 ltac:(lra)) as H; rewrite pow1 in H; pose proof (Cmod_ge_0 (g 1)); lra).
  set (u := fst (f t)). set (v := snd (f t)). set (M := Cmod (f t)). pose proof (Cmod_ge_0 (f t)) as M0. fold M in M0. pose proof (cmod_sq (f t)) as MM. fold M u v in MM.
  set (R0 := K / INR (S m)). assert (R00 : 0 <= R0) by (apply Rdiv_le_0_compat; lra). assert (T0 : 0 <= t ^ S m) by (apply pow_le; lra).
  set (ph := fun s => u * fst (f s) + v * snd (f s) - M * (R0 * s ^ S m)). set (ph' := fun s => u * fst (g s) + v * snd (g s) - M * (K * s ^ m)).
  assert (DD : forall s, 0 <= s <= 1 -> is_derive ph s (ph' s)).
  { intros s Hs. destruct (D s Hs) as [D1 D2]. unfold ph, ph'. replace (M * (K * s ^ m)) with (M * (R0 * (INR (S m) * s ^ m))) by (unfold R0; field; lra).
    exact (lin_d (fun t => fst (f t)) (fun t => snd (f t)) u v M R0 m s _ _ D1 D2). }
  assert (NEG : forall s, 0 <= s <= 1 -> ph' s <= 0).
  { intros s Hs. unfold ph'. pose proof (B s Hs) as Bs. pose proof (cmod_sq (g s)) as GG. pose proof (Cmod_ge_0 (g s)) as G0. set (x := fst (g s)) in *. set (y := snd (g s)) in *. set (G := Cmod (g s)) in *.
    assert (CS : u * x + v * y <= M * G). { apply Rsqr_incr_0_var; [|now apply Rmult_le_pos]. unfold Rsqr. replace (M * G * (M * G)) with (M * M * (G * G)) by ring. rewrite MM, GG. assert (0 <= (u * y - v * x) * (u * y - v * x)) by apply Rle_0_sqr. lra. }
    assert (M * G <= M * (K * s ^ m)) by now apply Rmult_le_compat_l. lra. }
  assert (P0 : ph 0 = 0) by (unfold ph; rewrite F0; cbn [fst snd RtoC pow]; ring).
  assert (PT : ph t <= 0).
  { destruct (MVT_gen ph 0 t ph') as (c & Hc & E).
    - intros s Hs. rewrite Rmin_left, Rmax_right in Hs by lra. apply DD. lra.
    - intros s Hs. rewrite Rmin_left, Rmax_right in Hs by lra. apply continuity_pt_filterlim. apply (ex_derive_continuous (V := R_NormedModule)). exists (ph' s). apply DD. lra.
    - rewrite Rmin_left, Rmax_right in Hc by lra. pose proof (NEG c ltac:(lra)). rewrite P0 in E. nra. }
  unfold ph in PT. fold u v in PT. rewrite <- MM in PT. destruct (Req_dec M 0) as [Z|Z]; [rewrite Z; apply Rmult_le_pos; assumption|]. apply (Rmult_le_reg_l M); lra.
Qed.
Lemma ray_eq (f : R -> R -> R) th t v : is_derive (fun t => f (t * fst th) (t * snd th)) t v -> is_derive (fun t => f (fst (RtoC t * th)%C) (snd (RtoC t * th)%C)) t v.
Proof. apply is_derive_ext. intros s. cbn [fst snd Cmult RtoC]. rewrite !Rmult_0_l, Rminus_0_r, Rplus_0_r. reflexivity. Qed.
Lemma csin_ray th t : cderiv (fun t => csin (RtoC t * th)%C) t (th * ccos (RtoC t * th))%C.
Proof.
  split; [apply (ray_eq (fun x y => sin x * cosh y))|apply (ray_eq (fun x y => cos x * sinh y))]; unfold ccos; cbn [fst snd Cmult RtoC]; rewrite ?Rmult_0_l, ?Rminus_0_r, ?Rplus_0_r; auto_derive; trivial; match goal with |- ?a = ?b => change (a = b :> R) end; ring.
Qed.
Lemma ccos_ray th t : cderiv (fun t => ccos (RtoC t * th)%C) t (th * - csin (RtoC t * th))%C.
Proof.
  split; [apply (ray_eq (fun x y => cos x * cosh y))|apply (ray_eq (fun x y => - (sin x * sinh y)))]; unfold csin; cbn [fst snd Cmult Copp RtoC]; rewrite ?Rmult_0_l, ?Rminus_0_r, ?Rplus_0_r; auto_derive; trivial; match goal with |- ?a = ?b => change (a = b :> R) end; ring.
Qed.
Section Taylor.
Context (th : C) (Hth : Cmod th <= / 10).
Let w := Cmod th.
Let S0 t := csin (RtoC t * th)%C.
Let C0 t := ccos (RtoC t * th)%C.
Lemma ray_mod t : 0 <= t <= 1 -> cosh (snd (RtoC t * th)%C) <= 6 / 5.
Proof.
  intros Ht. cbn [Cmult snd RtoC fst]. pose proof (cmod_sq th) as Q. pose proof (Cmod_ge_0 th) as G. assert (SB : Rabs (snd th) <= / 10).
  { apply Rsqr_le_abs_0 in Hth || idtac. apply Rabs_le. assert (snd th * snd th <= / 100) by nra. split; nra. }
  set (y := t * snd th + 0 * fst th). assert (Y : Rabs y <= / 10). { unfold y. rewrite Rmult_0_l, Rplus_0_r, Rabs_mult, (Rabs_right t) by lra. pose proof (Rabs_pos (snd th)). nra. }
  assert (E : cosh y = cosh (Rabs y)) by (destruct (Rcase_abs y) as [L|L]; [rewrite Rabs_left by exact L; now rewrite cosh_opp|now rewrite Rabs_right]).
  rewrite E. pose proof (Rabs_pos y). pose proof (cosh_small (Rabs y) ltac:(lra)) as B. cbn [pow] in B. lra.
Qed.
Lemma t0 : forall t, 0 <= t <= 1 -> Cmod (S0 t) <= 6 / 5 * w * t.
Proof.
  intros t Ht. pose proof (Cmod_ge_0 th) as W. replace (6 / 5 * w * t) with (6 / 5 * w / INR 1 * t ^ 1) by (cbn [INR pow]; field).
  apply (cgrow S0 (fun t => th * C0 t)%C (6 / 5 * w) 0); [|intros s _; apply csin_ray| |exact Ht].
  - unfold S0, csin. cx; rewrite ?Rmult_0_l, ?Rminus_0_r, ?Rplus_0_r, ?sin_0, ?sinh_0'; ring.
  - intros s Hs. rewrite Cmod_mult. cbn [pow]. pose proof (ccos_mod (RtoC s * th)%C). pose proof (ray_mod s Hs). fold (C0 s) in *. fold w. assert (Cmod (C0 s) <= 6 / 5) by lra. fold w in W. nra.
Qed.
Lemma cd_sub (f g : R -> C) t u v : cderiv f t u -> cderiv g t v -> cderiv (fun t => f t - g t)%C t (u - v)%C.
Proof. intros [A B] [A' B']. split; cbn [fst snd Cminus Cplus Copp]; apply (is_derive_minus (V := R_NormedModule)); assumption. Qed.
Lemma cd_add (f g : R -> C) t u v : cderiv f t u -> cderiv g t v -> cderiv (fun t => f t + g t)%C t (u + v)%C.
Proof. intros [A B] [A' B']. split; cbn [fst snd Cplus]; apply (is_derive_plus (V := R_NormedModule)); assumption. Qed.
Lemma pow_dd m x t : is_derive (fun t => t ^ S m * x) t (INR (S m) * t ^ m * x).
Proof. auto_derive; trivial. cbn [Init.Nat.pred]. change (match m with O => 1 | S _ => INR m + 1 end) with (INR (S m)). match goal with |- ?a = ?b => change (a = b :> R) end. ring. Qed.
Lemma cd_pow (k : C) m t : cderiv (fun t => RtoC (t ^ S m) * k)%C t (RtoC (INR (S m) * t ^ m) * k)%C.
Proof.
  split.
  - replace (fst _) with (INR (S m) * t ^ m * fst k) by (cbn [fst Cmult RtoC snd]; ring). apply (is_derive_ext (fun t => t ^ S m * fst k)); [|apply pow_dd]. intros s. cbn [fst Cmult RtoC snd]. match goal with |- ?a = ?b => change (a = b :> R) end. ring.
  - replace (snd _) with (INR (S m) * t ^ m * snd k) by (cbn [fst Cmult RtoC snd]; ring). apply (is_derive_ext (fun t => t ^ S m * snd k)); [|apply pow_dd]. intros s. cbn [fst Cmult RtoC snd]. match goal with |- ?a = ?b => change (a = b :> R) end. ring.
Qed.
Lemma cd_con (k : C) t : cderiv (fun _ => k) t (RtoC 0).
Proof. split; cbn [fst snd RtoC]; apply (is_derive_const (V := R_NormedModule)). Qed.
(** one more integration *)
Lemma step (f g : R -> C) K m : f 0 = RtoC 0 -> (forall t, 0 <= t <= 1 -> cderiv f t (th * g t)%C) -> (forall t, 0 <= t <= 1 -> Cmod (g t) <= K * t ^ m) ->
  forall t, 0 <= t <= 1 -> Cmod (f t) <= w * K / INR (S m) * t ^ S m.
Proof.
  intros F D B. apply (cgrow f (fun t => th * g t)%C (w * K) m F D). intros t Ht. rewrite Cmod_mult. fold w. rewrite Rmult_assoc. apply Rmult_le_compat_l; [apply Cmod_ge_0|now apply B].
Qed.
Let p1 t := (RtoC (t ^ 1) * th)%C.
Let p2 t := (RtoC (t ^ 2) * (th * th * RtoC (/ 2)))%C.
Let p3 t := (RtoC (t ^ 3) * (th * th * th * RtoC (/ 6)))%C.
Let p4 t := (RtoC (t ^ 4) * (th * th * th * th * RtoC (/ 24)))%C.
Lemma cd_eq (f : R -> C) t u v : u = v -> cderiv f t u -> cderiv f t v. Proof. now intros ->. Qed.
Lemma RtoC_inj' x y : x = y -> RtoC x = RtoC y. Proof. now intros ->. Qed.
Ltac zero := unfold p1, p2, p3, p4, S0, C0, csin, ccos; cx; cbn [fst snd Cmult RtoC pow]; rewrite ?Rmult_0_l, ?Rminus_0_r, ?Rplus_0_r, ?sin_0, ?cos_0, ?sinh_0', ?cosh_0; ring.
Ltac pc := unfold p1, p2, p3, p4; cx; cbn [INR pow]; field.
Lemma t1 : forall t, 0 <= t <= 1 -> Cmod (C0 t - 1)%C <= w * (6 / 5 * w) / 2 * t ^ 2.
Proof.
  intros t Ht. replace 2 with (INR 2) by (cbn [INR]; ring). apply (step (fun t => C0 t - 1)%C (fun t => - S0 t)%C); [zero| | |exact Ht].
  - intros s _. apply (cd_eq _ _ (th * - S0 s - RtoC 0)%C); [ring|]. apply cd_sub; [apply ccos_ray|apply cd_con].
  - intros s Hs. rewrite Cmod_opp, pow_1. now apply t0.
Qed.
Lemma t2 : forall t, 0 <= t <= 1 -> Cmod (S0 t - p1 t)%C <= w * (w * (6 / 5 * w) / 2) / 3 * t ^ 3.
Proof.
  intros t Ht. replace 3 with (INR 3) by (cbn [INR]; ring). apply (step (fun t => S0 t - p1 t)%C (fun t => C0 t - 1)%C); [zero| |apply t1|exact Ht].
  intros s _. apply (cd_eq _ _ (th * C0 s - RtoC (INR 1 * s ^ 0) * th)%C); [pc|]. apply cd_sub; [apply csin_ray|apply cd_pow].
Qed.
Lemma t3 : forall t, 0 <= t <= 1 -> Cmod (C0 t - 1 + p2 t)%C <= w * (w * (w * (6 / 5 * w) / 2) / 3) / 4 * t ^ 4.
Proof.
  intros t Ht. replace 4 with (INR 4) by (cbn [INR]; ring). apply (step (fun t => C0 t - 1 + p2 t)%C (fun t => - (S0 t - p1 t))%C); [zero| | |exact Ht].
  - intros s _. apply (cd_eq _ _ (th * - S0 s - RtoC 0 + RtoC (INR 2 * s ^ 1) * (th * th * RtoC (/ 2)))%C); [pc|]. apply cd_add; [apply cd_sub; [apply ccos_ray|apply cd_con]|apply cd_pow].
  - intros s Hs. rewrite Cmod_opp. now apply t2.
Qed.
Lemma t4 : forall t, 0 <= t <= 1 -> Cmod (S0 t - p1 t + p3 t)%C <= w * (w * (w * (w * (6 / 5 * w) / 2) / 3) / 4) / 5 * t ^ 5.
Proof.
  intros t Ht. replace 5 with (INR 5) at 2 by (cbn [INR]; ring). apply (step (fun t => S0 t - p1 t + p3 t)%C (fun t => C0 t - 1 + p2 t)%C); [zero| |apply t3|exact Ht].
  intros s _. apply (cd_eq _ _ (th * C0 s - RtoC (INR 1 * s ^ 0) * th + RtoC (INR 3 * s ^ 2) * (th * th * th * RtoC (/ 6)))%C); [pc|]. apply cd_add; [apply cd_sub; [apply csin_ray|apply cd_pow]|apply cd_pow].
Qed.
Lemma t5 : forall t, 0 <= t <= 1 -> Cmod (C0 t - 1 + p2 t - p4 t)%C <= w * (w * (w * (w * (w * (6 / 5 * w) / 2) / 3) / 4) / 5) / 6 * t ^ 6.
Proof.
  intros t Ht. replace 6 with (INR 6) at 2 by (cbn [INR]; ring). apply (step (fun t => C0 t - 1 + p2 t - p4 t)%C (fun t => - (S0 t - p1 t + p3 t))%C); [zero| | |exact Ht].
  - intros s _. apply (cd_eq _ _ (th * - S0 s - RtoC 0 + RtoC (INR 2 * s ^ 1) * (th * th * RtoC (/ 2)) - RtoC (INR 4 * s ^ 3) * (th * th * th * th * RtoC (/ 24)))%C); [pc|].
    apply cd_sub; [apply cd_add; [apply cd_sub; [apply ccos_ray|apply cd_con]|apply cd_pow]|apply cd_pow].
  - intros s Hs. rewrite Cmod_opp. now apply t4.
Qed.
Lemma cmultiple (x y : C) k : 0 <= k -> Cmod x <= k * Cmod y -> exists r, Cmod r <= k /\ x = (y * r)%C.
Proof.
  intros K H. destruct (Req_dec (Cmod y) 0) as [Z|Z].
  - exists (RtoC 0). rewrite Cmod_0. split; [exact K|]. rewrite Z, Rmult_0_r in H. pose proof (Cmod_ge_0 x). rewrite (Cmod_eq_0 x) by lra. ring.
  - assert (y <> RtoC 0) by (intros ->; apply Z, Cmod_0). exists (x / y)%C. split; [|field; assumption]. rewrite Cmod_div by assumption. pose proof (Cmod_ge_0 y). apply (Rmult_le_reg_r (Cmod y)); [lra|]. unfold Rdiv. rewrite Rmult_assoc, Rinv_l by exact Z. lra.
Qed.
Lemma ctaylor : exists r s, Cmod r <= / 100 /\ Cmod s <= / 600 /\
  csin th = (th * (1 - th * th * RtoC (/ 6) + th * th * (th * th) * r))%C /\
  ccos th = (1 - th * th * RtoC (/ 2) + th * th * (th * th) * RtoC (/ 24) + th * th * (th * th) * (th * th) * s)%C.
Proof.
  pose proof (t4 1 ltac:(lra)) as A. pose proof (t5 1 ltac:(lra)) as B. rewrite pow1, Rmult_1_r in A, B. unfold S0, C0, p1, p2, p3, p4 in A, B. rewrite !pow1, !Cmult_1_l in A, B. rewrite ?Cmult_1_l in B.
  destruct (cmultiple (csin th - th + th * th * th * RtoC (/ 6))%C (th * (th * th * (th * th)))%C (/ 100) ltac:(lra)) as (r & R1 & R2).
  { rewrite !Cmod_mult. fold w. eapply Rle_trans; [exact A|]. right. field. }
  destruct (cmultiple (ccos th - 1 + th * th * RtoC (/ 2) - th * th * th * th * RtoC (/ 24))%C (th * th * (th * th) * (th * th))%C (/ 600) ltac:(lra)) as (s & S1 & S2).
  { rewrite !Cmod_mult. fold w. eapply Rle_trans; [exact B|]. right. field. }
  exists r, s. split; [exact R1|]. split; [exact S1|]. split.
  - replace (csin th) with (csin th - th + th * th * th * RtoC (/ 6) + th - th * th * th * RtoC (/ 6))%C by ring. rewrite R2. ring.
  - replace (ccos th) with (ccos th - 1 + th * th * RtoC (/ 2) - th * th * th * th * RtoC (/ 24) + 1 - th * th * RtoC (/ 2) + th * th * th * th * RtoC (/ 24))%C by ring. rewrite S2. ring.
Qed.
End Taylor.
