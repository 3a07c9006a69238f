(** Polynomials, Clenshaw summation, complex numbers, iteration. *)
From Coq Require Import Reals Lra Lia ZArith Bool List Psatz.
From Flocq Require Import Core IEEE754.BinarySingleNaN.
From Verif.Num Require Import FOps RFun XR XRLemmas F64 F64Lemmas.
From Verif.Model Require Import Fp Quantities Complex.
From Verif.Spec Require Import Series Iteration.
From Verif.Proofs Require Import AnglesX.
Import ListNotations.
Local Open Scope R_scope.

(** ** Sums *)
Lemma Rsum_ext n f g : (forall i, (i < n)%nat -> f i = g i) -> Rsum n f = Rsum n g.
Proof.
  induction n as [|n IH]; intros H; simpl; [easy|].
  rewrite IH; [|intros; apply H; lia]. rewrite H by lia. easy.
Qed.
Lemma Rsum_shift n f : Rsum (S n) f = f O + Rsum n (fun i => f (S i)).
Proof. induction n as [|n IH]; [simpl; ring|]. cbn [Rsum] in *. rewrite IH. ring. Qed.
Lemma Rsum_scal n k f : Rsum n (fun i => k * f i) = k * Rsum n f.
Proof. induction n as [|n IH]; simpl; [ring|]. rewrite IH. ring. Qed.
Lemma Rsum_plus n f g : Rsum n (fun i => f i + g i) = Rsum n f + Rsum n g.
Proof. induction n as [|n IH]; simpl; [ring|]. rewrite IH. ring. Qed.

(** ** Polynomials *)
Lemma fold_rev {A B : Type} (f : A -> B -> A) (l : list B) (i : A) :
  fold_left f (rev l) i = fold_right (fun y x => f x y) i l.
Proof. now rewrite <- fold_left_rev_right, rev_involutive. Qed.
Lemma polynomial_cons a c x : polynomial (a :: c) x = a + x * polynomial c x.
Proof.
  unfold polynomial. cbn [length]. rewrite Rsum_shift. cbn [nth pow].
  rewrite <- Rsum_scal. f_equal; [ring|]. apply Rsum_ext. intros. cbn [nth pow]. ring.
Qed.
Lemma poly_eval_fin c x : poly_eval (map Fin c) (Fin x) = Fin (polynomial c x).
Proof.
  unfold poly_eval, eval_at. rewrite fold_rev.
  induction c as [|a c IH]; [reflexivity|].
  cbn [map fold_right]. rewrite IH. xr. rewrite polynomial_cons. f_equal. ring.
Qed.
Lemma fast_eval_fin c x : fast_eval_at (map Fin c) (Fin x) = Fin (polynomial c x).
Proof.
  unfold fast_eval_at. rewrite fold_rev.
  induction c as [|a c IH]; [reflexivity|].
  cbn [map fold_right]. rewrite IH. xr. rewrite polynomial_cons. f_equal. ring.
Qed.

Lemma complex_polynomial_cons a c z : complex_polynomial (a :: c) z =
  (fst (c2mul z (complex_polynomial c z)) + a, snd (c2mul z (complex_polynomial c z))).
Proof.
  unfold complex_polynomial. cbn [length]. rewrite !Rsum_shift. cbn [nth c2pow fst snd].
  unfold c2mul at 3 4. cbn [fst snd]. f_equal.
  - rewrite <- !Rsum_scal. unfold Rminus.
    replace (- Rsum (length c) (fun i => snd z * (nth i c 0 * snd (c2pow z i))))
      with (Rsum (length c) (fun i => (-1) * (snd z * (nth i c 0 * snd (c2pow z i)))))
      by (rewrite Rsum_scal; ring).
    rewrite <- Rsum_plus, Rmult_1_r, Rplus_comm. f_equal. apply Rsum_ext. intros.
    unfold c2mul; cbn [fst snd]; ring.
  - rewrite <- !Rsum_scal, <- Rsum_plus, Rmult_0_r, Rplus_0_l. apply Rsum_ext. intros.
    unfold c2mul; cbn [fst snd]; ring.
Qed.
Lemma cmul_cx z w : cmul (cx z) (cx w) = cx (c2mul z w).
Proof. reflexivity. Qed.
Lemma poly_eval_c_fin c z : poly_eval_c (map Fin c) (cx z) = cx (complex_polynomial c z).
Proof.
  unfold poly_eval_c, eval_at.
  rewrite fold_rev.
  induction c as [|a c IH]; [reflexivity|].
  cbn [map fold_right]. rewrite IH, complex_polynomial_cons. reflexivity.
Qed.

(** ** Clenshaw *)
Lemma clenshaw_inv x c : exists y2 y1 y,
  fold_right (fun ck st => clenshaw_step (Fin (2 * cos x)) (Fin (- (1))) st ck)
    (Fin 0, Fin 0, Fin 0) (map Fin c) = (Fin y2, Fin y1, Fin y) /\
  forall m : R, Rsum (length c) (fun k => nth k c 0 * sin ((m + INR k) * x))
    = y * sin (m * x) - y1 * sin ((m - 1) * x).
Proof.
  induction c as [|a c (y2 & y1 & y & E & IH)].
  - exists 0, 0, 0. split; [reflexivity|]. intros m. simpl. ring.
  - cbn [map fold_right]. rewrite E. unfold clenshaw_step. xr.
    exists y1, y, (2 * cos x * y + - (1) * y1 + a). split; [reflexivity|].
    intros m. cbn [length]. rewrite Rsum_shift. cbn [nth]. simpl (INR 0). rewrite Rplus_0_r.
    rewrite (Rsum_ext _ _ (fun k => nth k c 0 * sin ((m + 1 + INR k) * x))).
    2:{ intros i _. rewrite S_INR. f_equal. f_equal. ring. }
    rewrite IH.
    replace ((m + 1 - 1) * x) with (m * x) by ring.
    replace ((m + 1) * x) with (m * x + x) by ring.
    replace ((m - 1) * x) with (m * x - x) by ring.
    rewrite sin_plus, sin_minus. ring.
Qed.
Lemma clenshaw_fin c x : clenshaw_sin_sum (map Fin c) (Fin x) = Fin (sine_series c x).
Proof.
  unfold clenshaw_sin_sum. xr.
  rewrite fold_rev.
  destruct (clenshaw_inv x c) as (y2 & y1 & y & E & H). rewrite E. xr. f_equal.
  unfold sine_series.
  rewrite (Rsum_ext _ _ (fun k => nth k c 0 * sin ((0 + INR k) * x))).
  2:{ intros i _. now rewrite Rplus_0_l. }
  rewrite H, Rmult_0_l, sin_0. replace ((0 - 1) * x) with (- x) by ring.
  rewrite sin_neg. ring.
Qed.

(** ** Complex numbers *)
Lemma cx_eta (z : C2) : z = (fst z, snd z). Proof. now destruct z. Qed.
Ltac cxs := unfold cx, cadd, csub, cmul, conj, cadd_f, csub_f, cmul_f, czero; cbn [re im fst snd]; xr.
Lemma C_ring (z w u : C2) :
  cadd (cx z) (cx w) = cadd (cx w) (cx z) /\
  cadd (cx z) (cadd (cx w) (cx u)) = cadd (cadd (cx z) (cx w)) (cx u) /\
  cadd (cx z) czero = cx z /\
  csub (cx z) (cx z) = czero /\
  cadd (csub (cx z) (cx w)) (cx w) = cx z /\
  cmul (cx z) (cx w) = cmul (cx w) (cx z) /\
  cmul (cx z) (cmul (cx w) (cx u)) = cmul (cmul (cx z) (cx w)) (cx u) /\
  cmul (cx z) (cx (1, 0)) = cx z /\
  cmul (cx z) (cadd (cx w) (cx u)) = cadd (cmul (cx z) (cx w)) (cmul (cx z) (cx u)) /\
  cmul (cx (0, 1)) (cx (0, 1)) = cx (-1, 0).
Proof.
  destruct z as [a b], w as [c d], u as [e f].
  cxs. repeat split; f_equal; f_equal; ring.
Qed.
Lemma C_conj (z w : C2) :
  conj (conj (cx z)) = cx z /\
  conj (cmul (cx z) (cx w)) = cmul (conj (cx z)) (conj (cx w)) /\
  conj (cadd (cx z) (cx w)) = cadd (conj (cx z)) (conj (cx w)) /\
  cmul (cx z) (conj (cx z)) = mkC (abs_sq (cx z)) (Fin 0).
Proof.
  destruct z as [a b], w as [c d]. unfold abs_sq.
  cxs. repeat split; f_equal; f_equal; ring.
Qed.
Lemma C_scalar (z : C2) (x : R) :
  cadd_f (cx z) (Fin x) = cadd (cx z) (cx (x, 0)) /\
  csub_f (cx z) (Fin x) = csub (cx z) (cx (x, 0)) /\
  cmul_f (cx z) (Fin x) = cmul (cx z) (cx (x, 0)) /\
  (x <> 0 -> cmul_f (cdiv_f (cx z) (Fin x)) (Fin x) = cx z).
Proof.
  destruct z as [a b]. cxs. repeat split; try (f_equal; f_equal; ring).
  intros Hx. unfold cdiv_f. cbn [re im]. xr. rewrite !xdiv_fin by easy. cbn [re im]. xr.
  f_equal; f_equal; field; easy.
Qed.
Lemma is_zero_cx z : is_zero (cx z) = true <-> z = (0, 0).
Proof.
  destruct z as [a b]. unfold is_zero, cx. cbn [re im fst snd]. xr.
  rewrite andb_true_iff. split.
  - intros [H1 H2]. destruct (Req_bool_spec a 0); [|discriminate].
    destruct (Req_bool_spec b 0); [|discriminate]. now subst.
  - intros [= -> ->]. rewrite Req_bool_t by lra. easy.
Qed.
Lemma cinv_cx z : z <> (0, 0) ->
  cinv (cx z) = Ok (cx (fst z / (fst z * fst z + snd z * snd z),
                        - snd z / (fst z * fst z + snd z * snd z))).
Proof.
  intros Hz. unfold cinv. destruct (is_zero (cx z)) eqn:E.
  { exfalso. now apply Hz, is_zero_cx. }
  destruct z as [a b].
  assert (a * a + b * b <> 0).
  { intros H. apply Hz. f_equal; nra. }
  unfold cdiv_f, conj, abs_sq, cx. cbn [re im fst snd]. xr.
  now rewrite !xdiv_fin by easy.
Qed.
Lemma C_inverse (z : C2) :
  (z = (0, 0) -> cinv (cx z) = Err tt) /\
  (z <> (0, 0) -> exists w, cinv (cx z) = Ok (cx w) /\ cmul (cx z) (cx w) = cx (1, 0)).
Proof.
  split.
  - intros ->. unfold cinv. now rewrite (proj2 (is_zero_cx (0, 0)) eq_refl).
  - intros Hz. rewrite cinv_cx by easy. eexists. split; [reflexivity|].
    rewrite cmul_cx. destruct z as [a b]. unfold c2mul. cbn [fst snd].
    assert (a * a + b * b <> 0).
    { intros H. apply Hz. f_equal; nra. }
    f_equal. f_equal; field; easy.
Qed.
Lemma C_division (z w : C2) :
  (w = (0, 0) -> cdiv (cx z) (cx w) = Err tt) /\
  (w <> (0, 0) -> exists q, cdiv (cx z) (cx w) = Ok (cx q) /\ cmul (cx q) (cx w) = cx z).
Proof.
  unfold cdiv. destruct (C_inverse w) as [H1 H2]. split.
  - intros E. now rewrite (H1 E).
  - intros E. destruct (H2 E) as (i & -> & Hi). exists (c2mul z i).
    split; [now rewrite cmul_cx|].
    rewrite <- cmul_cx.
    destruct (C_ring z i w) as (_ & _ & _ & _ & _ & _ & A & _). rewrite <- A.
    destruct (C_ring w i (0,0)) as (_ & _ & _ & _ & _ & B & _). rewrite <- B, Hi.
    now destruct (C_ring z (0,0) (0,0)) as (_ & _ & _ & _ & _ & _ & _ & D & _).
Qed.
Lemma cabs_cx z : cabs (cx z) = Fin (Rhypot (fst z) (snd z)).
Proof. reflexivity. Qed.
Lemma carg_cx z : carg (cx z) = Fin (Ratan2 (snd z) (fst z)).
Proof. unfold carg. rewrite angle_new_RAD. reflexivity. Qed.
Lemma C_modulus (z w : C2) : exists r s,
  cabs (cx z) = Fin r /\ cabs (cx w) = Fin s /\ 0 <= r /\ (r = 0 <-> z = (0, 0)) /\
  cabs (cmul (cx z) (cx w)) = Fin (r * s) /\ abs_sq (cx z) = Fin (r * r).
Proof.
  exists (Rhypot (fst z) (snd z)), (Rhypot (fst w) (snd w)).
  rewrite cmul_cx, !cabs_cx. split; [easy|]. split; [easy|].
  split; [apply Rhypot_ge_0|]. split.
  { destruct z as [a b]. cbn [fst snd]. split.
    - intros H. apply Rhypot_eq_0 in H. f_equal; easy.
    - intros [= -> ->]. unfold Rhypot. rewrite Rmult_0_l, Rplus_0_l. apply sqrt_0. }
  split.
  - f_equal. apply Rhypot_unique.
    + apply Rmult_le_pos; apply Rhypot_ge_0.
    + replace (_ * _ * (_ * _)) with
        ((Rhypot (fst z) (snd z) * Rhypot (fst z) (snd z)) *
         (Rhypot (fst w) (snd w) * Rhypot (fst w) (snd w))) by ring.
      rewrite !Rhypot_sq. unfold c2mul. cbn [fst snd]. ring.
  - rewrite Rhypot_sq. unfold abs_sq, cx. cbn [re im]. now xr.
Qed.
Lemma C_polar (z : C2) : exists r t,
  cabs (cx z) = Fin r /\ carg (cx z) = Fin t /\ - PI < t <= PI /\ z = (r * cos t, r * sin t).
Proof.
  exists (Rhypot (fst z) (snd z)), (Ratan2 (snd z) (fst z)).
  rewrite cabs_cx, carg_cx. split; [easy|]. split; [easy|]. split; [apply Ratan2_bound|].
  destruct (Ratan2_spec (snd z) (fst z)) as [-> ->]. apply cx_eta.
Qed.

(** ** Iteration *)
Section Iter.
Context {F : Type} {ops : FOps F}.

Lemma vec_add_vplus (u v : list F) : vec_add u v = vplus u v.
Proof.
  revert v. induction u as [|x u IH]; intros [|y v]; try reflexivity.
  simpl. now rewrite IH.
Qed.
Lemma all_below_iff (ds eps : list F) : length ds = length eps ->
  all_below ds eps = true <-> Forall2 (fun d e => flt (fabs d) e = true) ds eps.
Proof.
  revert eps. induction ds as [|d ds IH]; intros [|e eps] H; try discriminate.
  - split; constructor.
  - simpl. rewrite andb_true_iff, IH by (simpl in H; lia). split.
    + intros [? ?]; now constructor.
    + intros H1; inversion H1; now split.
Qed.
Lemma iterate_shift deltas (init : list F) n :
  iterate deltas (vplus init (deltas init)) n = iterate deltas init (S n).
Proof. induction n as [|n IH]; [reflexivity|]. cbn [iterate] in *. now rewrite IH. Qed.

Definition same_dim (deltas : list F -> list F) (d : nat) : Prop :=
  forall u, length u = d -> length (deltas u) = d.

Lemma vplus_length (u v : list F) : length u = length v -> length (vplus u v) = length u.
Proof. intros H. unfold vplus. rewrite map_length, combine_length. lia. Qed.

Lemma iter_fn_correct fuel (init : list F) deltas eps v d :
  length init = d -> length eps = d -> same_dim deltas d ->
  (iter_fn fuel init deltas eps = Ret v <->
   exists n, (n < fuel)%nat /\ v = iterate deltas init (S n) /\
     step_small deltas eps (iterate deltas init n) /\
     forall m, (m < n)%nat -> ~ step_small deltas eps (iterate deltas init m)).
Proof.
  intros Hi He Hd. revert init Hi. induction fuel as [|fuel IH]; intros init Hi; simpl.
  { split; [discriminate|]. intros (n & Hn & _). lia. }
  rewrite vec_add_vplus.
  assert (Hs : all_below (deltas init) eps = true <-> step_small deltas eps init).
  { apply all_below_iff. rewrite Hd by easy. lia. }
  destruct (all_below (deltas init) eps) eqn:E.
  - split.
    + intros [= <-]. exists O. split; [lia|]. split; [easy|]. split; [now apply Hs|]. intros; lia.
    + intros (n & Hn & -> & H1 & H2). destruct n as [|n]; [easy|].
      exfalso. apply (H2 O); [lia|]. now apply Hs.
  - rewrite IH by (rewrite vplus_length; [easy|]; rewrite Hd by easy; lia). split.
    + intros (n & Hn & -> & H1 & H2). exists (S n). split; [lia|].
      rewrite !iterate_shift in *. split; [easy|]. split; [easy|].
      intros [|m] Hm; simpl.
      * intros G. apply Hs in G. discriminate.
      * intros G. apply (H2 m); [lia|]. now rewrite iterate_shift.
    + intros (n & Hn & -> & H1 & H2). destruct n as [|n].
      { exfalso. apply Hs in H1. discriminate. }
      exists n. split; [lia|]. rewrite !iterate_shift. split; [easy|]. split; [easy|].
      intros m Hm. rewrite iterate_shift. apply H2. lia.
Qed.
Lemma iter_fn_no_panic fuel (init : list F) deltas eps : iter_fn fuel init deltas eps <> Panic.
Proof.
  revert init. induction fuel as [|fuel IH]; intros init; simpl; [discriminate|].
  destruct (all_below _ _); [discriminate|apply IH].
Qed.
Lemma iter_fn_diverge (init : list F) deltas eps d :
  length init = d -> length eps = d -> same_dim deltas d ->
  ((forall fuel, iter_fn fuel init deltas eps = Diverge) <->
   forall n, ~ step_small deltas eps (iterate deltas init n)).
Proof.
  intros Hi He Hd. split.
  - intros H n Hn.
    assert (D : exists m, step_small deltas eps (iterate deltas init m) /\
        forall k, (k < m)%nat -> ~ step_small deltas eps (iterate deltas init k)).
    { assert (Hdec : forall u, length u = d -> {step_small deltas eps u} + {~ step_small deltas eps u}).
      { intros u Hu. destruct (all_below (deltas u) eps) eqn:E.
        - left. apply all_below_iff; [|easy]. rewrite Hd; lia.
        - right. intros G. apply all_below_iff in G; [congruence|]. rewrite Hd; lia. }
      assert (Hlen : forall k, length (iterate deltas init k) = d).
      { induction k as [|k IHk]; simpl; [easy|]. rewrite vplus_length; [easy|]. now rewrite Hd. }
      clear H. induction n as [n IHn] using lt_wf_ind.
      assert (DD : (exists k, (k < n)%nat /\ step_small deltas eps (iterate deltas init k)) \/
              forall k, (k < n)%nat -> ~ step_small deltas eps (iterate deltas init k)).
      { clear - Hdec Hlen. induction n as [|n IH].
        - right. intros; lia.
        - destruct IH as [(k & Hk & G)|G].
          + left. exists k. split; [lia|easy].
          + destruct (Hdec (iterate deltas init n) (Hlen n)) as [Y|Y].
            * left. exists n. split; [lia|easy].
            * right. intros k Hk. destruct (Nat.eq_dec k n) as [->|]; [easy|]. apply G. lia. }
      destruct DD as [(k & Hk & G)|G].
      - now apply (IHn k).
      - now exists n. }
    destruct D as (m & Hm & Hl).
    assert (G : iter_fn (S m) init deltas eps = Ret (iterate deltas init (S m))).
    { apply (iter_fn_correct (S m) init deltas eps _ d Hi He Hd). exists m. repeat split; auto. }
    rewrite H in G. discriminate.
  - intros H fuel. destruct (iter_fn fuel init deltas eps) as [v| |] eqn:E; [|now apply iter_fn_no_panic in E|easy].
    exfalso. apply (iter_fn_correct fuel init deltas eps v d Hi He Hd) in E.
    destruct E as (n & _ & _ & G & _). now apply (H n).
Qed.
End Iter.

(** NaN deltas never converge. *)
Lemma iterate_length {F : Type} {ops : FOps F} deltas (init : list F) d n :
  length init = d -> same_dim deltas d -> length (iterate deltas init n) = d.
Proof.
  intros Hi Hd. induction n as [|n IH]; simpl; [easy|].
  rewrite vplus_length; [easy|]. now rewrite Hd.
Qed.
Lemma iter_fn_nan (lm : libm) (init : list f64) deltas eps d :
  length init = d -> length eps = d -> same_dim deltas d ->
  (forall u, length u = d -> Exists (fun x => is_nan x = true) (deltas u)) ->
  forall fuel, iter_fn (ops := F64ops lm) fuel init deltas eps = Diverge.
Proof.
  intros Hi He Hd Hn. apply (iter_fn_diverge (ops := F64ops lm) init deltas eps d Hi He Hd).
  intros n Hs.
  pose proof (iterate_length (ops := F64ops lm) deltas init d n Hi Hd) as Hl.
  specialize (Hn _ Hl). unfold step_small in Hs. revert Hs Hn.
  generalize (deltas (iterate (ops := F64ops lm) deltas init n)) as ds. clear.
  intros ds H. induction H as [|x e ds eps Hx H IH]; intros Hn; inversion Hn; subst; [|now apply IH].
  destruct x; try discriminate.
Qed.
