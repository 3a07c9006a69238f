(** Facts about the geodesic solvers that hold in any arithmetic. *)
From Coq Require Import ZArith List Bool Lia.
From Verif.Num Require Import FOps.
From Verif.Model Require Import Fp Quantities Complex Cs Ellipsoid Geodesics.
From Verif.Spec Require Export Settle.
Import ListNotations.

Section G.
Context {F : Type} {ops : FOps F}.
Local Open Scope F_scope.


(** one turn of the direct loops *)
Definition vd_next (B s1 s0 s : F) : F :=
  s0 + angle_new (vincenty_delta_sigma B (fsin s) (fcos s) (fcos (#2 * s1 + s))) RAD.
Lemma vd_loop_some n B s1 s0 s r : vincenty_direct_loop n B s1 s0 s = Ok r ->
  exists k, (k < n)%nat /\ r = vd_next B s1 s0 (iter k (vd_next B s1 s0) s) /\
    (fabs (r - iter k (vd_next B s1 s0) s) <? flit 1 12) = true /\
    forall j, (j < k)%nat -> (fabs (iter (S j) (vd_next B s1 s0) s - iter j (vd_next B s1 s0) s) <? flit 1 12) = false.
Proof.
  revert s. induction n as [|n IH]; intros s H; [discriminate|]. cbn [vincenty_direct_loop] in H.
  fold (vd_next B s1 s0 s) in H. destruct (fabs (vd_next B s1 s0 s - s) <? flit 1 12) eqn:E.
  - exists O. injection H; intros <-. repeat split; [lia|exact E|]. intros j ?; lia.
  - destruct (IH _ H) as (k & L & -> & T & U). exists (S k). repeat split; [lia|exact T|]. intros [|j] J; [exact E|]. apply U. lia.
Qed.
Lemma vd_loop_none n B s1 s0 s m : vincenty_direct_loop n B s1 s0 s = Err m ->
  forall k, (k < n)%nat -> (fabs (iter (S k) (vd_next B s1 s0) s - iter k (vd_next B s1 s0) s) <? flit 1 12) = false.
Proof.
  revert s. induction n as [|n IH]; intros s H k L; [lia|]. cbn [vincenty_direct_loop] in H.
  fold (vd_next B s1 s0 s) in H. destruct (fabs (vd_next B s1 s0 s - s) <? flit 1 12) eqn:E; [discriminate|].
  destruct k as [|k]; [exact E|]. apply (IH _ H). lia.
Qed.

Lemma vincenty_direct_echo e p al s g : vincenty_direct e p al s = Ok g -> g_p1 g = p /\ g_alpha1 g = al /\ g_s g = s.
Proof.
  unfold vincenty_direct. destruct p as [l p]. cbv zeta.
  match goal with |- context [vincenty_direct_loop ?n ?B ?x ?y ?z] => destruct (vincenty_direct_loop n B x y z) end; [|discriminate].
  intros H; injection H; intros <-. easy.
Qed.
Lemma rapp_direct_echo e p al s g : rapp_direct e p al s = Ok g -> g_p1 g = p /\ g_alpha1 g = al /\ g_s g = s.
Proof.
  unfold rapp_direct. destruct p as [l p]. cbv zeta.
  match goal with |- context [rapp_direct_loop ?n ?B ?x ?y ?z ?u ?v ?w] => destruct (rapp_direct_loop n B x y z u v w) end; [|discriminate].
  destruct (rapp_axs e) as [[[? ?] ?] ?].
  intros H; injection H; intros <-. easy.
Qed.
Lemma karney_direct_echo e p al s : g_p1 (karney_direct e p al s) = p /\ g_alpha1 (karney_direct e p al s) = al /\ g_s (karney_direct e p al s) = s.
Proof. unfold karney_direct. destruct p as [l p]. easy. Qed.
Lemma vincenty_inverse_echo e p q g : vincenty_inverse e p q = Ok g -> g_p1 g = p /\ g_p2 g = q.
Proof.
  unfold vincenty_inverse. destruct p as [l p], q as [l' q]. cbv zeta.
  match goal with |- context [vincenty_inverse_loop ?n ?B ?x ?y ?z ?u ?v ?w ?t] => destruct (vincenty_inverse_loop n B x y z u v w t) end; [|discriminate].
  intros H; injection H; intros <-. easy.
Qed.
Lemma rapp_inverse_echo e p q g : rapp_inverse e p q = Ok g -> g_p1 g = p /\ g_p2 g = q.
Proof.
  unfold rapp_inverse. destruct p as [l p], q as [l' q]. cbv zeta.
  match goal with |- context [rapp_inverse_loop ?n ?B ?x ?y ?z ?u] => destruct (rapp_inverse_loop n B x y z u) end; [|discriminate].
  match goal with |- context [rapp_inverse_azimuths ?n ?B ?x ?y ?z ?u] => destruct (rapp_inverse_azimuths n B x y z u) end.
  intros H; injection H; intros <-. easy.
Qed.

(** what the inverse loop of Vincenty runs through: the pair (lambda, cos 2 sigma_m) *)
Definition vi_next (f sb1 cb1 sb2 cb2 L : F) (x : F * F) : F * F :=
  let st := vincenty_inverse_step f sb1 cb1 sb2 cb2 L (fst x) (snd x) in (vi_lambda st, vi_cos_2_sigma_m st).
Lemma vi_loop_some n f sb1 cb1 sb2 cb2 L x r :
  vincenty_inverse_loop n f sb1 cb1 sb2 cb2 L (fst x) (snd x) = Ok r ->
  exists k, (k < n)%nat /\ let y := iter k (vi_next f sb1 cb1 sb2 cb2 L) x in
    r = vincenty_inverse_step f sb1 cb1 sb2 cb2 L (fst y) (snd y) /\ (fabs (vi_lambda r - fst y) <? flit 1 12) = true.
Proof.
  revert x. induction n as [|n IH]; intros x H; [discriminate|]. cbn [vincenty_inverse_loop] in H.
  set (st := vincenty_inverse_step f sb1 cb1 sb2 cb2 L (fst x) (snd x)) in *.
  destruct (fabs (vi_lambda st - fst x) <? flit 1 12) eqn:E.
  - exists O. injection H; intros <-. cbn [iter]. repeat split; [lia|exact E].
  - destruct (IH (vi_lambda st, vi_cos_2_sigma_m st) H) as (k & Lk & K). exists (S k). split; [lia|]. exact K.
Qed.

(** a loop with a limited number of turns *)
Fixpoint run {A} (close : A -> A -> bool) (step : A -> A) (n : nat) (x : A) : result A unit :=
  match n with O => Err tt | S n' => if close (step x) x then Ok (step x) else run close step n' (step x) end.
Lemma run_some {A} (close : A -> A -> bool) step n x r : run close step n x = Ok r <-> settles close step n x r.
Proof.
  split.
  - revert x. induction n as [|n IH]; intros x; cbn [run]; [discriminate|]. destruct (close (step x) x) eqn:E.
    + intros H; injection H; intros <-. exists O. repeat split; [lia|exact E|lia].
    + intros H. destruct (IH _ H) as (k & L & -> & T & U). exists (S k). repeat split; [lia|exact T|]. intros [|j] J; [exact E|]. apply U. lia.
  - revert x. induction n as [|n IH]; intros x (k & L & K & T & U); [lia|]. cbn [run]. destruct k as [|k].
    + cbn [iter] in K, T. subst r. now rewrite T.
    + assert (E : close (step x) x = false) by (apply (U O); lia). rewrite E. apply IH. exists k. repeat split; [lia|exact K|exact T|].
      intros j J. apply (U (S j)). lia.
Qed.
Lemma run_none {A} (close : A -> A -> bool) step n x : run close step n x = Err tt <-> never_settles close step n x.
Proof.
  split.
  - revert x. induction n as [|n IH]; intros x H k L; [lia|]. cbn [run] in H. destruct (close (step x) x) eqn:E; [discriminate|].
    destruct k as [|k]; [exact E|]. apply (IH _ H). lia.
  - revert x. induction n as [|n IH]; intros x H; [reflexivity|]. cbn [run]. assert (E : close (step x) x = false) by (apply (H O); lia). rewrite E.
    apply IH. intros k K. apply (H (S k)). lia.
Qed.
Lemma run_spec {A} (close : A -> A -> bool) step n x (res : result A unit) : res = run close step n x ->
  match res with Ok r => settles close step n x r | Err _ => never_settles close step n x end.
Proof. intros ->. destruct (run close step n x) as [r|[]] eqn:E; [now apply run_some|now apply run_none]. Qed.
Lemma vd_run n B s1 s0 s : vincenty_direct_loop n B s1 s0 s =
  run (fun y x => fabs (y - x) <? flit 1 12) (fun x => s0 + angle_new (vincenty_delta_sigma B (fsin x) (fcos x) (fcos (#2 * s1 + x))) RAD) n s.
Proof. revert s. induction n as [|n IH]; intros s; [reflexivity|]. cbn [vincenty_direct_loop run]. now rewrite IH. Qed.
Lemma vi_run n f sb1 cb1 sb2 cb2 L st : vincenty_inverse_loop n f sb1 cb1 sb2 cb2 L (vi_lambda st) (vi_cos_2_sigma_m st) =
  run (fun y x => fabs (vi_lambda y - vi_lambda x) <? flit 1 12) (fun x => vincenty_inverse_step f sb1 cb1 sb2 cb2 L (vi_lambda x) (vi_cos_2_sigma_m x)) n st.
Proof. revert st. induction n as [|n IH]; intros st; [reflexivity|]. cbn [vincenty_inverse_loop run]. now rewrite IH. Qed.
Lemma ri_run n e b1 b2 L st : rapp_inverse_loop n e b1 b2 L st =
  run (fun y x => fabs (ri_lambda y - ri_lambda x) <? flit 5 15) (fun x => rapp_inverse_step e b1 b2 L x) n st.
Proof. revert st. induction n as [|n IH]; intros st; [reflexivity|]. cbn [rapp_inverse_loop run]. now rewrite IH. Qed.
(** the solvers answer exactly when their loop settles within 30 turns *)
Lemma vincenty_inverse_settles e lon1 lat1 lon2 lat2 : let b1 := reduced_latitude e lat1 in let b2 := reduced_latitude e lat2 in let L := lon_sub lon2 lon1 in
  let close := fun y x : vinv_state F => fabs (vi_lambda y - vi_lambda x) <? flit 1 12 in
  let step := fun x : vinv_state F => vincenty_inverse_step (ef e) (fsin b1) (fcos b1) (fsin b2) (fcos b2) L (vi_lambda x) (vi_cos_2_sigma_m x) in
  forall st0, vi_lambda st0 = L -> vi_cos_2_sigma_m st0 = #0 ->
  match vincenty_inverse e (lon1, lat1) (lon2, lat2) with
  | Ok g => exists st, settles close step 30 st0 st /\ g_s g = vincenty_inverse_s e st
  | Err _ => never_settles close step 30 st0 end.
Proof.
  intros b1 b2 L close step st0 H1 H2. unfold vincenty_inverse. cbv zeta. fold b1 b2 L.
  pose proof (vi_run MAX_ITERATIONS (ef e) (fsin b1) (fcos b1) (fsin b2) (fcos b2) L st0) as R. rewrite H1, H2 in R. apply run_spec in R.
  destruct (vincenty_inverse_loop MAX_ITERATIONS (ef e) (fsin b1) (fcos b1) (fsin b2) (fcos b2) L L #0) as [st|]; [exists st; split; [exact R|reflexivity]|exact R].
Qed.
Lemma rapp_inverse_settles e lon1 lat1 lon2 lat2 : let b1 := reduced_latitude e lat1 in let b2 := reduced_latitude e lat2 in let L := lon_sub lon2 lon1 in
  let close := fun y x : rinv_state F => fabs (ri_lambda y - ri_lambda x) <? flit 5 15 in
  let step := rapp_inverse_step e b1 b2 L in
  let st0 := mkRI L #0 #0 #0 #0 #0 #0 #0 #0 #0 #0 in
  match rapp_inverse e (lon1, lat1) (lon2, lat2) with
  | Ok g => exists st, settles close step 30 st0 st /\ g_s g = rapp_inverse_s e st
  | Err _ => never_settles close step 30 st0 end.
Proof.
  intros b1 b2 L close step st0. unfold rapp_inverse. cbv zeta. fold b1 b2 L. fold st0.
  pose proof (ri_run MAX_ITERATIONS e b1 b2 L st0) as R. apply run_spec in R. fold close in R. change (fun x : rinv_state F => rapp_inverse_step e b1 b2 L x) with step in R. 
  destruct (rapp_inverse_loop MAX_ITERATIONS e b1 b2 L st0) as [st|]; [|exact R].
  destruct (rapp_inverse_azimuths _ _ _ _ _ _). exists st; split; [exact R|reflexivity].
Qed.
End G.
