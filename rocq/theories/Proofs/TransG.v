(** Totality of the transformations and projections, in any arithmetic. *)
From Coq Require Import String ZArith Bool Arith Lia List.
From Verif.Num Require Import FOps.
From Verif.Model Require Import Fp Quantities Cs Ellipsoid Geodesics Projections Crs.
From Verif.Spec Require Import Totality.
Import ListNotations.

Section G.
Context {F : Type} {ops : FOps F}.

Lemma proj_ok (p : projection F) llh : exists enh, proj p llh = Ok enh /\ eheight enh = height llh.
Proof. destruct p; eexists; split; reflexivity. Qed.

Lemma tm_loop_cases fuel e Q_p Q_pp : tm_loop fuel e Q_p Q_pp = Diverge \/ exists q, tm_loop fuel e Q_p Q_pp = Ret q.
Proof.
  revert Q_pp; induction fuel as [|n IH]; intros Q; [now left|]. cbn [tm_loop].
  destruct flt; [right; eauto|apply IH].
Qed.
Lemma unproj_cases fuel (p : projection F) enh : unproj fuel p enh = Diverge \/
  exists llh, unproj fuel p enh = Ret (Ok llh) /\ height llh = eheight enh.
Proof.
  destruct p as [p|p|p]; cbn [unproj].
  - right; eexists; split; reflexivity.
  - unfold tm_unproj. cbv zeta.
    match goal with |- context [tm_loop fuel ?e ?q ?r] => destruct (tm_loop_cases fuel e q r) as [E|(x & E)] end;
      rewrite E; cbn [obind]; [now left|].
    right; eexists; split; reflexivity.
  - right; eexists; split; reflexivity.
Qed.
Lemma unproj_terminates fuel p enh : never_loops p -> (exists llh, unproj fuel p enh = Ret (Ok llh) /\ height llh = eheight enh).
Proof. destruct p; cbn; try easy; intros _; eexists; split; reflexivity. Qed.
Lemma tm_loop_more fuel e Q_p Q_pp q : tm_loop fuel e Q_p Q_pp = Ret q -> forall k, tm_loop (fuel + k) e Q_p Q_pp = Ret q.
Proof.
  revert Q_pp; induction fuel as [|n IH]; intros Q; [easy|]. cbn [tm_loop Nat.add].
  destruct flt; [easy|]. intros E k. now apply IH.
Qed.


Lemma gaxes_total ax (c : list F) : (gaxes_dim ax <= length c)%nat -> exists p, gaxes_normalize ax c = Ret p.
Proof.
  destruct ax; cbn [gaxes_dim]; destruct c as [|c0 [|c1 [|c2 c]]]; cbn [List.length]; intros H; try lia;
    eexists; cbn; reflexivity.
Qed.
Lemma gaxes_short ax (c : list F) : (length c < gaxes_dim ax)%nat -> gaxes_normalize ax c = Panic.
Proof.
  destruct ax; cbn [gaxes_dim]; destruct c as [|c0 [|c1 [|c2 c]]]; cbn [List.length]; intros H; try lia; reflexivity.
Qed.
Lemma paxes_total ax (c : list F) : (paxes_dim ax <= length c)%nat -> exists p, paxes_normalize ax c = Ret p.
Proof.
  destruct ax; cbn [paxes_dim]; destruct c as [|c0 [|c1 [|c2 c]]]; cbn [List.length]; intros H; try lia;
    eexists; cbn; reflexivity.
Qed.
Lemma paxes_short ax (c : list F) : (length c < paxes_dim ax)%nat -> paxes_normalize ax c = Panic.
Proof.
  destruct ax; cbn [paxes_dim]; destruct c as [|c0 [|c1 [|c2 c]]]; cbn [List.length]; intros H; try lia; reflexivity.
Qed.
Lemma gaxes_den ax p (c : list F) : (gaxes_dim ax <= length c)%nat ->
  exists out, length out = gaxes_dim ax /\ gaxes_denormalize ax p c = Ret (out ++ skipn (gaxes_dim ax) c).
Proof.
  destruct ax; cbn [gaxes_dim]; destruct c as [|c0 [|c1 [|c2 c]]]; cbn [List.length]; intros H; try lia;
    cbn [gaxes_denormalize list_set obind skipn];
    first [now eexists [_; _; _]|now eexists [_; _]].
Qed.
Lemma gaxes_den_short ax p (c : list F) : (length c < gaxes_dim ax)%nat -> gaxes_denormalize ax p c = Panic.
Proof.
  destruct ax; cbn [gaxes_dim]; destruct c as [|c0 [|c1 [|c2 c]]]; cbn [List.length]; intros H; try lia; reflexivity.
Qed.
Lemma paxes_den ax p (c : list F) : (paxes_dim ax <= length c)%nat ->
  exists out, length out = paxes_dim ax /\ paxes_denormalize ax p c = Ret (out ++ skipn (paxes_dim ax) c).
Proof.
  destruct ax; cbn [paxes_dim]; destruct c as [|c0 [|c1 [|c2 c]]]; cbn [List.length]; intros H; try lia;
    cbn [paxes_denormalize list_set obind skipn];
    first [now eexists [_; _; _]|now eexists [_; _]].
Qed.
Lemma paxes_den_short ax p (c : list F) : (length c < paxes_dim ax)%nat -> paxes_denormalize ax p c = Panic.
Proof.
  destruct ax; cbn [paxes_dim]; destruct c as [|c0 [|c1 [|c2 c]]]; cbn [List.length]; intros H; try lia; reflexivity.
Qed.

Lemma from_xyz_total c p dst : (crs_dim c <= length dst)%nat ->
  exists out, length out = crs_dim c /\ from_xyz c p dst = Ret (Ok (out ++ skipn (crs_dim c) dst)).
Proof.
  destruct c as [id d|id d ax|id d ax sp]; cbn [crs_dim from_xyz].
  - unfold xaxes_dim. destruct dst as [|c0 [|c1 [|c2 dst]]]; cbn [List.length]; intros H; try lia.
    now eexists [_; _; _].
  - intros H. destruct (gaxes_den ax (xyz_to_llh d p) dst H) as (out & L & E). exists out. now rewrite E.
  - intros H. destruct (proj_ok (applied_to sp (d_ellipsoid d)) (xyz_to_llh d p)) as (e & E & _). rewrite E.
    cbn [lift_proj_err]. destruct (paxes_den ax e dst H) as (out & L & E'). exists out. now rewrite E'.
Qed.
Lemma from_xyz_short c p dst : (length dst < crs_dim c)%nat -> from_xyz c p dst = Panic.
Proof.
  destruct c as [id d|id d ax|id d ax sp]; cbn [crs_dim from_xyz].
  - unfold xaxes_dim. destruct dst as [|c0 [|c1 [|c2 dst]]]; cbn [List.length]; intros H; try lia; reflexivity.
  - intros H. now rewrite gaxes_den_short.
  - intros H. destruct (proj_ok (applied_to sp (d_ellipsoid d)) (xyz_to_llh d p)) as (e & E & _). rewrite E.
    cbn [lift_proj_err]. now rewrite paxes_den_short.
Qed.
Lemma to_xyz_cases fuel c src : (crs_dim c <= length src)%nat ->
  to_xyz fuel c src = Diverge \/ exists p, to_xyz fuel c src = Ret (Ok p).
Proof.
  destruct c as [id d|id d ax|id d ax sp]; cbn [crs_dim to_xyz].
  - unfold xaxes_dim. destruct src as [|c0 [|c1 [|c2 src]]]; cbn [List.length]; intros H; try lia.
    right. eexists; reflexivity.
  - intros H. destruct (gaxes_total ax src H) as (p & E). rewrite E. right; eexists; reflexivity.
  - intros H. destruct (paxes_total ax src H) as (p & E). rewrite E. cbn [obind].
    destruct (unproj_cases fuel (applied_to sp (d_ellipsoid d)) p) as [E'|(l & E' & _)]; rewrite E'; cbn [obind];
      [now left|right; eexists; reflexivity].
Qed.
Lemma to_xyz_total fuel c src : crs_never_loops c -> (crs_dim c <= length src)%nat ->
  exists p, to_xyz fuel c src = Ret (Ok p).
Proof.
  destruct c as [id d|id d ax|id d ax sp]; cbn [crs_dim to_xyz crs_never_loops]; intros N.
  - unfold xaxes_dim. destruct src as [|c0 [|c1 [|c2 src]]]; cbn [List.length]; intros H; try lia.
    eexists; reflexivity.
  - intros H. destruct (gaxes_total ax src H) as (p & E). rewrite E. eexists; reflexivity.
  - intros H. destruct (paxes_total ax src H) as (p & E). rewrite E. cbn [obind].
    destruct (unproj_terminates fuel (applied_to sp (d_ellipsoid d)) p) as (l & E1 & _); [now destruct sp|rewrite E1; cbn [obind]].
    eexists; reflexivity.
Qed.
Lemma to_xyz_short fuel c src : (length src < crs_dim c)%nat -> to_xyz fuel c src = Panic.
Proof.
  destruct c as [id d|id d ax|id d ax sp]; cbn [crs_dim to_xyz].
  - unfold xaxes_dim. destruct src as [|c0 [|c1 [|c2 src]]]; cbn [List.length]; intros H; try lia; reflexivity.
  - intros H. now rewrite gaxes_short.
  - intros H. now rewrite paxes_short.
Qed.

Lemma tr_fwd_total fuel t src dst : crs_never_loops (tr_src t) ->
  (crs_dim (tr_src t) <= length src)%nat -> (crs_dim (tr_dst t) <= length dst)%nat ->
  exists out, length out = crs_dim (tr_dst t) /\
    tr_fwd fuel t src dst = Ret (Ok (out ++ skipn (crs_dim (tr_dst t)) dst)).
Proof.
  intros N L1 L2. unfold tr_fwd, obind_result. destruct (to_xyz_total fuel _ _ N L1) as (p & E). rewrite E. cbn [obind].
  now apply from_xyz_total.
Qed.
Lemma tr_bwd_total fuel t dst src : crs_never_loops (tr_dst t) ->
  (crs_dim (tr_dst t) <= length dst)%nat -> (crs_dim (tr_src t) <= length src)%nat ->
  exists out, length out = crs_dim (tr_src t) /\
    tr_bwd fuel t dst src = Ret (Ok (out ++ skipn (crs_dim (tr_src t)) src)).
Proof.
  intros N L1 L2. unfold tr_bwd, obind_result. destruct (to_xyz_total fuel _ _ N L1) as (p & E). rewrite E. cbn [obind].
  now apply from_xyz_total.
Qed.
Lemma obind_to_from fuel c c' src dst f e : obind_result (to_xyz fuel c src) (fun p => from_xyz c' (f p) dst) <> Ret (Err e).
Proof.
  unfold obind_result. destruct (le_lt_dec (crs_dim c) (length src)) as [L|L].
  - destruct (to_xyz_cases fuel c src L) as [E|(p & E)]; rewrite E; cbn [obind]; [easy|].
    destruct (le_lt_dec (crs_dim c') (length dst)) as [L'|L'].
    + destruct (from_xyz_total c' (f p) dst L') as (out & _ & E'). now rewrite E'.
    + now rewrite from_xyz_short.
  - now rewrite to_xyz_short.
Qed.
Lemma tr_never_err fuel t a b e : tr_fwd fuel t a b <> Ret (Err e) /\ tr_bwd fuel t a b <> Ret (Err e).
Proof. split; unfold tr_fwd, tr_bwd; apply (obind_to_from fuel _ _ _ _ (fun p => from_ref _ (to_ref _ p))). Qed.
Lemma tr_short fuel t a b : crs_never_loops (tr_src t) -> crs_never_loops (tr_dst t) ->
  ((length a < crs_dim (tr_src t))%nat \/ (length b < crs_dim (tr_dst t))%nat <-> tr_fwd fuel t a b = Panic) /\
  ((length b < crs_dim (tr_dst t))%nat \/ (length a < crs_dim (tr_src t))%nat <-> tr_bwd fuel t b a = Panic).
Proof.
  intros N1 N2.
  assert (G : forall c c' (a b : list F) f, crs_never_loops c -> (length a < crs_dim c)%nat \/ (length b < crs_dim c')%nat <->
     obind_result (to_xyz fuel c a) (fun p => from_xyz c' (f p) b) = Panic).
  { clear. intros c c' a b f N. unfold obind_result. destruct (le_lt_dec (crs_dim c) (length a)) as [L|L].
    - destruct (to_xyz_total fuel c a N L) as (p & E); rewrite E; cbn [obind].
      destruct (le_lt_dec (crs_dim c') (length b)) as [L'|L'].
      + destruct (from_xyz_total c' (f p) b L') as (out & _ & E'). rewrite E'. split; [lia|easy].
      + rewrite from_xyz_short by easy. split; auto.
    - rewrite to_xyz_short by easy. split; auto. }
  split; [apply (G _ _ _ _ (fun p => from_ref _ (to_ref _ p)))|apply (G _ _ _ _ (fun p => from_ref _ (to_ref _ p)))]; easy.
Qed.
End G.

Section P.
Context {F : Type} {ops : FOps F}.
Lemma proj_never_err (p : projection F) llh e : proj p llh <> Err e.
Proof. destruct (proj_ok p llh) as (x & E & _). now rewrite E. Qed.
Lemma unproj_never_err fuel (p : projection F) enh e : unproj fuel p enh <> Ret (Err e) /\ unproj fuel p enh <> Panic.
Proof. destruct (unproj_cases fuel p enh) as [E|(x & E & _)]; now rewrite E. Qed.
Lemma proj_height (p : projection F) llh enh : proj p llh = Ok enh -> eheight enh = height llh.
Proof. destruct (proj_ok p llh) as (x & E & H). rewrite E. now intros [= <-]. Qed.
Lemma unproj_height fuel (p : projection F) enh llh : unproj fuel p enh = Ret (Ok llh) -> height llh = eheight enh.
Proof. destruct (unproj_cases fuel p enh) as [E|(x & E & H)]; rewrite E; [easy|]. now intros [= <-]. Qed.
End P.
