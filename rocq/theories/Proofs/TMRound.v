(** Exact arithmetic: Krueger's direct and reverse series undo each other to order 4. *)
From Coq Require Import String Reals Lra Lia ZArith QArith Qreals Bool Psatz List.
From Coquelicot Require Import Coquelicot.
From Flocq Require Import Core.Raux.
From Verif.Num Require Import FOps RFun XR XRLemmas TMod TModL TModC TModV.
From Verif.Spec Require Import Krueger.
From Verif.Proofs Require Import MathX TMX TMInv MercInv TMConf TMScale CSin.
Import ListNotations.
Local Open Scope R_scope.

Lemma k2 : RtoC 2 = (1 + 1)%C. Proof. now rewrite <- RtoC_plus. Qed.
Lemma k3 : RtoC 3 = (1 + 1 + 1)%C. Proof. rewrite <- !RtoC_plus. f_equal; ring. Qed.
Lemma k4 : RtoC 4 = ((1 + 1) * (1 + 1))%C. Proof. rewrite <- k2, <- RtoC_mult. f_equal; ring. Qed.
Lemma k6 : RtoC 6 = ((1 + 1) * (1 + 1 + 1))%C. Proof. rewrite <- k3, <- k2, <- RtoC_mult. f_equal; ring. Qed.
Lemma k8 : RtoC 8 = ((1 + 1) * ((1 + 1) * (1 + 1)))%C. Proof. rewrite <- k2, <- !RtoC_mult. f_equal; ring. Qed.
Ltac cring := rewrite ?k2, ?k3, ?k4, ?k6, ?k8; ring.
Section Mult.
Context (z : C).
Local Open Scope C_scope.
Let s := csin z.
Let c := ccos z.
Lemma cc2 : ccos (2 * z) = 2 * (c * c) - 1.
Proof. replace (2 * z) with (z + z) by cring. rewrite ccos_plus. fold s c. unfold s. rewrite csc2. fold c. cring. Qed.
Lemma cs2 : csin (2 * z) = s * (2 * c).
Proof. replace (2 * z) with (z + z) by cring. rewrite csin_plus. fold s c. cring. Qed.
Lemma cc3 : ccos (3 * z) = c * (4 * (c * c) - 3).
Proof. replace (3 * z) with (2 * z + z) by cring. rewrite ccos_plus, cc2, cs2. fold s c. replace (s * (2 * c) * s) with (2 * c * (s * s)) by cring. unfold s. rewrite csc2. fold c. cring. Qed.
Lemma cs3 : csin (3 * z) = s * (4 * (c * c) - 1).
Proof. replace (3 * z) with (2 * z + z) by cring. rewrite csin_plus, cc2, cs2. fold s c. cring. Qed.
Lemma cc4 : ccos (4 * z) = 8 * (c * c * (c * c)) - 8 * (c * c) + 1.
Proof. replace (4 * z) with (3 * z + z) by cring. rewrite ccos_plus, cc3, cs3. fold s c. replace (s * (4 * (c * c) - 1) * s) with ((4 * (c * c) - 1) * (s * s)) by cring. unfold s. rewrite csc2. fold c. cring. Qed.
Lemma cs4 : csin (4 * z) = s * (c * (8 * (c * c) - 4)).
Proof. replace (4 * z) with (3 * z + z) by cring. rewrite csin_plus, cc3, cs3. fold s c. cring. Qed.
End Mult.

(** Krueger's series at a complex number *)
Definition kz (h : R * R * R * R) (z : C) : C := let '(h1, h2, h3, h4) := h in
  (z + RtoC h1 * csin (2 * z) + RtoC h2 * csin (4 * z) + RtoC h3 * csin (6 * z) + RtoC h4 * csin (8 * z))%C.
Lemma kz_krueger h z : kz h z = krueger h z.
Proof.
  destruct h as [[[h1 h2] h3] h4]. destruct z as [x y]. unfold kz, krueger, csin. cx; rewrite ?Rmult_0_l, ?Rminus_0_r, ?Rplus_0_r; ring.
Qed.

(** ** One series after another *)
Local Open Scope ex_scope.
Definition mc := EV 0. Definition mr := EV 1. Definition ms := EV 2. Definition mn := EV 3.
Definition U2 (c : ex) := EZ 2 * c. Definition U3 (c : ex) := EZ 4 * (c * c) - EZ 1. Definition U4 (c : ex) := c * (EZ 8 * (c * c) - EZ 4).
Definition T2 (c : ex) := EZ 2 * (c * c) - EZ 1. Definition T3 (c : ex) := c * (EZ 4 * (c * c) - EZ 3). Definition T4 (c : ex) := EZ 8 * (c * c * (c * c)) - EZ 8 * (c * c) + EZ 1.
Section Comp.
Context (e1 e2 e3 e4 f1 f2 f3 f4 : ex).
Definition LC : list ex :=
  [ e1 + e2 * U2 mc + e3 * U3 mc + e4 * U4 mc;
    EZ 4 * (EZ 1 - mc * mc) * (EF 0 * EF 0);
    EF 1 * EF 1;
    EZ 2 * EF 0 * (EZ 1 - EF 1 * qc 1 6 + EF 2 * mr);
    EZ 1 - EF 1 * qc 1 2 + EF 2 * qc 1 24 + EF 2 * EF 1 * ms;
    EF 4 * EF 4;
    EF 3 * EF 4 ].
Definition P1 : ex := f1 * (EF 4 + mc * EF 3).
Definition P2 : ex := U2 mc * (f2 * (EZ 2 * EF 5 - EZ 1)) + T2 mc * (EZ 2 * (f2 * EF 6)).
Definition P3 : ex := U3 mc * (f3 * EF 4 * (EZ 4 * EF 5 - EZ 3)) + T3 mc * (f3 * EF 3 * (EZ 4 * EF 5 - EZ 1)).
Definition P4 : ex := U4 mc * (f4 * EF 5 * (EZ 8 * EF 5 - EZ 8) + f4).
Definition P5 : ex := T4 mc * (f4 * EF 6 * (EZ 8 * EF 5 - EZ 4)).
Definition eG : ex := EF 0 - P1 - P2 - P3 - P4 - P5.
End Comp.
Local Close Scope ex_scope.
Definition crad (K : Q) (i : nat) : Q := match i with 0%nat => K | 1%nat => (Qmake 1 100) | 2%nat => (Qmake 1 600) | _ => (Qmake 1 190) end.
Local Open Scope ex_scope.
Definition p4 (a b c d : ex) : ex := mn * (a + mn * (b + mn * (c + mn * d))).
Definition d1 := p4 (qc 1 2) (qc (-2) 3) (qc 5 16) (qc 41 180).
Definition d2 := p4 (EZ 0) (qc 13 48) (qc (-3) 5) (qc 557 1440).
Definition d3 := p4 (EZ 0) (EZ 0) (qc 61 240) (qc (-103) 140).
Definition d4 := p4 (EZ 0) (EZ 0) (EZ 0) (qc 49561 161280).
Definition r1 := p4 (qc 1 2) (qc (-2) 3) (qc 37 96) (qc (-1) 360).
Definition r2 := p4 (EZ 0) (qc 1 48) (qc 1 15) (qc (-437) 1440).
Definition r3 := p4 (EZ 0) (EZ 0) (qc 17 480) (qc (-37) 840).
Definition r4 := p4 (EZ 0) (EZ 0) (EZ 0) (qc 4397 161280).
Definition ng (e : ex) := EZ 0 - e.
Local Close Scope ex_scope.
Definition chk (M : nat) (K : Q) (l : list ex) (e : ex) (j : nat) (k : Q) : bool :=
  forallb (ewf 3) l && ewf 3 e && (let ts := tms 3 M (crad K) l [] in smallj 3 M (crad K) j k (etm 3 M (crad K) (fun j => nth j ts (noft 3 0)) e)).

Section Compose.
Context (e1 e2 e3 e4 f1 f2 f3 f4 : ex) (h1 h2 h3 h4 j1 j2 j3 j4 n : R) (M : nat) (K k : Q).
Hypothesis (HK : chk 2 K (LC e1 e2 e3 e4) (EF 0) 1 (Qmake 55 100) = true) (Hk : chk M K (LC e1 e2 e3 e4) (eG f1 f2 f3 f4) 5 k = true) (Hn : 0 <= n <= / 190).
Hypothesis (E1 : forall v f, v 3%nat = RtoC n -> evalc v f e1 = RtoC h1) (E2 : forall v f, v 3%nat = RtoC n -> evalc v f e2 = RtoC h2)
  (E3 : forall v f, v 3%nat = RtoC n -> evalc v f e3 = RtoC h3) (E4 : forall v f, v 3%nat = RtoC n -> evalc v f e4 = RtoC h4)
  (F1 : forall v f, v 3%nat = RtoC n -> evalc v f f1 = RtoC j1) (F2 : forall v f, v 3%nat = RtoC n -> evalc v f f2 = RtoC j2)
  (F3 : forall v f, v 3%nat = RtoC n -> evalc v f f3 = RtoC j3) (F4 : forall v f, v 3%nat = RtoC n -> evalc v f f4 = RtoC j4).
Context (z : C).
Let c := ccos (2 * z)%C.
Let s := csin (2 * z)%C.
Hypothesis (Hc : Cmod c <= Q2R K) (Hs : Cmod s <= 3).
Let g : C := (RtoC h1 + RtoC h2 * (2 * c) + RtoC h3 * (4 * (c * c) - 1) + RtoC h4 * (c * (8 * (c * c) - 4)))%C.
Definition cenv (c r s : C) (n : R) (i : nat) : C := match i with 0%nat => c | 1%nat => r | 2%nat => s | _ => RtoC n end.
Lemma cenv_rad r t : Cmod r <= / 100 -> Cmod t <= / 600 -> forall i, (i <= 3)%nat -> Cmod (cenv c r t n i) <= Q2R (crad K i).
Proof.
  intros R1 T1 i Hi. destruct i as [|[|[|[|i]]]]; [exact Hc| | | |lia]; unfold cenv, crad, Q2R; cbn [Qnum Qden].
  - lra.
  - lra.
  - rewrite Cmod_R, Rabs_right by lra. lra.
Qed.
Lemma kz_first : kz (h1, h2, h3, h4) z = (z + s * g)%C.
Proof.
  unfold kz. replace (4 * z)%C with (2 * (2 * z))%C by cring. replace (6 * z)%C with (3 * (2 * z))%C by cring. replace (8 * z)%C with (4 * (2 * z))%C by cring.
  rewrite (cs2 (2 * z)%C), cs3, cs4. fold s c. unfold g. ring.
Qed.
Let L := LC e1 e2 e3 e4.
Section Vals.
Context (r t : C).
Let v := cenv c r t n.
Let f := fvalsc v L.
Lemma fv_0 : f 0%nat = g.
Proof.
  change (f 0%nat) with (evalc v (fun j => nth j (@nil C) (RtoC 0)) (nth 0 L (EZ 0))). unfold L, LC, U2, U3, U4, mc, EZ. cbn [nth evalc]. rewrite E1, E2, E3, E4 by reflexivity. unfold g, CQ, Q2R, v, cenv. cbn [Qnum Qden inject_Z].
  replace (RtoC (2 * / 1)) with (RtoC 2) by (f_equal; field). replace (RtoC (4 * / 1)) with (RtoC 4) by (f_equal; field). replace (RtoC (1 * / 1)) with (RtoC 1) by (f_equal; field). replace (RtoC (8 * / 1)) with (RtoC 8) by (f_equal; field). reflexivity.
Qed.
End Vals.
Lemma g_small : Cmod g <= 55 / 100 * n.
Proof.
  assert (Z0 : Cmod (RtoC 0) = 0) by apply Cmod_0.
  pose proof (letc_smallj 3 2 (crad K) (cenv c 0 0 n) (cenv_rad 0 0 ltac:(rewrite Z0; lra) ltac:(rewrite Z0; lra)) (LC e1 e2 e3 e4) (EF 0) 1 (Qmake 55 100) HK) as B.
  cbn [evalc] in B. fold L in B. rewrite fv_0 in B. unfold cenv in B. rewrite Cmod_R, (Rabs_right n) in B by lra. unfold Q2R in B. cbn [Qnum Qden pow] in B. lra.
Qed.
Let th : C := (2 * (s * g))%C.
Lemma th_small : Cmod th <= / 10.
Proof.
  unfold th. rewrite !Cmod_mult, Cmod_R, (Rabs_right 2) by lra. pose proof g_small. pose proof (Cmod_ge_0 g). pose proof (Cmod_ge_0 s). nra.
Qed.
Theorem compose_small : Cmod (kz (- j1, - j2, - j3, - j4)%R (kz (h1, h2, h3, h4) z) - z)%C <= Q2R k * n ^ 5 * Cmod s.
Proof.
  destruct (ctaylor th th_small) as (r & t & R1 & T1 & SN & CS).
  pose proof (letc_smallj 3 M (crad K) (cenv c r t n) (cenv_rad r t R1 T1) (LC e1 e2 e3 e4) (eG f1 f2 f3 f4) 5 k Hk) as B. fold L in B.
  change (cenv c r t n 3) with (RtoC n) in B. rewrite Cmod_R, (Rabs_right n) in B by lra.
  rewrite (Rmult_comm _ (Cmod s)). replace (kz (- j1, - j2, - j3, - j4)%R (kz (h1, h2, h3, h4) z) - z)%C with (s * evalc (cenv c r t n) (fvalsc (cenv c r t n) L) (eG f1 f2 f3 f4))%C; [rewrite Cmod_mult; apply Rmult_le_compat_l; [apply Cmod_ge_0|exact B]|].
  clear B. rewrite kz_first. unfold kz.
  replace (2 * (z + s * g))%C with (2 * z + th)%C by (unfold th; ring).
  replace (4 * (z + s * g))%C with (2 * (2 * z) + 2 * th)%C by (unfold th; cring).
  replace (6 * (z + s * g))%C with (3 * (2 * z) + 3 * th)%C by (unfold th; cring).
  replace (8 * (z + s * g))%C with (4 * (2 * z) + 4 * th)%C by (unfold th; cring).
  rewrite !csin_plus, (cs2 (2 * z)%C), (cs2 th), !cs3, !cs4, (cc2 (2 * z)%C), (cc2 th), !cc3, !cc4. fold s c.
  pose proof (fv_0 r t) as V0. set (v := cenv c r t n) in *.
  assert (NV : forall k, (1 <= k <= 6)%nat -> fvalsc v L k = evalc v (fvalsc v L) (nth k L (EZ 0))) by (intros [|[|[|[|[|[|[|q]]]]]]] Hq; [lia|reflexivity..|lia]).
  set (f := fvalsc v L) in *. clearbody f.
  pose proof (NV 1%nat ltac:(lia)) as V1. pose proof (NV 2%nat ltac:(lia)) as V2. pose proof (NV 3%nat ltac:(lia)) as V3. pose proof (NV 4%nat ltac:(lia)) as V4. pose proof (NV 5%nat ltac:(lia)) as V5. pose proof (NV 6%nat ltac:(lia)) as V6. clear NV.
  unfold L, LC, mc, mr, ms, qc, EZ in V1, V2, V3, V4, V5, V6. cbn [nth evalc] in V1, V2, V3, V4, V5, V6. change (v 0%nat) with c in *. change (v 1%nat) with r in *. change (v 2%nat) with t in *.
  assert (N1 : forall p, CQ (inject_Z p) = RtoC (IZR p)) by (intros p; unfold CQ, Q2R, inject_Z; cbn [Qnum Qden]; f_equal; field).
  assert (N2 : CQ (Qmake 1 2) = RtoC (/ 2) /\ CQ (Qmake 1 6) = RtoC (/ 6) /\ CQ (Qmake 1 24) = RtoC (/ 24)) by (unfold CQ, Q2R; cbn [Qnum Qden]; repeat split; f_equal; field). destruct N2 as (N2 & N6 & N24).
  rewrite ?N1, ?N2, ?N6, ?N24 in *. rewrite V0 in *.
  assert (TT : (th * th = f 1%nat)%C). { rewrite V1. unfold th. replace (2 * (s * g) * (2 * (s * g)))%C with (4 * (s * s) * (g * g))%C by cring. unfold s. rewrite csc2. fold c. ring. }
  rewrite TT in SN, CS. rewrite <- V2 in CS, SN. rewrite <- V4 in CS.
  assert (SN' : csin th = (s * f 3%nat)%C) by (rewrite SN, V3; unfold th; ring). clear SN. rewrite CS, SN'.
  unfold eG, P1, P2, P3, P4, P5, U2, U3, U4, T2, T3, T4, mc, EZ. cbn [evalc]. change (v 0%nat) with c. rewrite V5, V6. rewrite ?N1, ?F1, ?F2, ?F3, ?F4 by reflexivity. rewrite V0. rewrite !RtoC_opp. cring.
Qed.
End Compose.

(** ** Direct after reverse, reverse after direct *)
Definition p4r (n a b c d : R) : R := n * (a + n * (b + n * (c + n * d))).
Lemma ev_p4 n a b c d : forall v f, v 3%nat = RtoC n -> evalc v f (p4 (EC a) (EC b) (EC c) (EC d)) = RtoC (p4r n (Q2R a) (Q2R b) (Q2R c) (Q2R d)).
Proof. intros v f V. unfold p4, mn. cbn [evalc]. rewrite V. unfold CQ, p4r. now rewrite !RtoC_mult, !RtoC_plus, !RtoC_mult, !RtoC_plus, !RtoC_mult, !RtoC_plus, !RtoC_mult. Qed.
Lemma ev_ng n e h : (forall v f, v 3%nat = RtoC n -> evalc v f e = RtoC h) -> forall v f, v 3%nat = RtoC n -> evalc v f (ng e) = RtoC (- h).
Proof. intros H v f V. unfold ng, EZ. cbn [evalc]. rewrite (H v f V), RtoC_opp. unfold CQ, Q2R. cbn [Qnum Qden inject_Z]. rewrite Rmult_0_l. ring. Qed.
Ltac evp := match goal with |- forall v f, _ -> evalc v f (p4 _ _ _ _) = RtoC ?h => let H := fresh in
   intros v f H; unfold qc, EZ; rewrite (ev_p4 _ _ _ _ _ v f H); f_equal; unfold p4r, Q2R; cbn [Qnum Qden inject_Z]; field end.
Section Undo.
Context (n : R).
Definition D1 := n / 2 - 2 / 3 * n ^ 2 + 5 / 16 * n ^ 3 + 41 / 180 * n ^ 4.
Definition D2 := 13 / 48 * n ^ 2 - 3 / 5 * n ^ 3 + 557 / 1440 * n ^ 4.
Definition D3 := 61 / 240 * n ^ 3 - 103 / 140 * n ^ 4.
Definition D4 := 49561 / 161280 * n ^ 4.
Definition RV1 := n / 2 - 2 / 3 * n ^ 2 + 37 / 96 * n ^ 3 - 1 / 360 * n ^ 4.
Definition RV2 := 1 / 48 * n ^ 2 + 1 / 15 * n ^ 3 - 437 / 1440 * n ^ 4.
Definition RV3 := 17 / 480 * n ^ 3 - 37 / 840 * n ^ 4.
Definition RV4 := 4397 / 161280 * n ^ 4.
Lemma ed1 : forall v f, v 3%nat = RtoC n -> evalc v f d1 = RtoC D1. Proof. unfold d1, D1. evp. Qed.
Lemma ed2 : forall v f, v 3%nat = RtoC n -> evalc v f d2 = RtoC D2. Proof. unfold d2, D2. evp. Qed.
Lemma ed3 : forall v f, v 3%nat = RtoC n -> evalc v f d3 = RtoC D3. Proof. unfold d3, D3. evp. Qed.
Lemma ed4 : forall v f, v 3%nat = RtoC n -> evalc v f d4 = RtoC D4. Proof. unfold d4, D4. evp. Qed.
Lemma er1 : forall v f, v 3%nat = RtoC n -> evalc v f r1 = RtoC RV1. Proof. unfold r1, RV1. evp. Qed.
Lemma er2 : forall v f, v 3%nat = RtoC n -> evalc v f r2 = RtoC RV2. Proof. unfold r2, RV2. evp. Qed.
Lemma er3 : forall v f, v 3%nat = RtoC n -> evalc v f r3 = RtoC RV3. Proof. unfold r3, RV3. evp. Qed.
Lemma er4 : forall v f, v 3%nat = RtoC n -> evalc v f r4 = RtoC RV4. Proof. unfold r4, RV4. evp. Qed.
End Undo.
(** The regions: bounds of cosh and of the coefficient of n^5. *)
Definition Ks : list Q := [Qmake 3 1; Qmake 5 3; Qmake 51 50].
Definition ks : list Q := [Qmake 810 1; Qmake 105 1; Qmake 25 1].
Inductive tier : Q -> Q -> Prop :=
| wide : tier (Qmake 3 1) (Qmake 810 1)
| middle : tier (Qmake 5 3) (Qmake 105 1)
| narrow : tier (Qmake 51 50) (Qmake 25 1).
Lemma chks M l e : forallb (ewf 3) l && ewf 3 e = true -> letv 3 M (map crad Ks) l e 5 ks = true -> forall K k, tier K k -> chk M K l e 5 k = true.
Proof.
  intros W H K k T. unfold chk. rewrite W, andb_true_l. pose proof (letv_ok 3 M (map crad Ks) l e 5 ks H) as V. cbv zeta in V |- *.
  destruct T; [exact (V 0%nat (crad 0) 0%Q ltac:(cbn; lia))|exact (V 1%nat (crad 0) 0%Q ltac:(cbn; lia))|exact (V 2%nat (crad 0) 0%Q ltac:(cbn; lia))].
Qed.
Lemma vms_app n M rads l1 : forall l2 acc, vms n M rads (l1 ++ l2) acc = vms n M rads l2 (vms n M rads l1 acc).
Proof. induction l1 as [|e l1 IH]; intros l2 acc; [reflexivity|]. cbn [app vms]. apply IH. Qed.
(** Piece by piece, which keeps the memory of a recheck small. *)
Definition ud : list (tmv 3) := Eval vm_compute in vms 3 6 (map crad Ks) (firstn 4 (LC d1 d2 d3 d4)) [].
Lemma ud_ok : vms 3 6 (map crad Ks) (firstn 4 (LC d1 d2 d3 d4)) [] = ud. Proof. vm_compute. reflexivity. Qed.
Definition vd : list (tmv 3) := Eval vm_compute in vms 3 6 (map crad Ks) (skipn 4 (LC d1 d2 d3 d4)) ud.
Lemma vd_ok : vms 3 6 (map crad Ks) (skipn 4 (LC d1 d2 d3 d4)) ud = vd. Proof. vm_compute. reflexivity. Qed.
Definition fd (j : nat) : tmv 3 := nth j vd (nov 3 (map crad Ks)).
Definition wd1 : tmv 3 := Eval vm_compute in evm 3 6 (map crad Ks) fd (P1 r1).
Lemma wd1_ok : evm 3 6 (map crad Ks) fd (P1 r1) = wd1. Proof. vm_compute. reflexivity. Qed.
Definition wd2 : tmv 3 := Eval vm_compute in evm 3 6 (map crad Ks) fd (P2 r2).
Lemma wd2_ok : evm 3 6 (map crad Ks) fd (P2 r2) = wd2. Proof. vm_compute. reflexivity. Qed.
Definition wd3 : tmv 3 := Eval vm_compute in evm 3 6 (map crad Ks) fd (P3 r3).
Lemma wd3_ok : evm 3 6 (map crad Ks) fd (P3 r3) = wd3. Proof. vm_compute. reflexivity. Qed.
Definition wd4 : tmv 3 := Eval vm_compute in evm 3 6 (map crad Ks) fd (P4 r4).
Lemma wd4_ok : evm 3 6 (map crad Ks) fd (P4 r4) = wd4. Proof. vm_compute. reflexivity. Qed.
Definition wd5 : tmv 3 := Eval vm_compute in evm 3 6 (map crad Ks) fd (P5 r4).
Lemma wd5_ok : evm 3 6 (map crad Ks) fd (P5 r4) = wd5. Proof. vm_compute. reflexivity. Qed.
Lemma tier_d0 : letv 3 6 (map crad Ks) (LC d1 d2 d3 d4) (eG r1 r2 r3 r4) 5 ks = true.
Proof.
  unfold letv. cbv zeta. rewrite <- (firstn_skipn 4 (LC d1 d2 d3 d4)), vms_app, ud_ok, vd_ok. change (fun j => nth j vd (nov 3 (map crad Ks))) with fd. unfold eG. cbn [evm]. rewrite wd1_ok, wd2_ok, wd3_ok, wd4_ok, wd5_ok. vm_compute. reflexivity.
Qed.
Definition ur : list (tmv 3) := Eval vm_compute in vms 3 7 (map crad Ks) (firstn 4 (LC (ng r1) (ng r2) (ng r3) (ng r4))) [].
Lemma ur_ok : vms 3 7 (map crad Ks) (firstn 4 (LC (ng r1) (ng r2) (ng r3) (ng r4))) [] = ur. Proof. vm_compute. reflexivity. Qed.
Definition vr : list (tmv 3) := Eval vm_compute in vms 3 7 (map crad Ks) (skipn 4 (LC (ng r1) (ng r2) (ng r3) (ng r4))) ur.
Lemma vr_ok : vms 3 7 (map crad Ks) (skipn 4 (LC (ng r1) (ng r2) (ng r3) (ng r4))) ur = vr. Proof. vm_compute. reflexivity. Qed.
Definition fr (j : nat) : tmv 3 := nth j vr (nov 3 (map crad Ks)).
Definition wr1 : tmv 3 := Eval vm_compute in evm 3 7 (map crad Ks) fr (P1 (ng d1)).
Lemma wr1_ok : evm 3 7 (map crad Ks) fr (P1 (ng d1)) = wr1. Proof. vm_compute. reflexivity. Qed.
Definition wr2 : tmv 3 := Eval vm_compute in evm 3 7 (map crad Ks) fr (P2 (ng d2)).
Lemma wr2_ok : evm 3 7 (map crad Ks) fr (P2 (ng d2)) = wr2. Proof. vm_compute. reflexivity. Qed.
Definition wr3 : tmv 3 := Eval vm_compute in evm 3 7 (map crad Ks) fr (P3 (ng d3)).
Lemma wr3_ok : evm 3 7 (map crad Ks) fr (P3 (ng d3)) = wr3. Proof. vm_compute. reflexivity. Qed.
Definition wr4 : tmv 3 := Eval vm_compute in evm 3 7 (map crad Ks) fr (P4 (ng d4)).
Lemma wr4_ok : evm 3 7 (map crad Ks) fr (P4 (ng d4)) = wr4. Proof. vm_compute. reflexivity. Qed.
Definition wr5 : tmv 3 := Eval vm_compute in evm 3 7 (map crad Ks) fr (P5 (ng d4)).
Lemma wr5_ok : evm 3 7 (map crad Ks) fr (P5 (ng d4)) = wr5. Proof. vm_compute. reflexivity. Qed.
Lemma tier_r0 : letv 3 7 (map crad Ks) (LC (ng r1) (ng r2) (ng r3) (ng r4)) (eG (ng d1) (ng d2) (ng d3) (ng d4)) 5 ks = true.
Proof.
  unfold letv. cbv zeta. rewrite <- (firstn_skipn 4 (LC (ng r1) (ng r2) (ng r3) (ng r4))), vms_app, ur_ok, vr_ok. change (fun j => nth j vr (nov 3 (map crad Ks))) with fr. unfold eG. cbn [evm]. rewrite wr1_ok, wr2_ok, wr3_ok, wr4_ok, wr5_ok. vm_compute. reflexivity.
Qed.
Lemma tier_d K k : tier K k -> chk 2 K (LC d1 d2 d3 d4) (EF 0) 1 (Qmake 55 100) = true /\ chk 6 K (LC d1 d2 d3 d4) (eG r1 r2 r3 r4) 5 k = true.
Proof. intros T. split; [destruct T; vm_compute; reflexivity|refine (chks 6 _ _ _ tier_d0 K k T); reflexivity]. Qed.
Lemma tier_r K k : tier K k -> chk 2 K (LC (ng r1) (ng r2) (ng r3) (ng r4)) (EF 0) 1 (Qmake 55 100) = true /\ chk 7 K (LC (ng r1) (ng r2) (ng r3) (ng r4)) (eG (ng d1) (ng d2) (ng d3) (ng d4)) 5 k = true.
Proof. intros T. split; [destruct T; vm_compute; reflexivity|refine (chks 7 _ _ _ tier_r0 K k T); reflexivity]. Qed.
Lemma four_d : chk 2 (Qmake 4 1) (LC d1 d2 d3 d4) (EF 0) 1 (Qmake 55 100) = true. Proof. vm_compute. reflexivity. Qed.
Lemma four_r : chk 2 (Qmake 4 1) (LC (ng r1) (ng r2) (ng r3) (ng r4)) (EF 0) 1 (Qmake 55 100) = true. Proof. vm_compute. reflexivity. Qed.
Lemma tier_3 K k : tier K k -> Q2R K <= 3 /\ 0 <= Q2R K.
Proof. intros []; unfold Q2R; cbn [Qnum Qden]; lra. Qed.
Lemma two_c z : snd (2 * z)%C = 2 * snd z.
Proof. destruct z as [x y]. unfold RtoC, Cmult. cbn [fst snd]. ring. Qed.
Lemma tier_k0 K k : tier K k -> 0 <= Q2R k.
Proof. intros []; unfold Q2R; cbn [Qnum Qden]; lra. Qed.
Section Apply.
Context (n : R) (Hn : 0 <= n <= / 190) (K k : Q) (T : tier K k) (z : C) (Hz : cosh (2 * snd z) <= Q2R K).
Let N5 : 0 <= Q2R k * n ^ 5. Proof. apply Rmult_le_pos; [exact (tier_k0 K k T)|apply pow_le; lra]. Qed.
Let HC : Cmod (ccos (2 * z)%C) <= Q2R K. Proof. eapply Rle_trans; [apply ccos_mod|]. now rewrite two_c. Qed.
Let HS : Cmod (csin (2 * z)%C) <= Q2R K. Proof. eapply Rle_trans; [apply csin_mod|]. now rewrite two_c. Qed.
Lemma undo_direct : Cmod (kz (kr_reverse n) (kz (kr_direct n) z) - z)%C <= Q2R k * n ^ 5 * Q2R K.
Proof.
  destruct (tier_d K k T) as [A B]. destruct (tier_3 K k T).
  eapply Rle_trans; [exact (compose_small d1 d2 d3 d4 r1 r2 r3 r4 (D1 n) (D2 n) (D3 n) (D4 n) (RV1 n) (RV2 n) (RV3 n) (RV4 n) n 6 K k A B Hn (ed1 n) (ed2 n) (ed3 n) (ed4 n) (er1 n) (er2 n) (er3 n) (er4 n) z HC ltac:(lra))|].
  apply Rmult_le_compat_l; [exact N5|exact HS].
Qed.
Lemma undo_reverse : Cmod (kz (kr_direct n) (kz (kr_reverse n) z) - z)%C <= Q2R k * n ^ 5 * Q2R K.
Proof.
  destruct (tier_r K k T) as [A B]. destruct (tier_3 K k T).
  pose proof (compose_small (ng r1) (ng r2) (ng r3) (ng r4) (ng d1) (ng d2) (ng d3) (ng d4) (- RV1 n) (- RV2 n) (- RV3 n) (- RV4 n) (- D1 n) (- D2 n) (- D3 n) (- D4 n) n 7 K k A B Hn
    (ev_ng _ _ _ (er1 n)) (ev_ng _ _ _ (er2 n)) (ev_ng _ _ _ (er3 n)) (ev_ng _ _ _ (er4 n)) (ev_ng _ _ _ (ed1 n)) (ev_ng _ _ _ (ed2 n)) (ev_ng _ _ _ (ed3 n)) (ev_ng _ _ _ (ed4 n)) z HC ltac:(lra)) as G.
  rewrite !Ropp_involutive in G. eapply Rle_trans; [exact G|].
  apply Rmult_le_compat_l; [exact N5|exact HS].
Qed.
End Apply.
