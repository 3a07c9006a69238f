(** Binary64: rounding errors of the conversion from geocentric to geodetic coordinates. *)
From Coq Require Import ZArith Reals QArith Qreals Lra Lia Bool Psatz Qround Qabs.
From Flocq Require Import Core IEEE754.BinarySingleNaN.
From Verif.Num Require Import FOps RFun XR XRLemmas F64 F64Lemmas Near.
From Verif.Model Require Import Fp Quantities Cs Ellipsoid.
From Verif.Spec Require Import Angles Axes Shape Accurate Binary64.
From Verif.Proofs Require Import AnglesX AnglesF EllX DatumX NearX NearL LlhF.
Local Open Scope R_scope.

(** ** Vermeille's root in real numbers *)
Definition vk_s (e2 p q : R) : R := let r := (p + q - e2 * e2) / 6 in e2 * e2 * p * q / (4 * (r * r * r)).
Definition vk_t (s : R) : R := Rcbrt (1 + s + sqrt (s * (2 + s))).
Definition vk (e2 p q : R) : R :=
  let t := vk_t (vk_s e2 p q) in
  let u := (p + q - e2 * e2) / 6 * (1 + t + 1 / t) in
  let v := sqrt (u * u + e2 * e2 * q) in
  let w := e2 * (u + v - q) / (2 * v) in
  sqrt (u + v + w * w) - w.
Lemma vk_fin e2 a r z : 0 < a -> 0 <= e2 < 1 -> let p := r / a * (r / a) in let q := (1 - e2) * (z / a) * (z / a) in
  e2 * e2 < p + q -> vermeille_k (Fin e2) (Fin a) (Fin r) (Fin z) = Fin (vk e2 p q).
Proof.
  intros A0 E2 p q H. unfold vermeille_k, fpow3. xr. rewrite !(xdiv_fin _ a) by lra. xr. fold p q.
  assert (P0 : 0 <= p) by apply Rle_0_sqr.
  assert (Q0 : 0 <= q) by (unfold q; rewrite Rmult_assoc; apply Rmult_le_pos; [lra|apply Rle_0_sqr]).
  rewrite (xdiv_fin _ 6) by lra. xr. unfold vk, vk_s. set (rr := (p + q - e2 * e2) / 6).
  assert (R0 : 0 < rr) by (unfold rr; lra).
  assert (R3p : 0 < 4 * (rr * rr * rr)). { apply Rmult_lt_0_compat; [lra|]. repeat apply Rmult_lt_0_compat; lra. }
  rewrite (xdiv_fin _ (4 * (rr * rr * rr))) by lra. xr. cbv zeta. set (s := e2 * e2 * p * q / (4 * (rr * rr * rr))).
  assert (S0 : 0 <= s).
  { apply Rmult_le_pos; [apply Rmult_le_pos; [apply Rmult_le_pos; [apply Rle_0_sqr|exact P0]|exact Q0]|].
    left. now apply Rinv_0_lt_compat. }
  assert (SS : 0 <= s * (2 + s)) by nra.
  rewrite xsqrt_fin by easy. xr. fold (vk_t s).
  pose proof (sqrt_pos (s * (2 + s))) as W0.
  assert (T0 : 0 < vk_t s) by (apply Rcbrt_pos; lra). set (t := vk_t s) in *.
  rewrite (xdiv_fin 1 t) by lra. xr. set (u := rr * (1 + t + 1 / t)) in *.
  assert (U0 : 0 < u) by (apply Rmult_lt_0_compat; [lra|]; assert (0 < 1 / t) by (apply Rdiv_lt_0_compat; lra); lra).
  assert (V2 : 0 < u * u + e2 * e2 * q).
  { assert (0 <= e2 * e2 * q) by (apply Rmult_le_pos; nra). nra. }
  rewrite (xsqrt_fin (u * u + e2 * e2 * q)) by lra. xr.
  pose proof (sqrt_lt_R0 _ V2) as V0. set (v := sqrt (u * u + e2 * e2 * q)) in *.
  rewrite (xdiv_fin _ (2 * v)) by lra. xr. set (w := e2 * (u + v - q) / (2 * v)) in *.
  rewrite xsqrt_fin by nra. xr. reflexivity.
Qed.

Section Lm.
Context (lm : libm) (AC : accurate lm).
Context (E : Ellipsoid f64) (a b : R) (HE : earth64 E a b).
Definition e2r : R := (a - b) * (a + b) / (a * a).

Lemma e2r_range : 0 < e2r <= 199 / 10000.
Proof.
  destruct HE as (_ & _ & _ & B1 & B2 & B3 & B4). unfold e2r. assert (AP : 0 < a * a) by nra. split; [apply Rdiv_lt_0_compat; [nra|exact AP]|].
  apply (Rmult_le_reg_r (a * a)); [exact AP|]. unfold Rdiv. rewrite Rmult_assoc, Rinv_l by lra. nra.
Qed.


(** The quantities p and q, and r. *)
Lemma near_pq (rf z : f64) r : near rf r 0 6500000 (Qmake 1 (2 ^ 50)) (Qmake 1 (2 ^ 117)) -> is_finite z = true -> Rabs (B2R z) <= 6500000 -> 6200000 * 6200000 <= r * r + B2R z * B2R z <= 6500000 * 6500000 ->
  let p := r / a * (r / a) in let q := (1 - e2r) * (B2R z / a) * (B2R z / a) in
  let e2f := e_sq (ops := F64ops lm) E in
  let pf := Bmult mode_NE (Bdiv mode_NE rf (e_a E)) (Bdiv mode_NE rf (e_a E)) in
  let qf := Bmult mode_NE (Bmult mode_NE (Bminus mode_NE (f64_ofZ 1) e2f) (Bdiv mode_NE z (e_a E))) (Bdiv mode_NE z (e_a E)) in
  let rr := (p + q - e2r * e2r) / 6 in
  near pf p 0 (Qmake 107 100) (Qmake 20 (2 ^ 53)) (Qmake 1 (2 ^ 115)) /\ 0 <= B2R pf /\
  near qf q 0 (Qmake 107 100) (Qmake 8 (2 ^ 53)) (Qmake 1 (2 ^ 115)) /\ 0 <= B2R qf /\
  near (Bdiv mode_NE (Bminus mode_NE (Bplus mode_NE pf qf) (Bmult mode_NE e2f e2f)) (f64_ofZ 6)) rr (Qmake 149 1000) (Qmake 179 1000) (Qmake 26 (2 ^ 53)) 0.
Proof.
  intros NR FZ BZ HR p q e2f pf qf rr. pose proof e2r_range as E2. destruct (near_axes E a b HE) as [NA _]. pose proof (near_e2 lm E a b HE) as N2. fold e2r in N2. apply Rabs_le_inv in BZ.
  pose proof (near_exact z (-6500000) 6500000 FZ ltac:(split; unfold Q2R; cbn; lra)) as NZ. destruct HE as (_ & _ & _ & B1 & B2 & B3 & B4).
  assert (AI : 0 < / a) by (apply Rinv_0_lt_compat; lra).
  assert (PQ : 90 / 100 <= p + q <= 107 / 100). { subst p q. replace (r / a * (r / a) + (1 - e2r) * (B2R z / a) * (B2R z / a)) with ((r * r + (1 - e2r) * (B2R z * B2R z)) / (a * a)) by (field; lra). pose proof (Rle_0_sqr r) as S1. pose proof (Rle_0_sqr (B2R z)) as S2. unfold Rsqr in *. set (X := r * r + (1 - e2r) * (B2R z * B2R z)). assert (XL : 98 / 100 * (6200000 * 6200000) <= X) by (unfold X; nra). assert (XU : X <= 6500000 * 6500000) by (unfold X; nra). assert (XD : X / (a * a) * (a * a) = X) by (field; lra). split; apply (Rmult_le_reg_r (a * a)); try nra. }
  nmul N2 N2 N3. ndiv NR NA N4. nmul N4 N4 N5. ndiv NZ NA N6. nZ 1%Z N1. nsub N1 N2 N7. nrel N7. nmul N7 N6 N8. nmul N8 N6 N9.
  assert (P0 : 0 <= p) by apply Rle_0_sqr. assert (Q0 : 0 <= q) by (unfold q; rewrite Rmult_assoc; apply Rmult_le_pos; [lra|apply Rle_0_sqr]).
  assert (W7 : 0 < B2R (Bminus mode_NE (f64_ofZ 1) (e_sq (ops := F64ops lm) E))) by (apply (near_pos _ _ _ _ _ _ N7); vm_compute; reflexivity).
  assert (SP : 0 <= B2R pf) by (apply sq_sgn; apply N5).
  assert (SQ : 0 <= B2R qf).
  { unfold qf, e2f. set (c := Bminus mode_NE (f64_ofZ 1) (e_sq (ops := F64ops lm) E)) in *. set (y := Bdiv mode_NE z (e_a E)) in *.
    pose proof (Bmult_correct 53 1024 _ _ mode_NE c y) as C8. destruct N8 as (F8 & _). destruct (Rlt_bool _ _) in C8; [|destruct (Bmult mode_NE c y); discriminate]. destruct C8 as (C8 & _).
    pose proof (Bmult_correct 53 1024 _ _ mode_NE (Bmult mode_NE c y) y) as C9. destruct N9 as (F9 & _). destruct (Rlt_bool _ _) in C9; [|destruct (Bmult mode_NE (Bmult mode_NE c y) y); discriminate]. destruct C9 as (C9 & _).
    rewrite C9. apply rnd_pos. change (round radix2 (SpecFloat.fexp 53 1024) (round_mode mode_NE)) with rnd in C8. rewrite C8. destruct (Rle_lt_dec 0 (B2R y)) as [Y|Y].
    - apply Rmult_le_pos; [|exact Y]. apply rnd_pos. apply Rmult_le_pos; lra.
    - assert (rnd (B2R c * B2R y) <= 0) by (rewrite <- rnd_0; apply rnd_le; nra). nra. }
  fold p in N5. fold q in N9. apply (near_range _ _ _ _ _ _ 0 (Qmake 107 100)) in N5; [|rewrite q0; replace (Q2R (Qmake 107 100)) with (107 / 100) by qv; lra]. apply (near_range _ _ _ _ _ _ 0 (Qmake 107 100)) in N9; [|rewrite q0; replace (Q2R (Qmake 107 100)) with (107 / 100) by qv; lra].
  naddp N5 N9 N10. apply (near_range _ _ _ _ _ _ (Qmake 90 100) (Qmake 107 100)) in N10; [|replace (Q2R (Qmake 107 100)) with (107 / 100) by qv; replace (Q2R (Qmake 90 100)) with (90 / 100) by qv; lra].
  nsub N10 N3 N11. nZ 6%Z N12. ndiv N11 N12 N13. fold rr in N13. nrel N13.
  split; [refine (near_weak _ _ _ _ _ _ _ _ _ _ N5 (proj1 (proj2 N5)) _ _); vm_compute; reflexivity|]. split; [exact SP|].
  split; [refine (near_weak _ _ _ _ _ _ _ _ _ _ N9 (proj1 (proj2 N9)) _ _); vm_compute; reflexivity|]. split; [exact SQ|].
  refine (near_weak _ _ _ _ _ _ _ _ _ _ N13 (near_in_q _ _ _ _ _ (proj1 (proj2 N13)) _ _) _ _); vm_compute; reflexivity.
Qed.

(** The quantity s, from e2, p, q and r. *)
Lemma near_s (pf qf rf : f64) p q rr : 0 <= p -> 0 <= q -> p + q <= 108 / 100 ->
  near pf p 0 (Qmake 107 100) (Qmake 20 (2 ^ 53)) (Qmake 1 (2 ^ 115)) -> 0 <= B2R pf ->
  near qf q 0 (Qmake 107 100) (Qmake 8 (2 ^ 53)) (Qmake 1 (2 ^ 115)) -> 0 <= B2R qf ->
  near rf rr (Qmake 149 1000) (Qmake 179 1000) (Qmake 26 (2 ^ 53)) 0 ->
  let e2f := e_sq (ops := F64ops lm) E in let s := e2r * e2r * p * q / (4 * (rr * rr * rr)) in
  let sf := Bdiv mode_NE (Bmult mode_NE (Bmult mode_NE (Bmult mode_NE e2f e2f) pf) qf) (Bmult mode_NE (f64_ofZ 4) (Bmult mode_NE (Bmult mode_NE rf rf) rf)) in
  near sf s 0 (Qmake 1 100) (Qmake 130 (2 ^ 53)) (Qmake 1 (2 ^ 111)) /\ 0 <= B2R sf.
Proof.
  intros P0 Q0 PQ NP SP NQ SQ NR e2f s sf. pose proof e2r_range as E2. pose proof (near_e2 lm E a b HE) as N2. fold e2r in N2.
  nmul N2 N2 N3. nmul N3 NP N4. nmul N4 NQ N5. nmul NR NR N6. nmul N6 NR N7. nZ 4%Z N8. nmul N8 N7 N9. ndiv N5 N9 N10.
  assert (RB : 149 / 1000 <= rr). { destruct NR as (_ & B & _). replace (Q2R (Qmake 149 1000)) with (149 / 1000) in B by qv. lra. }
  assert (R3 : 3307 / 1000000 <= rr * rr * rr). { assert (22201 / 1000000 <= rr * rr) by nra. nra. }
  assert (S0 : 0 <= s <= 1 / 100).
  { assert (A1 : 0 <= e2r * e2r <= 3961 / 10000000) by nra. assert (A2 : 0 <= p * q <= 2916 / 10000). { split; [apply Rmult_le_pos; lra|]. pose proof (Rle_0_sqr (p - q)) as X. unfold Rsqr in X. nra. }
    assert (A3 : 0 <= e2r * e2r * (p * q) <= 3961 / 10000000 * (2916 / 10000)) by (split; [apply Rmult_le_pos; lra|apply Rmult_le_compat; lra]).
    unfold s. rewrite Rmult_assoc. assert (IV : 0 < / (4 * (rr * rr * rr))) by (apply Rinv_0_lt_compat; lra). split; [apply Rmult_le_pos; lra|]. apply (Rmult_le_reg_r (4 * (rr * rr * rr))); [lra|]. unfold Rdiv. rewrite Rmult_assoc, Rinv_l by lra. lra. }
  split.
  - refine (near_weak _ _ _ _ _ _ _ _ _ _ N10 _ _ _); [|vm_compute; reflexivity|vm_compute; reflexivity]. rewrite q0. replace (Q2R (Qmake 1 100)) with (1 / 100) by qv. exact S0.
  - apply div_sgn; [apply N10| |apply (near_pos _ _ _ _ _ _ N9); vm_compute; reflexivity]. apply mul_sgn; [apply N5| |exact SQ]. apply mul_sgn; [apply N4| |exact SP]. apply sq_sgn. apply N3.
Qed.

(** The cube root t. *)
Lemma vk_t_range s : 0 <= s <= 1 / 100 -> 1 <= vk_t s <= 106 / 100.
Proof.
  intros H. unfold vk_t. assert (Y : 0 <= sqrt (s * (2 + s)) <= 142 / 1000). { split; [apply sqrt_pos|]. rewrite <- (sqrt_Rsqr (142 / 1000)) by lra. apply sqrt_le_1_alt. unfold Rsqr. nra. }
  set (y := sqrt (s * (2 + s))) in *. pose proof (Rcbrt_cube (1 + s + y)) as C. pose proof (Rcbrt_pos (1 + s + y) ltac:(lra)) as K. set (c := Rcbrt (1 + s + y)) in *.
  split; [destruct (Rle_lt_dec 1 c) as [|L]; [assumption|exfalso; assert (c * c <= 1) by nra; nra]|destruct (Rle_lt_dec c (106 / 100)) as [|L]; [assumption|exfalso; assert (106 / 100 * (106 / 100) <= c * c) by nra; nra]].
Qed.
Lemma near_t (sf : f64) s : 0 <= s <= 1 / 100 -> near sf s 0 (Qmake 1 100) (Qmake 130 (2 ^ 53)) (Qmake 1 (2 ^ 111)) -> 0 <= B2R sf ->
  near (lm_cbrt lm (Bplus mode_NE (Bplus mode_NE (f64_ofZ 1) sf) (Bsqrt mode_NE (Bmult mode_NE sf (Bplus mode_NE (f64_ofZ 2) sf))))) (vk_t s) 1 (Qmake 106 100) (Qmake 8 (2 ^ 53)) (Qmake 10 (2 ^ 53)).
Proof.
  intros S0 NS SS. nZ 1%Z N1. nZ 2%Z N2. nadd N1 NS N3. naddp N2 NS N4. nmul NS N4 N5.
  assert (S5 : 0 <= B2R (Bmult mode_NE sf (Bplus mode_NE (f64_ofZ 2) sf))).
  { apply mul_sgn; [apply N5|exact SS|]. left. apply (near_pos _ _ _ _ _ _ N4). vm_compute. reflexivity. }
  pose proof (near_sqrt0 _ _ _ _ _ _ N5 S5 ltac:(vm_compute; reflexivity)) as N6. nnorm N6. nadd N3 N6 N7. pose proof (vk_t_range s S0) as T. pose proof (sqrt_pos (s * (2 + s))) as Y.
  assert (Q : Q2R 1 <= Rcbrt (1 + s + sqrt (s * (2 + s))) <= Q2R (Qmake 106 100)). { rewrite q1. replace (Q2R (Qmake 106 100)) with (106 / 100) by qv. exact T. }
  pose proof (near_cbrt lm AC _ _ _ _ _ _ 1 (Qmake 106 100) N7 ltac:(lra) ltac:(vm_compute; reflexivity) Q) as N8. nnorm N8. fold (vk_t s) in N8.
  refine (near_weak _ _ _ _ _ _ _ _ _ _ N8 (proj1 (proj2 N8)) _ _); vm_compute; reflexivity.
Qed.
(** The root k, from e2, q, r and t. *)
Lemma near_kk (qf rf tf : f64) q rr t : 0 <= q -> 1 <= t <= 106 / 100 ->
  near qf q 0 (Qmake 107 100) (Qmake 8 (2 ^ 53)) (Qmake 1 (2 ^ 115)) ->
  near rf rr (Qmake 149 1000) (Qmake 179 1000) (Qmake 26 (2 ^ 53)) 0 ->
  near tf t 1 (Qmake 106 100) (Qmake 8 (2 ^ 53)) (Qmake 10 (2 ^ 53)) ->
  let e2f := e_sq (ops := F64ops lm) E in let u := rr * (1 + t + 1 / t) in let v := sqrt (u * u + e2r * e2r * q) in let w := e2r * (u + v - q) / (2 * v) in
  let uf := Bmult mode_NE rf (Bplus mode_NE (Bplus mode_NE (f64_ofZ 1) tf) (Bdiv mode_NE (f64_ofZ 1) tf)) in
  let vf := Bsqrt mode_NE (Bplus mode_NE (Bmult mode_NE uf uf) (Bmult mode_NE (Bmult mode_NE e2f e2f) qf)) in
  let wf := Bdiv mode_NE (Bmult mode_NE e2f (Bminus mode_NE (Bplus mode_NE uf vf) qf)) (Bmult mode_NE (f64_ofZ 2) vf) in
  near (Bminus mode_NE (Bsqrt mode_NE (Bplus mode_NE (Bplus mode_NE uf vf) (Bmult mode_NE wf wf))) wf) (sqrt (u + v + w * w) - w) (Qmake 9 10) (Qmake 11 10) 0 (Qmake 60 (2 ^ 53)).
Proof.
  intros Q0 T NQ NR NT e2f u v w uf vf wf. pose proof e2r_range as E2. pose proof (near_e2 lm E a b HE) as N2. fold e2r in N2. fold e2f in N2.
  nmul N2 N2 N3. nmul N3 NQ N4. nZ 1%Z N1. nadd N1 NT N5. nrel N5. ndiv N1 NT N6. nrel N6. naddp N5 N6 N7. nmul NR N7 N8. fold u in N8. fold uf in N8. nrel N8.
  apply (near_range _ _ _ _ _ _ (Qmake 446 1000) (Qmake 539 1000)) in N8.
  2:{ destruct NR as (_ & B & _). replace (Q2R (Qmake 149 1000)) with (149 / 1000) in B by qv. replace (Q2R (Qmake 179 1000)) with (179 / 1000) in B by qv. replace (Q2R (Qmake 446 1000)) with (446 / 1000) by qv. replace (Q2R (Qmake 539 1000)) with (539 / 1000) by qv. assert (H : 3 <= 1 + t + 1 / t <= 301 / 100). { assert (TT : 1 / t * t = 1) by (field; lra). set (i := 1 / t) in *. split; nra. } unfold u. split; nra. }
  clearbody uf u. nmul N8 N8 N9. naddp N9 N4 N10. nsqrt N10 N11. fold v in N11. fold vf in N11. clearbody vf v. naddp N8 N11 N12. nsub N12 NQ N13. nmul N2 N13 N14. nZ 2%Z N15. nmul N15 N11 N16. ndiv N14 N16 N17. fold w in N17. fold wf in N17. clearbody w wf. 
  nmul N17 N17 N18. nadd N12 N18 N19. nrel N19. nsqrt N19 N20. nsub N20 N17 N21. nnorm N21. apply near_abs in N21. nnorm N21.
  refine (near_weak _ _ _ _ _ _ _ _ _ _ N21 (near_in_q _ _ _ _ _ (proj1 (proj2 N21)) _ _) _ _); vm_compute; reflexivity.
Qed.

(** The root k of the code. *)
Lemma near_k (rf z : f64) r : near rf r 0 6500000 (Qmake 1 (2 ^ 50)) (Qmake 1 (2 ^ 117)) -> is_finite z = true -> Rabs (B2R z) <= 6500000 -> 6200000 * 6200000 <= r * r + B2R z * B2R z <= 6500000 * 6500000 ->
  let p := r / a * (r / a) in let q := (1 - e2r) * (B2R z / a) * (B2R z / a) in
  near (vermeille_k (ops := F64ops lm) (e_sq (ops := F64ops lm) E) (e_a E) rf z) (vk e2r p q) (Qmake 9 10) (Qmake 11 10) 0 (Qmake 60 (2 ^ 53)) /\ e2r * e2r < p + q.
Proof.
  intros NR FZ BZ HR p q. destruct (near_pq rf z r NR FZ BZ HR) as (NP & SP & NQ & SQ & NRR). fold p q in NP, NQ, NRR.
  pose proof e2r_range as E2. assert (P0 : 0 <= p) by apply Rle_0_sqr. assert (Q0 : 0 <= q) by (unfold q; rewrite Rmult_assoc; apply Rmult_le_pos; [lra|apply Rle_0_sqr]).
  set (rr := (p + q - e2r * e2r) / 6) in *. assert (RB : 149 / 1000 <= rr <= 179 / 1000). { destruct NRR as (_ & B & _). replace (Q2R (Qmake 149 1000)) with (149 / 1000) in B by qv. replace (Q2R (Qmake 179 1000)) with (179 / 1000) in B by qv. lra. }
  assert (PQ : p + q = 6 * rr + e2r * e2r) by (unfold rr; lra). assert (E4 : 0 <= e2r * e2r <= 4 / 10000) by nra. 
  destruct (near_s _ _ _ p q rr P0 Q0 ltac:(lra) NP SP NQ SQ NRR) as [NS SS].
  assert (S0 : 0 <= vk_s e2r p q <= 1 / 100). { destruct NS as (_ & B & _). rewrite q0 in B. replace (Q2R (Qmake 1 100)) with (1 / 100) in B by qv. exact B. }
  split; [|lra]. apply near_t in NS; [|exact S0|exact SS].
  exact (near_kk _ _ _ q rr _ Q0 (vk_t_range _ S0) NQ NRR NS).
Qed.

End Lm.
