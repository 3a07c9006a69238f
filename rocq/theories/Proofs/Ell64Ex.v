(** An example for ellipsoids in binary64. *)
From Coq Require Import Reals List Lra Lia.
From Flocq Require Import Core IEEE754.BinarySingleNaN.
From Verif.Num Require Import FOps F64 F64Lemmas PIBounds.
From Verif.Model Require Import Ellipsoid.
From Verif.Spec Require Import Accurate Binary64 Ellipsoid64.
From Verif.Proofs Require Import LibmOk Lines64A Ell64B.
Local Open Scope R_scope.

Lemma ell64_ex : exists lm, accurate lm /\ let E := WGS84 (ops := F64ops lm) in let p := f64_ofZ 1 in
  earth64 E (B2R (e_a E)) (B2R (e_b E)) /\ flat64 E (B2R (e_a E)) (B2R (e_b E)) /\ is_finite p = true /\ B2R p = 1 /\ Rabs (B2R p) <= B2R PI_2_64.
Proof.
  exists libm_ex. split; [exact libm_ex_ok|]. intros E p. destruct (consts_earth_flat libm_ex E) as [H1 H2]. { unfold E, ellipsoid_consts. repeat (try (left; reflexivity); right). }
  split; [exact H1|]. split; [exact H2|]. destruct one_val as [V F]. split; [exact F|]. fold p in V. split; [exact V|]. rewrite V, Rabs_R1, (proj1 PI_2_64_val). unfold m_pi. lra.
Qed.
