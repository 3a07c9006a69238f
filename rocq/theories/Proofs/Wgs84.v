(** The size and shape of the predefined WGS84 ellipsoid in exact arithmetic. *)
From Coq Require Import String Reals Lra.
From Verif.Num Require Import FOps XR XRLemmas.
From Verif.Model Require Import Ellipsoid.
From Verif.Spec Require Import Shape.
From Verif.Proofs Require Import EllX EllEx EllF.
Local Open Scope R_scope.
Lemma wgs84_shape a b : shape WGS84 a b -> a = 6378137 /\ b = 6378137 * (1 - / (298257223563 / 1000000000)).
Proof.
  pose proof (def_ainvf_shape "WGS 84"%string 6378137 (298257223563 / 1000000000) ltac:(lra) ltac:(lra)) as S.
  assert (S' : shape WGS84 6378137 (6378137 * (1 - / (298257223563 / 1000000000)))).
  { change (WGS84 (F := XR)) with (def_ainvf (F := XR) "WGS 84"%string (Fin (Rlit 6378137 0)) (Fin (Rlit 298257223563 9))). replace (Rlit 6378137 0) with 6378137 by (unfold Rlit; lra). replace (1 - / (298257223563 / 1000000000)) with (1 - 1 / (298257223563 / 1000000000)) by lra. exact S. }
  intros (_ & A & B & _). destruct S' as (_ & A' & B' & _). rewrite A' in A. rewrite B' in B. injection A; injection B; intros; lra.
Qed.
Lemma wgs84_has : exists a b, shape WGS84 a b /\ 99 * a <= 100 * b.
Proof. destruct ex_wgs84 as (a & b & S & _). exists a, b. split; [exact S|]. destruct (wgs84_shape a b S) as [-> ->]. lra. Qed.
