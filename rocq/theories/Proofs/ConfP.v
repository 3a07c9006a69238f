(** The statements of Props/Conformal.v. *)
From Coq Require Import String Reals Lra Psatz ZArith List Bool.
From Verif.Num Require Import FOps RFun XR XRLemmas.
From Verif.Model Require Import Fp Quantities Complex Cs Ellipsoid Geodesics Projections Crs Geometry.
From Verif.Spec Require Import Angles Axes Shape Frames Sphere Maps Krueger Conformal.
From Verif.Proofs Require Import AnglesX AxesX AxesEx EllX EllEx Wgs84 MercX TMX TMConf TMScale TMArc.
Import ListNotations.
Local Open Scope R_scope.
Lemma c55_conformal : forall E a b lon0 lat0 k0 fe fn, shape E a b -> 99 * a <= 100 * b -> latitude lat0 -> 0 < k0 ->
  let P := applied_to (STransverseMercator (Fin lon0) (Fin lat0) (Fin k0) (Fin fe) (Fin fn)) E in
  exists x z east north, meridian a b x z /\ forall l p, nonpolar p -> 0 < cos (l - lon0) ->
  (forall h, proj P (llh3 l p h) = Ok (enh (east l p, north l p, h))) /\
  exists s g, 0 <= s /\ - PI < g <= PI /\ conformal_at x z east north l p s g /\
  (/ 2 <= cos (l - lon0) * cos (l - lon0) -> 0 < s) /\
  (same_angle l lon0 -> g = 0 /\ Rabs (s - k0) <= 25 * third_flattening a b ^ 5 * k0).
Proof.
  intros E a b lon0 lat0 k0 fe fn HE Hf Hl Hk P. exists (mer_x a b), (mer_z a b), (ceast a b lon0 k0 fe), (cnorth a b lon0 lat0 k0 fn). split; [apply (mer_meridian E a b HE)|]. intros l p Hp Hc. split; [intros h; exact (cproj E a b HE lon0 lat0 k0 fe fn Hl l p h Hp Hc)|].
  exists (cscale a b lon0 k0 l p), (cturn a b lon0 l p). split; [apply (cscale_pos E a b HE lon0 k0 l p Hk Hp)|]. split; [apply Ratan2_bound|]. split; [now apply (cconf E a b HE lon0 lat0 k0 fe fn)|]. split; [intros H2; now apply (conf_positive E a b HE Hf lon0 k0 Hk)|].
  intros SA. destruct (central_scale E a b HE Hf lon0 k0 Hk l p Hp SA) as [A B]. split; [exact B|exact A].
Qed.
Lemma c55_meridian_distance : forall E a b lon0 lat0 k0 fe fn x z D, shape E a b -> 99 * a <= 100 * b -> latitude lat0 -> 0 < k0 ->
  meridian a b x z -> meridian_arc x z D ->
  let P := applied_to (STransverseMercator (Fin lon0) (Fin lat0) (Fin k0) (Fin fe) (Fin fn)) E in
  exists north, (forall l p h, nonpolar p -> same_angle l lon0 -> proj P (llh3 l p h) = Ok (enh (fe, north p, h))) /\
  forall p q, nonpolar p -> nonpolar q ->
  Rabs (north q - north p - k0 * (D q - D p)) <= 25 * third_flattening a b ^ 5 * k0 * Rabs (D q - D p).
Proof.
  intros E a b lon0 lat0 k0 fe fn x z D HE Hf Hl Hk M A P. exists (fun p => cnorth a b lon0 lat0 k0 fn lon0 p). split.
  - intros l p h Hp SA. assert (C : 0 < cos (l - lon0)) by (rewrite (same_cos1 _ _ SA); lra). change (proj P (llh3 l p h)) with (tm_proj (tm_new E (Fin lon0) (Fin lat0) (Fin k0) (Fin fe) (Fin fn)) (llh3 l p h)). rewrite (cproj E a b HE lon0 lat0 k0 fe fn Hl l p h Hp C). rewrite (cnorth_same a b lon0 lat0 k0 fn l p SA), (ceast_same a b lon0 k0 fe l p SA). reflexivity.
  - intros p q Hp Hq. exact (arc_bound E a b HE Hf lon0 lat0 k0 fe fn Hk x z D M A p q Hp Hq).
Qed.
Lemma c55_wgs84 : forall a b, shape WGS84 a b -> 99 * a <= 100 * b /\ 25 * third_flattening a b ^ 5 <= 4 / 10 ^ 13.
Proof.
  intros a b S. destruct (wgs84_shape a b S) as [-> ->]. split; [lra|]. unfold third_flattening. match goal with |- 25 * ?u ^ 5 <= _ => set (n := u) end. assert (N : 0 <= n <= 1680 / 1000000) by (unfold n; lra).
  assert (N5 : n ^ 5 <= (1680 / 1000000) ^ 5) by (apply pow_incr; lra). cbn [pow] in *. lra.
Qed.
Lemma c55_ex : (exists a b, shape WGS84 a b /\ 99 * a <= 100 * b /\ b < a) /\ latitude 0 /\ 0 < 0.9996 /\ nonpolar (48 * (PI / 180)) /\
  0 < cos (12 * (PI / 180) - 9 * (PI / 180)) /\ / 2 <= cos (12 * (PI / 180) - 9 * (PI / 180)) * cos (12 * (PI / 180) - 9 * (PI / 180)) /\
  (exists a b x z D, shape WGS84 a b /\ meridian a b x z /\ meridian_arc x z D).
Proof.
  destruct wgs84_has as (a & b & S & F). pose proof PI_RGT_0 as PP. pose proof PI_4 as P4. split; [exists a, b; split; [exact S|]; split; [exact F|]; destruct (wgs84_shape a b S) as [-> ->]; lra|].
  split; [unfold latitude; lra|]. split; [lra|]. split; [unfold nonpolar; lra|]. replace (12 * (PI / 180) - 9 * (PI / 180)) with (PI / 60) by field.
  assert (C : sqrt 2 / 2 <= cos (PI / 60)) by (rewrite <- cos_PI4'; left; apply cos_decreasing_1; lra). assert (Q : sqrt 2 * sqrt 2 = 2) by (apply sqrt_sqrt; lra). assert (0 < sqrt 2) by (apply sqrt_lt_R0; lra).
  split; [lra|]. split; [nra|]. destruct (arc_exists WGS84 a b S) as [D HD]. exists a, b, (mer_x a b), (mer_z a b), D. split; [exact S|]. split; [apply (mer_meridian WGS84 a b S)|exact HD].
Qed.
