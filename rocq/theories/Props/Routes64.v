(** Property C59: transformations between coordinate reference systems in binary64.

    [locates64], [source64], [target64] and [moves64] are in Spec/Routes64.v, [accurate] in Spec/Accurate.v. *)
From Coq Require Import Reals Lra List String.
From Flocq Require Import Core IEEE754.BinarySingleNaN.
From Verif.Num Require Import FOps F64.
From Verif.Model Require Import Fp Quantities Cs Ellipsoid Projections Crs.
From Verif.Spec Require Import Axes Shape Frames Accurate Binary64 Routes64.
From Verif.Proofs Require Import LibmOk TransB.
Import ListNotations.
Local Open Scope string_scope.
Local Open Scope list_scope.
Local Open Scope R_scope.

(** ** C59 A transformation in binary64 is right to half a micrometre *)
Theorem C59_fwd : forall lm, accurate lm -> forall fuel (t : CrsXYZTransformation f64) f1 g1 f2 g2,
  moves64 lm (tr_src_to_ref t) f1 g1 -> moves64 lm (tr_dst_to_ref t) f2 g2 ->
  forall src rest dst P, source64 lm (tr_src t) src P -> target64 lm (tr_dst t) (g2 (f1 P)) -> (3 <= List.length dst)%nat ->
  exists out Q, tr_fwd (ops := F64ops lm) fuel t (src ++ rest) dst = Ret (Ok (out ++ skipn 3 dst)) /\
  locates64 lm (tr_dst t) out Q /\ edist Q (g2 (f1 P)) <= 5 / 10 ^ 7.
Proof. exact c59_fwd. Qed.
Print Assumptions C59_fwd.

Theorem C59_bwd : forall lm, accurate lm -> forall fuel (t : CrsXYZTransformation f64) f1 g1 f2 g2,
  moves64 lm (tr_src_to_ref t) f1 g1 -> moves64 lm (tr_dst_to_ref t) f2 g2 ->
  forall dst rest src P, source64 lm (tr_dst t) dst P -> target64 lm (tr_src t) (g1 (f2 P)) -> (3 <= List.length src)%nat ->
  exists out Q, tr_bwd (ops := F64ops lm) fuel t (dst ++ rest) src = Ret (Ok (out ++ skipn 3 src)) /\
  locates64 lm (tr_src t) out Q /\ edist Q (g1 (f2 P)) <= 5 / 10 ^ 7.
Proof. exact c59_bwd. Qed.
Print Assumptions C59_bwd.

(** From WGS 84 in degrees and metres to gradians and feet by a Helmert transformation; 10 degrees east, 45 north, 100 m. *)
Example C59_ex : let O := F64ops libm_ex in let r := @B754_finite 53 1024 false 4503599627370496 (-72) eq_refl in
  let t := mkTransfo (GeographicCrs "WGS 84" (DATUM_WGS84 (ops := O)) (GEastNorthUp (DEG (ops := O)) (M (ops := O)))) XYZIdentity
    (helmert_new (ops := O) CoordinateFrame r (f64_ofZ 0) (f64_ofZ 0) (f64_ofZ 100) (f64_ofZ (-50)) (f64_ofZ 30) (f64_ofZ 20))
    (GeographicCrs "other" (DATUM_WGS84 (ops := O)) (GNorthEastUp (GRAD (ops := O)) (FT (ops := O)))) in
  let g := fun P => vadd (vscale (1 - 20 / 1000000) (vadd P (vscale (- turn CoordinateFrame) (cross (/ 1048576, 0, 0) P)))) (-100, - -50, -30) in
  accurate libm_ex /\ (exists f1 g1, moves64 libm_ex (tr_src_to_ref t) f1 g1 /\ forall P, f1 P = P) /\ (exists f2, moves64 libm_ex (tr_dst_to_ref t) f2 g) /\
  exists P, source64 libm_ex (tr_src t) [f64_ofZ 10; f64_ofZ 45; f64_ofZ 100] P /\ target64 libm_ex (tr_dst t) (g P).
Proof. exact c59_ex. Qed.
