(** Property C71: distances and lengths in any of the units, in binary64.

    Spec/Space64.v defines [stands64] (the point coordinates stand for) and [way] (the length of a
    way from point to point); Spec/Lines.v [line_tos]; Spec/Accurate.v [accurate]. *)
From Coq Require Import Reals List ZArith String.
From Flocq Require Import Core IEEE754.BinarySingleNaN.
From Verif.Num Require Import FOps F64.
From Verif.Model Require Import Fp Quantities Cs Ellipsoid Geodesics Projections Crs Geometry.
From Verif.Spec Require Import Axes Accurate Lines Binary64 Routes64 MapRoutes64 Space64.
From Verif.Proofs Require Import LibmOk Space64P Space64Ex.
Import ListNotations.
Local Open Scope string_scope.
Local Open Scope list_scope.
Local Open Scope R_scope.

(** [Crs::dist] is the distance of the points to 0.4 micrometres. *)
Theorem C71_distance : forall lm, accurate lm -> forall c p q P Q, stands64 lm c p P -> stands64 lm c q Q ->
  exists d, crs_dist (ops := F64ops lm) c p q = Ret (Ok d) /\ is_finite d = true /\ 0 <= B2R d /\
  Rabs (B2R d - edist P Q) <= / 2 ^ 48 * edist P Q + 4 / 10 ^ 7.
Proof. exact dist_any. Qed.
Print Assumptions C71_distance.

(** A line built point by point has the length of the way to half a micrometre per segment. *)
Theorem C71_length : forall lm, accurate lm -> forall crs p q b0 ps b Ps,
  lsb_with_line (ops := F64ops lm) crs p q = Ret (Ok b0) -> line_tos (ops := F64ops lm) b0 ps = Ret (Ok b) ->
  Forall2 (stands64 lm crs) (p :: q :: ps) Ps -> let n := INR (S (List.length ps)) in n <= 2 ^ 30 ->
  let L := ls_length (ops := F64ops lm) (lsb_build b) in is_finite L = true /\
  Rabs (B2R L - way Ps) <= (16 + n) * / 2 ^ 52 * way Ps + n * (5 / 10 ^ 7).
Proof. exact built_any. Qed.
Print Assumptions C71_length.

(** Opposite places on the earth, and two places in feet on a map whose distance is 15240 metres. *)
Example C71_ex : let O := F64ops libm_ex in let d := DATUM_WGS84 (ops := O) in
  let geo := GeographicCrs "WGS 84" d (GEastNorthUp (DEG (ops := O)) (M (ops := O))) in
  let web := ProjectedCrs "web" d (PEastNorth (FT (ops := O))) (SWebMercator (f64_ofZ 0) (f64_ofZ 0) (f64_ofZ 0) (f64_ofZ 0)) in
  accurate libm_ex /\
  (exists P, stands64 libm_ex geo [f64_ofZ 10; f64_ofZ 45; f64_ofZ 100] P) /\
  (exists P, stands64 libm_ex geo [f64_ofZ 190; f64_ofZ (-45); f64_ofZ 100] P) /\
  stands64 libm_ex web [f64_ofZ 30000; f64_ofZ 0] (9144, 0, 0) /\
  stands64 libm_ex web [f64_ofZ 0; f64_ofZ 40000] (0, 12192, 0) /\
  edist (9144, 0, 0) (0, 12192, 0) = 15240.
Proof. exact space_ex. Qed.
