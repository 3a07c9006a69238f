(** Property C68: there and back by a transformation between reference systems in binary64.

    [system64], [station64], [there_and_back64] and [shifts] are in Spec/Return64.v, [runs64] in Spec/MapRoutes64.v,
    [maps64] in Spec/GridRoutes64.v, [source64] and [moves64] in Spec/Routes64.v, [reach] in Spec/Reach.v,
    [position] in Spec/Sphere.v, [geodetic_point] in Spec/Shape.v, [accurate] in Spec/Accurate.v. *)
From Coq Require Import ZArith Reals List String.
From Flocq Require Import Core IEEE754.BinarySingleNaN.
From Verif.Num Require Import FOps F64.
From Verif.Model Require Import Fp Quantities Cs Ellipsoid Projections Crs.
From Verif.Spec Require Import Axes Shape Frames Sphere Reach Accurate Binary64 Routes64 MapRoutes64 GridRoutes64 Return64.
From Verif.Proofs Require Import LibmOk ReturnC ReturnD.
Import ListNotations.
Local Open Scope string_scope.
Local Open Scope R_scope.

(** ** C68 There and back by a transformation in binary64 leads to the same place *)
Theorem C68_there_and_back : forall lm, accurate lm ->
  forall c1 c2 c w k, reach c w k -> system64 lm c1 -> system64 lm c2 ->
  exists names1 visits1 err1 names2 visits2 err2,
    station64 lm c k c1 names1 visits1 err1 /\ station64 lm c k c2 names2 visits2 err2 /\
    there_and_back64 lm c1 names1 visits1 err1 c2 names2 visits2 err2.
Proof. exact c68_back. Qed.
Print Assumptions C68_there_and_back.

(** Without Helmert transformations the exact way there and back leads to the point one came from. *)
Theorem C68_shifts : forall lm T1 f1 g1 T2 f2 g2, shifts T1 -> shifts T2 -> moves64 lm T1 f1 g1 -> moves64 lm T2 f2 g2 ->
  forall P, g1 (f2 (g2 (f1 P))) = P.
Proof. exact c68_shift. Qed.
Print Assumptions C68_shifts.

(** With Helmert transformations it leads as near as their residuals say, [e1] and [e2] being
    functions of the distance from the centre. *)
Theorem C68_residual : forall lm T1 f1 g1 T2 f2 g2, moves64 lm T1 f1 g1 -> moves64 lm T2 f2 g2 ->
  exists e1 e2, residual64 f1 g1 e1 /\ residual64 f2 g2 e2 /\
  forall P, edist (g1 (f2 (g2 (f1 P)))) P <= e1 (vnorm P) + 1003 / 1000 * e2 (vnorm (f1 P)).
Proof. exact c68_resid. Qed.
Print Assumptions C68_residual.

(** 20 ppm, a turn of about a second of arc and 100 metres: 6 millimetres at 6400 km. *)
Example C68_residual_ex : let r := (5 / 1000000, 0, 0) in let t := (100, 0, 0) in let m := 20 / 1000000 in
  let e := fun n => (m * m + Rabs (1 - m * m) * (vnorm r * vnorm r)) * n + (Rabs m + (1 + Rabs m) * vnorm r) * vnorm t in
  residual64 (fun P => vadd (vscale (1 + m) (vadd P (vscale (turn PositionVector) (cross r P)))) t)
    (fun P => vadd (vscale (1 - m) (vadd P (vscale (- turn PositionVector) (cross r P)))) (vscale (-1) t)) e /\
  e 6400000 <= 6 / 1000.
Proof. exact c68_resid_ex. Qed.

(** Points close to each other have longitude, latitude and height close to each other. *)
Theorem C68_coordinates : forall a b p l h P p' l' h' Q, 6300000 <= b -> b < a -> a <= 6400000 -> 99 * a <= 100 * b ->
  geodetic_point a b p l h P -> geodetic_point a b p' l' h' Q -> Rabs h <= 210000 -> Rabs h' <= 210000 -> edist P Q <= 1000 ->
  edist (position l p) (position l' p') <= edist P Q / 6000000 /\ Rabs (h - h') <= 1001 / 1000 * edist P Q.
Proof. exact c68_close. Qed.
Print Assumptions C68_coordinates.

(** WGS 84 in degrees to Web Mercator in metres and feet; 10 degrees east, 45 north, 100 m. *)
Example C68_ex : let O := F64ops libm_ex in let d := DATUM_WGS84 (ops := O) in
  let geo := GeographicCrs "WGS 84" d (GEastNorthUp (DEG (ops := O)) (M (ops := O))) in
  let web := ProjectedCrs "web" d (PEastNorthUp (M (ops := O)) (FT (ops := O))) (SWebMercator (f64_ofZ 0) (f64_ofZ 0) (f64_ofZ 0) (f64_ofZ 0)) in
  accurate libm_ex /\ system64 libm_ex geo /\ system64 libm_ex web /\ reach (100 / 101) (/ 11) 27 /\ (7 <= 7)%nat /\
  moves64 libm_ex XYZIdentity (fun P => P) (fun P => P) /\ shifts XYZIdentity /\
  exists a b P, earth64 (d_ellipsoid d) a b /\ source64 libm_ex geo [f64_ofZ 10; f64_ofZ 45; f64_ofZ 100] P /\
  exists l p h, geodetic_point a b p (l + 0) h P /\ grid_draws l p /\ all_around grid_reads l p /\
    Rabs p <= PI / 2 - / 10 ^ 6 /\ Rabs h <= 98000.
Proof. exact c68_ex. Qed.
