(** There and back: a transformation between reference systems in binary64, followed by its inverse. *)
From Coq Require Import ZArith Reals List String.
From Flocq Require Import IEEE754.BinarySingleNaN.
From Verif.Num Require Import FOps F64.
From Verif.Model Require Import Fp Quantities Cs Ellipsoid Projections Crs.
From Verif.Spec Require Import Axes Shape Frames Sphere Binary64 Routes64 MapRoutes64 GridRoutes64.
Local Open Scope R_scope.

(** Every place up to a millionth of a radian (six metres) away can be read from the map. *)
Definition all_around (reads : R -> R -> Prop) (l p : R) : Prop :=
  forall l' p', Rabs p' <= PI / 2 -> edist (position l p) (position l' p') <= / 10 ^ 6 -> reads l' p'.

Section Lm.
Context (lm : libm).

(** Reference systems of three dimensions in the predefined units. *)
Inductive system64 : Crs f64 -> Prop :=
| sys_xyz id d : system64 (GeocentricCrs id d)
| sys_geo id d ax a b m u v ku kv : earth64 (d_ellipsoid d) a b -> val64 (pm_lon (d_pm d)) m -> Rabs m <= 4 ->
    angle_unit64 lm u ku -> length_unit64 lm v kv -> ax = GEastNorthUp u v \/ ax = GNorthEastUp u v -> system64 (GeographicCrs id d ax)
| sys_map id d a b m u v ku kv spec : earth64 (d_ellipsoid d) a b -> val64 (pm_lon (d_pm d)) m -> Rabs m <= 4 ->
    length_unit64 lm u ku -> length_unit64 lm v kv -> in_range64 spec -> system64 (ProjectedCrs id d (PEastNorthUp u v) spec).

(** Of such a system: when [buf] holds coordinates of the point [P], which points can be visited, and the
    error of reading coordinates in metres.  Coordinates on a map are those of the point to 1.1 micrometres. *)
Inductive station64 (c k : R) : Crs f64 -> (list f64 -> R3 -> Prop) -> (R3 -> Prop) -> R -> Prop :=
| st_xyz id d : station64 c k (GeocentricCrs id d) (source64 lm (GeocentricCrs id d)) (fun P => edist P (0, 0, 0) <= 6999000) 0
| st_geo id d ax a b m : earth64 (d_ellipsoid d) a b -> val64 (pm_lon (d_pm d)) m ->
    station64 c k (GeographicCrs id d ax) (source64 lm (GeographicCrs id d ax))
      (fun P => exists l p h, geodetic_point a b p (l + m) h P /\ Rabs p <= PI / 2 - / 10 ^ 6 /\ Rabs h <= 98000) 0
| st_map id d ax a b m spec ch reads draws tol : earth64 (d_ellipsoid d) a b -> val64 (pm_lon (d_pm d)) m -> maps64 a b c k spec ch reads draws tol ->
    station64 c k (ProjectedCrs id d ax spec) (starts64 lm d a b m ch reads (11 / 10 ^ 7) ax)
      (fun P => exists l p h, geodetic_point a b p (l + m) h P /\ draws l p /\ all_around reads l p /\ Rabs h <= 98000) (7000000 * tol (11 / 10 ^ 7)).

(** There and back, by one transformation forwards and backwards or by the opposite one. *)
Definition there_and_back64 (c1 : Crs f64) (names1 : list f64 -> R3 -> Prop) (visits1 : R3 -> Prop) (err1 : R)
    (c2 : Crs f64) (names2 : list f64 -> R3 -> Prop) (visits2 : R3 -> Prop) (err2 : R) : Prop :=
  forall fuel T1 f1 g1 T2 f2 g2 src rest dst back P, (7 <= fuel)%nat -> moves64 lm T1 f1 g1 -> moves64 lm T2 f2 g2 ->
  names1 src P -> visits2 (g2 (f1 P)) -> visits1 (g1 (f2 (g2 (f1 P)))) -> (3 <= List.length dst)%nat -> (3 <= List.length back)%nat ->
  exists mid M out Q,
  runs64 lm fuel c1 T1 T2 c2 (src ++ rest) dst (mid ++ skipn 3 dst) /\ names2 mid M /\ edist M (g2 (f1 P)) <= err1 + 5 / 10 ^ 7 /\
  runs64 lm fuel c2 T2 T1 c1 (mid ++ skipn 3 dst) back (out ++ skipn 3 back) /\ names1 out Q /\
  edist Q (g1 (f2 (g2 (f1 P)))) <= err1 + err2 + / 10 ^ 6.
End Lm.

(** No datum transformation or a translation. *)
Inductive shifts : XYZTransformation f64 -> Prop :=
| sh_id : shifts XYZIdentity
| sh_tr x y z : shifts (GeocentricTranslation x y z).

(** How far the exact way there and back by one datum transformation is from leading back: nothing
    for none or a translation; for a Helmert transformation second-order terms in the distance [n]
    from the centre and first-order terms in the translation. *)
Inductive residual64 : (R3 -> R3) -> (R3 -> R3) -> (R -> R) -> Prop :=
| res_none : residual64 (fun P => P) (fun P => P) (fun _ => 0)
| res_tr X Y Z : residual64 (fun P => vadd P (X, Y, Z)) (fun P => vadd P (- X, - Y, - Z)) (fun _ => 0)
| res_helmert c r t m :
    residual64 (fun P => vadd (vscale (1 + m) (vadd P (vscale (turn c) (cross r P)))) t)
      (fun P => vadd (vscale (1 - m) (vadd P (vscale (- turn c) (cross r P)))) (vscale (-1) t))
      (fun n => (m * m + Rabs (1 - m * m) * (vnorm r * vnorm r)) * n + (Rabs m + (1 + Rabs m) * vnorm r) * vnorm t).
