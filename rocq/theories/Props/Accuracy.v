(** Properties C51 (series) and C52-C54: accuracy of the geodesic solvers on the ellipsoid, in exact arithmetic.

    [geodesic], [geodesic_within], [vincenty_error] and [karney_error] are in Spec/Geodesic.v; [shape] is in
    Spec/Shape.v, [position] in Spec/Sphere.v, [nonpolar] in Spec/Maps.v. *)
From Coq Require Import String Reals Lra Psatz ZArith List Bool.
From Verif.Num Require Import FOps RFun XR XRLemmas.
From Verif.Model Require Import Fp Quantities Complex Cs Ellipsoid Geodesics Projections Crs Geometry.
From Verif.Spec Require Import Angles Axes Shape Frames Sphere Maps Geodesic.
From Verif.Proofs Require Import AccP.
Import ListNotations.
Local Open Scope R_scope.

(** ** C52 Vincenty's direct solution follows the geodesic of the ellipsoid *)

(** Any distance, negative ones included; the flattening at most 1/100, the start not a pole. *)
Theorem C52_vincenty_direct : forall E a b l p al s, shape E a b -> 99 * a <= 100 * b -> nonpolar p -> exists l2 p2 al2,
  solve_direct Vincenty E (Fin l, Fin p) (Fin al) (Fin s)
  = Ret (Ok (mkGeodesic (Fin l, Fin p) (Fin al) (Fin l2, Fin p2) (Fin al2) (Fin s))) /\
  - PI <= l2 <= PI /\ - (PI / 2) <= p2 <= PI / 2 /\ - PI < al2 <= PI /\
  geodesic_within a b l p al s l2 p2 al2 (vincenty_error a b s).
Proof. exact c52_vincenty_direct. Qed.
Print Assumptions C52_vincenty_direct.

(** On WGS84, up to half the circumference: three tenths of a millimetre. *)
Theorem C52_vincenty_direct_wgs84 : forall l p al s, nonpolar p -> Rabs s <= 20000000 -> exists a b l2 p2 al2, shape WGS84 a b /\
  solve_direct Vincenty WGS84 (Fin l, Fin p) (Fin al) (Fin s)
  = Ret (Ok (mkGeodesic (Fin l, Fin p) (Fin al) (Fin l2, Fin p2) (Fin al2) (Fin s))) /\
  geodesic_within a b l p al s l2 p2 al2 (3 / 10000).
Proof. exact c52_vincenty_direct_wgs84. Qed.
Print Assumptions C52_vincenty_direct_wgs84.

(** The hypotheses hold for WGS84 and a start at 45 degrees north. *)
Example C52_ex : exists a b, shape WGS84 a b /\ 99 * a <= 100 * b /\ b < a /\ nonpolar (PI / 4).
Proof. exact c52_ex. Qed.

(** ** C53 Vincenty's inverse solution ends, and gives the geodesic of the ellipsoid *)

(** Any two different points, unless one is near the antipode of the other: the cosine of the angle between them at least -17/20. *)
Theorem C53_vincenty_inverse : forall E a b l1 p1 l2 p2, shape E a b -> 99 * a <= 100 * b -> nonpolar p1 -> nonpolar p2 ->
  position l1 p1 <> position l2 p2 -> - (17 / 20) <= pdot (position l1 p1) (position l2 p2) ->
  exists al1 al2 s, solve_inverse Vincenty E (Fin l1, Fin p1) (Fin l2, Fin p2)
  = Ret (Ok (mkGeodesic (Fin l1, Fin p1) (Fin al1) (Fin l2, Fin p2) (Fin al2) (Fin s))) /\
  0 < s /\ - PI < al1 <= PI /\ - PI < al2 <= PI /\
  geodesic_within a b l1 p1 al1 s l2 p2 al2 (vincenty_error a b s).
Proof. exact c53_vincenty_inverse. Qed.
Print Assumptions C53_vincenty_inverse.

(** The distance of a geographic CRS with two axes is the length of that geodesic. *)
Theorem C53_crs_dist : forall id d ax a b q1 q2 l1 p1 l2 p2 h1 h2, shape (d_ellipsoid d) a b -> 99 * a <= 100 * b ->
  gaxes_dim ax = 2%nat -> geo_reads ax q1 l1 p1 h1 -> geo_reads ax q2 l2 p2 h2 ->
  - PI <= l1 <= PI -> - PI <= l2 <= PI -> nonpolar p1 -> nonpolar p2 ->
  position l1 p1 <> position l2 p2 -> - (17 / 20) <= pdot (position l1 p1) (position l2 p2) ->
  exists al1 al2 s, crs_dist (GeographicCrs id d ax) (map Fin q1) (map Fin q2) = Ret (Ok (Fin s)) /\
  0 < s /\ geodesic_within a b l1 p1 al1 s l2 p2 al2 (vincenty_error a b s).
Proof. exact c53_crs_dist. Qed.
Print Assumptions C53_crs_dist.

(** On WGS84, for points no more than 20000 km apart along the geodesic found: three tenths of a millimetre. *)
Theorem C53_vincenty_inverse_wgs84 : forall l1 p1 l2 p2, nonpolar p1 -> nonpolar p2 ->
  position l1 p1 <> position l2 p2 -> - (17 / 20) <= pdot (position l1 p1) (position l2 p2) ->
  exists a b al1 al2 s, shape WGS84 a b /\ solve_inverse Vincenty WGS84 (Fin l1, Fin p1) (Fin l2, Fin p2)
  = Ret (Ok (mkGeodesic (Fin l1, Fin p1) (Fin al1) (Fin l2, Fin p2) (Fin al2) (Fin s))) /\
  0 < s /\ (s <= 20000000 -> geodesic_within a b l1 p1 al1 s l2 p2 al2 (3 / 10000)).
Proof. exact c53_vincenty_inverse_wgs84. Qed.
Print Assumptions C53_vincenty_inverse_wgs84.

(** From the equator to 45 degrees north, 90 degrees further east, in degrees. *)
Example C53_ex : (exists a b, shape WGS84 a b /\ 99 * a <= 100 * b /\ b < a) /\ nonpolar 0 /\ nonpolar (45 * (PI / 180)) /\
  geo_reads (GEastNorth DEG) [0; 0] (0 * (PI / 180)) (0 * (PI / 180)) None /\
  geo_reads (GEastNorth DEG) [90; 45] (90 * (PI / 180)) (45 * (PI / 180)) None /\
  position 0 0 <> position (90 * (PI / 180)) (45 * (PI / 180)) /\
  - (17 / 20) <= pdot (position 0 0) (position (90 * (PI / 180)) (45 * (PI / 180))).
Proof. exact c53_ex. Qed.

(** ** C51 Karney's series are the integrals they stand for *)

(** The distance series, against the integral of the arc length along the geodesic (Karney 2013, eq. 7), between any two arcs. *)
Theorem C51_distance_series : forall e D, 0 <= e <= / 190 ->
  (forall x, derivable_pt_lim D x (sqrt (1 + 4 * e / ((1 - e) * (1 - e)) * (sin x * sin x)))) ->
  exists A I, karney_fA1 (Fin e) = Fin A /\ (forall x, karney_fI1 (Fin e) (Fin A) (Fin x) = Fin (I x)) /\
  forall x y, Rabs (I x - I y - (D x - D y)) <= 10 * e ^ 7 * Rabs (x - y).
Proof. exact c51_distance_series. Qed.
Print Assumptions C51_distance_series.

(** The reverted series undoes the distance series, in both directions. *)
Theorem C51_reversion : forall e, 0 <= e <= / 190 -> exists A I T, karney_fA1 (Fin e) = Fin A /\ 1 <= A <= 101 / 100 /\
  (forall x, karney_fI1 (Fin e) (Fin A) (Fin x) = Fin (I x)) /\ (forall t, karney_Sigma (Fin e) (Fin t) = Fin (T t)) /\
  (forall t, Rabs (I (T t) - A * t) <= 204 * e ^ 7) /\ (forall x, Rabs (T (I x / A) - x) <= 206 * e ^ 7).
Proof. exact c51_reversion. Qed.
Print Assumptions C51_reversion.

(** The longitude series, against the integral of Karney 2013, eq. 8, for every eps up to the third flattening. *)
Theorem C51_longitude_series : forall E a b e D, shape E a b -> 99 * a <= 100 * b -> let n := (a - b) / (a + b) in 0 <= e <= n ->
  (forall x, derivable_pt_lim D x
    ((2 - (a - b) / a) / (1 + b / a * sqrt (1 + 4 * e / ((1 - e) * (1 - e)) * (sin x * sin x))))) ->
  exists A I, karney_fA3 E (Fin e) = Fin A /\ (forall x, karney_fI3 E (Fin A) (Fin e) (Fin x) = Fin (I x)) /\
  forall x y, Rabs (I x - I y - (D x - D y)) <= 27 * n ^ 6 * Rabs (x - y).
Proof. exact c51_longitude_series. Qed.
Print Assumptions C51_longitude_series.

(** The series of WGS84 for geodesics with eps half the third flattening; such integrals exist, for instance at eps = 0. *)
Example C51_ex : (exists a b, shape WGS84 a b /\ 99 * a <= 100 * b /\ 0 < (a - b) / (a + b) / 2 <= (a - b) / (a + b) /\ (a - b) / (a + b) <= / 190) /\
  (forall x, derivable_pt_lim (fun x => x) x (sqrt (1 + 4 * 0 / ((1 - 0) * (1 - 0)) * (sin x * sin x)))).
Proof. exact c51_ex. Qed.

(** ** C54 Karney's direct solution follows the geodesic of the ellipsoid *)

(** Any distance, negative ones and several times round included; the flattening at most 1/100, the start not a pole; the end may be a pole. *)
Theorem C54_karney_direct : forall E a b l p al s, shape E a b -> 99 * a <= 100 * b -> nonpolar p -> exists l2 p2 al2,
  solve_direct Karney E (Fin l, Fin p) (Fin al) (Fin s)
  = Ret (Ok (mkGeodesic (Fin l, Fin p) (Fin al) (Fin l2, Fin p2) (Fin al2) (Fin s))) /\
  - PI <= l2 <= PI /\ - (PI / 2) <= p2 <= PI / 2 /\ - PI < al2 <= PI /\
  geodesic_within a b l p al s l2 p2 al2 (karney_error a b s).
Proof. exact c54_karney_direct. Qed.
Print Assumptions C54_karney_direct.

(** On WGS84, up to half the circumference: a millionth of a millimetre. *)
Theorem C54_karney_direct_wgs84 : forall l p al s, nonpolar p -> Rabs s <= 20000000 -> exists a b l2 p2 al2, shape WGS84 a b /\
  solve_direct Karney WGS84 (Fin l, Fin p) (Fin al) (Fin s)
  = Ret (Ok (mkGeodesic (Fin l, Fin p) (Fin al) (Fin l2, Fin p2) (Fin al2) (Fin s))) /\
  geodesic_within a b l p al s l2 p2 al2 (/ 10 ^ 9).
Proof. exact c54_karney_direct_wgs84. Qed.
Print Assumptions C54_karney_direct_wgs84.

(** The hypotheses hold for WGS84 and a start at 45 degrees south. *)
Example C54_ex : exists a b, shape WGS84 a b /\ 99 * a <= 100 * b /\ b < a /\ nonpolar (- (PI / 4)).
Proof. exact c54_ex. Qed.
