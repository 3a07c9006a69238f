(** What coordinates of a reference system denote in binary64, and what a datum transformation does to a point exactly. *)
From Coq Require Import Reals List.
From Flocq Require Import IEEE754.BinarySingleNaN.
From Verif.Num Require Import FOps F64.
From Verif.Model Require Import Quantities Cs Ellipsoid Projections Crs.
From Verif.Spec Require Import Axes Shape Frames Binary64.
Import ListNotations.
Local Open Scope R_scope.

Section Lm.
Context (lm : libm).
Notation O := (F64ops lm).

(** The predefined units and their sizes in radians and metres. *)
Inductive angle_unit64 : unit_ f64 -> R -> Prop :=
| u_rad : angle_unit64 (RAD (ops := O)) 1
| u_deg : angle_unit64 (DEG (ops := O)) (PI / 180)
| u_grad : angle_unit64 (GRAD (ops := O)) (PI / 200)
| u_sec : angle_unit64 (SEC (ops := O)) (PI / 648000).
Inductive length_unit64 : unit_ f64 -> R -> Prop :=
| u_m : length_unit64 (M (ops := O)) 1
| u_ft : length_unit64 (FT (ops := O)) (3048 / 10000)
| u_us_ft : length_unit64 (US_FT (ops := O)) (1200 / 3937).

(** Axes in such units: [axes64 ax buf l p h] when [buf] holds the longitude [l], the latitude [p] and the height [h]. *)
Inductive axes64 : GeodeticAxes f64 -> list f64 -> R -> R -> R -> Prop :=
| ax_enu u v ku kv e n up E N H : angle_unit64 u ku -> length_unit64 v kv -> val64 e E -> val64 n N -> val64 up H ->
    axes64 (GEastNorthUp u v) [e; n; up] (E * ku) (N * ku) (H * kv)
| ax_neu u v ku kv e n up E N H : angle_unit64 u ku -> length_unit64 v kv -> val64 e E -> val64 n N -> val64 up H ->
    axes64 (GNorthEastUp u v) [n; e; up] (E * ku) (N * ku) (H * kv).

(** The numbers in [buf] denote exactly the geocentric point [P]. *)
Inductive locates64 : Crs f64 -> list f64 -> R3 -> Prop :=
| loc_xyz id d x y z X Y Z : val64 x X -> val64 y Y -> val64 z Z -> locates64 (GeocentricCrs id d) [x; y; z] (X, Y, Z)
| loc_geo id d ax buf a b m l p h P : earth64 (d_ellipsoid d) a b -> val64 (pm_lon (d_pm d)) m ->
    axes64 ax buf l p h -> geodetic_point a b p (l + m) h P -> locates64 (GeographicCrs id d ax) buf P.

(** The same for a source: longitudes up to 7 radians, latitudes up to the poles, heights up to 99.999 km, a prime
    meridian up to 4 radians; geocentric coordinates up to 7000 km. *)
Inductive source64 : Crs f64 -> list f64 -> R3 -> Prop :=
| src_xyz id d x y z X Y Z : val64 x X -> val64 y Y -> val64 z Z -> edist (X, Y, Z) (0, 0, 0) <= 7000000 -> source64 (GeocentricCrs id d) [x; y; z] (X, Y, Z)
| src_geo id d ax buf a b m l p h P : earth64 (d_ellipsoid d) a b -> val64 (pm_lon (d_pm d)) m -> Rabs m <= 4 ->
    axes64 ax buf l p h -> Rabs l <= 7 -> Rabs p <= PI / 2 -> Rabs h <= 99999 ->
    geodetic_point a b p (l + m) h P -> source64 (GeographicCrs id d ax) buf P.

(** A target: three dimensions, such an ellipsoid and such units, and a point 6201 to 6499 km from the centre. *)
Inductive target64 : Crs f64 -> R3 -> Prop :=
| tgt_xyz id d P : target64 (GeocentricCrs id d) P
| tgt_geo id d ax a b m u v ku kv P : earth64 (d_ellipsoid d) a b -> val64 (pm_lon (d_pm d)) m -> Rabs m <= 4 ->
    angle_unit64 u ku -> length_unit64 v kv -> ax = GEastNorthUp u v \/ ax = GNorthEastUp u v ->
    6201000 <= edist P (0, 0, 0) <= 6499000 -> target64 (GeographicCrs id d ax) P.

(** [T] takes a point to [f] of it on the way to the reference frame, and to [g] of it on the way back:
    translations up to 100 km, rotations up to a thousandth, scale differences up to 1000 ppm. *)
Inductive moves64 : XYZTransformation f64 -> (R3 -> R3) -> (R3 -> R3) -> Prop :=
| mv_id : moves64 XYZIdentity (fun P => P) (fun P => P)
| mv_tr tx ty tz X Y Z : val64 tx X -> val64 ty Y -> val64 tz Z -> Rabs X <= 100000 -> Rabs Y <= 100000 -> Rabs Z <= 100000 ->
    moves64 (GeocentricTranslation tx ty tz) (fun P => vadd P (X, Y, Z)) (fun P => vadd P (- X, - Y, - Z))
| mv_helmert c rx ry rz tx ty tz ppm A B C X Y Z S : val64 rx A -> val64 ry B -> val64 rz C -> val64 tx X -> val64 ty Y -> val64 tz Z -> val64 ppm S ->
    Rabs A <= / 1000 -> Rabs B <= / 1000 -> Rabs C <= / 1000 -> Rabs X <= 100000 -> Rabs Y <= 100000 -> Rabs Z <= 100000 -> Rabs S <= 1000 ->
    moves64 (helmert_new (ops := O) c rx ry rz tx ty tz ppm)
      (fun P => vadd (vscale (1 + S / 1000000) (vadd P (vscale (turn c) (cross (A, B, C) P)))) (X, Y, Z))
      (fun P => vadd (vscale (1 - S / 1000000) (vadd P (vscale (- turn c) (cross (A, B, C) P)))) (- X, - Y, - Z)).
End Lm.
