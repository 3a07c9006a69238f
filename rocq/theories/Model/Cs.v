(** Model of /repo/geokit/src/cs: geodetic.rs, azimuth.rs, s1.rs, cartesian/. *)
From Coq Require Import ZArith List Bool.
From Verif.Num Require Import FOps.
From Verif.Model Require Import Fp Quantities.
Import ListNotations.

Section Cs.
Context {F : Type} {ops : FOps F}.
Local Open Scope F_scope.

(** ** Longitudes, cs/geodetic.rs:357-578.  [Lon(Angle)] is represented by the angle. *)

(** geodetic.rs:361-364 *)
Definition LON_MIN : F := - fpi.
Definition LON_MAX : F := fpi.
(** geodetic.rs:369-371 *)
Definition lon_new (a : F) : F := wrapped a.
(** geodetic.rs:381-390 *)
Definition lon_rad (x : F) : F := lon_new (angle_new x RAD).
Definition lon_deg (x : F) : F := lon_new (angle_new x DEG).
(** geodetic.rs:419-421 *)
Definition lon_normalized (l : F) : F := if l <=? LON_MIN then LON_MAX else l.
(** geodetic.rs:454-480 (add, add_assign) *)
Definition lon_add (l a : F) : F := lon_new (l + a).
(** geodetic.rs:503-520 *)
Definition lon_sub_angle (l a : F) : F := lon_new (l - a).
(** geodetic.rs:482-501 *)
Definition lon_sub (l r : F) : F := diff_to r l.
(** geodetic.rs:522-566 *)
Definition lon_mul (l x : F) : F := lon_new (l * x).
Definition lon_div (l x : F) : F := lon_new (l / x).
(** geodetic.rs:355 derived Neg *)
Definition lon_neg (l : F) : F := - l.
(** geodetic.rs:575-577 *)
Definition lon_abs_diff_eq (l r eps : F) : bool := fabs (lon_sub l r) <=? eps.

(** The degrees of the dms constructors: geodetic.rs:412-413, 630-631, azimuth.rs:64-65 *)
Definition dms_degrees (d m s : F) : F :=
  let f := fsignum d in
  let deg := fabs d + m / #60 + s / #3600 in
  f * deg.

(** geodetic.rs:408-415.  The debug assertion of line 409 tests [m <= 180.] where [d <= 180.]
    is meant; modelled as written. *)
Definition lon_dms (dbg : bool) (d m s : F) : outcome F :=
  rassert (negb dbg || ((d >? - #180) && (m <=? #180)))
  (rassert (negb dbg || ((m >=? #0) && (m <=? #59)))
  (rassert (negb dbg || ((s >=? #0) && (s <? #60)))
  (Ret (lon_new (angle_new (dms_degrees d m s) DEG))))).

(** ** Latitudes, cs/geodetic.rs:588-800 *)

(** geodetic.rs:591-593 *)
Definition LAT_MIN : F := - fpi_2.
Definition LAT_MAX : F := fpi_2.
(** geodetic.rs:598-600 *)
Definition lat_new (a : F) : F := angle_clamped a (- fpi_2) fpi_2.
(** geodetic.rs:605-607 *)
Definition lat_deg (x : F) : F := lat_new (angle_new x DEG).
(** geodetic.rs:626-633; line 627 tests [m <= 90.], modelled as written *)
Definition lat_dms (dbg : bool) (d m s : F) : outcome F :=
  rassert (negb dbg || ((d >=? - #90) && (m <=? #90)))
  (rassert (negb dbg || ((m >=? #0) && (m <=? #59)))
  (rassert (negb dbg || ((s >=? #0) && (s <? #60)))
  (Ret (lat_new (angle_new (dms_degrees d m s) DEG))))).
(** geodetic.rs:636-638 *)
Definition lat_abs (l : F) : F := fabs l.
(** geodetic.rs:671-724 *)
Definition lat_add (l a : F) : F := lat_new (l + a).
Definition lat_sub_angle (l a : F) : F := lat_new (l - a).
Definition lat_sub (l r : F) : F := l - r.
(** geodetic.rs:726-770 *)
Definition lat_mul (l x : F) : F := lat_new (l * x).
Definition lat_div (l x : F) : F := lat_new (l / x).
(** geodetic.rs:586 derived Neg *)
Definition lat_neg (l : F) : F := - l.

(** ** Normalized geodetic coordinates *)

(** geodetic.rs:256-260 *)
Record LLH : Type := mkLLH { lon : F; lat : F; height : F }.

(** geodetic.rs:214-218 *)
Record GeodeticTolerance : Type := mkGT { gt_lon : F; gt_lat : F; gt_height : F }.
(** geodetic.rs:223-229 *)
Definition gt_tiny : GeodeticTolerance := mkGT ANGLE_TINY ANGLE_TINY LENGTH_TINY.
(** geodetic.rs:233-239 (the height is [Length::TINY]) *)
Definition gt_small : GeodeticTolerance := mkGT ANGLE_SMALL ANGLE_SMALL LENGTH_TINY.

(** geodetic.rs:271-275 [LLH::approx_eq] *)
Definition llh_approx_eq (a b : LLH) (tol : GeodeticTolerance) : bool :=
  lon_abs_diff_eq (lon a) (lon b) (gt_lon tol)
  && abs_diff_eq (lat a) (lat b) (gt_lat tol)
  && abs_diff_eq (height a) (height b) (gt_height tol).

(** ** Geodetic axes, geodetic.rs:26-75 *)
Inductive GeodeticAxes : Type :=
| GEastNorthUp (angle_unit height_unit : unit_ F)
| GNorthEastUp (angle_unit height_unit : unit_ F)
| GEastNorth (angle_unit : unit_ F)
| GNorthEast (angle_unit : unit_ F)
| GNorthWest (angle_unit : unit_ F).

(** geodetic.rs:79-93 *)
Definition gaxes_dim (ax : GeodeticAxes) : nat :=
  match ax with
  | GEastNorthUp _ _ | GNorthEastUp _ _ => 3
  | GEastNorth _ | GNorthEast _ | GNorthWest _ => 2
  end.

(** geodetic.rs:97-131 *)
Definition gaxes_normalize (ax : GeodeticAxes) (coords : list F) : outcome LLH :=
  match ax with
  | GEastNorthUp au hu =>
      let* c0 := index coords 0 in let* c1 := index coords 1 in let* c2 := index coords 2 in
      Ret (mkLLH (lon_new (angle_new c0 au)) (lat_new (angle_new c1 au)) (length_new c2 hu))
  | GEastNorth au =>
      let* c0 := index coords 0 in let* c1 := index coords 1 in
      Ret (mkLLH (lon_new (angle_new c0 au)) (lat_new (angle_new c1 au)) #0)
  | GNorthEastUp au hu =>
      let* c1 := index coords 1 in let* c0 := index coords 0 in let* c2 := index coords 2 in
      Ret (mkLLH (lon_new (angle_new c1 au)) (lat_new (angle_new c0 au)) (length_new c2 hu))
  | GNorthEast au =>
      let* c1 := index coords 1 in let* c0 := index coords 0 in
      Ret (mkLLH (lon_new (angle_new c1 au)) (lat_new (angle_new c0 au)) #0)
  | GNorthWest au =>
      let* c1 := index coords 1 in let* c0 := index coords 0 in
      Ret (mkLLH (lon_new (angle_new (- c1) au)) (lat_new (angle_new c0 au)) #0)
  end.

(** geodetic.rs:135-166; returns the buffer after the assignments *)
Definition gaxes_denormalize (ax : GeodeticAxes) (llh : LLH) (coords : list F) : outcome (list F) :=
  match ax with
  | GEastNorthUp au hu =>
      let* c := list_set coords 0 (angle_val (lon llh) au) in
      let* c := list_set c 1 (angle_val (lat llh) au) in
      list_set c 2 (length_val (height llh) hu)
  | GEastNorth au =>
      let* c := list_set coords 0 (angle_val (lon llh) au) in
      list_set c 1 (angle_val (lat llh) au)
  | GNorthEastUp au hu =>
      let* c := list_set coords 0 (angle_val (lat llh) au) in
      let* c := list_set c 1 (angle_val (lon llh) au) in
      list_set c 2 (length_val (height llh) hu)
  | GNorthEast au =>
      let* c := list_set coords 0 (angle_val (lat llh) au) in
      list_set c 1 (angle_val (lon llh) au)
  | GNorthWest au =>
      let* c := list_set coords 0 (angle_val (lat llh) au) in
      list_set c 1 (- angle_val (lon llh) au)
  end.

(** geodetic.rs:168-197 *)
Definition gaxes_denormalize_tol (ax : GeodeticAxes) (tol : GeodeticTolerance) : list F :=
  match ax with
  | GEastNorthUp au hu =>
      [angle_val (gt_lon tol) au; angle_val (gt_lat tol) au; length_val (gt_height tol) hu]
  | GEastNorth au => [angle_val (gt_lon tol) au; angle_val (gt_lat tol) au]
  | GNorthEastUp au hu =>
      [angle_val (gt_lat tol) au; angle_val (gt_lon tol) au; length_val (gt_height tol) hu]
  | GNorthEast au | GNorthWest au => [angle_val (gt_lat tol) au; angle_val (gt_lon tol) au]
  end.

(** geodetic.rs:200-208 *)
Definition gaxes_default : GeodeticAxes := GEastNorthUp RAD M.

(** ** Azimuths, cs/azimuth.rs *)

(** azimuth.rs:22-28 *)
Definition AZ_NORTH : F := #0.
Definition AZ_EAST : F := fpi_2.
Definition AZ_SOUTH : F := fpi.
Definition AZ_WEST : F := - fpi_2.
(** azimuth.rs:33-49 *)
Definition azimuth_new (a : F) : F := normalized a.
Definition azimuth_rad (x : F) : F := azimuth_new (angle_new x RAD).
Definition azimuth_deg (x : F) : F := azimuth_new (angle_new x DEG).
(** azimuth.rs:60-67 *)
Definition azimuth_dms (dbg : bool) (d m s : F) : outcome F :=
  rassert (negb dbg || ((d >? - #180) && (m <=? #180)))
  (rassert (negb dbg || ((m >=? #0) && (m <=? #59)))
  (rassert (negb dbg || ((s >=? #0) && (s <? #60)))
  (Ret (azimuth_new (angle_new (dms_degrees d m s) DEG))))).
(** azimuth.rs:110-112 *)
Definition azimuth_add (az a : F) : F := azimuth_new (az + a).
(** azimuth.rs:142-144 *)
Definition azimuth_sub (az rhs : F) : F := normalized (diff_to rhs az).
(** azimuth.rs:154-156 *)
Definition azimuth_abs_diff_eq (a b eps : F) : bool := fabs (azimuth_sub a b) <=? eps.

(** ** Intervals on the circle, cs/s1.rs *)

(** s1.rs:31-34 *)
Record Interval : Type := mkI { lo : F; hi : F }.
(** s1.rs:38-43, 46-49, 52-57 *)
Definition interval_empty : Interval := mkI fpi (- fpi).
Definition interval_singleton (p : F) : Interval := let p_n := normalized p in mkI p_n p_n.
Definition interval_full : Interval := mkI (- fpi) fpi.
(** s1.rs:67-74 *)
Definition interval_new (lo_ hi_ : F) : Interval :=
  let low := wrapped lo_ in
  let hig := wrapped hi_ in
  let low := if (low =? - fpi) && (hig !=? fpi) then fpi else low in
  mkI low hig.
(** s1.rs:76-86 *)
Definition interval_is_empty (i : Interval) : bool := (lo i =? fpi) && (hi i =? - fpi).
Definition interval_is_full (i : Interval) : bool := (lo i =? - fpi) && (hi i =? fpi).
Definition interval_is_inverted (i : Interval) : bool := lo i >? hi i.
(** s1.rs:91-98 *)
Definition interval_length (dbg : bool) (i : Interval) : outcome F :=
  let len := hi i - lo i in
  let len := if len <? #0 then len + #2 * fpi else len in
  rassert (negb dbg || (len >=? #0)) (Ret len).

(** ** Geocentric coordinates, cs/cartesian/geocentric.rs *)

(** geocentric.rs:58-62 *)
Record XYZ : Type := mkXYZ { x_ : F; y_ : F; z_ : F }.

(** geocentric.rs:66-70 *)
Definition xyz_dist_to (p q : XYZ) : F :=
  fhypot (fhypot (x_ p - x_ q) (y_ p - y_ q)) (z_ p - z_ q).
(** geocentric.rs:74-78; CartesianTolerance is its single field [all] *)
Definition xyz_approx_eq (p q : XYZ) (tol : F) : bool :=
  abs_diff_eq (x_ p) (x_ q) tol && abs_diff_eq (y_ p) (y_ q) tol && abs_diff_eq (z_ p) (z_ q) tol.
(** cartesian/mod.rs:14-22 *)
Definition ct_tiny : F := LENGTH_TINY.
Definition ct_small : F := LENGTH_SMALL.
(** geocentric.rs:32-34 *)
Definition xaxes_dim : nat := 3.
(** geocentric.rs:36-42 *)
Definition xaxes_normalize (coords : list F) : outcome XYZ :=
  let* c0 := index coords 0 in let* c1 := index coords 1 in let* c2 := index coords 2 in
  Ret (mkXYZ (length_new c0 M) (length_new c1 M) (length_new c2 M)).
(** geocentric.rs:44-48 *)
Definition xaxes_denormalize (p : XYZ) (coords : list F) : outcome (list F) :=
  let* c := list_set coords 0 (x_ p) in
  let* c := list_set c 1 (y_ p) in
  list_set c 2 (z_ p).
(** geocentric.rs:50-52 *)
Definition xaxes_denormalize_tol (tol : F) : list F := [tol; tol; tol].

(** ** Projected coordinates, cs/cartesian/projected.rs *)

(** projected.rs:131-135 *)
Record ENH : Type := mkENH { easting : F; northing : F; eheight : F }.
(** projected.rs:139-143 *)
Definition enh_dist_to (p q : ENH) : F :=
  fhypot (fhypot (easting p - easting q) (northing p - northing q)) (eheight p - eheight q).
(** projected.rs:101-104 *)
Record ProjectedTolerance : Type := mkPT { pt_horiz : F; pt_height : F }.
(** projected.rs:110-125 *)
Definition pt_tiny : ProjectedTolerance := mkPT LENGTH_TINY LENGTH_TINY.
Definition pt_small : ProjectedTolerance := mkPT LENGTH_SMALL LENGTH_SMALL.
(** projected.rs:147-151 *)
Definition enh_approx_eq (p q : ENH) (tol : ProjectedTolerance) : bool :=
  abs_diff_eq (easting p) (easting q) (pt_horiz tol)
  && abs_diff_eq (northing p) (northing q) (pt_horiz tol)
  && abs_diff_eq (eheight p) (eheight q) (pt_height tol).

(** projected.rs:12-33 *)
Inductive ProjectedAxes : Type :=
| PEastNorthUp (horiz_unit height_unit : unit_ F)
| PEastNorth (horiz_unit : unit_ F).
(** projected.rs:36-44 *)
Definition paxes_dim (ax : ProjectedAxes) : nat :=
  match ax with PEastNorthUp _ _ => 3 | PEastNorth _ => 2 end.
(** projected.rs:46-62 *)
Definition paxes_normalize (ax : ProjectedAxes) (coords : list F) : outcome ENH :=
  match ax with
  | PEastNorthUp hu vu =>
      let* c0 := index coords 0 in let* c1 := index coords 1 in let* c2 := index coords 2 in
      Ret (mkENH (length_new c0 hu) (length_new c1 hu) (length_new c2 vu))
  | PEastNorth hu =>
      let* c0 := index coords 0 in let* c1 := index coords 1 in
      Ret (mkENH (length_new c0 hu) (length_new c1 hu) #0)
  end.
(** projected.rs:64-79 *)
Definition paxes_denormalize (ax : ProjectedAxes) (p : ENH) (coords : list F) : outcome (list F) :=
  match ax with
  | PEastNorthUp hu vu =>
      let* c := list_set coords 0 (length_val (easting p) hu) in
      let* c := list_set c 1 (length_val (northing p) hu) in
      list_set c 2 (length_val (eheight p) vu)
  | PEastNorth hu =>
      let* c := list_set coords 0 (length_val (easting p) hu) in
      list_set c 1 (length_val (northing p) hu)
  end.
(** projected.rs:81-97 *)
Definition paxes_denormalize_tol (ax : ProjectedAxes) (tol : ProjectedTolerance) : list F :=
  match ax with
  | PEastNorthUp hu vu =>
      [length_val (pt_horiz tol) hu; length_val (pt_horiz tol) hu; length_val (pt_height tol) vu]
  | PEastNorth hu => [length_val (pt_horiz tol) hu; length_val (pt_horiz tol) hu]
  end.

End Cs.

Arguments LLH F : clear implicits.
Arguments XYZ F : clear implicits.
Arguments ENH F : clear implicits.
Arguments GeodeticAxes F : clear implicits.
Arguments ProjectedAxes F : clear implicits.
Arguments GeodeticTolerance F : clear implicits.
Arguments ProjectedTolerance F : clear implicits.
Arguments Interval F : clear implicits.
