(** Model of /repo/geokit/src/geometry and bin/sample_s2.rs.

    The only [CurveSegment] implementation is [LineString]; a curve is a list of them.
    [as_line_string] is [todo!()] and not modelled. *)
From Coq Require Import ZArith List Bool String Arith.
From Verif.Num Require Import FOps.
From Verif.Model Require Import Fp Quantities Cs Ellipsoid Geodesics Projections Crs.
Import ListNotations.

(** geometry/mod.rs:10-15 *)
Inductive GeometryType : Type :=
| GPoint (d : nat) | GCurve (d : nat) | GSurface (d : nat) | GSolid.
(** geometry/mod.rs:19-26 *)
Definition gtype_dim (g : GeometryType) : nat :=
  match g with GPoint _ => 0 | GCurve _ => 1 | GSurface _ => 2 | GSolid => 3 end.
(** geometry/mod.rs:29-34 *)
Definition gtype_coord_dim (g : GeometryType) : nat :=
  match g with GPoint d | GCurve d | GSurface d => d | GSolid => 3 end.

Section Geometry.
Context {F : Type} {ops : FOps F}.
Local Open Scope F_scope.

(** slicing [&v[i..j]]: panics unless i <= j <= len *)
Definition slice (v : list F) (i j : nat) : outcome (list F) :=
  if Nat.leb i j && Nat.leb j (List.length v) then Ret (firstn (j - i) (skipn i v)) else Panic.

(** [==] on slices of floats *)
Fixpoint pos_eq (a b : list F) : bool :=
  match a, b with
  | [], [] => true
  | x :: a', y :: b' => (x =? y) && pos_eq a' b'
  | _, _ => false
  end.

(** ** primitive/point.rs *)

(** point.rs:13-16 *)
Record Point : Type := mkPoint { pt_coord_dim : nat; pt_coord : list F }.
(** point.rs:25-31 *)
Definition point_new (pos : list F) : outcome Point :=
  let coord_dim := List.length pos in
  rassert (Nat.eqb coord_dim 2 || Nat.eqb coord_dim 3)
  (Ret (mkPoint coord_dim (pos ++ skipn coord_dim [#0; #0; #0]))).
(** point.rs:53-55 [Deref] *)
Definition point_deref (p : Point) : outcome (list F) := slice (pt_coord p) 0 (pt_coord_dim p).
(** point.rs:58-62 [DerefMut], then an assignment [p[i] = v] *)
Definition point_set (p : Point) (i : nat) (v : F) : outcome Point :=
  rassert (Nat.ltb i (pt_coord_dim p))
  (let* c := list_set (pt_coord p) i v in Ret (mkPoint (pt_coord_dim p) c)).
(** point.rs:35-45 *)
Definition point_geometry_type (p : Point) : GeometryType := GPoint (pt_coord_dim p).
Definition point_is_cycle (p : Point) : bool := true.
(** point.rs:12 derived PartialEq *)
Definition point_eq (p q : Point) : bool :=
  Nat.eqb (pt_coord_dim p) (pt_coord_dim q) && pos_eq (pt_coord p) (pt_coord q).

(** ** coordinate/curve/line_string.rs *)

(** line_string.rs:15-19 *)
Record LineString : Type := mkLS { ls_coord_dim : nat; ls_pos : list F; ls_len : list F }.

(** line_string.rs:45-47, 191-193; division by zero panics in Rust, coord_dim is 2 or 3 *)
Definition n_pos (coord_dim : nat) (pos : list F) : nat := List.length pos / coord_dim.
(** line_string.rs:49-56, 183-189 *)
Definition nth_pos (coord_dim : nat) (pos : list F) (n : nat) : outcome (list F) :=
  slice pos (n * coord_dim) ((n + 1) * coord_dim).

(** line_string.rs:27-42 *)
Definition ls_new (coord_dim : nat) (pos len : list F) : outcome LineString :=
  rassert (Nat.eqb (List.length pos mod coord_dim) 0)
  (rassert (Nat.leb (2 * coord_dim) (List.length pos))
  (rassert (Nat.eqb (List.length len) (List.length pos / coord_dim - 1))
  (Ret (mkLS coord_dim pos len)))).

(** line_string.rs:45-60 *)
Definition ls_n (l : LineString) : nat := n_pos (ls_coord_dim l) (ls_pos l).
Definition ls_nth (l : LineString) (n : nat) : outcome (list F) :=
  nth_pos (ls_coord_dim l) (ls_pos l) n.

(** line_string.rs:58-60, [chunks_exact] *)
Definition ls_pos_iter (l : LineString) : list (list F) :=
  map (fun n => firstn (ls_coord_dim l) (skipn (n * ls_coord_dim l) (ls_pos l)))
      (seq 0 (ls_n l)).

(** line_string.rs:68-74; [self.len() - 1] would overflow for an empty line string *)
Definition ls_start (l : LineString) : outcome (list F) := ls_nth l 0.
Definition ls_end (l : LineString) : outcome (list F) :=
  rassert (Nat.leb 1 (ls_n l)) (ls_nth l (ls_n l - 1)).
(** line_string.rs:76-78 *)
Definition ls_length (l : LineString) : F := fold_left fadd (ls_len l) (length_new #0 M).

(** line_string.rs:86-93: returns (start_pos_ix, ratio) *)
Fixpoint ls_locate (len : list F) (res_len : F) (ix : nat) : nat * F :=
  match len with
  | [] => (ix, #0)
  | l :: len' =>
      if l >=? res_len then (ix, res_len / l) else ls_locate len' (res_len - l) (S ix)
  end.

(** line_string.rs:97-100 *)
Fixpoint interpolate (ratio : F) (s e : list F) : list F :=
  match s, e with
  | a :: s', b :: e' => ((#1 - ratio) * a + ratio * b) :: interpolate ratio s' e'
  | _, _ => []
  end.

(** line_string.rs:80-103 *)
Definition ls_param (l : LineString) (s : F) : outcome (list F) :=
  rassert (s <=? ls_length l)
  (let '(ix, ratio) := ls_locate (ls_len l) s 0 in
   let* start := ls_nth l ix in
   let* end_ := ls_nth l (ix + 1) in
   Ret (interpolate ratio start end_)).

(** primitive/curve.rs:20-23 *)
Record CurveBoundary : Type := mkCB { cb_start : Point; cb_end : Point }.
(** curve.rs:26-36 *)
Definition cb_geometry_type (b : CurveBoundary) : GeometryType :=
  point_geometry_type (cb_start b).

(** line_string.rs:120-125 *)
Definition ls_curve_boundary (l : LineString) : outcome CurveBoundary :=
  let* s := ls_nth l 0 in
  let* ps := point_new s in
  let* e := ls_nth l (ls_n l - 1) in
  let* pe := point_new e in
  Ret (mkCB ps pe).

(** line_string.rs:130-135.  The CRS enters through its dimension and its [dist]. *)
Record LineStringBuilder : Type := mkLSB {
  lb_crs : Crs F; lb_coord_dim : nat; lb_pos : list F; lb_len : list F }.

(** line_string.rs:144-165 *)
Definition lsb_new (crs : Crs F) (pos len : list F) : outcome (result LineStringBuilder unit) :=
  let coord_dim := crs_dim crs in
  rassert (Nat.eqb (List.length pos mod coord_dim) 0)
  (rassert (Nat.leb (2 * coord_dim) (List.length pos))
  (rassert (Nat.eqb (List.length len) (List.length pos / coord_dim - 1))
  (Ret (Ok (mkLSB crs coord_dim pos len))))).

(** line_string.rs:169-181 *)
Definition lsb_with_line (crs : Crs F) (from to_ : list F) : outcome (result LineStringBuilder unit) :=
  let pos := from ++ to_ in
  let* r := crs_dist crs from to_ in
  match r with
  | Err e => Ret (Err e)
  | Ok d => lsb_new crs pos [d]
  end.

(** line_string.rs:199-209 *)
Definition lsb_line_to (b : LineStringBuilder) (p : list F) : outcome (result LineStringBuilder unit) :=
  if Nat.eqb (List.length p) (lb_coord_dim b) then
    let* last := nth_pos (lb_coord_dim b) (lb_pos b) (n_pos (lb_coord_dim b) (lb_pos b) - 1) in
    let* r := crs_dist (lb_crs b) last p in
    match r with
    | Err e => Ret (Err e)
    | Ok d => Ret (Ok (mkLSB (lb_crs b) (lb_coord_dim b) (lb_pos b ++ p) (lb_len b ++ [d])))
    end
  else Ret (Err tt).

(** line_string.rs:219-225 *)
Definition lsb_build (b : LineStringBuilder) : LineString :=
  mkLS (lb_coord_dim b) (lb_pos b) (lb_len b).

(** line_string.rs:213-216 *)
Definition lsb_close (b : LineStringBuilder) : outcome (result LineString unit) :=
  let* start := nth_pos (lb_coord_dim b) (lb_pos b) 0 in
  let* r := lsb_line_to b start in
  Ret (result_map lsb_build r).

(** ** primitive/curve.rs *)

(** curve.rs:54-57 *)
Record Curve : Type := mkCurve { cv_coord_dim : nat; cv_seg : list LineString }.

(** [first().unwrap()], [last().unwrap()] *)
Definition first_unwrap {A} (l : list A) : outcome A :=
  match l with [] => Panic | a :: _ => Ret a end.
Definition last_unwrap {A} (l : list A) : outcome A := first_unwrap (rev l).

(** curve.rs:85-91 *)
Definition cv_start (c : Curve) : outcome (list F) :=
  let* s := first_unwrap (cv_seg c) in ls_start s.
Definition cv_end (c : Curve) : outcome (list F) :=
  let* s := last_unwrap (cv_seg c) in ls_end s.
(** curve.rs:60-66 *)
Definition cv_geometry_type (c : Curve) : GeometryType := GCurve (cv_coord_dim c).
Definition cv_is_cycle (c : Curve) : outcome bool :=
  let* s := cv_start c in let* e := cv_end c in Ret (pos_eq s e).
(** curve.rs:68-77 *)
Definition cv_boundary (c : Curve) : outcome (option CurveBoundary) :=
  let* cyc := cv_is_cycle c in
  if cyc then Ret None
  else
    let* s := cv_start c in
    let* ps := point_new s in
    let* e := cv_end c in
    let* pe := point_new e in
    Ret (Some (mkCB ps pe)).
(** curve.rs:93-98 *)
Definition cv_length (c : Curve) : F :=
  fold_left fadd (map ls_length (cv_seg c)) (length_new #0 M).
(** curve.rs:102-112 *)
Fixpoint cv_locate (segs : list LineString) (res_len : F) (ix : nat) : nat * F :=
  match segs with
  | [] => (ix, res_len)
  | s :: segs' =>
      let seg_len := ls_length s in
      if seg_len >=? res_len then (ix, res_len) else cv_locate segs' (res_len - seg_len) (S ix)
  end.
(** curve.rs:100-115 *)
Definition cv_param (c : Curve) (s : F) : outcome (list F) :=
  rassert (s <=? cv_length c)
  (let '(ix, res_len) := cv_locate (cv_seg c) s 0 in
   match nth_error (cv_seg c) ix with
   | Some seg => ls_param seg res_len
   | None => Panic
   end).

(** curve.rs:128-132 *)
Record CurveBuilder : Type := mkCVB {
  cvb_crs : Crs F; cvb_coord_dim : nat; cvb_seg : list LineString }.
(** curve.rs:135-148 *)
Definition cvb_with_seg (crs : Crs F) (seg : LineString) : result CurveBuilder unit :=
  Ok (mkCVB crs (crs_dim crs) [seg]).
(** curve.rs:150-162 *)
Definition cvb_append (b : CurveBuilder) (seg : LineString) : outcome (result CurveBuilder unit) :=
  if negb (Nat.eqb (cvb_coord_dim b) (ls_coord_dim seg)) then Ret (Err tt)
  else
    let* last := last_unwrap (cvb_seg b) in
    let* e := ls_end last in
    let* s := ls_start seg in
    if negb (pos_eq e s) then Ret (Err tt)
    else Ret (Ok (mkCVB (cvb_crs b) (cvb_coord_dim b) (cvb_seg b ++ [seg]))).
(** curve.rs:164-169 *)
Definition cvb_build (b : CurveBuilder) : Curve := mkCurve (cvb_coord_dim b) (cvb_seg b).

(** ** bin/sample_s2.rs; the random numbers and the output are not modelled *)

(** sample_s2.rs:102-109 *)
Definition s2_to_xyz (a inverse_flattening meter_per_unit x y z : F) : F * F * F :=
  (a * x / meter_per_unit, a * y / meter_per_unit,
   (a - a / inverse_flattening) * z / meter_per_unit).
(** sample_s2.rs:111-116 *)
Definition s2_to_ll (inverse_flattening rad_per_unit x y z : F) : F * F :=
  (fatan2 y x / rad_per_unit,
   fatan2 z ((#1 - #1 / inverse_flattening) * fsqrt ((#1 - z) * (#1 + z))) / rad_per_unit).

End Geometry.

Arguments LineString F : clear implicits.
Arguments LineStringBuilder F : clear implicits.
Arguments Curve F : clear implicits.
Arguments CurveBuilder F : clear implicits.
Arguments Point F : clear implicits.
Arguments CurveBoundary F : clear implicits.
