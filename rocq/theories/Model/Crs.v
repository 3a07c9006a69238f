(** Model of /repo/geokit/src/crs and transformations. *)
From Coq Require Import ZArith List Bool String.
From Verif.Num Require Import FOps.
From Verif.Model Require Import Fp Quantities Cs Ellipsoid Geodesics Projections.
Import ListNotations.

Section Crs.
Context {F : Type} {ops : FOps F}.
Local Open Scope F_scope.

(** crs/geocentric.rs:14-19, crs/geographic.rs:15-20, crs/projected.rs:12-18.
    [GeocentricAxes] has the single value XYZ. *)
Inductive Crs : Type :=
| GeocentricCrs (id : string) (datum : GeodeticDatum F)
| GeographicCrs (id : string) (datum : GeodeticDatum F) (axes : GeodeticAxes F)
| ProjectedCrs (id : string) (datum : GeodeticDatum F) (axes : ProjectedAxes F)
    (projection : ProjectionSpec F).

(** crs/geocentric.rs:28-30, crs/geographic.rs:27-29, crs/projected.rs:25-27 *)
Definition crs_dim (c : Crs) : nat :=
  match c with
  | GeocentricCrs _ _ => xaxes_dim
  | GeographicCrs _ _ ax => gaxes_dim ax
  | ProjectedCrs _ _ ax _ => paxes_dim ax
  end.

(** approx's [f64::abs_diff_eq] *)
Definition f_abs_diff_eq (a b eps : F) : bool := fabs (a - b) <=? eps.

(** [a[i].abs_diff_eq(&b[i], tol[i])] *)
Definition axis_close (a b tol : list F) (i : nat) : outcome bool :=
  let* ai := index a i in let* bi := index b i in let* ti := index tol i in
  Ret (f_abs_diff_eq ai bi ti).

(** crs/mod.rs:29-38 *)
Definition crs_approx_eq (c : Crs) (a b tol : list F) : outcome bool :=
  rassert (Nat.eqb (List.length a) (crs_dim c))
  (rassert (Nat.eqb (List.length b) (crs_dim c))
  (let* c0 := axis_close a b tol 0 in
   let* in2d := if c0 then axis_close a b tol 1 else Ret false in
   match crs_dim c with
   | 2 => Ret in2d
   | 3 => if in2d then axis_close a b tol 2 else Ret false
   | _ => Panic
   end)).

(** crs/geocentric.rs:33-39, crs/geographic.rs:36-51, crs/projected.rs:29-35 *)
Definition crs_dist (c : Crs) (a b : list F) : outcome (result F unit) :=
  rassert (Nat.eqb (List.length a) (crs_dim c))
  (rassert (Nat.eqb (List.length b) (crs_dim c))
  match c with
  | GeocentricCrs _ _ =>
      let* na := xaxes_normalize a in
      let* nb := xaxes_normalize b in
      Ret (Ok (xyz_dist_to na nb))
  | GeographicCrs _ datum ax =>
      let* llha := gaxes_normalize ax a in
      let* llhb := gaxes_normalize ax b in
      if Nat.eqb (crs_dim c) 2 then
        let* r := solve_inverse Vincenty (d_ellipsoid datum)
                    (lon llha, lat llha) (lon llhb, lat llhb) in
        Ret (result_map (@g_s F) r)
      else
        Ret (Ok (xyz_dist_to (llh_to_xyz datum llha) (llh_to_xyz datum llhb)))
  | ProjectedCrs _ _ ax _ =>
      let* na := paxes_normalize ax a in
      let* nb := paxes_normalize ax b in
      Ret (Ok (enh_dist_to na nb))
  end).

(** ** Transformations *)

(** transformations/mod.rs:6-8 *)
Inductive TransformationError : Type := OutOfBounds.

(** xyz.rs:133-138: the conversion of a projection error *)
Definition lift_proj_err {A} (r : result A ProjectionError) : result A TransformationError :=
  match r with Ok a => Ok a | Err _ => Err OutOfBounds end.

(** xyz.rs:89-92, 105-109, 140-145 *)
Definition to_xyz (fuel : nat) (c : Crs) (coords : list F)
  : outcome (result (XYZ F) TransformationError) :=
  match c with
  | GeocentricCrs _ _ => let* p := xaxes_normalize coords in Ret (Ok p)
  | GeographicCrs _ datum ax =>
      let* llh := gaxes_normalize ax coords in Ret (Ok (llh_to_xyz datum llh))
  | ProjectedCrs _ datum ax spec =>
      let* enh := paxes_normalize ax coords in
      let* r := unproj fuel (applied_to spec (d_ellipsoid datum)) enh in
      Ret (result_map (llh_to_xyz datum) (lift_proj_err r))
  end.

(** xyz.rs:94-96, 111-114, 147-151.  Returns the buffer after the call. *)
Definition from_xyz (c : Crs) (xyz : XYZ F) (coords : list F)
  : outcome (result (list F) TransformationError) :=
  match c with
  | GeocentricCrs _ _ => let* b := xaxes_denormalize xyz coords in Ret (Ok b)
  | GeographicCrs _ datum ax =>
      let* b := gaxes_denormalize ax (xyz_to_llh datum xyz) coords in Ret (Ok b)
  | ProjectedCrs _ datum ax spec =>
      match lift_proj_err (proj (applied_to spec (d_ellipsoid datum)) (xyz_to_llh datum xyz)) with
      | Err e => Ret (Err e)
      | Ok enh => let* b := paxes_denormalize ax enh coords in Ret (Ok b)
      end
  end.

(** xyz.rs:217-225 *)
Inductive RotationConvention : Type := PositionVector | CoordinateFrame.

(** 3x3 matrices (nalgebra's Matrix3) by rows *)
Record mat3 : Type := mkM3 {
  m11 : F; m12 : F; m13 : F; m21 : F; m22 : F; m23 : F; m31 : F; m32 : F; m33 : F }.
Definition m3_id : mat3 := mkM3 #1 #0 #0 #0 #1 #0 #0 #0 #1.
Definition m3_add (a b : mat3) : mat3 :=
  mkM3 (m11 a + m11 b) (m12 a + m12 b) (m13 a + m13 b)
       (m21 a + m21 b) (m22 a + m22 b) (m23 a + m23 b)
       (m31 a + m31 b) (m32 a + m32 b) (m33 a + m33 b).
Definition m3_sub (a b : mat3) : mat3 :=
  mkM3 (m11 a - m11 b) (m12 a - m12 b) (m13 a - m13 b)
       (m21 a - m21 b) (m22 a - m22 b) (m23 a - m23 b)
       (m31 a - m31 b) (m32 a - m32 b) (m33 a - m33 b).
Definition m3_scale (a : mat3) (k : F) : mat3 :=
  mkM3 (m11 a * k) (m12 a * k) (m13 a * k)
       (m21 a * k) (m22 a * k) (m23 a * k)
       (m31 a * k) (m32 a * k) (m33 a * k).
(** the product with a vector; nalgebra's order of the additions is not modelled *)
Definition m3_mulv (a : mat3) (v : XYZ F) : XYZ F :=
  mkXYZ (m11 a * x_ v + m12 a * y_ v + m13 a * z_ v)
        (m21 a * x_ v + m22 a * y_ v + m23 a * z_ v)
        (m31 a * x_ v + m32 a * y_ v + m33 a * z_ v).

(** xyz.rs:161 XYZIdentity, 179-196 GeocentricTranslation, 234-239 Helmert7Params *)
Inductive XYZTransformation : Type :=
| XYZIdentity
| GeocentricTranslation (tx ty tz : F)
| Helmert7Params (rot inv_rot : mat3) (t : XYZ F) (ppm : F).

(** xyz.rs:243-266 *)
Definition helmert_new (conv : RotationConvention) (rx ry rz tx ty tz ppm : F)
  : XYZTransformation :=
  let rot :=
    match conv with
    | PositionVector => mkM3 #0 (- rz) ry rz #0 (- rx) (- ry) rx #0
    | CoordinateFrame => mkM3 #0 rz (- ry) (- rz) #0 rx ry (- rx) #0
    end in
  Helmert7Params (m3_add m3_id rot) (m3_sub m3_id rot) (mkXYZ tx ty tz) ppm.

(** xyz.rs:164-166, 199-205, 270-279 *)
Definition to_ref (t : XYZTransformation) (src : XYZ F) : XYZ F :=
  match t with
  | XYZIdentity => src
  | GeocentricTranslation tx ty tz => mkXYZ (x_ src + tx) (y_ src + ty) (z_ src + tz)
  | Helmert7Params rot _ t ppm =>
      let x := m3_mulv (m3_scale rot (ppm_factor ppm)) src in
      mkXYZ (length_new (x_ x + x_ t) M) (length_new (y_ x + y_ t) M)
            (length_new (z_ x + z_ t) M)
  end.

(** xyz.rs:168-170, 207-213, 281-290 *)
Definition from_ref (t : XYZTransformation) (dst : XYZ F) : XYZ F :=
  match t with
  | XYZIdentity => dst
  | GeocentricTranslation tx ty tz => mkXYZ (x_ dst - tx) (y_ dst - ty) (z_ dst - tz)
  | Helmert7Params _ inv_rot t ppm =>
      let s := m3_mulv (m3_scale inv_rot (ppm_inv_factor ppm)) dst in
      mkXYZ (length_new (x_ s - x_ t) M) (length_new (y_ s - y_ t) M)
            (length_new (z_ s - z_ t) M)
  end.

(** xyz.rs:27-32 *)
Record CrsXYZTransformation : Type := mkTransfo {
  tr_src : Crs; tr_src_to_ref : XYZTransformation;
  tr_dst_to_ref : XYZTransformation; tr_dst : Crs }.

(** [?] on an outcome of a result *)
Definition obind_result {A B E} (x : outcome (result A E)) (f : A -> outcome (result B E))
  : outcome (result B E) :=
  let* r := x in match r with Ok a => f a | Err e => Ret (Err e) end.

(** xyz.rs:51-56; [dst] is the buffer, the result the buffer after the call *)
Definition tr_fwd (fuel : nat) (t : CrsXYZTransformation) (src dst : list F)
  : outcome (result (list F) TransformationError) :=
  obind_result (to_xyz fuel (tr_src t) src) (fun src_xyz =>
    let ref_xyz := to_ref (tr_src_to_ref t) src_xyz in
    let dst_xyz := from_ref (tr_dst_to_ref t) ref_xyz in
    from_xyz (tr_dst t) dst_xyz dst).

(** xyz.rs:58-63 *)
Definition tr_bwd (fuel : nat) (t : CrsXYZTransformation) (dst src : list F)
  : outcome (result (list F) TransformationError) :=
  obind_result (to_xyz fuel (tr_dst t) dst) (fun dst_xyz =>
    let ref_xyz := to_ref (tr_dst_to_ref t) dst_xyz in
    let src_xyz := from_ref (tr_src_to_ref t) ref_xyz in
    from_xyz (tr_src t) src_xyz src).

End Crs.

Arguments Crs F : clear implicits.
Arguments XYZTransformation F : clear implicits.
Arguments CrsXYZTransformation F : clear implicits.
