(** Vocabulary for line strings in binary64: finite lengths, the length of a path, points computed
    on a segment. *)
From Coq Require Import Reals List.
From Flocq Require Import Core IEEE754.BinarySingleNaN.
From Verif.Num Require Import FOps F64.
From Verif.Model Require Import Fp Quantities Cs Ellipsoid Geodesics Projections Crs Geometry.
From Verif.Spec Require Import Lines.
Import ListNotations.
Local Open Scope R_scope.

(** The numbers a list of floats stands for. *)
Definition vals (l : list f64) : list R := map B2R l.

(** Finite lengths, none of them negative. *)
Definition lengths64 (ds : list f64) : Prop := Forall (fun d => is_finite d = true /\ 0 <= B2R d) ds.

(** Finite coordinates, none larger than [c]. *)
Definition within64 (c : R) (p : list f64) : Prop :=
  Forall (fun x => is_finite x = true /\ Rabs (B2R x) <= c) p.

(** The Euclidean distance of two points and the length of a path. *)
Fixpoint squares (p q : list R) : R :=
  match p, q with
  | a :: p', b :: q' => (a - b) * (a - b) + squares p' q'
  | _, _ => 0
  end.
Definition apart (p q : list R) : R := sqrt (squares p q).
Fixpoint path (pts : list (list R)) : R :=
  match pts with
  | p :: (q :: _) as pts' => apart p q + path pts'
  | _ => 0
  end.

(** The systems whose coordinates are lengths in metres along right-angled axes. *)
Inductive in_metres (lm : libm) : Crs f64 -> Prop :=
| metres_xyz id d : in_metres lm (GeocentricCrs id d)
| metres_plane id d s : in_metres lm (ProjectedCrs id d (PEastNorth (M (ops := F64ops lm))) s)
| metres_space id d s :
    in_metres lm (ProjectedCrs id d (PEastNorthUp (M (ops := F64ops lm)) (M (ops := F64ops lm))) s).

(** The coordinates in the last list were computed for the proportion [r] between those of the
    first two: each is right to 8 units of rounding. *)
Inductive computed_between (r : R) : list f64 -> list f64 -> list f64 -> Prop :=
| between_nil : computed_between r [] [] []
| between_cons a b v p q w :
    is_finite v = true ->
    Rabs (B2R v - (B2R a + r * (B2R b - B2R a))) <=
      / 2 ^ 50 * (Rabs (B2R a) + Rabs (B2R b)) + bpow radix2 (-1000) ->
    computed_between r p q w -> computed_between r (a :: p) (b :: q) (v :: w).

(** The floats [v] stand for the point of the line through [pts] at arc length [t]; the lengths of
    the segments are [ds]. *)
Definition computed_at (pts : list (list f64)) (ds : list R) (t : R) (v : list f64) : Prop :=
  exists i r p q, nth_error pts i = Some p /\ nth_error pts (S i) = Some q /\ (i < List.length ds)%nat /\
  0 <= r <= 1 /\ t = total (firstn i ds) + r * nth i ds 0 /\ computed_between r p q v.

(** The line string [l] goes through [pts] with segments of lengths [ds]; coordinates and the total
    length are far from the largest float. *)
Record line64 (l : LineString f64) (pts : list (list f64)) (ds : list f64) : Prop := {
  l64_positions : has_positions l pts;
  l64_lengths : ls_len l = ds;
  l64_count : List.length pts = S (List.length ds);
  l64_finite : lengths64 ds;
  l64_within : Forall (within64 (bpow radix2 1000)) pts;
  l64_total : total (vals ds) * (1 + / 2 ^ 53) ^ List.length ds <= bpow radix2 1000
}.

(** The number of line strings of a curve and of their segments together. *)
Definition pieces (xs : list (list (list f64) * list f64)) : nat :=
  fold_right (fun x n => S (List.length (snd x)) + n)%nat 0%nat xs.
(** The lengths of the line strings of a curve. *)
Definition totals (xs : list (list (list f64) * list f64)) : list R :=
  map (fun x => total (vals (snd x))) xs.
