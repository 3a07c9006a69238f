(** What the entries of a coordinate buffer mean.

    [worth u k]: one unit [u] is [k] radians (or metres).
    [geo_reads ax buf l p h]: the buffer [buf], read with the geodetic axes [ax], names the
    longitude [l], the latitude [p] (radians) and the height [h] (metres; None for 2D axes).
    [proj_reads ax buf e n h]: the same for projected axes. *)
From Coq Require Import Reals List.
From Verif.Num Require Import FOps XR.
From Verif.Model Require Import Quantities Cs.
Import ListNotations.
Local Open Scope R_scope.

Definition worth (u : unit_ XR) (k : R) : Prop :=
  exists p q, u = (Fin p, Fin q) /\ p <> 0 /\ q <> 0 /\ k = p / q.

Inductive geo_reads : GeodeticAxes XR -> list R -> R -> R -> option R -> Prop :=
| reads_enu u v ku kv e n up : worth u ku -> worth v kv ->
    geo_reads (GEastNorthUp u v) [e; n; up] (e * ku) (n * ku) (Some (up * kv))
| reads_neu u v ku kv e n up : worth u ku -> worth v kv ->
    geo_reads (GNorthEastUp u v) [n; e; up] (e * ku) (n * ku) (Some (up * kv))
| reads_en u ku e n : worth u ku -> geo_reads (GEastNorth u) [e; n] (e * ku) (n * ku) None
| reads_ne u ku e n : worth u ku -> geo_reads (GNorthEast u) [n; e] (e * ku) (n * ku) None
| reads_nw u ku w n : worth u ku -> geo_reads (GNorthWest u) [n; w] (- w * ku) (n * ku) None.

Inductive proj_reads : ProjectedAxes XR -> list R -> R -> R -> option R -> Prop :=
| reads_penu u v ku kv e n up : worth u ku -> worth v kv ->
    proj_reads (PEastNorthUp u v) [e; n; up] (e * ku) (n * ku) (Some (up * kv))
| reads_pen u ku e n : worth u ku -> proj_reads (PEastNorth u) [e; n] (e * ku) (n * ku) None.

(** The units of the axes. *)
Definition geo_units (ax : GeodeticAxes XR) : list (unit_ XR) :=
  match ax with
  | GEastNorthUp u v | GNorthEastUp u v => [u; v]
  | GEastNorth u | GNorthEast u | GNorthWest u => [u]
  end.
Definition proj_units (ax : ProjectedAxes XR) : list (unit_ XR) :=
  match ax with PEastNorthUp u v => [u; v] | PEastNorth u => [u] end.
Definition units_ok (us : list (unit_ XR)) : Prop := Forall (fun u => exists k, worth u k) us.
Definition units_positive (us : list (unit_ XR)) : Prop :=
  Forall (fun u => exists k, worth u k /\ 0 < k) us.

(** The height that axes carry: all of it in 3D, none in 2D. *)
Definition carried (dim : nat) (h : R) : option R := if Nat.eqb dim 3 then Some h else None.
Definition height_of (h : option R) : R := match h with Some h => h | None => 0 end.

(** Heights within a tolerance, when there are heights. *)
Definition heights_within (h1 h2 : option R) (t : R) : Prop :=
  match h1, h2 with Some h1, Some h2 => Rabs (h1 - h2) <= t | _, _ => True end.

(** Two angles within [t] of each other on the circle. *)
Definition circle_within (a b t : R) : Prop :=
  exists d k, a = b + d + IZR k * (2 * PI) /\ Rabs d <= t.

(** Every component within its tolerance, in the arithmetic [F]. *)
Definition all_within {F : Type} {ops : FOps F} (a b tol : list F) : bool :=
  forallb (fun p => fle (fabs (fsub (fst (fst p)) (snd (fst p)))) (snd p)) (combine (combine a b) tol).

(** Euclidean distance. *)
Definition R3 : Type := (R * R * R)%type.
Definition edist (p q : R3) : R :=
  let '(x1, y1, z1) := p in let '(x2, y2, z2) := q in
  sqrt ((x1 - x2) * (x1 - x2) + (y1 - y2) * (y1 - y2) + (z1 - z2) * (z1 - z2)).
Definition xyz (p : R3) : XYZ XR := let '(x, y, z) := p in mkXYZ (Fin x) (Fin y) (Fin z).
Definition enh (p : R3) : ENH XR := let '(x, y, z) := p in mkENH (Fin x) (Fin y) (Fin z).
