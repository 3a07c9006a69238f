(** Vocabulary for line strings and curves: positions, measured segments, chains. *)
From Coq Require Import Reals List Arith.
From Verif.Num Require Import FOps XR.
From Verif.Model Require Import Fp Quantities Cs Ellipsoid Geodesics Projections Crs Geometry.
Import ListNotations.

Section Lines.
Context {F : Type} {ops : FOps F}.

(** [line_to] called for the positions [ps] one after the other, stopping at the first error. *)
Fixpoint line_tos (b : LineStringBuilder F) (ps : list (list F))
  : outcome (result (LineStringBuilder F) unit) :=
  match ps with
  | [] => Ret (Ok b)
  | p :: ps' =>
      match lsb_line_to b p with
      | Ret (Ok b') => line_tos b' ps'
      | o => o
      end
  end.

(** The positions of a line string are [pts], in this order. *)
Definition has_positions (l : LineString F) (pts : list (list F)) : Prop :=
  ls_n l = List.length pts /\ forall i p, nth_error pts i = Some p -> ls_nth l i = Ret p.

(** [ds] are the distances in [crs] between neighbours of [pts]. *)
Inductive measured (crs : Crs F) : list (list F) -> list F -> Prop :=
| measured_one p : measured crs [p] []
| measured_more p q pts d ds :
    crs_dist crs p q = Ret (Ok d) -> measured crs (q :: pts) ds ->
    measured crs (p :: q :: pts) (d :: ds).

(** [append_segment] called for the segments [ss] one after the other. *)
Fixpoint appends (b : CurveBuilder F) (ss : list (LineString F))
  : outcome (result (CurveBuilder F) unit) :=
  match ss with
  | [] => Ret (Ok b)
  | s :: ss' =>
      match cvb_append b s with
      | Ret (Ok b') => appends b' ss'
      | o => o
      end
  end.

(** Each segment starts where the one before ends. *)
Inductive chained : list (LineString F) -> Prop :=
| chained_one s : chained [s]
| chained_more s s' ss e b :
    ls_end s = Ret e -> ls_start s' = Ret b -> pos_eq e b = true -> chained (s' :: ss) ->
    chained (s :: s' :: ss).

(** A line string with at least two complete positions, as every constructor makes. *)
Definition well_made (l : LineString F) : Prop :=
  (ls_coord_dim l = 2 \/ ls_coord_dim l = 3) /\ exists pts, 2 <= List.length pts /\
  has_positions l pts.
End Lines.

Local Open Scope R_scope.

(** The sum of a list of real numbers. *)
Definition total (l : list R) : R := fold_right Rplus 0 l.

(** The point at proportion [r] between [p] and [q]. *)
Fixpoint between (r : R) (p q : list R) : list R :=
  match p, q with
  | a :: p', b :: q' => (a + r * (b - a)) :: between r p' q'
  | _, _ => []
  end.

Definition fins (l : list R) : list XR := map Fin l.
