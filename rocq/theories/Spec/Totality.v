(** The projections and reference systems whose conversions contain no unbounded loop. *)
From Coq Require Import ZArith List.
From Verif.Num Require Import FOps.
From Verif.Model Require Import Cs Ellipsoid Projections Crs.

Definition never_loops {F : Type} (p : projection F) : Prop :=
  match p with PTransverseMercator _ => False | _ => True end.

Definition spec_never_loops {F : Type} (sp : ProjectionSpec F) : Prop :=
  match sp with SUTMNorth _ | SUTMSouth _ | STransverseMercator _ _ _ _ _ => False | _ => True end.

Definition crs_never_loops {F : Type} (c : Crs F) : Prop :=
  match c with ProjectedCrs _ _ _ sp => spec_never_loops sp | _ => True end.
