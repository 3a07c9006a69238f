(** Answers of the inverse geodesic problem. *)
From Verif.Num Require Import FOps.
From Verif.Model Require Import Geodesics.

(** The distance, or the failure. *)
Definition distance_of {F} (o : outcome (result (Geodesic F) unit)) : outcome (result F unit) :=
  omap (result_map (@g_s F)) o.
