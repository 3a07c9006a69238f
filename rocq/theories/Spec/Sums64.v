(** The sizes that bound the rounding errors of sums. *)
From Coq Require Import Reals List.
From Verif.Spec Require Import Series.
Local Open Scope R_scope.

(** sum of |c_i| |x|^i *)
Definition abspoly (c : list R) (x : R) : R := polynomial (map Rabs c) (Rabs x).
(** sum of |x|^i, as many terms as [c] has coefficients *)
Definition powers (c : list R) (x : R) : R := polynomial (map (fun _ => 1) c) (Rabs x).
(** sum of |c_k| *)
Definition abssum (c : list R) : R := fold_right (fun a s => Rabs a + s) 0 c.
