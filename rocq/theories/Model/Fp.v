(** Model of /repo/geokit/src/math/fp.rs, math/utils.rs, math/polynomial.rs. *)
From Coq Require Import ZArith List Bool.
From Verif.Num Require Import FOps.
Import ListNotations.

Section Fp.
Context {F : Type} {ops : FOps F}.
Local Open Scope F_scope.

(** math/fp.rs:9-11 [sq] *)
Definition sq (x : F) : F := x * x.

(** math/fp.rs:12-14 [remainder] *)
Definition remainder (val r : F) : F := val - fround_even (val / r) * r.

(** math/fp.rs:32-36, one turn of the loop of [clenshaw_sin_sum].  The state is
    (y_n_plus_2, y_n_plus_1, y_n). *)
Definition clenshaw_step (alpha beta : F) (st : F * F * F) (ck : F) : F * F * F :=
  let '(_, y1, y) := st in
  (y1, y, alpha * y + beta * y1 + ck).

(** math/fp.rs:25-41 [clenshaw_sin_sum] *)
Definition clenshaw_sin_sum (c_k : list F) (x : F) : F :=
  let alpha := #2 * fcos x in
  let beta := - #1 in
  let '(_, y1, _) := fold_left (clenshaw_step alpha beta) (rev c_k) (#0, #0, #0) in
  fsin x * y1.

(** math/fp.rs:46-51 [sum] *)
Definition two_sum (a b : F) : F * F :=
  let x := a + b in
  let z := x - a in
  let y := a - (x - z) + (b - z) in
  (x, y).

(** math/utils.rs:11-13, [res[i] += ds[i]] for all i.  The arrays have the same length D. *)
Fixpoint vec_add (u v : list F) : list F :=
  match u, v with
  | x :: u', y :: v' => (x + y) :: vec_add u' v'
  | _, _ => []
  end.

(** math/utils.rs:14, [ds.iter().zip(epsilon.iter()).all(|(d, e)| d.abs() < *e)] *)
Fixpoint all_below (ds eps : list F) : bool :=
  match ds, eps with
  | d :: ds', e :: eps' => (fabs d <? e) && all_below ds' eps'
  | _, _ => true
  end.

(** math/utils.rs:3-19 [iter_fn].  The Rust loop has no bound; [fuel] counts the turns. *)
Fixpoint iter_fn (fuel : nat) (init : list F) (deltas : list F -> list F) (eps : list F)
  : outcome (list F) :=
  match fuel with
  | O => Diverge
  | S fuel' =>
      let ds := deltas init in
      let res := vec_add init ds in
      if all_below ds eps then Ret res else iter_fn fuel' res deltas eps
  end.

(** math/polynomial.rs:23-31 [Polynomial::eval_at], for the value type V with its zero, its
    product and the addition of a coefficient (trait bounds of line 25). *)
Definition eval_at {V : Type} (vzero : V) (vmul : V -> V -> V) (vadd : V -> F -> V)
    (coef : list F) (x : V) : V :=
  fold_left (fun acc coef_i => vadd (vmul x acc) coef_i) (rev coef) vzero.

(** [eval_at] for V = Float *)
Definition poly_eval (coef : list F) (x : F) : F := eval_at #0 fmul fadd coef x.

(** math/polynomial.rs:40-45 [Polynomial::fast_eval_at] *)
Definition fast_eval_at (coef : list F) (x : F) : F :=
  fold_left (fun acc coef_i => ffma acc x coef_i) (rev coef) #0.

End Fp.
