(** Model of /repo/geokit/src/math/complex.rs. *)
From Coq Require Import ZArith List Bool.
From Verif.Num Require Import FOps.
From Verif.Model Require Import Fp Quantities.

Section Complex.
Context {F : Type} {ops : FOps F}.
Local Open Scope F_scope.

(** complex.rs:6-9 *)
Record complex : Type := mkC { re : F; im : F }.

(** complex.rs:12-14, 53-55 *)
Definition czero : complex := mkC #0 #0.
(** complex.rs:20-25 *)
Definition conj (z : complex) : complex := mkC (re z) (- im z).
(** complex.rs:28-30 *)
Definition abs_sq (z : complex) : F := re z * re z + im z * im z.
(** complex.rs:33-35 *)
Definition cabs (z : complex) : F := fhypot (re z) (im z).
(** complex.rs:38-40 *)
Definition carg (z : complex) : F := angle_new (fatan2 (im z) (re z)) RAD.
(** complex.rs:57-59 *)
Definition is_zero (z : complex) : bool := (re z =? #0) && (im z =? #0).
(** complex.rs:137-146 *)
Definition cdiv_f (z : complex) (x : F) : complex := mkC (re z / x) (im z / x).
(** complex.rs:43-49; the error message is not modelled *)
Definition cinv (z : complex) : result complex unit :=
  if is_zero z then Err tt else Ok (cdiv_f (conj z) (abs_sq z)).
(** complex.rs:62-71 *)
Definition cadd (a b : complex) : complex := mkC (re a + re b) (im a + im b).
(** complex.rs:73-82 *)
Definition cadd_f (a : complex) (x : F) : complex := mkC (re a + x) (im a).
(** complex.rs:84-93 *)
Definition csub (a b : complex) : complex := mkC (re a - re b) (im a - im b).
(** complex.rs:95-104 *)
Definition csub_f (a : complex) (x : F) : complex := mkC (re a - x) (im a).
(** complex.rs:106-115 *)
Definition cmul (a b : complex) : complex :=
  mkC (re a * re b - im a * im b) (re a * im b + im a * re b).
(** complex.rs:117-126 *)
Definition cmul_f (a : complex) (x : F) : complex := mkC (re a * x) (im a * x).
(** complex.rs:128-135 *)
Definition cdiv (a b : complex) : result complex unit :=
  match cinv b with Ok i => Ok (cmul a i) | Err e => Err e end.
(** complex.rs:5 derived PartialEq *)
Definition ceq (a b : complex) : bool := (re a =? re b) && (im a =? im b).

(** math/polynomial.rs:23-31 at V = Complex *)
Definition poly_eval_c (coef : list F) (x : complex) : complex :=
  eval_at czero cmul cadd_f coef x.

End Complex.
Arguments complex F : clear implicits.
