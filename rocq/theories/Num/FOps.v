(** The number interface of the model.

    The Rust code works on [Float = f64] (/repo/geokit/src/math/fp.rs:2).  Every function of the
    model is generic in a carrier [F] and in the operations below, so that the same program text
    can be read in exact arithmetic ([Num/XR.v]) and in IEEE 754 binary64 ([Num/F64.v]). *)
From Coq Require Import ZArith List Bool.
Import ListNotations.

Class FOps (F : Type) := {
  (* IEEE 754 operations *)
  fadd : F -> F -> F;
  fsub : F -> F -> F;
  fmul : F -> F -> F;
  fdiv : F -> F -> F;
  fneg : F -> F;
  fabs : F -> F;
  fsqrt : F -> F;
  ffma : F -> F -> F -> F;            (* [ffma a b c] is Rust's [a.mul_add(b, c)] = a * b + c *)
  flt : F -> F -> bool;               (* < *)
  fle : F -> F -> bool;               (* <= *)
  feq : F -> F -> bool;               (* == *)
  fround_even : F -> F;               (* f64::round_ties_even *)
  fround : F -> F;                    (* f64::round, ties away from zero *)
  ffloor : F -> F;
  ftrunc : F -> F;
  fsignum : F -> F;                   (* 1 or -1 by the sign bit, NaN for NaN *)
  fis_inf : F -> bool;
  (* literals and constants *)
  fofZ : Z -> F;                      (* an integer literal *)
  flit : Z -> Z -> F;                 (* [flit m k] is the decimal literal m * 10^-k *)
  finf : F;                           (* f64::INFINITY *)
  fpi : F;                            (* std::f64::consts::PI *)
  fpi_2 : F;                          (* FRAC_PI_2 *)
  fpi_4 : F;                          (* FRAC_PI_4 *)
  ftau : F;                           (* TAU *)
  fdeg_per_rad : F;                   (* the constant of f64::to_degrees, 180/pi *)
  (* C library functions *)
  fsin : F -> F;
  fcos : F -> F;
  ftan : F -> F;
  fasin : F -> F;
  fatan : F -> F;
  fatan2 : F -> F -> F;               (* [fatan2 y x] is Rust's [y.atan2(x)] *)
  fhypot : F -> F -> F;
  fcbrt : F -> F;
  fpowf : F -> F -> F;
  fexp : F -> F;
  fln : F -> F;
  fsinh : F -> F;
  fcosh : F -> F;
  ftanh : F -> F;
  fasinh : F -> F;
  fatanh : F -> F
}.

Declare Scope F_scope.
Delimit Scope F_scope with F.

Infix "+" := fadd : F_scope.
Infix "-" := fsub : F_scope.
Infix "*" := fmul : F_scope.
Infix "/" := fdiv : F_scope.
Notation "- x" := (fneg x) : F_scope.
Infix "<?" := flt : F_scope.
Infix "<=?" := fle : F_scope.
Notation "x >? y" := (flt y x) : F_scope.
Notation "x >=? y" := (fle y x) : F_scope.
Infix "=?" := feq : F_scope.
Notation "x !=? y" := (negb (feq x y)) (at level 70, no associativity) : F_scope.

(** [#n] is an integer literal, such as Rust's [4.]. *)
Notation "# n" := (fofZ n%Z) (at level 1, format "# n") : F_scope.

Section Derived.
Context {F : Type} {ops : FOps F}.
Local Open Scope F_scope.

(** f64::powi with the small exponents the code uses.  LLVM leaves the association of the
    products unspecified; the model multiplies from the left. *)
Definition fsq (x : F) : F := x * x.
Definition fpow3 (x : F) : F := x * x * x.
Definition fpow4 (x : F) : F := x * x * x * x.

(** f64::fract: [self - self.trunc()]. *)
Definition ffract (x : F) : F := x - ftrunc x.

(** f64::to_degrees: multiplication by a constant. *)
Definition fto_degrees (x : F) : F := x * fdeg_per_rad.

(** f64::clamp for [lo <= hi] (core::num: two comparisons, NaN falls through). *)
Definition fclamp (x lo hi : F) : F :=
  let x := if x <? lo then lo else x in
  if x >? hi then hi else x.

(** f64::max / f64::min are not used by the modelled code. *)
End Derived.

(** Rust's [Result]. *)
Inductive result (A E : Type) : Type :=
| Ok (a : A)
| Err (e : E).
Arguments Ok {A E} a.
Arguments Err {A E} e.

Definition result_map {A B E} (f : A -> B) (r : result A E) : result B E :=
  match r with Ok a => Ok (f a) | Err e => Err e end.

(** What calling a function can do: return, panic, or not have returned within the fuel. *)
Inductive outcome (A : Type) : Type :=
| Ret (a : A)
| Panic
| Diverge.
Arguments Ret {A} a.
Arguments Panic {A}.
Arguments Diverge {A}.

Definition obind {A B} (x : outcome A) (f : A -> outcome B) : outcome B :=
  match x with Ret a => f a | Panic => Panic | Diverge => Diverge end.

Definition omap {A B} (f : A -> B) (x : outcome A) : outcome B :=
  obind x (fun a => Ret (f a)).

Notation "'let*' x := e 'in' b" := (obind e (fun x => b))
  (at level 200, x pattern, b at level 200, right associativity).

(** Slice indexing [s[i]]: panics out of range. *)
Definition index {A} (l : list A) (i : nat) : outcome A :=
  match nth_error l i with Some a => Ret a | None => Panic end.

(** Slice assignment [s[i] = v]: panics out of range. *)
Fixpoint list_set {A} (l : list A) (i : nat) (v : A) : outcome (list A) :=
  match l, i with
  | [], _ => Panic
  | _ :: l', O => Ret (v :: l')
  | a :: l', S i' => let* l'' := list_set l' i' v in Ret (a :: l'')
  end.

(** [assert!(c)]. *)
Definition rassert {A} (c : bool) (k : outcome A) : outcome A :=
  if c then k else Panic.
