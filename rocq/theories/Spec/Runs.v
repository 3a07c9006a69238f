(** Sequences of calls on latitudes and longitudes, for the closure properties. *)
From Coq Require Import Reals List.
From Flocq Require Import IEEE754.BinarySingleNaN.
From Verif.Num Require Import FOps XR F64.
From Verif.Model Require Import Quantities Cs.
Import ListNotations.

(** One call of the arithmetic interface of [Lat] or [Lon]. *)
Inductive angle_op (F : Type) : Type :=
| OpAdd (a : F)      (* x + a, x += a *)
| OpSub (a : F)      (* x - a, x -= a *)
| OpNeg              (* -x *)
| OpAbs              (* x.abs(), latitudes only *)
| OpMul (k : F)      (* x * k, k * x, x *= k *)
| OpDiv (k : F).     (* x / k, x /= k *)
Arguments OpAdd {F} a. Arguments OpSub {F} a. Arguments OpNeg {F}. Arguments OpAbs {F}.
Arguments OpMul {F} k. Arguments OpDiv {F} k.

Section Runs.
Context {F : Type} {ops : FOps F}.

Definition lat_step (l : F) (o : angle_op F) : F :=
  match o with
  | OpAdd a => lat_add l a
  | OpSub a => lat_sub_angle l a
  | OpNeg => lat_neg l
  | OpAbs => lat_abs l
  | OpMul k => lat_mul l k
  | OpDiv k => lat_div l k
  end.

(** A latitude made from the angle [a], then changed by the calls [l] in order. *)
Definition lat_run (a : F) (l : list (angle_op F)) : F := fold_left lat_step l (lat_new a).

(** [Lon] has no [abs]. *)
Definition lon_step (x : F) (o : angle_op F) : F :=
  match o with
  | OpAdd a => lon_add x a
  | OpSub a => lon_sub_angle x a
  | OpNeg => lon_neg x
  | OpAbs => x
  | OpMul k => lon_mul x k
  | OpDiv k => lon_div x k
  end.

Definition lon_run (a : F) (l : list (angle_op F)) : F := fold_left lon_step l (lon_new a).
End Runs.

(** Operands for which a binary64 operation on a finite number is not NaN by itself. *)
Definition op_sane (o : angle_op f64) : Prop :=
  match o with
  | OpAdd a | OpSub a => is_nan a = false
  | OpNeg | OpAbs => True
  | OpMul k => is_finite k = true
  | OpDiv k => is_nan k = false /\ Beqb k (B754_zero false) = false
  end.

(** Calls with real operands and no division by zero. *)
Definition op_real (o : angle_op XR) : Prop :=
  match o with
  | OpAdd a | OpSub a | OpMul a => exists r, a = Fin r
  | OpNeg | OpAbs => True
  | OpDiv k => exists r, k = Fin r /\ r <> 0%R
  end.

(** The plain sum of a sequence of additions, subtractions and negations of real angles. *)
Inductive turn : Type := TAdd (r : R) | TSub (r : R) | TNeg.
Definition turn_op (t : turn) : angle_op XR :=
  match t with TAdd r => OpAdd (Fin r) | TSub r => OpSub (Fin r) | TNeg => OpNeg end.
Definition turn_sum (a : R) (l : list turn) : R :=
  fold_left (fun s t => match t with
                        | TAdd r => s + r | TSub r => s - r | TNeg => - s end)%R l a.
