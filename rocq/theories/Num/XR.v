(** Exact arithmetic: the real numbers with two infinities and NaN.

    On real arguments every operation is the mathematical one.  Where it is undefined the result
    is NaN or an infinity as in IEEE 754.  There is a single zero, which behaves as [+0.0]. *)
From Coq Require Import Reals Lra ZArith Bool Ratan.
From Flocq Require Import Core.
From Verif.Num Require Import FOps RFun.
Local Open Scope R_scope.

Inductive XR : Type :=
| Fin (r : R)
| PInf
| MInf
| NaN.

Definition xneg (a : XR) : XR :=
  match a with Fin a => Fin (- a) | PInf => MInf | MInf => PInf | NaN => NaN end.

Definition xadd (a b : XR) : XR :=
  match a, b with
  | Fin a, Fin b => Fin (a + b)
  | NaN, _ | _, NaN => NaN
  | PInf, MInf | MInf, PInf => NaN
  | PInf, _ | _, PInf => PInf
  | MInf, _ | _, MInf => MInf
  end.

Definition xsub (a b : XR) : XR :=
  match a, b with
  | Fin a, Fin b => Fin (a - b)
  | _, _ => xadd a (xneg b)
  end.

(** infinity times the sign of a real number *)
Definition xinf_sign (r : R) : XR :=
  if Rlt_bool 0 r then PInf else if Rlt_bool r 0 then MInf else NaN.

Definition xmul (a b : XR) : XR :=
  match a, b with
  | Fin a, Fin b => Fin (a * b)
  | NaN, _ | _, NaN => NaN
  | PInf, Fin r | Fin r, PInf => xinf_sign r
  | MInf, Fin r | Fin r, MInf => xneg (xinf_sign r)
  | PInf, PInf | MInf, MInf => PInf
  | PInf, MInf | MInf, PInf => MInf
  end.

Definition xdiv (a b : XR) : XR :=
  match a, b with
  | Fin a, Fin b => if Req_bool b 0 then xinf_sign a else Fin (a / b)
  | NaN, _ | _, NaN => NaN
  | Fin _, (PInf | MInf) => Fin 0
  | PInf, Fin r => if Req_bool r 0 then PInf else xinf_sign r
  | MInf, Fin r => if Req_bool r 0 then MInf else xneg (xinf_sign r)
  | _, _ => NaN
  end.

Definition xabs (a : XR) : XR :=
  match a with Fin a => Fin (Rabs a) | PInf | MInf => PInf | NaN => NaN end.

Definition xsqrt (a : XR) : XR :=
  match a with
  | Fin a => if Rlt_bool a 0 then NaN else Fin (sqrt a)
  | PInf => PInf
  | _ => NaN
  end.

Definition xlt (a b : XR) : bool :=
  match a, b with
  | Fin a, Fin b => Rlt_bool a b
  | NaN, _ | _, NaN => false
  | PInf, _ => false
  | _, PInf => true
  | _, MInf => false
  | MInf, _ => true
  end.

Definition xeq (a b : XR) : bool :=
  match a, b with
  | Fin a, Fin b => Req_bool a b
  | PInf, PInf | MInf, MInf => true
  | _, _ => false
  end.

Definition xle (a b : XR) : bool :=
  match a, b with
  | Fin a, Fin b => Rle_bool a b
  | _, _ => xlt a b || xeq a b
  end.

(** Functions that are the identity on infinities. *)
Definition xlift (f : R -> R) (a : XR) : XR :=
  match a with Fin a => Fin (f a) | PInf => PInf | MInf => MInf | NaN => NaN end.

(** Functions that are undefined at infinities. *)
Definition xfun (f : R -> R) (a : XR) : XR :=
  match a with Fin a => Fin (f a) | _ => NaN end.

Definition xsignum (a : XR) : XR :=
  match a with
  | Fin a => Fin (if Rlt_bool a 0 then -1 else 1)
  | PInf => Fin 1 | MInf => Fin (-1) | NaN => NaN
  end.

(** At the odd multiples of pi/2 an infinity, as tanPi of IEEE 754-2019. *)
Definition xtan (a : XR) : XR :=
  match a with
  | Fin a => if Req_bool (cos a) 0 then xinf_sign (sin a) else Fin (tan a)
  | _ => NaN
  end.

Definition xasin (a : XR) : XR :=
  match a with
  | Fin a => if Rle_bool (Rabs a) 1 then Fin (asin a) else NaN
  | _ => NaN
  end.

Definition xatan (a : XR) : XR :=
  match a with
  | Fin a => Fin (atan a) | PInf => Fin (PI / 2) | MInf => Fin (- (PI / 2)) | NaN => NaN
  end.

Definition xatan2 (y x : XR) : XR :=
  match y, x with
  | NaN, _ | _, NaN => NaN
  | Fin y, Fin x => Fin (Ratan2 y x)
  | Fin _, PInf => Fin 0
  | Fin y, MInf => Fin (if Rlt_bool y 0 then - PI else PI)
  | PInf, Fin _ => Fin (PI / 2)
  | MInf, Fin _ => Fin (- (PI / 2))
  | PInf, PInf => Fin (PI / 4)
  | PInf, MInf => Fin (3 * PI / 4)
  | MInf, PInf => Fin (- (PI / 4))
  | MInf, MInf => Fin (- (3 * PI / 4))
  end.

Definition xhypot (x y : XR) : XR :=
  match x, y with
  | Fin x, Fin y => Fin (Rhypot x y)
  | PInf, _ | MInf, _ | _, PInf | _, MInf => PInf
  | _, _ => NaN
  end.

(** x^y for positive x; the code only uses positive bases.  A zero base follows IEEE 754
    pow for +0, a negative base is not modelled and gives NaN. *)
Definition xpowf (x y : XR) : XR :=
  match x, y with
  | Fin x, Fin y =>
      if Rlt_bool 0 x then Fin (Rpower x y)
      else if Req_bool y 0 then Fin 1
      else if Rlt_bool x 0 then NaN
      else if Rlt_bool 0 y then Fin 0 else PInf
  | PInf, Fin y => if Req_bool y 0 then Fin 1 else if Rlt_bool 0 y then PInf else Fin 0
  | _, _ => NaN
  end.

Definition xexp (x : XR) : XR :=
  match x with Fin x => Fin (exp x) | PInf => PInf | MInf => Fin 0 | NaN => NaN end.

Definition xln (x : XR) : XR :=
  match x with
  | Fin x => if Rlt_bool 0 x then Fin (ln x) else if Rlt_bool x 0 then NaN else MInf
  | PInf => PInf
  | _ => NaN
  end.

Definition xcosh (x : XR) : XR :=
  match x with Fin x => Fin (cosh x) | PInf | MInf => PInf | NaN => NaN end.

Definition xtanh (x : XR) : XR :=
  match x with Fin x => Fin (tanh x) | PInf => Fin 1 | MInf => Fin (-1) | NaN => NaN end.

Definition xatanh (x : XR) : XR :=
  match x with
  | Fin x =>
      if Rlt_bool (Rabs x) 1 then Fin (Ratanh x)
      else if Req_bool x 1 then PInf else if Req_bool x (-1) then MInf else NaN
  | _ => NaN
  end.

Definition xis_inf (x : XR) : bool :=
  match x with PInf | MInf => true | _ => false end.

Definition Rlit (m k : Z) : R := IZR m / IZR (10 ^ k).

#[global] Instance XRops : FOps XR := {|
  fadd := xadd; fsub := xsub; fmul := xmul; fdiv := xdiv;
  fneg := xneg; fabs := xabs; fsqrt := xsqrt;
  ffma := fun a b c => xadd (xmul a b) c;
  flt := xlt; fle := xle; feq := xeq;
  fround_even := xlift (fun r => IZR (ZnearestE r));
  fround := xlift (fun r => IZR (ZnearestA r));
  ffloor := xlift (fun r => IZR (Zfloor r));
  ftrunc := xlift (fun r => IZR (Ztrunc r));
  fsignum := xsignum;
  fis_inf := xis_inf;
  fofZ := fun n => Fin (IZR n);
  flit := fun m k => Fin (Rlit m k);
  finf := PInf;
  fpi := Fin PI;
  fpi_2 := Fin (PI / 2);
  fpi_4 := Fin (PI / 4);
  ftau := Fin (2 * PI);
  fdeg_per_rad := Fin (180 / PI);
  fsin := xfun sin; fcos := xfun cos; ftan := xtan;
  fasin := xasin; fatan := xatan; fatan2 := xatan2;
  fhypot := xhypot; fcbrt := xlift Rcbrt; fpowf := xpowf;
  fexp := xexp; fln := xln;
  fsinh := xlift sinh; fcosh := xcosh; ftanh := xtanh;
  fasinh := xlift arcsinh; fatanh := xatanh
|}.
