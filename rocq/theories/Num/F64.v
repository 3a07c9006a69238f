(** IEEE 754 binary64, from Flocq (one NaN), rounding to nearest, ties to even.

    The functions that Rust's standard library forwards to the platform's C library are not
    specified by IEEE 754; they are the fields of [libm], over which theorems quantify. *)
From Coq Require Import ZArith Reals Bool.
From Flocq Require Import Core IEEE754.BinarySingleNaN.
From Verif.Num Require Import FOps.

#[global] Instance Hprec64 : Prec_gt_0 53 := eq_refl.
#[global] Instance Hemax64 : Prec_lt_emax 53 1024 := eq_refl.

Definition f64 : Type := binary_float 53 1024.

Record libm : Type := {
  lm_sin : f64 -> f64; lm_cos : f64 -> f64; lm_tan : f64 -> f64;
  lm_asin : f64 -> f64; lm_atan : f64 -> f64; lm_atan2 : f64 -> f64 -> f64;
  lm_hypot : f64 -> f64 -> f64; lm_cbrt : f64 -> f64; lm_powf : f64 -> f64 -> f64;
  lm_exp : f64 -> f64; lm_ln : f64 -> f64;
  lm_sinh : f64 -> f64; lm_cosh : f64 -> f64; lm_tanh : f64 -> f64;
  lm_asinh : f64 -> f64; lm_atanh : f64 -> f64
}.

(** The binary64 number nearest to m * 2^e. *)
Definition f64_of (m e : Z) : f64 := binary_normalize 53 1024 _ _ mode_NE m e false.

Definition f64_ofZ (n : Z) : f64 := f64_of n 0.

(** A decimal literal m * 10^-k.  Correctly rounded when |m| < 2^53 and 0 <= k <= 22, because then
    both operands of the division are exact; all literals of the code satisfy this. *)
Definition f64_lit (m k : Z) : f64 := Bdiv mode_NE (f64_ofZ m) (f64_ofZ (10 ^ k)).

(** std::f64::consts: PI = 0x400921FB54442D18, to_degrees' constant = 0x404CA5DC1A63C1F8. *)
Definition PI64 : f64 := f64_of 0x1921FB54442D18 (-51).
Definition PI_2_64 : f64 := f64_of 0x1921FB54442D18 (-52).
Definition PI_4_64 : f64 := f64_of 0x1921FB54442D18 (-53).
Definition TAU64 : f64 := f64_of 0x1921FB54442D18 (-50).
Definition DEG_PER_RAD64 : f64 := f64_of 0x1CA5DC1A63C1F8 (-47).

Definition f64_signum (x : f64) : f64 :=
  match x with
  | B754_nan => B754_nan
  | _ => if Bsign x then f64_ofZ (-1) else f64_ofZ 1
  end.

Definition f64_is_inf (x : f64) : bool :=
  match x with B754_infinity _ => true | _ => false end.

Definition f64_inf : f64 := B754_infinity false.
Definition f64_nan : f64 := B754_nan.

#[global] Instance F64ops (lm : libm) : FOps f64 := {|
  fadd := Bplus mode_NE; fsub := Bminus mode_NE; fmul := Bmult mode_NE; fdiv := Bdiv mode_NE;
  fneg := @Bopp 53 1024; fabs := @Babs 53 1024; fsqrt := Bsqrt mode_NE;
  ffma := Bfma mode_NE;
  flt := @Bltb 53 1024; fle := @Bleb 53 1024; feq := @Beqb 53 1024;
  fround_even := Bnearbyint mode_NE;
  fround := Bnearbyint mode_NA;
  ffloor := Bnearbyint mode_DN;
  ftrunc := Bnearbyint mode_ZR;
  fsignum := f64_signum;
  fis_inf := f64_is_inf;
  fofZ := f64_ofZ;
  flit := f64_lit;
  finf := f64_inf;
  fpi := PI64; fpi_2 := PI_2_64; fpi_4 := PI_4_64; ftau := TAU64;
  fdeg_per_rad := DEG_PER_RAD64;
  fsin := lm_sin lm; fcos := lm_cos lm; ftan := lm_tan lm;
  fasin := lm_asin lm; fatan := lm_atan lm; fatan2 := lm_atan2 lm;
  fhypot := lm_hypot lm; fcbrt := lm_cbrt lm; fpowf := lm_powf lm;
  fexp := lm_exp lm; fln := lm_ln lm;
  fsinh := lm_sinh lm; fcosh := lm_cosh lm; ftanh := lm_tanh lm;
  fasinh := lm_asinh lm; fatanh := lm_atanh lm
|}.
