(** Property C69: lengths, distances and points of lines in binary64.

    Spec/Lines64.v defines [lengths64], [within64], [apart], [path], [in_metres], [computed_at],
    [line64], [pieces] and [totals]; Spec/Lines.v [total], [line_tos]; Spec/Accurate.v [accurate]. *)
From Coq Require Import Bool Reals List.
From Flocq Require Import Core IEEE754.BinarySingleNaN.
From Verif.Num Require Import FOps F64.
From Verif.Model Require Import Fp Quantities Cs Ellipsoid Geodesics Projections Crs Geometry.
From Verif.Spec Require Import Accurate Lines Lines64.
From Verif.Proofs Require Import LinesX LinesEx Lines64A Lines64B Lines64C Lines64D.
Import ListNotations.
Local Open Scope R_scope.

(** The length of a line string is the sum of its segments up to one rounding per segment. *)
Theorem C69_length : forall (lm : libm) l ds, ls_len l = ds -> lengths64 ds ->
  total (vals ds) * (1 + / 2 ^ 53) ^ List.length ds <= bpow radix2 1000 ->
  let L := ls_length (ops := F64ops lm) l in
  is_finite L = true /\ 0 <= B2R L /\
  Rabs (B2R L - total (vals ds)) <= ((1 + / 2 ^ 53) ^ List.length ds - 1) * total (vals ds).
Proof. exact length64. Qed.
Print Assumptions C69_length.

(** [Crs::dist] of systems in metres is the Euclidean distance. *)
Theorem C69_distance : forall lm : libm, accurate lm -> forall crs p q, in_metres lm crs ->
  List.length p = crs_dim crs -> List.length q = crs_dim crs ->
  within64 (bpow radix2 400) p -> within64 (bpow radix2 400) q ->
  exists d, crs_dist (ops := F64ops lm) crs p q = Ret (Ok d) /\ is_finite d = true /\ 0 <= B2R d /\
  Rabs (B2R d - apart (vals p) (vals q)) <= / 2 ^ 48 * apart (vals p) (vals q) + bpow radix2 (-998).
Proof. exact crs_dist64. Qed.
Print Assumptions C69_distance.

(** A line built point by point knows the length of its path. *)
Theorem C69_built_length : forall lm : libm, accurate lm -> forall crs p q b0 ps b, in_metres lm crs ->
  lsb_with_line (ops := F64ops lm) crs p q = Ret (Ok b0) ->
  line_tos (ops := F64ops lm) b0 ps = Ret (Ok b) ->
  let pts := p :: q :: ps in let n := S (List.length ps) in let w := (1 + / 2 ^ 53) ^ n in
  Forall (within64 (bpow radix2 400)) pts -> (1 + path (map vals pts)) * w <= bpow radix2 900 ->
  lengths64 (ls_len (lsb_build b)) /\ List.length (ls_len (lsb_build b)) = n /\
  total (vals (ls_len (lsb_build b))) * w <= bpow radix2 1000 /\
  is_finite (ls_length (ops := F64ops lm) (lsb_build b)) = true /\
  Rabs (B2R (ls_length (ops := F64ops lm) (lsb_build b)) - path (map vals pts)) <=
    ((1 + / 2 ^ 48) * w - 1) * path (map vals pts) + INR n * w * bpow radix2 (-998).
Proof. exact built64. Qed.
Print Assumptions C69_built_length.

(** A position [param] returns is the rounded position at an arc length next to the one asked for. *)
Theorem C69_param_right : forall (lm : libm) l pts ds, line64 l pts ds -> forall (s : f64) v,
  is_finite s = true -> 0 <= B2R s -> 0 < B2R s \/ 0 < hd 0 (vals ds) ->
  ls_param (ops := F64ops lm) l s = Ret v ->
  exists t, computed_at pts (vals ds) t v /\
  Rabs (t - B2R s) <= INR (List.length ds) * / 2 ^ 53 * B2R s.
Proof. intros lm l pts ds [A B C D E F]. exact (param_right lm l pts ds A B C D E F). Qed.
Print Assumptions C69_param_right.

(** It returns one, unless the arc length is within one rounding per segment of the end. *)
Theorem C69_param_returns : forall (lm : libm) l pts ds, line64 l pts ds -> forall s : f64,
  is_finite s = true -> 0 <= B2R s -> 0 < B2R s \/ 0 < hd 0 (vals ds) ->
  B2R s <= B2R (ls_length (ops := F64ops lm) l) * (1 - INR (List.length ds) * / 2 ^ 52) ->
  exists v, ls_param (ops := F64ops lm) l s = Ret v.
Proof. intros lm l pts ds [A B C D E F]. exact (param_returns lm l pts ds A B C D E F). Qed.
Print Assumptions C69_param_returns.

(** The same for curves of several line strings; [xs] are their positions and lengths. *)
Theorem C69_curve_right : forall (lm : libm) c xs (s : f64) v,
  Forall2 (fun g x => line64 g (fst x) (snd x)) (cv_seg c) xs ->
  is_finite s = true -> 0 <= B2R s <= bpow radix2 1000 ->
  0 < B2R s \/ 0 < hd 0 (vals (snd (hd ([], []) xs))) ->
  cv_param (ops := F64ops lm) c s = Ret v ->
  exists j pts ds t, nth_error xs j = Some (pts, ds) /\ computed_at pts (vals ds) t v /\
  Rabs (total (firstn j (totals xs)) + t - B2R s) <=
    INR (pieces xs) * / 2 ^ 53 * B2R s + ((1 + / 2 ^ 53) ^ pieces xs - 1) * total (totals xs).
Proof. exact curve_right. Qed.
Print Assumptions C69_curve_right.

(** Defect: [Curve::param] can panic in the interior, at the joint of two line strings. *)
Theorem C69_curve_interior_refuted : forall lm : libm, exists l1 l2 b0 b s,
  ls_new 2 [f_0; f_0; f_1; f_0; f_1; f_small] [f_1; f_small] = Ret l1 /\
  ls_new 2 [f_1; f_small; f_3; f_small] [f_2] = Ret l2 /\
  cvb_with_seg (plane (ops := F64ops lm)) l1 = Ok b0 /\
  cvb_append (ops := F64ops lm) b0 l2 = Ret (Ok b) /\
  Bltb s (cv_length (ops := F64ops lm) (cvb_build b)) = true /\ Bltb f_1 s = true /\
  cv_param (ops := F64ops lm) (cvb_build b) s = Panic.
Proof. exact curve_panics. Qed.
Print Assumptions C69_curve_interior_refuted.

Example C69_ex :
  line64 (mkLS 2 [f_0; f_0; f_3; f_0; f_3; f_2] [f_3; f_2]) [[f_0; f_0]; [f_3; f_0]; [f_3; f_2]]
    [f_3; f_2] /\ total (vals [f_3; f_2]) = 5.
Proof. exact line64_ex. Qed.
