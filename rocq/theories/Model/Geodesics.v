(** Model of /repo/geokit/src/geodesy/geodesics: mod.rs, vincenty.rs, rapp.rs, karney.rs.

    Error messages are not modelled ([Err tt]). *)
From Coq Require Import ZArith List Bool.
From Verif.Num Require Import FOps.
From Verif.Model Require Import Fp Quantities Complex Cs Ellipsoid.
Import ListNotations.

Section Geodesics.
Context {F : Type} {ops : FOps F}.
Local Open Scope F_scope.

(** mod.rs:11-17 *)
Record Geodesic : Type := mkGeodesic {
  g_p1 : F * F; g_alpha1 : F; g_p2 : F * F; g_alpha2 : F; g_s : F }.

(** vincenty.rs:17, rapp.rs:19 *)
Definition MAX_ITERATIONS : nat := 30.

(** ** Vincenty *)

(** vincenty.rs:46-47 and 194-196: Vincenty's A and B at u^2 *)
Definition vincenty_A (u_sq : F) : F :=
  #1 + (u_sq / #16384) * (#4096 + u_sq * (- #768 + u_sq * (#320 - #175 * u_sq))).
Definition vincenty_B (u_sq : F) : F :=
  (u_sq / #1024) * (#256 + u_sq * (- #128 + u_sq * (#74 - #47 * u_sq))).

(** vincenty.rs:60-68 and 199-207 *)
Definition vincenty_delta_sigma (B sin_sigma cos_sigma cos_2_sigma_m : F) : F :=
  B * sin_sigma
    * (cos_2_sigma_m
       + (B / #4)
         * (cos_sigma * (- #1 + #2 * fsq cos_2_sigma_m)
            - (B / #6) * cos_2_sigma_m
              * (- #3 + #4 * fsq sin_sigma)
              * (- #3 + #4 * fsq cos_2_sigma_m))).

(** vincenty.rs:54-80, the loop of [direct].  [n] turns are left; the variables
    sin_sigma, cos_sigma, cos_2_sigma_m of the code are functions of sigma (lines 51-52, 70-72). *)
Fixpoint vincenty_direct_loop (n : nat) (B sigma1 sigma_0 sigma : F) : result F unit :=
  match n with
  | O => Err tt
  | S n' =>
      let sin_sigma := fsin sigma in
      let cos_sigma := fcos sigma in
      let cos_2_sigma_m := fcos (#2 * sigma1 + sigma) in
      let delta_sigma := vincenty_delta_sigma B sin_sigma cos_sigma cos_2_sigma_m in
      let sigma' := sigma_0 + angle_new delta_sigma RAD in
      if fabs (sigma' - sigma) <? flit 1 12 then Ok sigma'
      else vincenty_direct_loop n' B sigma1 sigma_0 sigma'
  end.

(** vincenty.rs:24-118 *)
Definition vincenty_direct (e : Ellipsoid F) (p1 : F * F) (alpha1 s12 : F)
  : result Geodesic unit :=
  let f := ef e in
  let '(lon1, lat1) := p1 in
  let tan_beta1 := (#1 - f) * ftan lat1 in
  let cos_beta1 := #1 / fsqrt (#1 + tan_beta1 * tan_beta1) in
  let sin_beta1 := tan_beta1 * cos_beta1 in
  let sin_alpha1 := fsin alpha1 in
  let cos_alpha1 := fcos alpha1 in
  let sigma1 := angle_new (fatan2 tan_beta1 cos_alpha1) RAD in
  let sin_alpha := cos_beta1 * sin_alpha1 in
  let cos_alpha_sq := #1 - fsq sin_alpha in
  let u_sq := cos_alpha_sq * e_prime_sq e in
  let A := vincenty_A u_sq in
  let B := vincenty_B u_sq in
  let sigma_0 := arc_div s12 (length_scale A (e_b e)) in
  match vincenty_direct_loop MAX_ITERATIONS B sigma1 sigma_0 sigma_0 with
  | Err m => Err m
  | Ok sigma =>
      let sin_sigma := fsin sigma in
      let cos_sigma := fcos sigma in
      let cos_2_sigma_m := fcos (#2 * sigma1 + sigma) in
      let lat2 := angle_new
        (fatan2 (sin_beta1 * cos_sigma + cos_beta1 * sin_sigma * cos_alpha1)
           ((#1 - f) * fsqrt (fsq sin_alpha
              + fsq (sin_beta1 * sin_sigma - cos_beta1 * cos_sigma * cos_alpha1)))) RAD in
      let lambda := angle_new
        (fatan2 (sin_sigma * sin_alpha1)
           (cos_beta1 * cos_sigma - sin_beta1 * sin_sigma * cos_alpha1)) RAD in
      let C := (f / #16) * cos_alpha_sq * (#4 + f * (#4 - #3 * cos_alpha_sq)) in
      let lambda_minus_L := (#1 - C) * f * sin_alpha
        * (sigma + angle_new (C * sin_sigma
             * (cos_2_sigma_m + C * cos_sigma * (- #1 + #2 * fsq cos_2_sigma_m))) RAD) in
      let L := lambda - lambda_minus_L in
      let alpha2 := angle_new
        (fatan2 sin_alpha (- sin_beta1 * sin_sigma + cos_beta1 * cos_sigma * cos_alpha1)) RAD in
      Ok (mkGeodesic p1 alpha1 (lon_add lon1 L, lat_new lat2) (azimuth_new alpha2) s12)
  end.

(** The values [inverse] carries from turn to turn and out of its loop. *)
Record vinv_state : Type := mkVI {
  vi_lambda : F; vi_sigma : F; vi_cos_alpha_sq : F; vi_cos_2_sigma_m : F }.

(** vincenty.rs:138-178, one turn of the loop of [inverse].  The variables sin_lambda,
    cos_lambda are functions of lambda (lines 132, 179), sin_sigma, cos_sigma of sigma (line 149). *)
Definition vincenty_inverse_step (f sin_beta1 cos_beta1 sin_beta2 cos_beta2 L : F)
    (lambda cos_2_sigma_m : F) : vinv_state :=
  let sin_lambda := fsin lambda in
  let cos_lambda := fcos lambda in
  let sin_sigma_sq := fsq (cos_beta2 * sin_lambda)
    + fsq (cos_beta1 * sin_beta2 - sin_beta1 * cos_beta2 * cos_lambda) in
  let cos_sigma_i := sin_beta1 * sin_beta2 + cos_beta1 * cos_beta2 * cos_lambda in
  let sigma := fatan2 (fsqrt sin_sigma_sq) cos_sigma_i in
  let sin_sigma := fsin sigma in
  let cos_sigma := fcos sigma in
  let sin_alpha := cos_beta1 * cos_beta2 * sin_lambda / sin_sigma in
  let cos_alpha_sq := #1 - fsq sin_alpha in
  if cos_alpha_sq =? #0 then
    mkVI (f * sin_alpha * sigma + L) sigma cos_alpha_sq cos_2_sigma_m
  else
    let cos_2_sigma_m := cos_sigma - #2 * sin_beta1 * sin_beta2 / cos_alpha_sq in
    let upper_c := f / #16 * cos_alpha_sq * (#4 + f * (#4 - #3 * cos_alpha_sq)) in
    let lambda_minus_L :=
      (#1 - upper_c) * f * sin_alpha
      * (sigma + upper_c * sin_sigma
           * (cos_2_sigma_m + upper_c * cos_sigma * (- #1 + #2 * fsq cos_2_sigma_m))) in
    mkVI (lambda_minus_L + L) sigma cos_alpha_sq cos_2_sigma_m.

(** vincenty.rs:138-186 *)
Fixpoint vincenty_inverse_loop (n : nat) (f sin_beta1 cos_beta1 sin_beta2 cos_beta2 L : F)
    (lambda cos_2_sigma_m : F) : result vinv_state unit :=
  match n with
  | O => Err tt
  | S n' =>
      let st := vincenty_inverse_step f sin_beta1 cos_beta1 sin_beta2 cos_beta2 L
                  lambda cos_2_sigma_m in
      if fabs (vi_lambda st - lambda) <? flit 1 12 then Ok st
      else vincenty_inverse_loop n' f sin_beta1 cos_beta1 sin_beta2 cos_beta2 L
             (vi_lambda st) (vi_cos_2_sigma_m st)
  end.

(** vincenty.rs:188-211 *)
Definition vincenty_inverse_s (e : Ellipsoid F) (st : vinv_state) : F :=
  let sigma := vi_sigma st in
  let sin_sigma := fsin sigma in
  let cos_sigma := fcos sigma in
  if vi_cos_alpha_sq st =? #0 then length_new (e_b e * sigma) M
  else
    let u_sq := vi_cos_alpha_sq st * e_prime_sq e in
    let A := vincenty_A u_sq in
    let B := vincenty_B u_sq in
    let delta_sigma := vincenty_delta_sigma B sin_sigma cos_sigma (vi_cos_2_sigma_m st) in
    length_new (e_b e * A * (sigma - delta_sigma)) M.

(** vincenty.rs:120-227 *)
Definition vincenty_inverse (e : Ellipsoid F) (p1 p2 : F * F) : result Geodesic unit :=
  let f := ef e in
  let '(lon1, lat1) := p1 in
  let '(lon2, lat2) := p2 in
  let beta1 := reduced_latitude e lat1 in
  let beta2 := reduced_latitude e lat2 in
  let sin_beta1 := fsin beta1 in let cos_beta1 := fcos beta1 in
  let sin_beta2 := fsin beta2 in let cos_beta2 := fcos beta2 in
  let L := lon_sub lon2 lon1 in
  match vincenty_inverse_loop MAX_ITERATIONS f sin_beta1 cos_beta1 sin_beta2 cos_beta2 L L #0 with
  | Err m => Err m
  | Ok st =>
      let s := vincenty_inverse_s e st in
      let sin_lambda := fsin (vi_lambda st) in
      let cos_lambda := fcos (vi_lambda st) in
      let alpha1 := fatan2 (cos_beta2 * sin_lambda)
        (cos_beta1 * sin_beta2 - sin_beta1 * cos_beta2 * cos_lambda) in
      let alpha2 := fatan2 (cos_beta1 * sin_lambda)
        (- sin_beta1 * cos_beta2 + cos_beta1 * sin_beta2 * cos_lambda) in
      Ok (mkGeodesic p1 (azimuth_new (angle_new alpha1 RAD))
            p2 (azimuth_new (angle_new alpha2 RAD)) s)
  end.

(** ** Rapp *)

(** rapp.rs:23-48, the coefficients A0, A2, A4, A6 as polynomials in cos^2 alpha *)
Definition rapp_axs (e : Ellipsoid F) : list F * list F * list F * list F :=
  let f := ef e in
  ([#1; - (f / #4 * (#1 + f * (#1 + f))); #3 * f * f / #16 * (#1 + #9 * f / #4);
    - #25 * f * f * f / #128],
   [#0; f / #4 * (#1 + f * (#1 + f)); - f * f / #4 * (#1 + #9 * f / #4);
    #75 * f * f * f / #256],
   [#0; #0; f * f / #32 * (#1 + #9 * f / #4); - #15 * f * f * f / #256],
   [#0; #0; #0; #5 * f * f * f / #768]).

(** rapp.rs:66-70, 238-245 *)
Definition rapp_b0 (u_sq : F) : F :=
  #1 + u_sq * (#1 / #4 + u_sq * (- #3 / #64 + u_sq * (#5 / #256 + u_sq * - #175 / #16384))).
Definition rapp_b2 (u_sq : F) : F :=
  u_sq * (- #1 / #4 + u_sq * (#1 / #16 + u_sq * (- #15 / #512 + u_sq * #35 / #2048))).
Definition rapp_b4 (u_sq : F) : F :=
  u_sq * u_sq * (- #1 / #128 + u_sq * (#3 / #512 + u_sq * - #35 / #8192)).
Definition rapp_b6 (u_sq : F) : F :=
  u_sq * u_sq * u_sq * (- #1 / #1536 + u_sq * #5 / #6144).
Definition rapp_b8 (u_sq : F) : F :=
  u_sq * u_sq * u_sq * u_sq * (- #5 / #65536).

(** multiple angles, rapp.rs:86-87, 94-96, 192-194, 207-209 *)
Definition rapp_sin_2 (s c : F) : F := #2 * s * c.
Definition rapp_sin_3 (s c : F) : F := #3 * s * fsq c - fpow3 s.
Definition rapp_sin_4 (s c : F) : F := #4 * s * fpow3 c - #4 * fpow3 s * c.
Definition rapp_cos_2 (c : F) : F := #2 * fsq c - #1.
Definition rapp_cos_3 (c : F) : F := fpow3 c - #3 * c * (#1 - fsq c).

(** What the loop of [direct] leaves: the last sigma, and the sigma the last turn started from
    (sin_sigma, ..., cos_6_sigma_m of lines 85-96 are computed from the latter). *)
Record rdir_state : Type := mkRD { rd_sigma : F; rd_sigma_old : F }.

(** rapp.rs:83-110 *)
Fixpoint rapp_direct_loop (n : nat) (b0 b2 b4 b6 sigma_1 sigma_0 sigma : F)
  : result rdir_state unit :=
  match n with
  | O => Err tt
  | S n' =>
      let sin_sigma := fsin sigma in
      let cos_sigma := fcos sigma in
      let sin_2_sigma := rapp_sin_2 sin_sigma cos_sigma in
      let sin_3_sigma := rapp_sin_3 sin_sigma cos_sigma in
      let two_sigma_m := #2 * sigma_1 + sigma in
      let cos_2_sigma_m := fcos two_sigma_m in
      let cos_4_sigma_m := rapp_cos_2 cos_2_sigma_m in
      let cos_6_sigma_m := rapp_cos_3 cos_2_sigma_m in
      let next_sigma := sigma_0
        - b2 / b0 * sin_sigma * cos_2_sigma_m
        - b4 / b0 * sin_2_sigma * cos_4_sigma_m
        - b6 / b0 * sin_3_sigma * cos_6_sigma_m in
      if fabs (next_sigma - sigma) <? flit 5 15 then Ok (mkRD next_sigma sigma)
      else rapp_direct_loop n' b0 b2 b4 b6 sigma_1 sigma_0 next_sigma
  end.

(** rapp.rs:52-155 *)
Definition rapp_direct (e : Ellipsoid F) (p1 : F * F) (alpha1 s12 : F) : result Geodesic unit :=
  let '(lon1, lat1) := p1 in
  let beta1 := reduced_latitude e lat1 in
  let sin_beta1 := fsin beta1 in let cos_beta1 := fcos beta1 in
  let sin_alpha1 := fsin alpha1 in let cos_alpha1 := fcos alpha1 in
  let sin_alpha := sin_alpha1 * cos_beta1 in
  let cos_alpha_sq := #1 - fsq sin_alpha in
  let u_sq := e_prime_sq e * cos_alpha_sq in
  let b0 := rapp_b0 u_sq in
  let b2 := rapp_b2 u_sq in
  let b4 := rapp_b4 u_sq in
  let b6 := rapp_b6 u_sq in
  let sigma_0 := s12 / length_scale b0 (e_b e) in
  let sigma_1 := fatan2 (ftan beta1) cos_alpha1 in
  match rapp_direct_loop MAX_ITERATIONS b0 b2 b4 b6 sigma_1 sigma_0 sigma_0 with
  | Err m => Err m
  | Ok st =>
      let sigma := rd_sigma st in
      let sin_sigma := fsin (rd_sigma_old st) in
      let cos_sigma := fcos (rd_sigma_old st) in
      let sin_2_sigma := rapp_sin_2 sin_sigma cos_sigma in
      let sin_3_sigma := rapp_sin_3 sin_sigma cos_sigma in
      let cos_2_sigma_m := fcos (#2 * sigma_1 + rd_sigma_old st) in
      let cos_4_sigma_m := rapp_cos_2 cos_2_sigma_m in
      let cos_6_sigma_m := rapp_cos_3 cos_2_sigma_m in
      let alpha := fasin sin_alpha in
      let beta2 := angle_new (fasin (fsin (sigma_1 + sigma) * fcos alpha)) RAD in
      let sin_beta2 := fsin beta2 in let cos_beta2 := fcos beta2 in
      let lat2 := fatan2 (ftan beta2) (#1 - ef e) in
      let sin_lambda := sin_sigma * sin_alpha1 / cos_beta2 in
      let cos_lambda := (cos_sigma - sin_beta1 * sin_beta2) / (cos_beta1 * cos_beta2) in
      let lambda := fatan2 sin_lambda cos_lambda in
      let f := ef e in
      let '(ax0, ax2, ax4, ax6) := rapp_axs e in
      let lambda_minus_L := f * sin_alpha
        * (fast_eval_at ax0 cos_alpha_sq * sigma
           + fast_eval_at ax2 cos_alpha_sq * sin_sigma * cos_2_sigma_m
           + fast_eval_at ax4 cos_alpha_sq * sin_2_sigma * cos_4_sigma_m
           + fast_eval_at ax6 cos_alpha_sq * sin_3_sigma * cos_6_sigma_m) in
      let L := lambda - lambda_minus_L in
      let alpha21 :=
        if s12 <? #1000 then
          let sin_lambda_2_sq := (#1 - cos_lambda) / #2 in
          fatan2 (sin_lambda * cos_beta1)
            (fsin (beta2 - beta1) - #2 * cos_beta1 * sin_beta2 * sin_lambda_2_sq)
        else
          fatan2 (sin_lambda * cos_beta1)
            (sin_beta2 * cos_beta1 * cos_lambda - sin_beta1 * cos_beta2) in
      Ok (mkGeodesic p1 alpha1 (lon_add lon1 (angle_new L RAD), lat_new (angle_new lat2 RAD))
            (azimuth_new (angle_new alpha21 RAD)) s12)
  end.

(** The variables live after the loop of [inverse]. *)
Record rinv_state : Type := mkRI {
  ri_lambda : F;                  (* lambda after the last turn *)
  ri_cos_lambda : F;              (* cos_lambda of line 184, from lambda before the last turn *)
  ri_sigma : F; ri_sin_sigma : F; ri_cos_sigma : F;
  ri_sin_alpha : F; ri_cos_alpha_sq : F;
  ri_cos_2_sigma_m : F; ri_cos_4_sigma_m : F; ri_cos_6_sigma_m : F; ri_cos_8_sigma_m : F }.

(** rapp.rs:182-223, one turn; [st] holds the values of the previous turn *)
Definition rapp_inverse_step (e : Ellipsoid F) (beta1 beta2 L : F) (st : rinv_state) : rinv_state :=
  let f := ef e in
  let sin_beta1 := fsin beta1 in let cos_beta1 := fcos beta1 in
  let sin_beta2 := fsin beta2 in let cos_beta2 := fcos beta2 in
  let lambda := ri_lambda st in
  let sin_lambda := fsin lambda in let cos_lambda := fcos lambda in
  let cos_sigma := sin_beta1 * sin_beta2 + cos_beta1 * cos_beta2 * cos_lambda in
  let sin_sigma := fsqrt (fsq (sin_lambda * cos_beta2)
    + fsq (sin_beta2 * cos_beta1 - sin_beta1 * cos_beta2 * cos_lambda)) in
  let sigma := fatan2 sin_sigma cos_sigma in
  let sin_2_sigma := rapp_sin_2 sin_sigma cos_sigma in
  let sin_3_sigma := rapp_sin_3 sin_sigma cos_sigma in
  let sin_alpha := cos_beta1 * cos_beta2 * sin_lambda / sin_sigma in
  let cos_alpha_sq := #1 - fsq sin_alpha in
  if cos_alpha_sq =? #0 then
    mkRI (L + f * sin_alpha * sigma) cos_lambda sigma sin_sigma cos_sigma sin_alpha cos_alpha_sq
      (ri_cos_2_sigma_m st) (ri_cos_4_sigma_m st) (ri_cos_6_sigma_m st) (ri_cos_8_sigma_m st)
  else
    let cos_2_sigma_m := cos_sigma - #2 * sin_beta1 * sin_beta2 / cos_alpha_sq in
    let cos_4_sigma_m := rapp_cos_2 cos_2_sigma_m in
    let cos_6_sigma_m := rapp_cos_3 cos_2_sigma_m in
    let cos_8_sigma_m := fpow4 cos_2_sigma_m - #6 * fsq cos_2_sigma_m * fsq sin_2_sigma
      + fpow4 sin_2_sigma in
    let '(ax0, ax2, ax4, ax6) := rapp_axs e in
    let lambda_minus_L := f * sin_alpha
      * (poly_eval ax0 cos_alpha_sq * sigma
         + poly_eval ax2 cos_alpha_sq * sin_sigma * cos_2_sigma_m
         + poly_eval ax4 cos_alpha_sq * sin_2_sigma * cos_4_sigma_m
         + poly_eval ax6 cos_alpha_sq * sin_3_sigma * cos_6_sigma_m) in
    mkRI (L + lambda_minus_L) cos_lambda sigma sin_sigma cos_sigma sin_alpha cos_alpha_sq
      cos_2_sigma_m cos_4_sigma_m cos_6_sigma_m cos_8_sigma_m.

(** rapp.rs:182-230 *)
Fixpoint rapp_inverse_loop (n : nat) (e : Ellipsoid F) (beta1 beta2 L : F) (st : rinv_state)
  : result rinv_state unit :=
  match n with
  | O => Err tt
  | S n' =>
      let st' := rapp_inverse_step e beta1 beta2 L st in
      if fabs (ri_lambda st' - ri_lambda st) <? flit 5 15 then Ok st'
      else rapp_inverse_loop n' e beta1 beta2 L st'
  end.

(** rapp.rs:234-255 *)
Definition rapp_inverse_s (e : Ellipsoid F) (st : rinv_state) : F :=
  if ri_cos_alpha_sq st =? #0 then length_new (length_scale (ri_sigma st) (e_b e)) M
  else
    let u_sq := e_prime_sq e * ri_cos_alpha_sq st in
    let sin_sigma := ri_sin_sigma st in
    let cos_sigma := ri_cos_sigma st in
    length_new
      (length_scale
         (rapp_b0 u_sq * ri_sigma st
          + rapp_b2 u_sq * sin_sigma * ri_cos_2_sigma_m st
          + rapp_b4 u_sq * rapp_sin_2 sin_sigma cos_sigma * ri_cos_4_sigma_m st
          + rapp_b6 u_sq * rapp_sin_3 sin_sigma cos_sigma * ri_cos_6_sigma_m st
          + rapp_b8 u_sq * rapp_sin_4 sin_sigma cos_sigma * ri_cos_8_sigma_m st)
         (e_b e)) M.

(** rapp.rs:256-301, the azimuths from the state the loop leaves and the length *)
Definition rapp_inverse_azimuths (beta1 beta2 lat1 lat2 : F) (st : rinv_state) (s : F) : F * F :=
  let sin_beta1 := fsin beta1 in let cos_beta1 := fcos beta1 in
  let sin_beta2 := fsin beta2 in let cos_beta2 := fcos beta2 in
  let lambda := ri_lambda st in
  let sin_alpha1 := ri_sin_alpha st / cos_beta1 in
  let sin_alpha2 := ri_sin_alpha st / cos_beta2 in
  let sin_lambda_2_sq := (#1 - ri_cos_lambda st) / #2 in
  if lambda =? #0 then
    if lat1 <? lat2 then (#0, #0) else (fpi, fpi)
  else if lambda =? fpi then
    if lat1 >=? #0 then (#0, fpi) else (fpi, #0)
  else
    let '(tan_alpha12, tan_alpha21) :=
      if s <? #10000 then
        (fsin lambda * cos_beta2
           / (fsin (beta2 - beta1) + #2 * sin_beta1 * cos_beta2 * sin_lambda_2_sq),
         fsin lambda * cos_beta1
           / (fsin (beta2 - beta1) - #2 * cos_beta1 * sin_beta2 * sin_lambda_2_sq))
      else
        (fsin lambda * cos_beta2
           / (sin_beta2 * cos_beta1 - fcos lambda * sin_beta1 * cos_beta2),
         fsin lambda * cos_beta1
           / (sin_beta2 * cos_beta1 * fcos lambda - sin_beta1 * cos_beta2)) in
    (fatan2 sin_alpha1 (sin_alpha1 / tan_alpha12),
     fatan2 sin_alpha2 (sin_alpha2 / tan_alpha21)).

(** rapp.rs:157-310 *)
Definition rapp_inverse (e : Ellipsoid F) (p1 p2 : F * F) : result Geodesic unit :=
  let '(lon1, lat1) := p1 in
  let '(lon2, lat2) := p2 in
  let beta1 := reduced_latitude e lat1 in
  let beta2 := reduced_latitude e lat2 in
  let L := lon_sub lon2 lon1 in
  (* lines 168-180; the fields not yet assigned in Rust are never read before assignment *)
  let st0 := mkRI L #0 #0 #0 #0 #0 #0 #0 #0 #0 #0 in
  match rapp_inverse_loop MAX_ITERATIONS e beta1 beta2 L st0 with
  | Err m => Err m
  | Ok st =>
      let s := rapp_inverse_s e st in
      let '(alpha1, alpha2) := rapp_inverse_azimuths beta1 beta2 lat1 lat2 st s in
      Ok (mkGeodesic p1 (azimuth_new (angle_new alpha1 RAD))
            p2 (azimuth_new (angle_new alpha2 RAD)) s)
  end.

(** ** Karney *)

(** karney.rs:26 *)
Definition karney_PA1 : list F := [#1; #0; #1 / #4; #0; #1 / #64; #0; #1 / #256].
(** karney.rs:28-36 *)
Definition karney_C1L : list (list F) :=
  [ [#0; #0; #0; #0; #0; #0; #0];
    [#0; - flit 5 1; #0; #3 / #16; #0; - #1 / #32; #0];
    [#0; #0; - #1 / #16; #0; #1 / #32; #0; - #9 / #2048];
    [#0; #0; #0; - #1 / #48; #0; #3 / #256; #0];
    [#0; #0; #0; #0; - #5 / #512; #0; #3 / #512];
    [#0; #0; #0; #0; #0; - #7 / #1280; #0];
    [#0; #0; #0; #0; #0; #0; - #7 / #2048] ].
(** karney.rs:38-45 *)
Definition karney_CP1L : list (list F) :=
  [ [#0; #1 / #2; #0; - #9 / #32; #0; #205 / #1536; #0];
    [#0; #0; #5 / #16; #0; - #37 / #96; #0; #1335 / #4096];
    [#0; #0; #0; #29 / #96; #0; - #75 / #128; #0];
    [#0; #0; #0; #0; #539 / #1536; #0; - #2391 / #2560];
    [#0; #0; #0; #0; #0; #3467 / #7680; #0];
    [#0; #0; #0; #0; #0; #0; #38081 / #61440] ].
(** karney.rs:51-58 *)
Definition karney_A3 (n : F) : list F :=
  [ #1;
    - fast_eval_at [#1 / #2; - #1 / #2] n;
    - fast_eval_at [#1 / #4; #1 / #8; - #3 / #8] n;
    - fast_eval_at [#1 / #16; #3 / #16; #1 / #16] n;
    - fast_eval_at [#3 / #64; #1 / #32] n;
    - #3 / #128 ].
(** karney.rs:59-100 *)
Definition karney_C3L (n : F) : list (list F) :=
  [ [#0; #0; #0; #0; #0; #0];
    [#0; fast_eval_at [#1 / #4; - #1 / #4] n; fast_eval_at [#1 / #8; #0; - #1 / #8] n;
     fast_eval_at [#3 / #64; #3 / #64; - #1 / #64] n; fast_eval_at [#5 / #128; #1 / #64] n;
     #3 / #128];
    [#0; #0; fast_eval_at [#1 / #16; - #3 / #32; #1 / #32] n;
     fast_eval_at [#3 / #64; - #1 / #32; - #3 / #64] n; fast_eval_at [#3 / #128; #1 / #128] n;
     #5 / #256];
    [#0; #0; #0; fast_eval_at [#5 / #192; - #3 / #64; #5 / #192] n;
     fast_eval_at [#3 / #128; - #5 / #192] n; #7 / #512];
    [#0; #0; #0; #0; fast_eval_at [#7 / #512; - #7 / #256] n; #7 / #512];
    [#0; #0; #0; #0; #0; #21 / #2560] ].

(** karney.rs:156-158 *)
Definition karney_fA1 (epsilon : F) : F := fast_eval_at karney_PA1 epsilon / (#1 - epsilon).
(** karney.rs:162-165 *)
Definition karney_fI1 (epsilon A1 sigma : F) : F :=
  let C1L := map (fun p => fast_eval_at p epsilon) karney_C1L in
  A1 * (sigma + clenshaw_sin_sum C1L (#2 * sigma)).

(** karney.rs:172-176, the terms [cp1x * (2. * tau * (ix + 1) as Float).sin()] *)
Fixpoint karney_sigma_terms (ix : nat) (cs : list F) (tau : F) : list F :=
  match cs with
  | [] => []
  | c :: cs' =>
      c * fsin (#2 * tau * #(Z.of_nat (S ix))) :: karney_sigma_terms (S ix) cs' tau
  end.

(** [Iterator::sum] for floats: additions from the left.  The neutral element is 0.0 here
    (-0.0 in recent Rust: the sums differ only for the sign of a zero). *)
Definition fsum (l : list F) : F := fold_left fadd l #0.

(** karney.rs:169-178 *)
Definition karney_Sigma (epsilon tau : F) : F :=
  let cp1xs := map (fun p => fast_eval_at p epsilon) karney_CP1L in
  tau + angle_new (fsum (karney_sigma_terms 0 cp1xs tau)) RAD.
(** karney.rs:181-183 *)
Definition karney_fA3 (e : Ellipsoid F) (epsilon : F) : F :=
  fast_eval_at (karney_A3 (en e)) epsilon.
(** karney.rs:187-190 *)
Definition karney_fI3 (e : Ellipsoid F) (A3 epsilon sigma : F) : F :=
  let C3L := map (fun p => fast_eval_at p epsilon) (karney_C3L (en e)) in
  A3 * (sigma + clenshaw_sin_sum C3L (#2 * sigma)).

(** karney.rs:200-214 *)
Record Triangle : Type := mkTriangle {
  t_alpha0 : F; t_alpha : F; t_beta : F; t_sigma : F; t_omega : F }.

(** karney.rs:219-245 *)
Definition solve_triangle_from_p (beta alpha : F) : Triangle :=
  let sin_alpha := fsin alpha in let cos_alpha := fcos alpha in
  let sin_beta := fsin beta in let cos_beta := fcos beta in
  let alpha0 := carg (mkC (cabs (mkC cos_alpha (sin_alpha * sin_beta))) (sin_alpha * cos_beta)) in
  let sigma := carg (mkC (cos_alpha * cos_beta) sin_beta) in
  let sin_sigma := fsin sigma in let cos_sigma := fcos sigma in
  let sin_alpha0 := fsin alpha0 in
  let omega := carg (mkC cos_sigma (sin_alpha0 * sin_sigma)) in
  mkTriangle (azimuth_new alpha0) alpha beta sigma omega.

(** karney.rs:250-274 *)
Definition solve_triangle_from_e (alpha0 sigma : F) : Triangle :=
  let sin_alpha0 := fsin alpha0 in let cos_alpha0 := fcos alpha0 in
  let sin_sigma := fsin sigma in let cos_sigma := fcos sigma in
  let alpha := carg (mkC (cos_alpha0 * cos_sigma) sin_alpha0) in
  let beta := carg (mkC (cabs (mkC (cos_alpha0 * cos_sigma) sin_alpha0))
                        (cos_alpha0 * sin_sigma)) in
  let omega := carg (mkC cos_sigma (sin_alpha0 * sin_sigma)) in
  mkTriangle alpha0 (azimuth_new alpha) beta sigma omega.

(** karney.rs:113-115 *)
Definition karney_epsilon (e : Ellipsoid F) (cos_alpha0 : F) : F :=
  let k2 := e_prime_sq e * cos_alpha0 * cos_alpha0 in
  let t := fsqrt (#1 + k2) in
  (t - #1) / (t + #1).

(** karney.rs:104-147 *)
Definition karney_direct (e : Ellipsoid F) (p1 : F * F) (alpha1 s12 : F) : Geodesic :=
  let '(lon1, lat1) := p1 in
  let beta1 := reduced_latitude e lat1 in
  let nep1 := solve_triangle_from_p beta1 alpha1 in
  let sin_alpha0 := fsin (t_alpha0 nep1) in let cos_alpha0 := fcos (t_alpha0 nep1) in
  let epsilon := karney_epsilon e cos_alpha0 in
  let A1 := karney_fA1 epsilon in
  let I1_sigma1 := karney_fI1 epsilon A1 (t_sigma nep1) in
  let s1 := length_scale I1_sigma1 (e_b e) in
  let s2 := s1 + s12 in
  let tau2 := arc_div s2 (length_scale A1 (e_b e)) in
  let sigma2 := karney_Sigma epsilon tau2 in
  let nep2 := solve_triangle_from_e (t_alpha0 nep1) sigma2 in
  let A3 := karney_fA3 e epsilon in
  let I3_sigma1 := karney_fI3 e A3 epsilon (t_sigma nep1) in
  let I3_sigma2 := karney_fI3 e A3 epsilon (t_sigma nep2) in
  let lambda1 := t_omega nep1 - angle_new (ef e * sin_alpha0 * I3_sigma1) RAD in
  let lambda2 := t_omega nep2 - angle_new (ef e * sin_alpha0 * I3_sigma2) RAD in
  let lambda12 := lambda2 - lambda1 in
  let lat2 := angle_new (fatan (ftan (t_beta nep2) / (#1 - ef e))) RAD in
  mkGeodesic p1 alpha1 (lon_add lon1 lambda12, lat_new lat2) (t_alpha nep2) s12.

(** ** The trait [GeodesicSolver], mod.rs:31-55 *)
Inductive solver : Type := Vincenty | Rapp | Karney.

(** vincenty.rs:231-238, rapp.rs:314-321, karney.rs:277-284 *)
Definition solve_direct (sv : solver) (e : Ellipsoid F) (p1 : F * F) (alpha1 s12 : F)
  : outcome (result Geodesic unit) :=
  match sv with
  | Vincenty => Ret (vincenty_direct e p1 alpha1 s12)
  | Rapp => Ret (rapp_direct e p1 alpha1 s12)
  | Karney => Ret (Ok (karney_direct e p1 alpha1 s12))
  end.

(** vincenty.rs:240-242, rapp.rs:323-325, karney.rs:149-152, 286-288 ([unimplemented!()]) *)
Definition solve_inverse (sv : solver) (e : Ellipsoid F) (p1 p2 : F * F)
  : outcome (result Geodesic unit) :=
  match sv with
  | Vincenty => Ret (vincenty_inverse e p1 p2)
  | Rapp => Ret (rapp_inverse e p1 p2)
  | Karney => Panic
  end.

End Geodesics.

Arguments Geodesic F : clear implicits.
Arguments Triangle F : clear implicits.
Arguments vinv_state F : clear implicits.
Arguments rinv_state F : clear implicits.
Arguments rdir_state F : clear implicits.
