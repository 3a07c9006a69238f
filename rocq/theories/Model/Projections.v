(** Model of /repo/geokit/src/projections. *)
From Coq Require Import ZArith List Bool.
From Verif.Num Require Import FOps.
From Verif.Model Require Import Fp Quantities Cs Ellipsoid Geodesics.
Import ListNotations.

(** projections/mod.rs:15-18 *)
Inductive ProjectionError : Type := LLHOutOfBounds | ENHOutOfBounds.

Section Projections.
Context {F : Type} {ops : FOps F}.
Local Open Scope F_scope.

(** ** cyl/web_mercator.rs *)

(** web_mercator.rs:20-30 *)
Record WebMercator : Type := mkWM { wm_a : F; wm_lon0 : F; wm_lat0 : F; wm_fe : F; wm_fn : F }.
(** web_mercator.rs:34-48 *)
Definition wm_new (e : Ellipsoid F) (lon0 lat0 fe fn : F) : WebMercator :=
  mkWM (e_a e) lon0 lat0 fe fn.
(** web_mercator.rs:52-58.  [Lat / Float] and [Lat + Angle] clamp. *)
Definition wm_proj (p : WebMercator) (input : LLH F) : result (ENH F) ProjectionError :=
  Ok (mkENH
    (wm_fe p + arc_length (wm_a p) (lon_sub (lon input) (wm_lon0 p)))
    (wm_fn p + length_scale
       (fln (ftan (lat_add (lat_div (lat input) #2) (angle_new fpi_4 RAD)))) (wm_a p))
    (height input)).
(** web_mercator.rs:60-68 *)
Definition wm_unproj (p : WebMercator) (input : ENH F) : result (LLH F) ProjectionError :=
  let d := (wm_fn p - northing input) / wm_a p in
  Ok (mkLLH
    (lon_add (wm_lon0 p) (arc_div (easting input - wm_fe p) (wm_a p)))
    (lat_new (fpi_2 - angle_new (#2 * fatan (fexp d)) RAD))
    (eheight input)).

(** ** cyl/mercator.rs *)

(** mercator.rs:22-32 *)
Record Mercator : Type := mkMerc {
  m_a : F; m_e : F; m_e2 : F; m_lon0 : F; m_lat0 : F; m_k0 : F; m_fe : F; m_fn : F;
  m_c0 : F; m_c1 : F; m_c2 : F; m_c3 : F }.
(** mercator.rs:92-118 *)
Definition merc_new (e : Ellipsoid F) (lon0 lat0 k0 fe fn : F) : Mercator :=
  let e2 := e_sq e in
  mkMerc (e_a e) (ecc e) e2 lon0 (lat_abs lat0) k0 fe fn
    (fast_eval_at [#0; flit 5 1; #5 / #24; #1 / #12; #13 / #360] e2)
    (fast_eval_at [#0; #0; #7 / #48; #29 / #240; #811 / #11520] e2)
    (fast_eval_at [#0; #0; #0; #7 / #120; #81 / #1120] e2)
    (fast_eval_at [#0; #0; #0; #0; #4279 / #161280] e2).
(** mercator.rs:48-63 *)
Definition merc_new_1_sp (e : Ellipsoid F) (lon0 k0 fe fn : F) : Mercator :=
  merc_new e lon0 #0 k0 fe fn.
(** mercator.rs:79-90 *)
Definition merc_new_2_sp (e : Ellipsoid F) (lon0 lat0 fe fn : F) : Mercator :=
  let sin_lat1 := fsin (lat_abs lat0) in
  let cos_lat1 := fcos (lat_abs lat0) in
  let e2 := e_sq e in
  let k0 := cos_lat1 / fsqrt (#1 - e2 * sin_lat1 * sin_lat1) in
  merc_new e lon0 lat0 k0 fe fn.
(** mercator.rs:122-133 *)
Definition merc_proj (p : Mercator) (input : LLH F) : result (ENH F) ProjectionError :=
  let sin_lat := fsin (lat input) in
  let e_sin_lat := m_e p * sin_lat in
  let lat1 := lat_add (lat_div (lat input) #2) (angle_new fpi_4 RAD) in
  let R := fpowf ((#1 - e_sin_lat) / (#1 + e_sin_lat)) (m_e p / #2) in
  Ok (mkENH
    (m_fe p + arc_length (length_scale (m_k0 p) (m_a p)) (lon_sub (lon input) (m_lon0 p)))
    (m_fn p + length_scale (fln (ftan lat1 * R)) (length_scale (m_k0 p) (m_a p)))
    (height input)).
(** mercator.rs:135-154 *)
Definition merc_unproj (p : Mercator) (input : ENH F) : result (LLH F) ProjectionError :=
  let t := fexp ((m_fn p - northing input) / length_scale (m_k0 p) (m_a p)) in
  let xi := fpi_2 - #2 * fatan t in
  let sin_2xi := fsin (#2 * xi) in
  let sin_4xi := fsin (#4 * xi) in
  let sin_6xi := fsin (#6 * xi) in
  let sin_8xi := fsin (#8 * xi) in
  let x := xi + m_c0 p * sin_2xi + m_c1 p * sin_4xi + m_c2 p * sin_6xi + m_c3 p * sin_8xi in
  Ok (mkLLH
    (lon_add (m_lon0 p) (arc_div (easting input - m_fe p) (length_scale (m_k0 p) (m_a p))))
    (lat_new (angle_new x RAD))
    (eheight input)).

(** ** cyl/transverse_mercator.rs *)

(** transverse_mercator.rs:24-34 *)
Record TransverseMercator : Type := mkTM {
  tm_e : F; tm_lon0 : F; tm_k0 : F; tm_fe : F; tm_fn : F; tm_B : F;
  tm_h : F * F * F * F; tm_h_p : F * F * F * F; tm_M0 : F }.

(** transverse_mercator.rs:213-215 *)
Definition tm_Q (e lat : F) : F := fasinh (ftan lat) - e * fatanh (e * fsin lat).
(** transverse_mercator.rs:217-219 *)
Definition tm_beta (Q : F) : F := fatan (fsinh Q).
(** transverse_mercator.rs:221-240 *)
Definition tm_M0_of (lat0 B e : F) (h : F * F * F * F) : F :=
  if lat0 =? #0 then length_new #0 M
  else if lat_abs lat0 =? LAT_MAX then length_scale lat0 B
  else
    let Q0 := tm_Q e lat0 in
    let beta0 := tm_beta Q0 in
    let xi_o0 := beta0 in
    let '(h1, h2, h3, h4) := h in
    let xi_o := fsum [xi_o0; h1 * fsin (#2 * xi_o0); h2 * fsin (#4 * xi_o0);
                      h3 * fsin (#6 * xi_o0); h4 * fsin (#8 * xi_o0)] in
    length_scale xi_o B.

(** transverse_mercator.rs:69-70 *)
Definition tm_B_of (a n : F) : F :=
  length_scale (fast_eval_at [#1; #0; flit 25 2; #0; #1 / #64] n) (a / (#1 + n)).
(** transverse_mercator.rs:71-76 *)
Definition tm_h_of (n : F) : F * F * F * F :=
  (fast_eval_at [#0; flit 5 1; - #2 / #3; #5 / #16; #41 / #180] n,
   fast_eval_at [#0; #0; #13 / #48; - #3 / #5; #557 / #1440] n,
   fast_eval_at [#0; #0; #0; #61 / #240; - #103 / #140] n,
   fast_eval_at [#0; #0; #0; #0; #49561 / #161280] n).
(** transverse_mercator.rs:78-83 *)
Definition tm_h_p_of (n : F) : F * F * F * F :=
  (fast_eval_at [#0; flit 5 1; - #2 / #3; #37 / #96; - #1 / #360] n,
   fast_eval_at [#0; #0; #1 / #48; #1 / #15; - #437 / #1440] n,
   fast_eval_at [#0; #0; #0; #17 / #480; - #37 / #840] n,
   fast_eval_at [#0; #0; #0; #0; #4397 / #161280] n).

(** transverse_mercator.rs:59-98 *)
Definition tm_new (el : Ellipsoid F) (lon0 lat0 k0 fe fn : F) : TransverseMercator :=
  let e := ecc el in
  let n := en el in
  let B := tm_B_of (e_a el) n in
  let h := tm_h_of n in
  let h_p := tm_h_p_of n in
  mkTM e lon0 k0 fe fn B h h_p (tm_M0_of lat0 B e h).

(** transverse_mercator.rs:112-118 and 139-144: h1 sin 2x cosh 2y + ... *)
Definition tm_xi_sum (h : F * F * F * F) (xi eta : F) : F :=
  let '(h1, h2, h3, h4) := h in
  fsum [h1 * fsin (#2 * xi) * fcosh (#2 * eta); h2 * fsin (#4 * xi) * fcosh (#4 * eta);
        h3 * fsin (#6 * xi) * fcosh (#6 * eta); h4 * fsin (#8 * xi) * fcosh (#8 * eta)].
(** transverse_mercator.rs:120-126 and 147-152 *)
Definition tm_eta_sum (h : F * F * F * F) (xi eta : F) : F :=
  let '(h1, h2, h3, h4) := h in
  fsum [h1 * fcos (#2 * xi) * fsinh (#2 * eta); h2 * fcos (#4 * xi) * fsinh (#4 * eta);
        h3 * fcos (#6 * xi) * fsinh (#6 * eta); h4 * fcos (#8 * xi) * fsinh (#8 * eta)].

(** transverse_mercator.rs:102-133 *)
Definition tm_proj (p : TransverseMercator) (input : LLH F) : result (ENH F) ProjectionError :=
  let Q := tm_Q (tm_e p) (lat input) in
  let beta := tm_beta Q in
  let eta_0 := fatanh (fcos beta * fsin (lon_sub (lon input) (tm_lon0 p))) in
  let xi_0 := fasin (fsin beta * fcosh eta_0) in
  let xi := xi_0 + tm_xi_sum (tm_h p) xi_0 eta_0 in
  let eta := eta_0 + tm_eta_sum (tm_h p) xi_0 eta_0 in
  Ok (mkENH
    (tm_fe p + length_scale eta (length_scale (tm_k0 p) (tm_B p)))
    (tm_fn p + length_scale (tm_k0 p) (length_scale xi (tm_B p) - tm_M0 p))
    (height input)).

(** transverse_mercator.rs:158-160 *)
Definition tm_iter_fn (e Q_p Q_pp : F) : F := Q_p + (e * fatanh (e * ftanh Q_pp)).

(** transverse_mercator.rs:163-169.  The Rust loop has no bound; [fuel] counts the turns. *)
Fixpoint tm_loop (fuel : nat) (e Q_p Q_pp : F) : outcome F :=
  match fuel with
  | O => Diverge
  | S fuel' =>
      let Q_pp' := tm_iter_fn e Q_p Q_pp in
      if fabs (Q_pp' - Q_pp) <? flit 1 12 then Ret Q_pp' else tm_loop fuel' e Q_p Q_pp'
  end.

(** transverse_mercator.rs:135-176 *)
Definition tm_unproj (fuel : nat) (p : TransverseMercator) (input : ENH F)
  : outcome (result (LLH F) ProjectionError) :=
  let eta_p := (easting input - tm_fe p) / length_scale (tm_k0 p) (tm_B p) in
  let xi_p := (northing input - tm_fn p + length_scale (tm_k0 p) (tm_M0 p))
                / length_scale (tm_k0 p) (tm_B p) in
  let xi_p0 := xi_p - tm_xi_sum (tm_h_p p) xi_p eta_p in
  let eta_p0 := eta_p - tm_eta_sum (tm_h_p p) xi_p eta_p in
  let beta_p := fasin (fsin xi_p0 / fcosh eta_p0) in
  let Q_p := fasinh (ftan beta_p) in
  let* Q_pp := tm_loop fuel (tm_e p) Q_p (tm_iter_fn (tm_e p) Q_p Q_p) in
  Ret (Ok (mkLLH
    (lon_add (tm_lon0 p) (angle_new (fasin (ftanh eta_p0 / fcos beta_p)) RAD))
    (lat_new (angle_new (fatan (fsinh Q_pp)) RAD))
    (eheight input))).

(** transverse_mercator.rs:185-192 *)
Definition UTM_ZONE_WIDTH_DEG : F := #6.
Definition UTM_ZONE_COUNT : F := #360 / UTM_ZONE_WIDTH_DEG.
Definition UTM_ZONE_1_WEST_LIMIT_DEG : F := - #177.
Definition UTM_K0 : F := flit 9996 4.
Definition UTM_FE : F := length_new #500000 M.
Definition UTM_FN_NORTH : F := #0.
Definition UTM_FN_SOUTH : F := length_new #10000000 M.

(** transverse_mercator.rs:195-200; the final saturating cast [z as u8] is left out *)
Definition utm_zone (lon : F) : F :=
  let lon_deg := angle_val lon DEG in
  let delta_lon := ffloor ((lon_deg - UTM_ZONE_1_WEST_LIMIT_DEG) / UTM_ZONE_WIDTH_DEG) in
  delta_lon - ffloor (delta_lon / UTM_ZONE_COUNT) * UTM_ZONE_COUNT.

(** transverse_mercator.rs:203-207; [zone] is a u8 *)
Definition utm_lon0 (zone : Z) : F :=
  let lon0_deg := UTM_ZONE_1_WEST_LIMIT_DEG + fofZ zone * UTM_ZONE_WIDTH_DEG
                    - UTM_ZONE_WIDTH_DEG / #2 in
  lon_new (angle_new lon0_deg DEG).

(** transverse_mercator.rs:37-46, 48-57 *)
Definition tm_utm_north (e : Ellipsoid F) (zone : Z) : TransverseMercator :=
  tm_new e (utm_lon0 zone) #0 UTM_K0 UTM_FE UTM_FN_NORTH.
Definition tm_utm_south (e : Ellipsoid F) (zone : Z) : TransverseMercator :=
  tm_new e (utm_lon0 zone) #0 UTM_K0 UTM_FE UTM_FN_SOUTH.

(** ** mod.rs: [Box<dyn Projection>] and [ProjectionSpec] *)

Inductive projection : Type :=
| PMercator (p : Mercator)
| PTransverseMercator (p : TransverseMercator)
| PWebMercator (p : WebMercator).

(** mod.rs:20-23 *)
Definition proj (p : projection) (llh : LLH F) : result (ENH F) ProjectionError :=
  match p with
  | PMercator p => merc_proj p llh
  | PTransverseMercator p => tm_proj p llh
  | PWebMercator p => wm_proj p llh
  end.
Definition unproj (fuel : nat) (p : projection) (enh : ENH F)
  : outcome (result (LLH F) ProjectionError) :=
  match p with
  | PMercator p => Ret (merc_unproj p enh)
  | PTransverseMercator p => tm_unproj fuel p enh
  | PWebMercator p => Ret (wm_unproj p enh)
  end.

(** mod.rs:26-58 *)
Inductive ProjectionSpec : Type :=
| SMercator1SP (lon0 k0 fe fn : F)
| SMercator2SP (lon0 lat0 fe fn : F)
| SUTMNorth (zone : Z)
| SUTMSouth (zone : Z)
| STransverseMercator (lon0 lat0 k0 fe fn : F)
| SWebMercator (lon0 lat0 fe fn : F).

(** mod.rs:63-118 *)
Definition applied_to (spec : ProjectionSpec) (e : Ellipsoid F) : projection :=
  match spec with
  | SMercator1SP lon0 k0 fe fn => PMercator (merc_new_1_sp e lon0 k0 fe fn)
  | SMercator2SP lon0 lat0 fe fn => PMercator (merc_new_2_sp e lon0 lat0 fe fn)
  | SUTMNorth zone => PTransverseMercator (tm_utm_north e zone)
  | SUTMSouth zone => PTransverseMercator (tm_utm_south e zone)
  | STransverseMercator lon0 lat0 k0 fe fn => PTransverseMercator (tm_new e lon0 lat0 k0 fe fn)
  | SWebMercator lon0 lat0 fe fn => PWebMercator (wm_new e lon0 lat0 fe fn)
  end.

End Projections.

Arguments WebMercator F : clear implicits.
Arguments Mercator F : clear implicits.
Arguments TransverseMercator F : clear implicits.
Arguments projection F : clear implicits.
Arguments ProjectionSpec F : clear implicits.
