(** Model of /repo/geokit/src/geodesy/{ellipsoid,prime_meridian,geodetic_datum}.rs.

    Names are strings; the [Display] implementations are not modelled. *)
From Coq Require Import ZArith List Bool String.
From Verif.Num Require Import FOps.
From Verif.Model Require Import Fp Quantities Cs.
Import ListNotations.

Section Ellipsoid.
Context {F : Type} {ops : FOps F}.
Local Open Scope F_scope.

(** ellipsoid.rs:16-25 *)
Record Ellipsoid : Type := mkEllipsoid { e_name : string; e_a : F; e_b : F; e_invf : F }.

(** ellipsoid.rs:33-47 [from_ab]; [Length / Length] is the quotient of the metres *)
Definition from_ab (name : string) (a b : F) : outcome Ellipsoid :=
  rassert (b >? #0)
  (rassert (a >=? b)
  (Ret (mkEllipsoid name a b (if a >? b then a / (a - b) else finf)))).

(** ellipsoid.rs:54-63 [from_ainvf] *)
Definition from_ainvf (name : string) (a invf : F) : outcome Ellipsoid :=
  rassert (a >? #0)
  (rassert (invf >? #1)
  (Ret (mkEllipsoid name a (length_scale (#1 - #1 / invf) a) invf))).

(** ellipsoid.rs:84-86 *)
Definition is_spherical (e : Ellipsoid) : bool := (e_a e =? e_b e) || fis_inf (e_invf e).
(** ellipsoid.rs:96-98, 108-110 *)
Definition a_sq (e : Ellipsoid) : F := e_a e * e_a e.
Definition b_sq (e : Ellipsoid) : F := e_b e * e_b e.
(** ellipsoid.rs:114-116 *)
Definition ef (e : Ellipsoid) : F := #1 / e_invf e.
(** ellipsoid.rs:125-127 *)
Definition en (e : Ellipsoid) : F := (e_a e - e_b e) / (e_a e + e_b e).
(** ellipsoid.rs:131-135 *)
Definition e_sq (e : Ellipsoid) : F :=
  let a := e_a e in
  let b := e_b e in
  (a - b) * (a + b) / a_sq e.
(** ellipsoid.rs:139-141 *)
Definition ecc (e : Ellipsoid) : F := fsqrt (e_sq e).
(** ellipsoid.rs:144-146 *)
Definition e_prime_sq (e : Ellipsoid) : F := (a_sq e - b_sq e) / b_sq e.
(** ellipsoid.rs:150-152 *)
Definition e_prime (e : Ellipsoid) : F := fsqrt (e_prime_sq e).
(** ellipsoid.rs:161-163 *)
Definition reduced_latitude (e : Ellipsoid) (lat : F) : F :=
  angle_new (fatan ((#1 - ef e) * ftan lat)) RAD.
(** ellipsoid.rs:170-172 *)
Definition geocentric_latitude (e : Ellipsoid) (lat : F) : F :=
  angle_new (fatan ((#1 - e_sq e) * ftan lat)) RAD.
(** ellipsoid.rs:178-180 *)
Definition prime_vertical_radius (e : Ellipsoid) (lat : F) : F :=
  e_a e / fsqrt (#1 - e_sq e * fsq (fsin lat)).
(** ellipsoid.rs:184-186 *)
Definition prime_meridional_radius (e : Ellipsoid) (lat : F) : F :=
  length_scale (#1 - e_sq e) (e_a e) / fpowf (#1 - e_sq e * fsq (fsin lat)) (flit 15 1).
(** ellipsoid.rs:188-190 *)
Definition conformal_sphere_radius (e : Ellipsoid) (lat : F) : F :=
  length_new (fsqrt (prime_meridional_radius e lat * prime_vertical_radius e lat)) M.
(** ellipsoid.rs:193-197 *)
Definition ellipsoid_eq (e1 e2 : Ellipsoid) : bool :=
  (e_a e1 =? e_a e2) && (e_b e1 =? e_b e2) && (e_invf e1 =? e_invf e2).

(** ellipsoid.rs:206-217, the arm of [def!] with [b] *)
Definition def_ab (name : string) (a b : F) : Ellipsoid :=
  mkEllipsoid name (length_new a M) (length_new b M)
    (if a !=? b then a / (a - b) else finf).
(** ellipsoid.rs:218-225, the arm of [def!] with [invf] *)
Definition def_ainvf (name : string) (a invf : F) : Ellipsoid :=
  mkEllipsoid name (length_new a M) (length_new (a * (#1 - #1 / invf)) M) invf.

Local Open Scope string_scope.
Local Open Scope F_scope.

(** ellipsoid.rs:234-281 *)
Definition AIRY := def_ainvf "Airy 1830" (flit 6377563396 3) (flit 2993249646 7).
Definition ANDRAE := def_ainvf "Andrae 1876 (Den., Iclnd.)" (flit 637710443 2) (flit 3000 1).
Definition DANISH := def_ainvf "Andrae 1876 (Denmark, Iceland)" (flit 63770192563 4) (flit 3000 1).
Definition APL_4_9 := def_ainvf "Appl. Physics. 1965" (flit 6378137 0) (flit 29825 2).
Definition AUST_SA := def_ainvf "Australian Natl & S. Amer. 1969" (flit 6378160 0) (flit 29825 2).
Definition BESSEL := def_ainvf "Bessel 1841" (flit 6377397155 3) (flit 2991528128 7).
Definition BESS_NAM := def_ainvf "Bessel 1841 (Namibia)" (flit 6377483865 3) (flit 2991528128 7).
Definition CLRK66 := def_ab "Clarke 1866" (flit 63782064 1) (flit 63565838 1).
Definition CLRK80 := def_ainvf "Clarke 1880 mod." (flit 6378249145 3) (flit 2934663 4).
Definition CLRK80IGN := def_ainvf "Clarke 1880 (IGN)." (flit 63782492 1) (flit 2934660212936269 13).
Definition CPM := def_ainvf "Comm. des Poids et Mesures 1799" (flit 63757387 1) (flit 33429 2).
Definition DELMBR := def_ainvf "Delambre 1810 (Belgium)" (flit 6376428 0) (flit 3115 1).
Definition ENGELIS := def_ainvf "Engelis 1985" (flit 637813605 2) (flit 2982566 4).
Definition EVRST30 := def_ainvf "Everest 1830" (flit 6377276345 3) (flit 3008017 4).
Definition EVRST48 := def_ainvf "Everest 1948" (flit 6377304063 3) (flit 3008017 4).
Definition EVRST56 := def_ainvf "Everest 1956" (flit 6377301243 3) (flit 3008017 4).
Definition EVRST69 := def_ainvf "Everest 1969" (flit 6377295664 3) (flit 3008017 4).
Definition EVRSTSS := def_ainvf "Everest (Sabah & Sarawak)" (flit 6377298556 3) (flit 3008017 4).
Definition FSCHR60 := def_ainvf "Fischer (Mercury Datum) 1960" (flit 6378166 0) (flit 2983 1).
Definition FSCHR68 := def_ainvf "Fischer 1968" (flit 6378150 0) (flit 2983 1).
Definition GSK2011 := def_ainvf "GSK-2011" (flit 63781365 1) (flit 2982564151 7).
Definition GRS67 := def_ainvf "GRS 1967(IUGG, 1967)" (flit 6378160 0) (flit 2982471674270 10).
Definition GRS80 := def_ainvf "GRS 1980(IUGG, 1980)" (flit 6378137 0) (flit 298257222101 9).
Definition IAU76 := def_ainvf "IAU 1976" (flit 6378140 0) (flit 298257 3).
Definition HELMERT := def_ainvf "Helmert 1906" (flit 6378200 0) (flit 2983 1).
Definition HOUGH := def_ainvf "Hough" (flit 6378270 0) (flit 297 0).
Definition INTL := def_ainvf "International 1924 (Hayford 1909, 1910)" (flit 6378388 0) (flit 297 0).
Definition KAULA := def_ainvf "Kaula 1961" (flit 6378163 0) (flit 29824 2).
Definition KRASS := def_ainvf "Krassovsky, 1942" (flit 6378245 0) (flit 2983 1).
Definition LERCH := def_ainvf "Lerch 1979" (flit 6378139 0) (flit 298257 3).
Definition MPRTS := def_ainvf "Maupertuis 1738" (flit 6397300 0) (flit 191 0).
Definition MERIT := def_ainvf "MERIT 1983" (flit 6378137 0) (flit 298257 3).
Definition MOD_AIRY := def_ab "Modified Airy" (flit 6377340189 3) (flit 6356034446 3).
Definition FSCHR60M := def_ainvf "Modified Fischer 1960" (flit 6378155 0) (flit 2983 1).
Definition NWL9D := def_ainvf "Naval Weapons Lab., 1965" (flit 6378145 0) (flit 29825 2).
Definition NEW_INTL := def_ab "New International 1967" (flit 63781575 1) (flit 63567722 1).
Definition PLESSIS := def_ab "Plessis 1817 (France)" (flit 6376523 0) (flit 6355863 0).
Definition PZ90 := def_ainvf "PZ-90" (flit 6378136 0) (flit 29825784 5).
Definition SEASIA := def_ab "Southeast Asia" (flit 6378155 0) (flit 63567733205 4).
Definition SGS85 := def_ainvf "Soviet Geodetic System 85" (flit 6378136 0) (flit 298257 3).
Definition WALBECK := def_ab "Walbeck" (flit 6376896 0) (flit 63558348467 4).
Definition WGS60 := def_ainvf "WGS 60" (flit 6378165 0) (flit 2983 1).
Definition WGS66 := def_ainvf "WGS 66" (flit 6378145 0) (flit 29825 2).
Definition WGS72 := def_ainvf "WGS 72" (flit 6378135 0) (flit 29826 2).
Definition WGS84 := def_ainvf "WGS 84" (flit 6378137 0) (flit 298257223563 9).
Definition SPHERE := def_ainvf "Normal Sphere (r=6370997)" (flit 6370997 0) (flit 6370997 0).

Definition ellipsoid_consts : list Ellipsoid :=
  [AIRY; ANDRAE; DANISH; APL_4_9; AUST_SA; BESSEL; BESS_NAM; CLRK66; CLRK80; CLRK80IGN; CPM;
   DELMBR; ENGELIS; EVRST30; EVRST48; EVRST56; EVRST69; EVRSTSS; FSCHR60; FSCHR68; GSK2011;
   GRS67; GRS80; IAU76; HELMERT; HOUGH; INTL; KAULA; KRASS; LERCH; MPRTS; MERIT; MOD_AIRY;
   FSCHR60M; NWL9D; NEW_INTL; PLESSIS; PZ90; SEASIA; SGS85; WALBECK; WGS60; WGS66; WGS72;
   WGS84; SPHERE].

(** prime_meridian.rs:10-13 *)
Record PrimeMeridian : Type := mkPM { pm_name : string; pm_lon : F }.
(** prime_meridian.rs:18-23; [gw_lon] is a [Lon] *)
Definition pm_new (name : string) (gw_lon : F) : PrimeMeridian :=
  mkPM name (lon_normalized gw_lon).
(** prime_meridian.rs:28-33, 64-67: [Lon::const_new] neither wraps nor normalizes *)
Definition pm_const (name : string) (deg : F) : PrimeMeridian := mkPM name (angle_new deg DEG).
(** prime_meridian.rs:47-51 *)
Definition pm_eq (p q : PrimeMeridian) : bool := pm_lon p =? pm_lon q.

(** prime_meridian.rs:72-87 *)
Definition GREENWICH := pm_const "Greenwich" (flit 0 0).
Definition LISBON := pm_const "Lisbon" (- flit 9131906111111 12).
Definition PARIS := pm_const "Paris" (flit 2337229166667 12).
Definition BOGOTA := pm_const "Bogota" (- flit 74080916666667 12).
Definition MADRID := pm_const "Madrid" (- flit 3687938888889 12).
Definition ROME := pm_const "Rome" (flit 12452333333333 12).
Definition BERN := pm_const "Bern" (flit 7439583333333 12).
Definition JAKARTA := pm_const "Jakarta" (flit 106807719444444 12).
Definition FERRO := pm_const "Ferro" (- flit 17666666666667 12).
Definition BRUSSELS := pm_const "Brussels" (flit 4367975 6).
Definition STOCKHOLM := pm_const "Stockholm" (flit 18058277777778 12).
Definition ATHENS := pm_const "Athens" (flit 237163375 7).
Definition OSLO := pm_const "Oslo" (flit 10722916666667 12).
Definition COPENHAGEN := pm_const "Copenhagen" (flit 1257788 5).

Definition prime_meridian_consts : list PrimeMeridian :=
  [GREENWICH; LISBON; PARIS; BOGOTA; MADRID; ROME; BERN; JAKARTA; FERRO; BRUSSELS; STOCKHOLM;
   ATHENS; OSLO; COPENHAGEN].

(** geodetic_datum.rs:25-29, 34-53 *)
Record GeodeticDatum : Type := mkDatum {
  d_id : string; d_ellipsoid : Ellipsoid; d_pm : PrimeMeridian }.

(** geodetic_datum.rs:74-98.  In the spherical branch the code uses [llh.lon], not the
    longitude from Greenwich. *)
Definition llh_to_xyz (d : GeodeticDatum) (llh : LLH F) : XYZ F :=
  let e := d_ellipsoid d in
  let lon_gw := lon_add (lon llh) (pm_lon (d_pm d)) in
  if is_spherical e then
    let sin_lon := fsin (lon llh) in let cos_lon := fcos (lon llh) in
    let sin_lat := fsin (lat llh) in let cos_lat := fcos (lat llh) in
    let d := e_a e + height llh in
    let z := length_scale sin_lat d in
    let r := length_scale cos_lat d in
    let x := length_scale cos_lon r in
    let y := length_scale sin_lon r in
    mkXYZ x y z
  else
    let v := prime_vertical_radius e (lat llh) in
    let sin_lon := fsin lon_gw in let cos_lon := fcos lon_gw in
    let sin_lat := fsin (lat llh) in let cos_lat := fcos (lat llh) in
    mkXYZ (length_scale cos_lon (length_scale cos_lat (v + height llh)))
          (length_scale sin_lon (length_scale cos_lat (v + height llh)))
          (length_scale sin_lat (length_scale (#1 - e_sq e) v + height llh)).

(** geodetic_datum.rs:126-150, Vermeille's formulas: the ratio [k], the height and the latitude
    from e2 = e^2, a, z and _r = sqrt(x^2 + y^2). *)
Definition vermeille_k (e2 a _r z : F) : F :=
  let e4 := e2 * e2 in
  let _p := _r / a in
  let p := _p * _p in
  let z_a := z / a in
  let q := (#1 - e2) * z_a * z_a in
  let r := (p + q - e4) / #6 in
  let s := e4 * p * q / (#4 * fpow3 r) in
  let t := fcbrt (#1 + s + fsqrt (s * (#2 + s))) in
  let u := r * (#1 + t + #1 / t) in
  let v := fsqrt (u * u + e4 * q) in
  let w := e2 * (u + v - q) / (#2 * v) in
  fsqrt (u + v + w * w) - w.

(** geodetic_datum.rs:106-171 *)
Definition xyz_to_llh (d : GeodeticDatum) (xyz : XYZ F) : LLH F :=
  let e := d_ellipsoid d in
  let x := x_ xyz in
  let y := y_ xyz in
  let z := z_ xyz in
  let a := e_a e in
  if is_spherical e then
    let lon := fatan2 y x in
    let r := fhypot x y in
    let lat := fatan2 z r in
    let h := fhypot r z - a in
    mkLLH (lon_new (angle_new lon RAD)) (lat_new (angle_new lat RAD)) (length_new h M)
  else
    let e2 := e_sq e in
    let _r := fhypot x y in
    let k := vermeille_k e2 a _r z in
    let D := k * _r / (k + e2) in
    let _h := fhypot D z in
    let h := (k + e2 - #1) / k * _h in
    let lat_rad := #2 * fatan2 z (D + _h) in
    let lon_rad :=
      if (x =? #0) && (y =? #0) then #0
      else if y >=? #0 then fpi_2 - #2 * fatan2 x (_r + y)
      else - fpi_2 + #2 * fatan2 x (_r - y) in
    let lon := lon_new (angle_new lon_rad RAD) in
    let lon := lon_sub_angle lon (pm_lon (d_pm d)) in
    mkLLH lon (lat_new (angle_new lat_rad RAD)) (length_new h M).

(** geodetic_datum.rs:174-180 *)
Definition datum_eq (d1 d2 : GeodeticDatum) : bool :=
  String.eqb (d_id d1) (d_id d2) && ellipsoid_eq (d_ellipsoid d1) (d_ellipsoid d2)
  && pm_eq (d_pm d1) (d_pm d2).

(** geodetic_datum.rs:187-209 *)
Definition DATUM_WGS84 := mkDatum "WGS84" WGS84 GREENWICH.
Definition DATUM_GGRS87 := mkDatum "GGRS87" GRS80 GREENWICH.
Definition DATUM_NAD83 := mkDatum "NAD83" GRS80 GREENWICH.
Definition DATUM_RNB72 := mkDatum "RNB72" INTL GREENWICH.

End Ellipsoid.

Arguments Ellipsoid F : clear implicits.
Arguments PrimeMeridian F : clear implicits.
Arguments GeodeticDatum F : clear implicits.
