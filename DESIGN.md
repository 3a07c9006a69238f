# Formal model of geokit: design

Subject: `/repo/geokit/src` (Rust). Prover: Coq 8.16.1. Sources: `rocq/theories/`.

## 1. How the code is modelled

### One model, two arithmetics

Every modelled Rust function is a Gallina function that is generic in the number type `F` and in a record of
number operations (`Num/FOps.v`, type class `FOps F`). No functor or module type is used. Two interpretations:

* **`XR` (exact)**, `Num/XR.v`: real numbers plus `+inf`, `-inf`, `NaN`. Operations are exact on reals; an
  operation that is mathematically undefined gives `NaN` or an infinity, as in IEEE 754, so that a theorem that
  concludes "the result is the real number r" also says that no division by zero or domain error occurred on the way.
  Decimal literals and `PI` denote their mathematical value. `sin`, `atan2`, ... are the mathematical functions.
  There is one zero: it plays the part of `+0.0`. Poles of `tan` and of divisions by zero have the sign IEEE 754 gives for `+0.0`.
  In binary64 `tan(PI/2)` is finite (the constant is not pi/2); a theorem in this arithmetic about a pole is about the formula, not about rounding.
* **`f64` (binary64)**, `Num/F64.v`: Flocq's `binary_float 53 1024` (single NaN), round to nearest even, with the real
  `f64` constants. Functions that Rust takes from the C library (`sin`, `hypot`, `atan2`, ...) are fields of a record
  `libm` over which the theorems quantify; any property of libm that is needed is a hypothesis in the statement.

The exact interpretation is used for what is geometry or algebra. The binary64 one is used for what is about rounding,
NaN, infinities, panics and divergence. A claim is never transported silently from one to the other.

### Outcomes

`outcome A := Ret a | Panic | Diverge`. `Panic` is a Rust panic (failed `assert!`, slice index out of range,
`unimplemented!()`); `Diverge` is a loop that has not ended when the given fuel is used up (only `iter_fn` and
`TransverseMercator::unproj` have unbounded loops). `Result` is `result A E := Ok a | Err e`. `&mut` arguments are returned.
Slices and `Vec` are lists. `debug_assert!` is modelled by a `bool` argument that says whether debug assertions are on.

## 2. Layout

* `Num/` the number interface, the two instances and their lemmas.
* `Model/` the model, function by function, no proofs. Each definition cites file and lines.
* `Spec/` small independent specifications (what "modulo a turn", "on the ellipsoid", "great circle" mean).
* `Proofs/` lemmas. `Num/TMod.v` holds multivariate Taylor models with rational coefficients: a verified checker, run by
  `vm_compute`, that bounds a polynomial expression by a power of one of its variables. It is used for the orders of the series.
* `Props/` one file per group of properties. Theorems only, each closed by `exact`, with an `Example` that shows a
  concrete instance of the hypotheses, and `Print Assumptions`.

## 3. What is modelled, per property, and how it is proved

"Exact" is the arithmetic `XR`, "b64" the arithmetic `f64`, "generic" means for any `FOps` instance. The exact theorem names are in
`MANIFEST.json`; a theorem whose name ends in `_refuted` shows that something one would expect, or that the documentation
says, is false. In those cases the statement in `properties.jsonl` says what is true and names the defect.

| id | code | arithmetic | how it is proved |
|----|------|------------|------------------|
| C01 | `Polynomial::eval_at`, `fast_eval_at` | exact, complex | induction on the coefficient list; the specification is a power sum |
| C02 | `clenshaw_sin_sum` | exact | induction with the Chebyshev recurrence as loop invariant |
| C03 | `fp::sum` | b64 | Flocq's TwoSum theorem, lifted to `binary_float` with an explicit overflow guard |
| C04 | `fp::remainder` | exact, b64 | nearest-integer bounds; standard model of rounding errors |
| C05 | `Complex` | exact, b64 witness | field arithmetic |
| C06 | `iter_fn` | generic | induction on the fuel; NaN case in b64 |
| C07 | `Angle::new/val`, `Length::new/val`, units | exact, b64 | field; relative error lemmas |
| C08-C10 | `wrapped`, `normalized`, `diff_to` | exact, b64 | from C04; b64 witnesses and error bounds |
| C11 | `Lat` operations | b64 | case analysis of `clamp`, induction on lists of calls |
| C12 | `Lon` operations | exact, b64 witness | induction on lists of calls |
| C13 | `Azimuth` operations | exact | from C09, C10 |
| C14 | `Angle::dms`, dms constructors | exact, b64 | floor/fract algebra; sign analysis; witnesses |
| C15 | `s1::Interval` | exact, b64 witness | case analysis |
| C16-C18 | axes, tolerances | exact; C17 generic | case analysis on axes variants, lists of any length |
| C19 | `approx_eq` | exact; `Crs::approx_eq` generic | case analysis, induction on the slices |
| C20 | `dist_to`, `Crs::dist` | exact, b64 | Minkowski's inequality; hypotheses on libm's `hypot` in b64 |
| C21-C23 | `Ellipsoid` | exact, b64 | asserts as `Panic`; radii characterised by the surface point and the meridian |
| C24 | constant tables | exact, b64 | computed for every entry; compared with published values in `Spec/Published.v` |
| C25 | `llh_to_xyz` | exact | specification by surface point and outward normal |
| C26 | `xyz_to_llh` | exact | Vermeille's quartic: resolvent identities, uniqueness of the positive root |
| C27-C29 | `transformations/xyz.rs` | exact; totality generic; C27 b64 | linear algebra, composition |
| C30-C31 | projections | generic | unfolding |
| C32 | `WebMercator` | exact | exp/ln/tan identities, derivative of the northing |
| C33 | `Mercator` | exact | conformality by derivatives (Coquelicot); inverse series: the defect D(x) = isometric latitude of the series - isometric latitude has \|D'\| <= 27/20 e^10 / cos x by a Taylor model, integrated and turned into a latitude with the mean value theorem |
| C34-C36 | `TransverseMercator` | exact, b64 | symmetry of the series; contraction argument for the loop; b64 computation for the divergence and for UTM |
| C37-C38 | the three solvers on a sphere | exact | spherical trigonometry through vectors |
| C39 | Vincenty inverse | exact | relational induction over the loop |
| C40 | Vincenty/Rapp inverse on coincident points | exact, b64 | NaN propagation through the loop |
| C41-C42 | direct with s = 0; results echoed; loops end | exact; echo generic | trigonometry; invariants of the loops |
| C43 | Vincenty inverse on equator and meridians | exact | contraction over the loop |
| C44-C48 | geometry | generic; C45, C47 exact and b64 | induction over builder calls |
| C49 | `sample_s2.rs` | exact | trigonometry |
| C50 | `PartialEq` impls | b64 | case analysis |
| C51 | `karney.rs` | exact | spherical triangle identities; residuals of the series by Taylor models with shared subexpressions (`Num/TModL.v`, `KarnSer.v`, `KarnAcc.v`) |
| C52 | Vincenty direct against geodesics | exact | existence and uniqueness of geodesics by Clairaut's constant and Bessel's auxiliary sphere (`Proofs/Bessel*.v`, `GeoUniq.v`); residual of the series by Taylor models (`VincAcc.v`); the loop is a contraction (`VincDir.v`) |
| C53 | Vincenty inverse against geodesics | exact | contraction of the longitude iteration for normals at most 148 degrees apart (`VincInv.v`), then C52 (`VincInvA.v`) |
| C54 | Karney direct against geodesics | exact | C51 and the auxiliary sphere of C52 (`KarnAcc.v`) |
| C55 | `TransverseMercator::proj` as a map | exact | the projection is an analytic function of isometric latitude and longitude: Cauchy-Riemann equations term by term (`TMConf.v`); scale on the central meridian by a Taylor model in n and the cosine of twice the latitude (`TMScale.v`); lengths by the mean value theorem (`TMArc.v`) |
| C56 | `TransverseMercator::proj` then `unproj`, and `unproj` then `proj` | exact | both Krueger series as complex functions; their composition minus the identity is bounded by complex Taylor models in n with coefficients in the powers of sin 2z and cos 2z (`Num/TModC.v`, `TMRound.v`), then carried over to positions by a Lipschitz bound of the conformal sphere and to the map by the mean value theorem (`TMBack.v`, `TMTrip.v`) |
| C57 | `GeodeticDatum::llh_to_xyz` in binary64 | binary64 | rounding-error calculus on `near x X lo hi d e` (the float x is within d|X| + e of the real X, which lies between lo and hi; all four bounds are rational numbers evaluated by the kernel, `Num/Near.v`, `NearX.v`); the C library enters through `accurate` (`Spec/Accurate.v`: relative error 2^-50 on stated ranges), which `LibmOk.v` shows to be met by a library that rounds correctly; wrapping of longitudes from C04 |
| C58 | `GeodeticDatum::xyz_to_llh` in binary64, and both round trips | binary64 | the same calculus along Vermeille's formulas (`LlhInvF.v`, `LlhInvG.v`): error of k, D, the height and the latitude, then the Lipschitz constants of the map from geodetic to geocentric coordinates turn them into a distance; the longitude formula pi/2 - 2 atan2(x, r + |y|) is bounded near the axis by a separate argument (`LlhInvH.v`) |
| C59 | `CrsXYZTransformation::fwd` and `bwd` in binary64 | binary64 | C57 and C58 for the geodetic conversions; the same calculus for units, wrapping, clamping and the matrix product (`TransB.v`); errors are carried through by Lipschitz constants of the geodetic point in its coordinates and of the datum transformations in the point. The target is stated as a point: the numbers written denote exactly some point that close to the right one |
| C60 | `dms`, `deg` and `rad` constructors of `Lon`, `Lat`, `Azimuth`, their debug assertions, the cardinal azimuths, `abs_diff_eq` of `Lon` and `Azimuth` | exact and binary64 | Exact: unfolding and the wrapping lemmas of C08 (`Ctor.v`). Binary64: the rounding calculus and the wrapping error of C08 (`CtorF.v`). |
| C61 | `WebMercator`, `Mercator` (1SP, 2SP), `Polynomial::fast_eval_at` in binary64 | binary64 | C33 for the exact map; the rounding calculus extended to `tan`, `ln`, `exp`, `atan`, `powf` and `mul_add` (`NearT.v`), run along both formulas (`MapF.v`, `MercF.v`, `MercG.v`); the round trip follows since the northing stretches latitudes by at least 0.98 c |
| C62 | `TransverseMercator::new`, `proj`, UTM zones in binary64 | binary64 | C55 for the exact map; the rounding calculus extended to `asinh`, `atanh`, `asin`, `sinh`, `cosh` (`NearH.v`), the coefficients (`TMNear.v`), the formulas (`TMFwd.v`, `TMFwdM.v`). The arc sine is steep near the pole of the transverse graticule: there the error of its argument is compared with the slope (`x0_err`) instead of being bounded apart |
| C63 | `TransverseMercator::unproj` in binary64, and back after `proj` | binary64 | the exact inverse is stable (`TMBackE.v`: series Lipschitz, the map from the plane of the series back to the sphere, the ellipsoidal latitude); in binary64 the fixed-point iteration stops within seven turns near the fixed point (`TMLoopF.v`); rounding of the normalised coordinates (`TMBackF.v`) and of the arc sines and tangents, measured as a distance on the sphere so that nothing is lost near the pole (`TMBackG.v`); assembled in `TMBackP.v` |
| C64 | `rapp_direct` on the ellipsoid (position) | exact | the length and longitude series differentiate to polynomials in the cosine of twice the arc, compared with the exact speeds by Taylor models in the flattening (`RappAcc.v`); the loop stops with two iterates within 5e-15, whose mixing in the waves and in the spherical longitude is bounded as a distance on the parallel (`RappDir.v`); assembled with the geodesic of Bessel's curve and Clairaut's relation (`RappP.v`). Not covered: the azimuth at the end, ends at a pole |
| C65 | `rapp_inverse` on the ellipsoid | exact | one turn of the loop and the distance are functions of the longitude on the sphere with derivatives that Taylor models bound by 29/100 and 16/10, so the loop contracts, stays below the opposite meridian and stops (`RappInv.v`); the length and longitude series of C64 at the last iterate; below 10 km the azimuth is that of the last iterate turned by at most 1e-14 over the sine of the arc, and a turned geodesic is compared through the auxiliary sphere (`RappInvA.v`, `RappIP.v`). Not covered: near-antipodal points, opposite meridians, poles, the second azimuth below 10 km |
| C66 | routes to, from and between `STransverseMercator`, `SUTMNorth`, `SUTMSouth` systems: `tr_fwd`, `tr_bwd`, `to_xyz`, `from_xyz`, `paxes_normalize`, `paxes_denormalize` | binary64 | the errors of units, map (C62, C63), ellipsoid (C57, C58) and datum steps (C59) added along the route; a position error on the unit sphere moves a point by at most 6800 km times it (`MapRoute.v`); reading and writing for any projection with a known error (`MapRouteA.v`); a point 901 m off a place up to 83 degrees and 43.9 degrees from the central meridian is still where the map is drawn (`MapRouteB.v`). Not covered: places further out, other units |
| C67 | the same for all six `ProjectionSpec` variants, in particular `SMercator1SP`, `SMercator2SP`, `SWebMercator`, and from any of them to any other | binary64 | the bounds of C61 carried along the route as in C66 (`MapRouteC.v`): reading within a bound on the map is reading within a bound on the sphere because the isometric latitude expands distances, a point 901 m off a place up to latitude 88 degrees is below 89 degrees; the inverse never yields longitudes beyond 4 radians. Ranges: central meridian up to 4 radians, false origin up to 100000 km, scale factor from 1/2 to 2 (9/10 to 11/10 for transverse Mercator), standard parallel up to 60 degrees |
| C68 | `tr_fwd` followed by `tr_bwd` and the reverse, for all three kinds of `Crs` in three dimensions | binary64 | the legs are C59 and C67 with one more fact: what the first leg writes can be read by the second (`ReturnB.v`). For this the geodetic normal and the height are Lipschitz functions of the point (`ReturnA.v`: strong monotonicity of the inverse Gauss map of the ellipsoid, from the Cauchy-Schwarz inequality). With Helmert transformations the exact way back misses the starting point by the residual of C28, bounded for the same parameters by `C68_residual` (`ReturnD.v`). Two-dimensional systems lose the height and are left out |
| C69 | `ls_length`, `ls_param`, `crs_dist`, the line string builder, `cv_param` | binary64 | induction over the segments: a running sum of n floats is right to (1+2^-53)^n relative (`Lines64A.v`), the segment found for s begins at most one rounding per segment before or after it (`Lines64B.v`), distances are right to 2^-48 (`Lines64C.v`), curves of several lines (`Lines64D.v`). Underflow costs at most 2^-998. Finding: the sum over a line string and the running sum of `Curve::param` are rounded differently, so next to a joint an arc length can be beyond the end for one and before the start for the other; `C69_curve_interior_refuted` exhibits a curve built by the builder and an arc length in its interior at which `param` panics |
| C70 | `poly_eval`, `fast_eval_at` (fused multiply-add), `clenshaw_sin_sum` | binary64 | running error analysis by induction on the coefficients: (1+u)^2 per step of Horner's rule, (1+u) with fused multiply-add (`Poly64.v`); Clenshaw's recurrence computes the exact sum for coefficients changed by the roundings of each step; the intermediate sums are at most the number of terms times the coefficients (sin((i+1)x)/sin x is at most i+1), hence the square of the number of terms (`Clen64.v`) |
| C71 | `crs_dist` (all but two-dimensional geographic systems), the line string builder | binary64 | reading coordinates to 0.18 micrometres (C59, C66), the distance of the points read to 2^-48 (`Lines64C.v`), triangle inequality; induction over the segments (`Space64P.v`). The geodesic distance of two-dimensional geographic systems is treated in exact arithmetic only |
| C72 | `cadd`, `csub`, `cmul`, `cadd_f`, `csub_f`, `cmul_f`, `cabs`, `cinv`, `cdiv`, `poly_eval_c` | binary64 | componentwise roundings, combined with the triangle inequality for the modulus; the sum of the absolute products in the two parts of a product is at most 1.5 times the product of the moduli; inverses and quotients are judged by multiplying back (`Complex64P.v`, `Complex64Q.v`); polynomials by the running error analysis of C70 with the modulus in place of the absolute value |
| C73 | `from_ab`, `from_ainvf`, `ellipsoid_consts`, `ef`, `en`, `e_sq`, `ecc`, `e_prime_sq`, `e_prime`, the radii, `reduced_latitude`, `geocentric_latitude` | binary64 | interval-style error propagation (`Num/Near.v`); a - b is exact by Sterbenz and not below b/2^53; `powf` with exponent 3/2 by the logarithm; the arc tangent of a number of either sign with a relative error (`Ell64.v`, `Ell64B.v`); the predefined ellipsoids by exact rational arithmetic on their floats |
| C74 | `normalized`, `diff_to`, `lon_add`, `lon_sub_angle`, `lon_sub`, `lon_neg`, `azimuth_add`, `azimuth_sub` | binary64 | the error bound of `remainder` (C04) with the defect of TAU against 2 pi, then composition of errors modulo whole turns (`Angles64P.v`); induction on the calls for sequences |
| C75 | `angle_dms`, `lon_dms`, `azimuth_dms`, `lat_dms` | binary64 | rounding to whole numbers is exact, each factor 60 adds 2e-14; the snapping test, right up to a rounding, separates the two cases and keeps the seconds below 60 (`Dms64.v`); back by C60 |

### Partial

None at the moment: every property has theorems for its whole statement.

### Not expressed

* Rounding errors of the projections and of the geodesic solvers in binary64: those theorems are about the formulas in exact
  arithmetic, and say so. (For geocentric coordinates and for transformations between geocentric and geographic systems, C57, C58 and C59 bound the rounding errors, given a libm of stated accuracy.)

## 4. Which parts of the code are modelled

| source (`geokit/src/`) | model | left out |
|---|---|---|
| `math/fp.rs`, `utils.rs`, `polynomial.rs` | `Model/Fp.v` | `Polynomial::solve` (returns an empty vector) |
| `math/complex.rs` | `Model/Complex.v` | `Display`; text of the error |
| `quantities/*`, `units/*` | `Model/Quantities.v` | `Display`; operator traits that only forward to `f64` are used through the operations of the model |
| `cs/*` | `Model/Cs.v` | `Display` |
| `geodesy/ellipsoid.rs`, `prime_meridian.rs`, `geodetic_datum.rs` | `Model/Ellipsoid.v` | `Display` |
| `geodesy/geodesics/*` | `Model/Geodesics.v` | `Display`; `println!` diagnostics; text of the errors |
| `projections/*` | `Model/Projections.v` | text of the errors |
| `crs/*`, `transformations/*` | `Model/Crs.v` | `Box<dyn ...>` is a sum of the implementations that exist; nalgebra's order of additions in a matrix-vector product |
| `geometry/*` | `Model/Geometry.v` | `as_line_string` (`todo!()`), the empty modules |
| `bin/sample_s2.rs` | `Model/Geometry.v` | random numbers, output |

Test modules, `tests/` and `examples/` are not modelled.

Simplifications that matter:

* `powi(n)` multiplies from the left (LLVM leaves the order open); this only matters in b64, where no theorem depends on it.
* Names and ids are strings and are compared as such.
* Unbounded loops take fuel; "terminates" means that some fuel is enough, "never" that none is.
* `debug_assert!` is a parameter where it can fail.

## 5. Findings

Defects and surprises, each with a machine-checked witness:

* C03 `fp::sum` of numbers near the overflow threshold has a finite sum and a NaN error term.
* C05 `Complex::inv` of a small number is infinite or NaN in b64 (the square of the modulus underflows).
* C08, C12 `wrapped` and so `Lon::new` return numbers above PI in b64; 1e18 rad becomes 128 rad; infinities become NaN.
* C14 `Angle::dms` returns 60 minutes; `Lon::dms` then panics in debug builds.
* C15 `Interval::new(-PI, -PI)` is empty instead of a point.
* C18 `GeodeticTolerance::small()` allows 1e-4 m in height, documented 1e-3 m; `Crs::approx_eq` tells 180 E from 180 W.
* C19 a tolerance slice that is too short panics.
* C21 `from_ab` accepts an infinite axis (inverse flattening NaN); `from_ainvf` can return b = 0.
* C24 the ellipsoid `SPHERE` is not a sphere; the Copenhagen meridian is only right to 5e-6 degrees.
* C25 on spherical datums the prime meridian is ignored.
* C26 the centre of the ellipsoid gets a NaN height.
* C28 `from_ref` of the Helmert transformation is not the inverse of `to_ref`.
* C30 no projection reports an error, the poles included.
* C32 `WebMercator` ignores `lat0`.
* C34 transverse Mercator folds positions beyond 90 degrees from the central meridian onto the near side.
* C35 `TransverseMercator::unproj` never ends on NaN and on finite points far to the east (b64).
* C36 the UTM central meridian is 3 degrees off; every zone number is accepted.
* C37, C41 Rapp's direct solution has the end azimuth reversed for sin(s/a) < 0, and 0 for s = 0.
* C38 Rapp's inverse solution is wrong on opposite meridians.
* C40 the distance of a point to itself is an error (Vincenty, Rapp), so line strings with a repeated vertex cannot be built.
* C42 Karney's inverse solution panics always.
* C43 near-antipodal points of the equator have no Vincenty solution.
* C45 `LineString::param(length)` can panic in b64; a first segment of length zero gives NaN; negative arguments extrapolate.
* C46 `CurveBuilder::with_seg` does not check the dimension.
* C47 a closed curve with a NaN coordinate is not a cycle.

* C60 the `dms` constructors do not check the upper limit of the degrees: the assertion tests the minutes instead (`Lat::dms(91., 0., 0.)` is the pole).
* C65 in `rapp.rs:210` the number called `cos_8_sigma_m` mixes `cos_2_sigma_m` with `sin_2_sigma`, so it is not the cosine of 8 sigma_m. The effect is a few micrometres and inside the bound of C65; it has no theorem of its own.
## 6. Trusted base

* Coq's kernel (8.16.1), `vm_compute` included.
* Axioms. `Print Assumptions` under each theorem lists nothing but axioms of the standard library, always a subset of
  `ClassicalDedekindReals.sig_not_dec`, `ClassicalDedekindReals.sig_forall_dec`,
  `FunctionalExtensionality.functional_extensionality_dep` (the real numbers) and `Classical_Prop.classic` (through Flocq and
  Coquelicot). No axiom, `Variable` outside a section, or `Admitted` is added.
  Theorem by theorem:
  * closed, no axiom (44): C17_geodetic_denormalize_frame, C17_projected_denormalize_frame, C17_geocentric_denormalize_frame, C17_geodetic_normalize_frame, C17_projected_normalize_frame, C17_geocentric_normalize_frame, C17_dimensions, C19_crs_approx_eq_length, C19_crs_approx_eq_all, C19_crs_approx_eq_short_tolerance, C40_repeated_vertex_refuted, C42_direct_echo, C42_inverse_echo, C42_karney_inverse_refuted, C42_vincenty_inverse_stops, C42_rapp_inverse_stops, C44_built_line, C44_closed_line, C44_one_more_position, C44_with_line_cases, C44_run_never_panics, C44_line_to_error, C44_pos_iter, C44_line_string_new, C46_built_curve, C46_append_cases, C46_built_lines_are_well_made, C46_first_segment_dimension_refuted, C47_curve_boundary, C47_pos_eq, C47_line_string_boundary, C48_point_new, C48_point_set, C48_geometry_types, C06_iter_fn_returns_first_converged, C06_iter_fn_runs_forever_iff, C29_fwd_total, C29_bwd_total, C29_never_err, C29_panics_iff_short, C30_proj_never_err, C30_unproj_never_err, C31_proj_keeps_height, C31_unproj_keeps_height.
  * `ClassicalDedekindReals.sig_forall_dec`, `ClassicalDedekindReals.sig_not_dec`, `FunctionalExtensionality.functional_extensionality_dep` (4): C25_geodetic_point_unique, C23_surface_point_unique, C33_scale_1sp, C68_coordinates.
  * `ClassicalDedekindReals.sig_forall_dec`, `ClassicalDedekindReals.sig_not_dec`, `Classical_Prop.classic`, `FunctionalExtensionality.functional_extensionality_dep` (305): C52_vincenty_direct, C52_vincenty_direct_wgs84, C53_vincenty_inverse, C53_crs_dist, C53_vincenty_inverse_wgs84, C51_distance_series, C51_reversion, C51_longitude_series, C54_karney_direct, C54_karney_direct_wgs84, C04_remainder_exact, C04_remainder_f64_identity, C04_remainder_f64_error, C08_wrapped_range_and_class, C08_wrapped_identity_in_range, C08_wrapped_f64_identity, C08_wrapped_f64_error, C08_wrapped_f64_range_refuted, C08_wrapped_f64_huge_refuted, C08_wrapped_f64_infinity, C09_normalized_range_and_class, C09_normalized_canonical, C10_diff_to_shortest_rotation, C10_diff_to_antisymmetric, C11_lat_closed, C11_lat_within_half_pi, C11_lat_new_identity, C11_lat_nan, C12_lon_run_range_and_sum, C12_lon_run_range, C12_lon_sub, C12_normalized, C12_lon_f64_range_refuted, C13_azimuth_range, C13_azimuth_difference, C14_dms_splits, C14_dms_rebuilds, C14_dms_f64_sign, C14_dms_minutes_refuted, C14_dms_f64_minutes_refuted, C15_interval_new, C15_interval_length, C15_interval_singleton, C15_interval_empty_full, C15_interval_disjoint, C15_interval_new_same_point, C15_interval_same_point_refuted, C74_normalized, C74_normalized_identity, C74_diff_to, C74_longitude_difference, C74_longitude_sums, C74_azimuth_sum, C74_azimuth_difference, C74_azimuth_there, C74_runs, C16_geodetic_normalize, C16_geodetic_normalize_in_range, C16_geodetic_denormalize, C16_geodetic_normalize_after_denormalize, C16_geodetic_denormalize_after_normalize, C16_projected_normalize, C16_projected_normalize_after_denormalize, C16_projected_denormalize_after_normalize, C16_geocentric_normalize_after_denormalize, C16_geocentric_denormalize_after_normalize, C18_geodetic_tolerance, C18_projected_tolerance, C18_geocentric_tolerance, C18_geodetic_tiny, C18_geodetic_small_height_refuted, C18_cartesian_tiny_small, C18_antimeridian_refuted, C19_llh_approx_eq, C19_xyz_approx_eq, C19_enh_approx_eq, C19_approx_eq_reflexive, C19_approx_eq_symmetric, C20_xyz_metric, C20_enh_metric, C20_geocentric_crs_dist, C20_projected_crs_dist, C20_symmetric_f64, C20_self_distance_f64, C57_llh_to_xyz, C57_predefined, C58_xyz_to_llh, C58_xyz_to_llh_to_xyz, C58_llh_to_xyz_to_llh, C72_sums, C72_real_operand, C72_products, C72_modulus, C72_inverses, C72_quotients, C72_polynomials, C55_conformal, C55_meridian_distance, C55_wgs84, C60_lon_dms, C60_lat_dms, C60_azimuth_dms, C60_dms_panics, C60_degrees_limit_refuted, C60_dms_f64, C60_degrees, C60_cardinal, C60_equal_up_to_turns, C25_llh_to_xyz, C25_llh_to_xyz_sphere, C25_sphere_meridian_refuted, C25_on_surface, C26_xyz_to_llh_to_xyz, C26_xyz_to_llh_to_xyz_above, C26_llh_to_xyz_to_llh, C26_llh_to_xyz_to_llh_above, C26_sphere_xyz_to_llh_to_xyz, C26_sphere_llh_to_xyz_to_llh, C26_centre_refuted, C75_dms_splits, C75_dms_there_and_back, C21_from_ab_f64, C21_from_ainvf_f64, C21_nan_panics, C21_infinite_axis_refuted, C21_positive_minor_axis_f64_refuted, C21_from_ab, C21_from_ainvf, C21_from_ainvf_infinite, C21_is_spherical, C21_same_ellipsoid_ab, C21_same_ellipsoid_ainvf, C22_parameters, C23_radii_bounds, C23_radii_even, C23_prime_vertical_radius, C23_prime_meridional_radius, C23_reduced_latitude, C23_geocentric_latitude, C23_auxiliary_order, C23_auxiliary_odd, C23_auxiliary_poles, C24_ellipsoids_f64, C24_ellipsoids_constructed_f64, C24_ellipsoids, C24_meridians_f64, C24_meridians, C24_ellipsoids_published, C24_meridians_published, C24_datums_published, C24_meridian_new, C24_sphere_refuted, C73_from_ab, C73_from_ainvf, C73_predefined, C73_parameters, C73_radii, C73_latitudes, C50_ellipsoid_equality, C50_float_equality, C50_ellipsoid_equivalence, C50_ellipsoid_names_ignored, C50_meridian_equivalence, C50_datum_equivalence, C37_vincenty, C37_karney, C37_rapp, C37_rapp_azimuth_refuted, C38_vincenty, C38_rapp, C38_rapp_opposite, C38_rapp_opposite_meridian_refuted, C39_swap, C39_mirror, C39_shift, C40_distance_to_itself_refuted, C40_binary64_refuted, C40_crs_dist_refuted, C40_crs_dist_binary64_refuted, C41_vincenty, C41_rapp_azimuth_refuted, C42_vincenty_direct_total, C42_rapp_direct_total, C42_vincenty_inverse_range, C43_equator, C43_equator_near_antipodes_refuted, C43_meridian, C43_over_the_pole, C51_triangle_from_node, C51_triangle_from_point, C44_length_is_sum, C45_param_on_segment, C45_param_start, C45_param_end, C45_param_beyond_panics, C45_param_negative_extrapolates, C45_zero_first_segment_refuted, C45_param_length_f64_refuted, C46_length_is_sum, C46_param_dispatch, C47_pos_eq_reflexive_f64, C48_point_eq, C48_point_eq_f64, C49_s2_on_ellipsoid, C49_s2_on_sphere, C67_routes, C67_between, C69_length, C69_distance, C69_built_length, C69_param_right, C69_param_returns, C69_curve_right, C69_curve_interior_refuted, C66_transverse_mercator, C66_utm, C66_between_transverse_mercator, C66_between_utm, C61_web_mercator, C61_mercator_1sp, C61_mercator_2sp, C01_eval_at_is_polynomial, C01_fast_eval_at_is_polynomial, C01_complex_eval_at_is_polynomial, C02_clenshaw_is_sine_series, C03_sum_is_error_free, C03_sum_finite_is_not_enough_refuted, C05_ring_laws, C05_sum_and_product, C05_conjugate, C05_real_operands, C05_inverse, C05_division, C05_modulus, C05_polar_form, C05_inverse_f64_refuted, C06_iter_fn_nan_never_returns, C07_angle_roundtrip, C07_length_roundtrip, C07_angle_conversion, C07_length_conversion, C07_predefined_units, C07_base_units_f64_exact, C07_angle_units_f64_error, C07_length_units_f64_error, C32_inverse, C32_map, C32_lat0_ignored, C32_natural_origin_refuted, C33_conformal, C33_scale_2sp, C33_symmetric, C33_increasing, C33_sphere_inverse, C33_ellipsoid_inverse, C33_wgs84, C34_origin, C34_central_meridian, C34_east_west, C34_north_south, C34_injective_refuted, C35_unproj_terminates, C35_sphere_inverse, C35_nan_never_returns, C35_finite_terminates_refuted, C36_parameters, C36_standard_meridian_refuted, C36_every_zone_accepted, C64_rapp_direct, C64_rapp_direct_oblique, C64_rapp_direct_wgs84, C65_rapp_inverse, C65_rapp_inverse_wgs84, C68_there_and_back, C68_shifts, C68_residual, C56_position, C56_map, C56_wgs84, C59_fwd, C59_bwd, C71_distance, C71_length, C70_polynomials, C70_clenshaw, C27_translation, C27_translation_inverse, C27_identity_inverse, C27_translation_isometry, C27_translation_round_trip_f64, C28_helmert_to_ref, C28_helmert_conventions, C28_helmert_residual, C28_helmert_bound, C28_helmert_without_rotation_and_scale, C28_helmert_inverse_refuted, C29_fwd, C29_bwd, C29_round_trip, C29_proper_coordinates_name_a_point, C30_pole_is_not_reported, C62_transverse_mercator, C62_utm, C63_transverse_mercator, C63_utm.
* Libraries used for definitions and lemmas: standard library, Flocq (binary64, rounding), Coquelicot (derivatives). Both are
  checked by the kernel and add no axioms of their own.
* The reading of Rust in section 1, and that `f64` `+ - * / sqrt mul_add round floor` are IEEE 754 binary64, round to nearest even.
* libm: nothing is assumed. Where a b64 theorem needs a fact about it (NaN in, NaN out; `sin inf` is NaN; `cosh` overflows; values at
  zero; `hypot` even or exact at zero) that fact is a hypothesis of the theorem, from `Spec/Libm.v`.

## 7. Wrong programs

`seeded/LOG.jsonl` has one line per wrong program tried: the definition edited, the edit, the claim it breaks, the theorems that
no longer prove, and the theorems that were tightened because they still did.
