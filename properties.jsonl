{"id": "C01", "title": "Polynomial evaluation is the polynomial", "statement": "Polynomial::eval_at and Polynomial::fast_eval_at, called with coefficients c_0..c_{D-1} in ascending order, return the value sum c_i x^i, both for a real and for a complex argument.", "quantifier": "every degree, every coefficient list, every argument (exact arithmetic)", "why_tests_cant": "Tests evaluate a few literal polynomials of a few degrees; the claim is for every D and every coefficient array.", "anchors": ["geokit/src/math/polynomial.rs: Polynomial::eval_at", "geokit/src/math/polynomial.rs: Polynomial::fast_eval_at"]}
{"id": "C02", "title": "Clenshaw summation is the sine series", "statement": "clenshaw_sin_sum(c, x) returns sum over k of c_k sin(k x), for every number of coefficients including none.", "quantifier": "every coefficient list, every real x (exact arithmetic)", "why_tests_cant": "The recurrence is checked on one or two lengths; an off-by-one in the recurrence only shows on other lengths or other x.", "anchors": ["geokit/src/math/fp.rs: clenshaw_sin_sum"]}
{"id": "C03", "title": "Error-free addition", "statement": "fp::sum(a, b) returns (x, y) such that x is the binary64 sum of a and b and x + y equals a + b exactly, for operands up to 2^1021 in magnitude; a finite sum alone is not enough (near the largest numbers y can be NaN).", "quantifier": "every pair of finite binary64 numbers of magnitude at most 2^1021, subnormals included", "why_tests_cant": "There are 2^128 pairs; the interesting ones depend on exponent gaps and ties.", "anchors": ["geokit/src/math/fp.rs: sum"]}
{"id": "C04", "title": "remainder reduces modulo r", "statement": "fp::remainder(v, r) differs from v by an integer multiple of r and lies in [-|r|/2, |r|/2]; in binary64 it is exact for |v| <= r/2 and its deviation is bounded in terms of |v|.", "quantifier": "every v and every nonzero r in exact arithmetic; every finite binary64 v for r = TAU", "why_tests_cant": "Ties, large quotients and sign combinations cannot be enumerated.", "anchors": ["geokit/src/math/fp.rs: remainder"]}
{"id": "C05", "title": "Complex numbers form a field", "statement": "Complex +, -, *, conj, inv and / satisfy the field laws: inv and / return Err exactly when the divisor is zero, z * inv z = 1, (a / b) * b = a, |zw| = |z||w|, z = abs(z) (cos arg z + i sin arg z).", "quantifier": "all complex numbers (exact arithmetic); the failure of inv by underflow is shown for binary64", "why_tests_cant": "Laws quantify over all operands.", "anchors": ["geokit/src/math/complex.rs: Complex"]}
{"id": "C06", "title": "iter_fn returns only converged values and nothing else stops it", "statement": "iter_fn(init, deltas, eps) returns a value v only when v = u + deltas(u) for an iterate u whose every |delta| is below the matching eps; if a step below tolerance never occurs (for instance NaN deltas) it does not return.", "quantifier": "every dimension, every starting point, every delta function, every tolerance, any number of steps", "why_tests_cant": "Non-termination and post-conditions over arbitrary functions cannot be observed by running examples.", "anchors": ["geokit/src/math/utils.rs: iter_fn"]}
{"id": "C07", "title": "Unit conversions round-trip", "statement": "Constructing an angle or a length from a quantity in a unit and reading it back in the same unit gives the same quantity, and converting through another unit agrees with direct conversion; in binary64 the round trip is exact for radians and metres and within a stated relative error for the other units.", "quantifier": "every quantity and every unit with nonzero ratio (exact); every finite binary64 quantity in range for the predefined units", "why_tests_cant": "Rounding depends on every bit of the quantity.", "anchors": ["geokit/src/quantities/angle.rs: Angle::new, Angle::val", "geokit/src/quantities/length.rs: Length::new, Length::val", "geokit/src/units/angle.rs", "geokit/src/units/length.rs"]}
{"id": "C08", "title": "Angle::wrapped is the angle modulo 2 pi", "statement": "In exact arithmetic Angle::wrapped returns an angle in [-pi, pi] that differs from the input by a whole number of turns, leaves angles already in the range unchanged, and wrapping twice changes nothing. In binary64 it is exact on [-PI, PI] and otherwise within 2^-52 (|a| + 8) of such an angle, never below -PI; but (defect) it can exceed PI, 1e18 becomes 128 radians, and infinities become NaN.", "quantifier": "every real angle (exact arithmetic); every finite binary64 angle for the rounded version", "why_tests_cant": "The input set is infinite and the hard inputs are at the period boundary and at large magnitude.", "anchors": ["geokit/src/quantities/angle.rs: Angle::wrapped", "geokit/src/math/fp.rs: remainder"]}
{"id": "C09", "title": "Angle::normalized is a canonical representative", "statement": "Angle::normalized returns an angle in (-pi, pi]; two angles have the same normalized value exactly when they differ by a whole number of turns.", "quantifier": "every pair of real angles (exact arithmetic)", "why_tests_cant": "Injectivity modulo 2 pi is a statement about all pairs.", "anchors": ["geokit/src/quantities/angle.rs: Angle::normalized, Angle::normalize"]}
{"id": "C10", "title": "Oriented difference of angles", "statement": "a.diff_to(b) lies in (-pi, pi], adding it to a gives b up to whole turns, it is the shortest such rotation, and exchanging a and b negates it except at half a turn.", "quantifier": "every pair of real angles (exact arithmetic)", "why_tests_cant": "Statement over all pairs, minimality over all rotations.", "anchors": ["geokit/src/quantities/angle.rs: Angle::diff_to"]}
{"id": "C11", "title": "Latitudes never leave [-pi/2, pi/2]", "statement": "Whatever sequence of Lat::new, +, -, negation and compound assignment is applied, starting from any non-NaN angle and with non-NaN angles, the latitude stays within [-PI/2, PI/2] in binary64; NaN is the only way out, and values inside the interval are kept unchanged.", "quantifier": "every finite sequence of operations with every binary64 operand, infinities included", "why_tests_cant": "Needs induction over operation sequences and all binary64 values.", "anchors": ["geokit/src/cs/geodetic.rs: Lat::new, Add, Sub, AddAssign, SubAssign, Neg", "geokit/src/quantities/angle.rs: Angle::clamped"]}
{"id": "C12", "title": "Longitudes never leave [-pi, pi]", "statement": "Whatever sequence of Lon::new, +, -, and compound assignment is applied, the longitude stays within [-pi, pi] and equals the plain sum up to whole turns; Lon::normalized gives the one value in (-pi, pi] for each point of a parallel. Defect: in binary64 Lon::new of a finite angle can exceed pi.", "quantifier": "every finite sequence of operations with real operands (exact arithmetic); in binary64 the claim is refuted and replaced by an error bound", "why_tests_cant": "Needs induction over sequences; in binary64 the counterexamples are single values out of 2^64.", "anchors": ["geokit/src/cs/geodetic.rs: Lon::new, Add, Sub, AddAssign, SubAssign, Lon::normalized"]}
{"id": "C13", "title": "Azimuth arithmetic", "statement": "Azimuth::new yields a value in (-pi, pi]; azimuth + angle stays in range; b - a is the rotation taking a to b, so a + (b - a) = b.", "quantifier": "every pair of azimuths and every angle (exact arithmetic)", "why_tests_cant": "Statement over all pairs.", "anchors": ["geokit/src/cs/azimuth.rs: Azimuth::new, Add, Sub"]}
{"id": "C14", "title": "Degrees-minutes-seconds", "statement": "Angle::dms splits an angle so that |d| + m/60 + s/3600 is the absolute value in degrees (up to the 1e-8 minute snapping), the sign of the angle is the sign bit of d, and seconds are below 60; the Lon/Lat/Azimuth dms constructors rebuild the angle. Defect: the minutes, documented to be in [0, 59], can be 60, and Lon::dms then panics in debug builds.", "quantifier": "every real angle for the identity; every binary64 angle for the sign; the minutes range is refuted in binary64", "why_tests_cant": "The snapping branch fires only for angles within 1e-8 minute of a whole minute.", "anchors": ["geokit/src/quantities/angle.rs: Angle::dms, DMS", "geokit/src/cs/geodetic.rs: Lon::dms, Lat::dms", "geokit/src/cs/azimuth.rs: Azimuth::dms"]}
{"id": "C15", "title": "Longitude intervals are classified consistently", "statement": "s1::Interval: empty and full are disjoint, a singleton is neither and has length 0, the length is in [0, 2 pi] and equals the turn from lo to hi; Interval::new never leaves -pi as lower bound except for the full interval; an interval built from two equal longitudes in (-pi, pi] is a single point. Defect: built from -pi twice it is empty.", "quantifier": "every pair of longitudes (exact arithmetic), binary64 for the refutation at -PI", "why_tests_cant": "Boundary cases at the antimeridian are measure-zero in any sampling.", "anchors": ["geokit/src/cs/s1.rs: Interval::new, singleton, empty, full, is_empty, is_full, is_inverted, length"]}
{"id": "C16", "title": "Axes conversions are mutually inverse", "statement": "For each geodetic, geocentric and projected axes kind and units, normalize after denormalize returns the coordinates (those the axes carry), and denormalize after normalize returns the buffer, for latitudes and longitudes in range.", "quantifier": "every axes variant, every unit with nonzero ratio, every coordinate (exact arithmetic)", "why_tests_cant": "Five axis orders times all units times all values, with sign and order conventions interacting.", "anchors": ["geokit/src/cs/geodetic.rs: GeodeticAxes::normalize, denormalize", "geokit/src/cs/cartesian/geocentric.rs: GeocentricAxes", "geokit/src/cs/cartesian/projected.rs: ProjectedAxes"]}
{"id": "C17", "title": "Axes conversions touch exactly dim entries", "statement": "denormalize writes exactly the first dim entries of the buffer and leaves the rest, panics exactly when the buffer is shorter than dim; normalize reads only the first dim entries and panics exactly when there are fewer.", "quantifier": "every axes variant, buffers of every length and content, in any arithmetic (binary64 included)", "why_tests_cant": "Buffer length is unbounded; frame conditions are about what does not change.", "anchors": ["geokit/src/cs/geodetic.rs: GeodeticAxes::dim, normalize, denormalize, denormalize_tol", "geokit/src/cs/cartesian/geocentric.rs", "geokit/src/cs/cartesian/projected.rs"]}
{"id": "C18", "title": "Tolerances follow the axes", "statement": "denormalize_tol orders and scales the tolerance like the coordinates, so comparing two buffers with Crs::approx_eq and the denormalized tolerance means comparing each normalized component within the tolerance, longitudes being compared as numbers (so that 180 E and 180 W are told apart, unlike in LLH::approx_eq). The values of tiny() and small() are the documented ones except (defect) the height of GeodeticTolerance::small(), which is 1e-4 m and not 1e-3 m.", "quantifier": "every axes variant, every unit with positive ratio, every pair of buffers (exact arithmetic)", "why_tests_cant": "Quantifies over pairs of coordinates and axis orders.", "anchors": ["geokit/src/cs/geodetic.rs: GeodeticAxes::denormalize_tol, GeodeticTolerance::tiny, small", "geokit/src/cs/cartesian/mod.rs: CartesianTolerance", "geokit/src/crs/mod.rs: Crs::approx_eq"]}
{"id": "C19", "title": "approx_eq is a tolerance relation", "statement": "LLH, XYZ and ENH approx_eq and Crs::approx_eq are reflexive for nonnegative tolerances and symmetric, hold exactly when every component is within tolerance (longitudes compared as angles on the circle for LLH). Crs::approx_eq panics when the coordinates do not have the dimension of the CRS and (defect) also when the tolerance slice is too short and the earlier components agree.", "quantifier": "every pair of coordinates and every tolerance (exact arithmetic), every length of slices", "why_tests_cant": "Relations over all pairs.", "anchors": ["geokit/src/cs/geodetic.rs: LLH::approx_eq", "geokit/src/cs/cartesian/geocentric.rs: XYZ::approx_eq", "geokit/src/cs/cartesian/projected.rs: ENH::approx_eq", "geokit/src/crs/mod.rs: Crs::approx_eq"]}
{"id": "C20", "title": "Cartesian distance is a metric", "statement": "XYZ::dist_to and ENH::dist_to, and Crs::dist of geocentric and projected CRS, are nonnegative, symmetric, zero exactly for equal points, and satisfy the triangle inequality.", "quantifier": "all pairs and triples of points (exact arithmetic); symmetry and self-distance 0 in binary64 for any libm with an even hypot", "why_tests_cant": "Triangle inequality is over all triples.", "anchors": ["geokit/src/cs/cartesian/geocentric.rs: XYZ::dist_to", "geokit/src/cs/cartesian/projected.rs: ENH::dist_to", "geokit/src/crs/geocentric.rs: dist", "geokit/src/crs/projected.rs: dist"]}
{"id": "C21", "title": "Ellipsoid constructors accept exactly the valid shapes", "statement": "For finite binary64 arguments Ellipsoid::from_ab returns exactly when b > 0 and a >= b and from_ainvf exactly when a > 0 and invf > 1, panicking otherwise; NaN always panics; in exact arithmetic the result has 0 < b <= a, is spherical exactly when a = b, and building from (a, b) and from (a, invf) describe the same ellipsoid. Two defects: from_ab accepts an infinite a and returns a NaN inverse flattening, and in binary64 from_ainvf can return b = 0.", "quantifier": "every pair of binary64 arguments for acceptance; every pair of reals for the shape", "why_tests_cant": "All binary64 pairs including NaN and infinities.", "anchors": ["geokit/src/geodesy/ellipsoid.rs: Ellipsoid::from_ab, from_ainvf, is_spherical"]}
{"id": "C22", "title": "Ellipsoid derived parameters satisfy their defining identities", "statement": "f, n, e_sq, e, e_prime_sq satisfy b = a(1 - f), e^2 = f(2 - f) = 1 - b^2/a^2, n = (a-b)/(a+b), e'^2 = e^2/(1-e^2), with 0 <= f < 1, 0 <= e < 1.", "quantifier": "every ellipsoid obtained from a constructor (exact arithmetic)", "why_tests_cant": "Algebraic identities over a continuum.", "anchors": ["geokit/src/geodesy/ellipsoid.rs: f, n, e_sq, e, e_prime_sq"]}
{"id": "C23", "title": "Radii and auxiliary latitudes of the ellipsoid", "statement": "prime_vertical_radius is between a and a^2/b, prime_meridional_radius between b^2/a and a^2/b and never exceeds it, both are even in the latitude; reduced and geocentric latitudes are odd, ordered |geocentric| <= |reduced| <= |geodetic|, and name the same surface point.", "quantifier": "every ellipsoid, every latitude strictly between the poles (exact arithmetic)", "why_tests_cant": "Inequalities over a continuum.", "anchors": ["geokit/src/geodesy/ellipsoid.rs: prime_vertical_radius, prime_meridional_radius, conformal_sphere_radius, reduced_latitude, geocentric_latitude"]}
{"id": "C24", "title": "Predefined ellipsoids, meridians, datums are valid and mean what they say", "statement": "Every predefined ellipsoid has 0 < b < a, a consistent inverse flattening and the published parameters; every predefined prime meridian is a normalized longitude at the published position (Copenhagen only to 5e-6 of a degree), and PrimeMeridian::new normalizes; the predefined datums have the published ellipsoids and reckon longitudes from Greenwich. Defect: the ellipsoid named SPHERE is not a sphere (its semi-minor axis is one metre shorter).", "quantifier": "every predefined constant, evaluated in binary64", "why_tests_cant": "Constants are data: tests use two or three of them.", "anchors": ["geokit/src/geodesy/ellipsoid.rs: consts", "geokit/src/geodesy/prime_meridian.rs: consts", "geokit/src/geodesy/geodetic_datum.rs: consts"]}
{"id": "C25", "title": "llh_to_xyz puts the point where geodesy says", "statement": "For every datum on a flattened ellipsoid, llh_to_xyz of (lon, lat, h) is the point at signed distance h along the outward ellipsoid normal at the surface point with that geodetic latitude and longitude counted from the datum's prime meridian; at h = 0 the point satisfies the ellipsoid equation. Defect: on spherical datums the same holds except that the prime meridian is ignored.", "quantifier": "every ellipsoid and prime meridian, every lon, lat, h (exact arithmetic)", "why_tests_cant": "Geometric characterisation over a continuum.", "anchors": ["geokit/src/geodesy/geodetic_datum.rs: GeodeticDatum::llh_to_xyz"]}
{"id": "C26", "title": "xyz_to_llh inverts llh_to_xyz", "statement": "For every datum, llh_to_xyz(xyz_to_llh(P)) = P for every point P outside the small neighbourhood of the centre where the closed formula is undefined (every point on or above the ellipsoid when a^2 < 2 b^2), and xyz_to_llh(llh_to_xyz(llh)) = llh for non-polar normalized coordinates; at the poles the latitude and height are recovered. On spherical datums both hold as well. At the centre of a flattened ellipsoid the height is NaN.", "quantifier": "every ellipsoid, prime meridian and point in the stated region (exact arithmetic)", "why_tests_cant": "A closed-form quartic solution: a wrong sign shows only in some octants or heights.", "anchors": ["geokit/src/geodesy/geodetic_datum.rs: GeodeticDatum::xyz_to_llh, llh_to_xyz"]}
{"id": "C27", "title": "Geocentric translations invert exactly", "statement": "GeocentricTranslation from_ref after to_ref and to_ref after from_ref are the identity, and preserve distances between points; in binary64 the round trip error is bounded.", "quantifier": "every translation and every point (exact arithmetic)", "why_tests_cant": "Statement over all points and parameters.", "anchors": ["geokit/src/transformations/xyz.rs: GeocentricTranslation"]}
{"id": "C28", "title": "Helmert transformation: how far from_ref is from inverting to_ref", "statement": "Helmert7Params::to_ref is the EPSG small-rotation similarity in both conventions; from_ref after to_ref deviates from the identity by an explicit second-order term plus first-order terms in the translation, hence by at most a stated bound; with zero rotation and scale it is exact; the two rotation conventions are each other's with rotations negated. It is not an exact inverse (2 cm for 20 ppm and 1 km).", "quantifier": "all parameters, both conventions, all points (exact arithmetic)", "why_tests_cant": "A deviation bound over all parameters; a sign error in one matrix entry is invisible for most test parameters.", "anchors": ["geokit/src/transformations/xyz.rs: Helmert7Params, RotationConvention", "geokit/src/quantities/scale.rs: PPM"]}
{"id": "C29", "title": "CRS-to-CRS transformation composes and round-trips", "statement": "CrsXYZTransformation::fwd writes coordinates of the image, under the two datum transformations, of the point the source coordinates name; fwd then bwd is the identity on coordinates whenever the two datum transformations are mutually inverse and the coordinates are in the valid region (off the poles and the antimeridian, outside the core of the ellipsoid); fwd and bwd never report an error for any CRS; they write exactly dim entries and panic exactly when a buffer is too short.", "quantifier": "all geocentric and geographic (3D) CRS pairs, all coordinates in the valid region (exact arithmetic)", "why_tests_cant": "Composition of six conversions over a continuum and over CRS pairs.", "anchors": ["geokit/src/transformations/xyz.rs: CrsXYZTransformation, ToXYZ, XYZTransformation"]}
{"id": "C30", "title": "Projections report no errors", "statement": "No projection ever returns an error: every proj and (terminating) unproj returns Ok whatever the input, in particular poles and out-of-range coordinates are not reported.", "quantifier": "all projections, all inputs, any arithmetic (binary64 included)", "why_tests_cant": "Absence of an outcome over all inputs.", "anchors": ["geokit/src/projections/mod.rs: ProjectionError", "geokit/src/projections/cyl/web_mercator.rs", "geokit/src/projections/cyl/mercator.rs", "geokit/src/projections/cyl/transverse_mercator.rs"]}
{"id": "C31", "title": "Projections preserve height", "statement": "proj returns the ellipsoidal height unchanged and unproj gives it back, for every projection.", "quantifier": "all projections, all inputs, any arithmetic (binary64 included)", "why_tests_cant": "All inputs.", "anchors": ["geokit/src/projections/cyl/web_mercator.rs", "geokit/src/projections/cyl/mercator.rs", "geokit/src/projections/cyl/transverse_mercator.rs"]}
{"id": "C32", "title": "Web Mercator round-trips", "statement": "WebMercator unproj after proj returns the position for non-polar latitudes and normalized longitudes, and proj after unproj returns the easting/northing within the map width; (lon0, equator) maps to the false origin; easting is a times the longitude difference, northing strictly increases with latitude with derivative a / cos(lat). lat0, documented as the natural origin latitude, is ignored, so a natural origin off the equator does not map to the false origin.", "quantifier": "all parameters and all positions (exact arithmetic)", "why_tests_cant": "Inverse pairs over a continuum.", "anchors": ["geokit/src/projections/cyl/web_mercator.rs: WebMercator"]}
{"id": "C33", "title": "Mercator: origin, conformality, true scale, inverse", "statement": "Mercator maps (lon0, equator) to the false origin, is conformal (meridian and parallel scale factors agree at every point), has scale 1 at the standard parallel in the 2SP variant, is symmetric about the equator, and unproj inverts proj: exactly for a sphere and, for an ellipsoid of flattening at most 1/100, with the longitude exact and the latitude within e^10 radians at every latitude (a tenth of a millimetre on WGS84); proj after unproj returns the easting exactly and the northing within 1.35 e^10 of its distance from the false northing.", "quantifier": "all ellipsoids, parameters and non-polar positions (exact arithmetic)", "why_tests_cant": "Conformality is a statement about derivatives everywhere.", "anchors": ["geokit/src/projections/cyl/mercator.rs: Mercator"]}
{"id": "C34", "title": "Transverse Mercator: origin, central meridian, symmetry", "statement": "TransverseMercator maps its natural origin to the false origin (lat0 any latitude, poles included), maps the central meridian to constant easting, is symmetric east/west about the central meridian and, with lat0 = 0, antisymmetric about the equator. It is not injective: positions more than 90 degrees from the central meridian get the image of the mirrored position less than 90 degrees away.", "quantifier": "all ellipsoids, parameters and positions (exact arithmetic)", "why_tests_cant": "Symmetry over a continuum of positions.", "anchors": ["geokit/src/projections/cyl/transverse_mercator.rs: TransverseMercator::new, proj, M0, Q, beta"]}
{"id": "C35", "title": "Transverse Mercator unproj terminates and inverts", "statement": "In exact arithmetic TransverseMercator::unproj terminates for every finite map point that does not stand for a pole, with latitude within e^2/(1-e^2) * 1e-12 rad of a latitude whose proj is the direct series applied to the reverse series of the map point; on a sphere unproj inverts proj exactly for positions less than 90 degrees from the central meridian. In binary64 it never terminates on NaN, nor on finite map points far to the east such as UTM easting 1e10.", "quantifier": "all ellipsoids, parameters and inputs (exact arithmetic); any libm propagating NaN for the divergence", "why_tests_cant": "Termination of an unbounded loop.", "anchors": ["geokit/src/projections/cyl/transverse_mercator.rs: TransverseMercator::unproj"]}
{"id": "C36", "title": "UTM zones", "statement": "UTMNorth/UTMSouth with zone z are the transverse Mercator projection with central meridian 6z - 180 degrees, scale 0.9996, false easting 500000 and false northing 0 or 10000000; every number is accepted as a zone. The standard central meridian 6z - 183 is not the one used: on no usual ellipsoid does its intersection with the equator get easting 500000.", "quantifier": "every zone 1..60; every u8 for acceptance", "why_tests_cant": "Tests use constants written from the same formula.", "anchors": ["geokit/src/projections/cyl/transverse_mercator.rs: new_utm_north, new_utm_south, utm_lon0, utm_zone"]}
{"id": "C37", "title": "Geodesic solvers are exact on the sphere (direct)", "statement": "On a spherical ellipsoid the Vincenty, Rapp and Karney direct solutions return the point at angular distance s/a along the great circle leaving p1 with azimuth alpha1; Vincenty and Karney return the great circle's azimuth there, Rapp does when sin(s/a) > 0. When sin(s/a) < 0 (a negative distance, or more than half a turn) Rapp's end azimuth is off by 180 degrees (defect).", "quantifier": "every radius, start point, azimuth and distance in the stated range (exact arithmetic)", "why_tests_cant": "Geometric correctness over a four-parameter continuum.", "anchors": ["geokit/src/geodesy/geodesics/vincenty.rs: direct", "geokit/src/geodesy/geodesics/rapp.rs: direct", "geokit/src/geodesy/geodesics/karney.rs: solve_direct"]}
{"id": "C38", "title": "Geodesic solvers are exact on the sphere (inverse)", "statement": "On a spherical ellipsoid the Vincenty inverse solution returns the great-circle distance and the azimuths at both ends for any distinct non-antipodal points; Rapp's does for points on different or on the same meridian, and on opposite meridians when the shorter way leads over the pole of the first point's hemisphere. Otherwise (first point not south of the equator, opposite meridian, sum of latitudes negative) Rapp's answer leads to another point (defect).", "quantifier": "every radius and pair of distinct non-antipodal points (exact arithmetic)", "why_tests_cant": "Geometric correctness over a continuum; special branches (same meridian, opposite meridian) are measure-zero.", "anchors": ["geokit/src/geodesy/geodesics/vincenty.rs: inverse", "geokit/src/geodesy/geodesics/rapp.rs: inverse"]}
{"id": "C39", "title": "Inverse geodesic distance is symmetric and shift-invariant", "statement": "On any ellipsoid the Vincenty inverse distance does not change when the end points are exchanged, when both longitudes are shifted by the same angle, or when both latitudes are negated, and it fails in exactly the same cases.", "quantifier": "every ellipsoid, every pair of points (exact arithmetic)", "why_tests_cant": "Metamorphic relation through up to 30 data-dependent iterations.", "anchors": ["geokit/src/geodesy/geodesics/vincenty.rs: inverse", "geokit/src/crs/geographic.rs: dist"]}
{"id": "C40", "title": "Distance from a point to itself (defect)", "statement": "The distance from a point to itself ought to be zero. In fact the Vincenty and Rapp inverse solutions fail on every such input, in exact arithmetic and in binary64, so that Crs::dist of a position of a two-dimensional geographic CRS with itself is an error and a line string with a repeated vertex cannot be built.", "quantifier": "every point, every ellipsoid, in binary64 for any libm with the standard values at 0", "why_tests_cant": "The failing inputs are the ones tests leave out because the answer looks obvious.", "anchors": ["geokit/src/geodesy/geodesics/vincenty.rs: inverse", "geokit/src/geodesy/geodesics/rapp.rs: inverse", "geokit/src/crs/geographic.rs: dist"]}
{"id": "C41", "title": "Zero-length geodesics go nowhere", "statement": "On any ellipsoid flattened by at most a tenth, for non-polar start points, the Vincenty direct solution with s = 0 returns the start point and the start azimuth; Rapp's returns the start point, but always with azimuth 0 (defect).", "quantifier": "every ellipsoid, start point and azimuth (exact arithmetic)", "why_tests_cant": "Continuum of start points and azimuths.", "anchors": ["geokit/src/geodesy/geodesics/vincenty.rs: direct", "geokit/src/geodesy/geodesics/rapp.rs: direct"]}
{"id": "C42", "title": "Geodesic solvers stop and report what they were given", "statement": "On success the solvers echo the inputs (end points, azimuth or distance), in any arithmetic. The inverse solutions of Vincenty and Rapp look at no more than 30 iterates and fail exactly when no two successive ones are within the tolerance. On ellipsoids flattened by at most a tenth and non-polar start points the direct solutions never fail; Vincenty's azimuths lie in (-pi, pi], longitudes in [-pi, pi], latitudes in [-pi/2, pi/2]. Karney's direct solution never fails; Karney's inverse panics on every input although the interface promises a result (defect).", "quantifier": "every input, any arithmetic for the echo and totality", "why_tests_cant": "All inputs including those that do not converge.", "anchors": ["geokit/src/geodesy/geodesics/mod.rs: GeodesicSolver", "geokit/src/geodesy/geodesics/vincenty.rs", "geokit/src/geodesy/geodesics/rapp.rs", "geokit/src/geodesy/geodesics/karney.rs"]}
{"id": "C43", "title": "Equatorial and meridional geodesics", "statement": "On any ellipsoid with 2a <= 3b, Vincenty's inverse for two points of the equator converges for longitude differences below (b/a) pi and gives a|dlon| up to a*1e-12, with azimuths +-90 degrees; from (b/a) pi + 1e-12 on it always fails (defect: near-antipodal points have no answer). For two points on a meridian the azimuths are 0 or 180 degrees, and on opposite meridians the answer goes over the nearer pole.", "quantifier": "every ellipsoid with the stated flattening and every longitude difference (exact arithmetic)", "why_tests_cant": "Convergence of a data-dependent iteration.", "anchors": ["geokit/src/geodesy/geodesics/vincenty.rs: inverse"]}
{"id": "C44", "title": "Line string builder keeps positions and lengths consistent", "statement": "After any sequence of LineStringBuilder calls that succeed, the line string's positions are exactly the ones given in order, the i-th segment length is crs.dist of positions i and i+1, the length is their sum, start and end are the first and last position, close() makes end equal start, and the number of positions is one more than the number of segments.", "quantifier": "every sequence of builder calls of any length, any CRS, any arithmetic (binary64 included)", "why_tests_cant": "Induction over unbounded call sequences.", "anchors": ["geokit/src/geometry/coordinate/curve/line_string.rs: LineStringBuilder, LineString"]}
{"id": "C45", "title": "Line string parameterisation follows the curve", "statement": "In exact arithmetic LineString::param(s) for 0 <= s <= length (s > 0 or a first segment of positive length) lies on the segment that contains arc length s at the matching proportion; param(0) is the start; param(length) is the end when zero-length segments join equal positions; an s above the length or NaN panics. Defects: param(0) is NaN when the first segment has length zero, negative s is extrapolated, and in binary64 param(length) can panic.", "quantifier": "every line string of any number of segments, every s in range (exact arithmetic); refuted in binary64 for param(length) and for a zero-length first segment", "why_tests_cant": "Unbounded number of segments; rounding of the running remainder.", "anchors": ["geokit/src/geometry/coordinate/curve/line_string.rs: LineString::param", "geokit/src/geometry/coordinate/curve/mod.rs: ParameterizedCurve"]}
{"id": "C46", "title": "Curve builder keeps segments connected", "statement": "A Curve built by any sequence of successful CurveBuilder calls has consecutive segments that share end points; its start and end are those of the first and last segment, its length is the sum of the segment lengths, param dispatches to the right segment, and all appended segments have the dimension of the curve's CRS. Defect: the dimension of the first segment is not checked.", "quantifier": "every sequence of builder calls, any CRS, any arithmetic for structure", "why_tests_cant": "Induction over unbounded call sequences.", "anchors": ["geokit/src/geometry/primitive/curve.rs: Curve, CurveBuilder"]}
{"id": "C47", "title": "Curve and line string boundary", "statement": "is_cycle holds exactly when start and end are equal as numbers, coordinate by coordinate (so never with a NaN coordinate), and boundary() is None exactly for cycles, otherwise the (start, end) pair.", "quantifier": "every curve and line string, any arithmetic (binary64 included, NaN coordinates included)", "why_tests_cant": "All curves.", "anchors": ["geokit/src/geometry/primitive/curve.rs: Curve::is_cycle, boundary", "geokit/src/geometry/coordinate/curve/line_string.rs: curve_boundary, is_cycle"]}
{"id": "C48", "title": "Points keep their coordinates", "statement": "Point::new keeps exactly the coordinates given, panics exactly when their number is not 2 or 3, and equality of points is equality of coordinates; the topological dimension of each geometry type is the standard one.", "quantifier": "every slice of any length, any arithmetic", "why_tests_cant": "All slices.", "anchors": ["geokit/src/geometry/primitive/point.rs: Point", "geokit/src/geometry/mod.rs: GeometryType"]}
{"id": "C49", "title": "S2 sampling lands on the ellipsoid", "statement": "s2_to_xyz maps a unit vector to the ellipsoid surface and s2_to_ll gives the geodetic longitude and latitude of that very point.", "quantifier": "every unit vector, every ellipsoid (exact arithmetic)", "why_tests_cant": "Continuum of directions.", "anchors": ["geokit/src/bin/sample_s2.rs: s2_to_xyz, s2_to_ll", "geokit/src/geodesy/geodetic_datum.rs: llh_to_xyz"]}
{"id": "C50", "title": "Equality of ellipsoids, meridians and datums", "statement": "Equality ignores names of ellipsoids and meridians, compares datum ids, and is an equivalence relation for NaN-free values.", "quantifier": "all values", "why_tests_cant": "All triples.", "anchors": ["geokit/src/geodesy/ellipsoid.rs: PartialEq", "geokit/src/geodesy/prime_meridian.rs: PartialEq", "geokit/src/geodesy/geodetic_datum.rs: PartialEq"]}
{"id": "C51", "title": "Karney's auxiliary triangle and series", "statement": "Karney's direct solver solves the auxiliary spherical triangle exactly: the computed point and azimuth lie on the great circle of the auxiliary sphere. Its distance series differs from the integral of the arc length by at most 10 eps^7 per radian of arc, the distance series and the reverted series undo each other to within 206 eps^7 in both directions, and its longitude series differs from the longitude integral by at most 27 n^6 per radian.", "quantifier": "all azimuths, latitudes and arcs; all eps from 0 to 1/190; all ellipsoids with flattening at most 1/100 for the longitude", "why_tests_cant": "Continuum; a wrong coefficient in a sixth-order series is far below test tolerances.", "anchors": ["geokit/src/geodesy/geodesics/karney.rs: solve_triangle_from_p, solve_triangle_from_e, A1, I1, Sigma"]}
{"id": "C52", "title": "Vincenty's direct solution follows the geodesic of the ellipsoid", "statement": "On every ellipsoid with flattening at most 1/100, from every start that is not a pole, for every azimuth and every distance s (negative ones included), the Vincenty direct solution always succeeds (its iteration always ends), and the point it returns is within a*(f^4/15 + 2e-12) + |s|*(f^4/19 + 8 f^5) of the end of every geodesic of that length that leaves the start with that azimuth; the azimuth it returns is the direction of the geodesic there with the corresponding error; a geodesic is a curve on the ellipsoid whose direction changes only along the surface normal. On WGS84, up to 20000 km, the error is below 0.3 mm. This is the error of the formulas in exact arithmetic; rounding is not part of it.", "quantifier": "every ellipsoid with 99 a <= 100 b <= 100 a, every start with a latitude strictly between the poles, every azimuth and distance (exact real arithmetic)", "why_tests_cant": "A test compares with tabulated solutions for a few lines; a wrong series coefficient shows only for some azimuths and distances, and no table says what the error is for the ellipsoids not tabulated.", "anchors": ["geokit/src/geodesy/geodesics/vincenty.rs"]}
{"id": "C53", "title": "Vincenty's inverse solution ends and gives the geodesic of the ellipsoid", "statement": "On every ellipsoid with flattening at most 1/100, for every two different points that are not poles and not nearly antipodal (cosine of the angle between their normals at least -17/20, that is up to about 148 degrees apart), the Vincenty inverse solution succeeds, and the geodesic of the returned length that leaves the first point with the returned azimuth ends within a*(f^4/15 + 2e-12) + s*(f^4/19 + 8 f^5) of the second point, with the returned end azimuth; the length is positive. crs_dist in a two-dimensional geographic CRS returns that length. On WGS84 the error is below 0.3 mm.", "quantifier": "every ellipsoid with 99 a <= 100 b <= 100 a, every two distinct non-polar points at most about 148 degrees apart, every two-dimensional geographic axes (exact real arithmetic)", "why_tests_cant": "Convergence of an iteration and its accuracy for all pairs of points cannot be sampled: failures are near the boundary of a continuum of pairs.", "anchors": ["geokit/src/geodesy/geodesics/vincenty.rs", "geokit/src/crs/mod.rs"]}
{"id": "C54", "title": "Karney's direct solution is the geodesic of the ellipsoid", "statement": "For an ellipsoid with flattening f at most 1/100, a start that is not a pole, any azimuth and any signed distance s, Karney's direct solver returns a longitude, a latitude and an azimuth in range. The true geodesic of the ellipsoid from that start ends within e = f^7 (2a + |s|) metres of the returned point; if that point is not a pole, the direction of the geodesic there differs from the returned azimuth by at most e a^2/b^3. On WGS84 and up to 20000 km, e is less than 1e-9 metres.", "quantifier": "all ellipsoids with f <= 1/100, all starts except the poles, all azimuths, all distances (exact arithmetic)", "why_tests_cant": "The claim compares the program with the solution of a differential equation for a continuum of inputs; tests compare a few published lines, and an error in a high-order coefficient is below their tolerance.", "anchors": ["geokit/src/geodesy/geodesics/karney.rs: GeodesicSolver::solve_direct for KarneyGeodesicSolver, A1, I1, A3, I3, Sigma"]}
{"id": "C55", "title": "Transverse Mercator is conformal, with scale k0 along its central meridian", "statement": "For an ellipsoid with flattening at most 1/100, at every position less than 90 degrees from the central meridian except the poles, the projection enlarges steps to the east and to the north the same number of times s and turns both by the same angle g (it is exactly conformal: truncating the series does not spoil this). Within 45 degrees of the central meridian s is positive. On the central meridian g = 0 and |s - k0| <= 25 n^5 k0, n the third flattening, and the difference of two northings is k0 times the length of the meridian between the two latitudes to the same relative accuracy; on WGS84 25 n^5 < 4e-13.", "quantifier": "all ellipsoids with f <= 1/100, all origins, positive scale factors, false eastings and northings, all non-polar positions less than 90 degrees from the central meridian (exact arithmetic)", "why_tests_cant": "Conformality is a statement about derivatives at a continuum of points, and the meridian length is an integral without a closed form; tests compare a few published coordinates to the centimetre, so an error in a fourth-order coefficient or an antisymmetric slip between the easting and the northing series is invisible.", "anchors": ["geokit/src/projections/cyl/transverse_mercator.rs: TransverseMercator::new, TransverseMercator::proj"]}
{"id": "C56", "title": "Transverse Mercator and its inverse undo each other on an ellipsoid", "statement": "For an ellipsoid with flattening at most 1/100 and third flattening n: projecting a non-polar position and taking the inverse of the result gives a position whose direction differs from the original by at most k n^5 + e^2/(1-e^2) 1e-12 and the same height; and taking the inverse of a map point whose northing lies strictly between those of the poles and projecting the result gives a map point at most (k n^5 + 3 e^2/(1-e^2) 1e-12) times the radius of the map away, with k = 2500 within 45 degrees of the central meridian (0.85 map radii of easting), 180 within 30 degrees (0.5 radii), 27 within 5 degrees (1/11 radius). The inverse always terminates there. On WGS84 that is 0.22 mm, 16 micrometres and 2.6 micrometres.", "quantifier": "all ellipsoids with f <= 1/100, all origins, positive scale factors, false origins, all positions off the poles, resp. all map points, in the strip (exact arithmetic)", "why_tests_cant": "The two series are independent lists of coefficients; a wrong high-order coefficient in either shifts results by less than a test's tolerance at the handful of points compared, and the error grows with the distance from the central meridian where tests do not look.", "anchors": ["geokit/src/projections/cyl/transverse_mercator.rs: TransverseMercator::new, TransverseMercator::proj, TransverseMercator::unproj"]}
{"id": "C57", "title": "Binary64 geocentric coordinates are right to 80 nanometres", "statement": "With a C library whose functions are right to a relative error of 2^-50, converting a longitude (up to 4 rad in magnitude), a latitude (up to 2 rad) and a height (up to 210 km) with a datum whose ellipsoid has the size of the Earth and a flattening of at most 1/100 to geocentric coordinates in binary64 gives finite coordinates at most 8e-8 m from the point that the geodetic coordinates denote exactly, measured from the prime meridian of the datum. All predefined ellipsoids qualify.", "quantifier": "all C libraries of that accuracy, all binary64 datums with such an ellipsoid and a prime meridian within 4 rad, all binary64 longitudes, latitudes and heights in those ranges", "why_tests_cant": "Rounding errors depend on every bit of the inputs; a test compares a few points with a tolerance, while the bound holds for every combination of bits and for every library that is accurate enough.", "anchors": ["geokit/src/geodesy/geodetic_datum.rs: GeodeticDatum::llh_to_xyz", "geokit/src/geodesy/ellipsoid.rs: Ellipsoid::prime_vertical_radius, Ellipsoid::e_sq", "geokit/src/cs/geodetic.rs: Lon + Angle"]}
{"id": "C58", "title": "Binary64 geodetic coordinates denote a point 0.2 micrometres away at most", "statement": "With a C library whose functions are right to a relative error of 2^-50, converting geocentric coordinates between 6200 and 6500 km from the centre with a datum whose ellipsoid has the size of the Earth and a flattening of at most 1/100 to geodetic coordinates in binary64 gives a finite longitude between -pi and pi + 2^-47, a finite latitude within pi/2 and a finite height that denote exactly a point at most 2e-7 m from the given one, at the poles and on the rotation axis too. Converting back in binary64 returns a point at most 2.8e-7 m from the start. Starting with geodetic coordinates (height up to 99.999 km in magnitude), converting to geocentric coordinates and back in binary64 gives geodetic coordinates that denote a point at most 2.8e-7 m away.", "quantifier": "all C libraries of that accuracy, all binary64 datums with such an ellipsoid and a prime meridian within 4 rad, all binary64 geocentric coordinates in that shell; all binary64 longitudes up to 4 rad, latitudes up to 2 rad and heights in that range", "why_tests_cant": "Vermeille's formulas subtract nearly equal numbers, and the longitude formula divides by a sum that can cancel or underflow near the axis; the bound is for every combination of bits, every prime meridian and every sufficiently accurate library, and a test samples a few.", "anchors": ["geokit/src/geodesy/geodetic_datum.rs: GeodeticDatum::xyz_to_llh, GeodeticDatum::llh_to_xyz", "geokit/src/cs/geodetic.rs: Lon, Lat::new"]}
{"id": "C59", "title": "A transformation between reference systems in binary64 is right to half a micrometre", "statement": "With a C library whose functions are right to a relative error of 2^-50, CrsXYZTransformation::fwd in binary64, run on a buffer that starts with three coordinates denoting a point P in a geocentric or three-dimensional geographic source, neither fails nor panics; it replaces the first three entries of the destination buffer, leaves the others alone, and the three numbers written denote exactly, in the destination's own units and axis order, a point at most 5e-7 m from the image of P under the source's to-reference and the destination's from-reference map. The same holds for bwd with the roles exchanged.", "quantifier": "all C libraries of that accuracy; geocentric systems and geographic ones with axes east-north-up or north-east-up in radians, degrees, gradians or seconds and metres, feet or US survey feet, ellipsoids of the size of the Earth with a flattening of at most 1/100, prime meridians within 4 rad; identity, translations up to 100 km per axis, Helmert transformations in both conventions with rotations up to 1e-3, translations up to 100 km per axis and scale differences up to 1000 ppm; longitudes up to 7 rad, latitudes up to the poles, heights up to 99.999 km in magnitude or geocentric positions up to 7000 km; destination points 6201 to 6499 km from the centre when the destination is geographic; all buffers with three entries or more", "why_tests_cant": "Unit conversion, wrapping of the longitude, clamping of the latitude, the matrix product and both geodetic conversions each round; the bound covers every input, unit, axis order and parameter set, poles and antimeridian included, and every sufficiently accurate library.", "anchors": ["geokit/src/transformations/xyz.rs: CrsXYZTransformation, ToXYZ, XYZTransformation, GeocentricTranslation, Helmert7Params", "geokit/src/cs/geodetic.rs: GeodeticAxes::normalize, denormalize", "geokit/src/cs/cartesian/geocentric.rs: GeocentricAxes", "geokit/src/units: angle.rs, length.rs"]}
{"id": "C60", "title": "Constructors in degrees, and in degrees, minutes and seconds, denote the angle they name", "statement": "Lon::dms, Lat::dms and Azimuth::dms return the angle of d degrees m minutes s seconds, the sign of d applying to the whole: a longitude or azimuth equal to it up to whole turns in the documented range, the nearest latitude. deg and rad constructors do the same for their units; Azimuth::deg of 0, 90, 180 and -90 are NORTH, EAST, SOUTH and WEST. In binary64 the results are right to 2e-14 rad and the sign bit of d decides, so that -0 degrees 30 minutes is west. Approximate equality of longitudes and azimuths holds exactly when the two differ by at most epsilon up to whole turns. With debug assertions the dms constructors panic exactly when the degrees are too far west or south, the minutes are outside [0, 59] or the seconds outside [0, 60). Defect: the upper limit of the degrees that the message promises is not checked, since the assertion tests the minutes.", "quantifier": "all degrees, minutes and seconds, debug and release builds; in binary64 degrees up to 360 in magnitude; all pairs of angles and all tolerances", "why_tests_cant": "The sign rule, the wrap-around and the missing check concern a continuum of inputs; the tests use a handful of positive ones.", "anchors": ["geokit/src/cs/geodetic.rs: Lon::rad, Lon::deg, Lon::dms, Lat::deg, Lat::dms, Lon abs_diff_eq", "geokit/src/cs/azimuth.rs: Azimuth::rad, deg, dms, NORTH, EAST, SOUTH, WEST, abs_diff_eq"]}
{"id": "C61", "title": "Web Mercator and Mercator maps in binary64 are right to a micrometre", "statement": "With a C library whose functions are right to a relative error of 2^-50, Web Mercator and both variants of Mercator (1SP, 2SP) in binary64 project every geodetic position up to 89 degrees of latitude, without failure and keeping the height, to an easting and northing within 1e-6 m of the exact map: easting fe + c d with d the longitude counted from the origin, northing that of the conformal cylindrical map of the ellipsoid (of the sphere for Web Mercator) that is fn on the equator, with c metres to the radian giving scale k0 on the equator (1SP), scale one on the parallel lat0 (2SP) or the semi-major axis (Web Mercator). The inverse finds the longitude to 3e-14 rad (up to whole turns) and the latitude to 3e-14 rad (Web Mercator) or 3e-14 rad plus the fifth power of the squared eccentricity, the truncation of its series. Projecting and coming back in binary64 returns longitude to 4e-13 rad and latitude to 5e-13 rad plus that truncation.", "quantifier": "all C libraries of that accuracy; all binary64 ellipsoids of the size of the Earth with a flattening of at most 1/100; all origins within 4 rad, false eastings and northings up to 1e8 m, scale factors from 1/2 to 2, standard parallels up to 60 degrees; all longitudes up to 4 rad, latitudes up to 89 degrees, all heights; for the inverse all northings within 5c of fn and eastings within 3.9c of fe", "why_tests_cant": "The tangent of an angle close to a right angle, a power, a logarithm and the longitude wrap-around each amplify rounding; the bound holds for every position, parameter set and sufficiently accurate library, while a test compares a few published values to a few centimetres.", "anchors": ["geokit/src/projections/cyl/web_mercator.rs: WebMercator", "geokit/src/projections/cyl/mercator.rs: Mercator", "geokit/src/math/polynomial.rs: Polynomial::fast_eval_at", "geokit/src/projections/mod.rs: ProjectionSpec::applied_to"]}
{"id": "C62", "title": "Transverse Mercator and UTM coordinates in binary64 are right to a micrometre", "statement": "With a C library whose functions are right to a relative error of 2^-50, the transverse Mercator projection in binary64 maps every geodetic position up to 84 degrees of latitude and up to 45 degrees from the central meridian, without failure and keeping the height, to an easting and northing within 1e-6 m of an exact map of the ellipsoid that keeps angles, shows the central meridian as a straight line at the false easting with lengths multiplied by the scale factor (to a relative 25 n^5, n the third flattening: 4e-13 on WGS84), and gives the latitude of origin the false northing. UTM zones 1 to 60, north and south, are such maps with scale 0.9996, false easting 500 km and false northing 0 or 10000 km, to rounding, with the central meridian 6 z - 180 degrees (three degrees off the standard: C36).", "quantifier": "all C libraries of that accuracy; all binary64 ellipsoids of the size of the Earth with a flattening of at most 1/100; all central meridians within 4 rad, latitudes of origin up to 84 degrees, scale factors from 0.9 to 1.1, false eastings and northings up to 1e8 m; all longitudes up to 4 rad whose cosine from the central meridian is at least that of 45 degrees, latitudes up to 84 degrees, all heights; all UTM zones", "why_tests_cant": "Far from the equator an arc sine close to one and an arc hyperbolic tangent amplify the rounding of what they are applied to; the bound holds for every position, parameter set and sufficiently accurate library, while the tests compare a few published values to a few centimetres.", "anchors": ["geokit/src/projections/cyl/transverse_mercator.rs: TransverseMercator::new, proj, new_utm_north, new_utm_south, utm_lon0", "geokit/src/math/polynomial.rs: Polynomial::fast_eval_at", "geokit/src/projections/mod.rs: ProjectionSpec::applied_to"]}
{"id": "C63", "title": "Transverse Mercator and UTM coordinates lead back to the position in binary64", "statement": "With a C library whose functions are right to a relative error of 2^-50, the inverse transverse Mercator projection in binary64 turns an easting and northing within t metres (at most one) of those of a position up to 84 degrees of latitude and up to 45 degrees from the central meridian into a geodetic position, in at most seven turns of its iteration, without failure and keeping the height. As points of the unit sphere the two positions are apart by at most k n^5 + 2 t / (k0 b) + 1e-12 e^2/(1-e^2) + 2e-13, where n is the third flattening, e the eccentricity, b the polar radius, k0 the scale, and k is 27 within 5 degrees of the meridian, 180 within 30 and 2500 within 45. To the map and back is therefore within k n^5 + 1e-12 e^2/(1-e^2) + 6e-13 of where it started (6 micrometres on WGS84 within 5 degrees). The same for UTM zones 1 to 60, north and south.", "quantifier": "all C libraries of that accuracy; all binary64 ellipsoids of the size of the Earth with a flattening of at most 1/100; all central meridians within 4 rad, latitudes of origin up to 84 degrees, scale factors from 0.9 to 1.1, false eastings and northings up to 1e8 m; all positions up to 84 degrees of latitude and 45 degrees from the central meridian, all binary64 map coordinates within a metre of theirs, all heights; all UTM zones; every number of turns allowed from seven up", "why_tests_cant": "Whether a loop that stops at a step below 1e-12 stops at all in binary64, and how far from the fixed point, depends on every rounding in it; the longitude is an arc sine of a quotient whose denominator vanishes at the pole, and the tests compare a handful of points.", "anchors": ["geokit/src/projections/cyl/transverse_mercator.rs: TransverseMercator::unproj, proj, new, new_utm_north, new_utm_south", "geokit/src/projections/mod.rs: ProjectionSpec::applied_to"]}
{"id": "C64", "title": "Rapp's direct solution ends where the geodesic of the ellipsoid ends", "statement": "On an ellipsoid with a flattening f of at most 1/100, in exact arithmetic, Rapp's direct solution returns without failure a geographic position and an azimuth in range, for a start that is not a pole and any distance s, negative or several times round included, unless the geodesic ends at a pole up to the error. The position is within a (f^4/700 + 3e-14 / cos(latitude of the start)) + |s| 11/5 f^5 of the end of the geodesic of length s that leaves the start with the given azimuth (25 micrometres on WGS84, for distances to 20000 km and starts up to 80 degrees of latitude). A start whose azimuth does not point at a pole is enough: the geodesic then stays away from the axis. The azimuth at the end is not part of this property: on the sphere it points backwards for negative distances (property C37).", "quantifier": "all ellipsoids with a flattening of at most 1/100; all longitudes, all latitudes except the poles, all azimuths; all distances; all geodesics, in the sense of differential geometry, with those data", "why_tests_cant": "The series have eighteen coefficients, each multiplied by powers of the flattening below 1e-2, and a wrong one moves the end by less than the tolerance of the tests on some lines and more on others; the loop mixes the last and the one but last iterate.", "anchors": ["geokit/src/geodesy/geodesics/rapp.rs: RappGeodesicSolver::solve_direct, direct, b0, b2, b4, b6, axs, sin_2, sin_3, cos_2, cos_3"]}
{"id": "C65", "title": "Rapp's inverse solution ends and gives the geodesic of the ellipsoid", "statement": "On an ellipsoid with a flattening f of at most 1/100, in exact arithmetic, Rapp's inverse solution returns, without failure and within its thirty turns, two azimuths in range and a positive length s for any two different points that are not poles, not near the antipodes of each other (the cosine of the angle between them at least -17/20) and not on opposite meridians (where the azimuths are wrong: property C38). The geodesic that leaves the first point with the first azimuth and has the length s ends within a (f^4/140 + 3e-14) + s 11/5 f^5 of the second point (25 micrometres on WGS84 for lengths to 20000 km), and for lengths from 10 km on it arrives with the second azimuth, to the same error over the radius of curvature. Below 10 km the code mixes two iterates in the azimuths; there only the end point is claimed, since the azimuth of a very short line is not determined to any fixed number of digits.", "quantifier": "all ellipsoids with a flattening of at most 1/100; all pairs of different points outside the poles, at most about 148 degrees apart and not on opposite meridians; all geodesics, in the sense of differential geometry, with those data", "why_tests_cant": "Whether the iteration ends in thirty turns depends on a contraction over a continuum of pairs, down to coinciding points; the series have more than twenty coefficients, and a wrong one is below the tolerance of the tests on some lines; the short line switch at 10 km has a different formula on either side.", "anchors": ["geokit/src/geodesy/geodesics/rapp.rs: RappGeodesicSolver::solve_inverse, inverse, axs, sin_2, sin_3, sin_4"]}
{"id": "C66", "title": "Transformations to, from and between transverse Mercator and UTM systems name the same place in binary64", "statement": "In binary64, with elementary functions accurate to 2^-50, a transformation (in either of its two directions) that ends in a transverse Mercator or UTM system, in two or three dimensions and in metres, feet or US survey feet, writes coordinates that are, to 1.1 micrometres on the map, those of a point at most half a micrometre from the exact image of the starting point, up to latitude 83 degrees and 43.9 degrees from the central meridian; one that starts in such a system, from coordinates up to half a metre off those of a place, ends at most 7000 km times the error of reading the map, plus half a micrometre, from the exact image of that place, where the error of reading the map is the bound of property C63; the same from one such system to another, in particular between UTM zones. The buffer beyond the coordinates is left alone. The steps in between are the identity, translations up to 100 km and Helmert transformations up to a thousandth of a radian and 1000 ppm. The central meridian of the UTM zones is not the standard one (property C36).", "quantifier": "all accurate elementary functions, all earth-like ellipsoids and prime meridians, all projection parameters in range and all zones 1 to 60 in both hemispheres, all starting coordinates, all buffers long enough", "why_tests_cant": "The result passes through a dozen rounded stages (units, axes, inverse series, iteration, ellipsoid to Cartesian, datum shifts and back); that no combination of place, units, datum and zone lets the errors add up or an intermediate result leave its range is a statement about a continuum.", "anchors": ["geokit/src/transformations/xyz.rs: CrsXYZTransformation::fwd, bwd, ToXYZ for ProjectedCrs", "geokit/src/crs/projected.rs: ProjectedCrs", "geokit/src/cs/cartesian/projected.rs: ProjectedAxes::normalize, denormalize", "geokit/src/projections/cyl/transverse_mercator.rs: TransverseMercator::proj, unproj"]}
{"id": "C67", "title": "Transformations to, from and between maps of any kind name the same place in binary64", "statement": "In binary64, with elementary functions accurate to 2^-50, a transformation (in either of its two directions) that ends in a projected system in any of the supported projections (Mercator with one or two standard parallels, Web Mercator, transverse Mercator, UTM) writes coordinates that are, to 1.1 micrometres on the map, those of a point at most half a micrometre from the exact image of the starting point: up to latitude 88 degrees for the Mercator projections, where C66 says for transverse Mercator. One that starts in such a system, from coordinates up to half a metre off those of a place, ends at most 7000 km times the error of reading the map, plus half a micrometre, from the exact image of that place; for the Mercator projections up to latitude 89 degrees that error is 2.1 times the offset over the radius of the map, plus the fifth power of the squared eccentricity for the truncated series (nothing for Web Mercator), plus 2e-13. The same holds from any such system to any other, across projections and datums. On the Mercator maps a place near the edge may be written a full turn away. The Web Mercator map is the one of a sphere of radius a applied to geodetic latitudes.", "quantifier": "all accurate elementary functions, all earth-like ellipsoids and prime meridians, all pairs of projections with parameters in range, all starting coordinates, all buffers long enough", "why_tests_cant": "Every pair of projections composes two different chains of rounded computations with datum shifts between them; a bound on the error for every place, unit, parameter and pair is a statement about a continuum that no list of control points settles, least of all near the edge of the maps and towards the poles.", "anchors": ["geokit/src/transformations/xyz.rs: CrsXYZTransformation::fwd, bwd, ToXYZ for ProjectedCrs", "geokit/src/crs/projected.rs: ProjectedCrs", "geokit/src/projections/mod.rs: ProjectionSpec::applied_to", "geokit/src/projections/cyl/mercator.rs: Mercator::proj, unproj", "geokit/src/projections/cyl/web_mercator.rs: WebMercator::proj, unproj"]}
{"id": "C68", "title": "There and back by a transformation in binary64 leads to the same place", "statement": "In binary64, with elementary functions accurate to 2^-50, transforming coordinates by fwd and the result by bwd (or first by bwd and then by fwd) between any two three-dimensional reference systems (geocentric, geographic, projected in any of the supported projections) leads to coordinates of a point at most a micrometre, plus the errors of reading the maps on the way, from the exact image of the starting point there and back; without a Helmert transformation that image is the starting point itself; with one it misses it by the residual of property C28 (second order in rotation and scale, first order in the translation), which is bounded. The coordinates on the way are valid input again: finite, in range, at most 0.5 micrometres plus the error of reading the first map from the exact image. There is no such error for geocentric and geographic systems; for maps it is 7000 km times the bounds of properties C63 and C67 taken at 1.1 micrometres. Points a distance apart have directions of the vertical at most that distance over 6000 km apart and heights at most 1.001 times that distance apart, so the statement bounds the error of longitude, latitude and height.", "quantifier": "all accurate elementary functions, all pairs of systems on earth-like ellipsoids in the predefined units, all datum transformations in range, all starting coordinates; geographic coordinates up to a millionth of a radian from the poles, heights up to 98 km on arrival; maps where they can be drawn and, six metres around, read", "why_tests_cant": "A round trip on sampled points says nothing about the points not sampled, least of all at the limits (next to the poles, the antimeridian, the edge of a map), where the result of the first leg could fall just outside what the second leg accepts.", "anchors": ["geokit/src/transformations/xyz.rs: CrsXYZTransformation::fwd, bwd, ToXYZ", "geokit/src/crs/geographic.rs: GeographicCrs", "geokit/src/crs/projected.rs: ProjectedCrs", "geokit/src/geodesy/geodetic_datum.rs: GeodeticDatum::xyz_to_llh, llh_to_xyz"]}
{"id": "C69", "title": "Lengths of lines and points on lines in binary64", "statement": "In binary64 the length of a line string is finite and the sum of its segment lengths up to one rounding (2^-53) per segment. The distance of two positions in a geocentric or projected system in metres is the Euclidean distance of the coordinates to 2^-48 relative, and a line built point by point has the length of its path to that error and one rounding per segment. The position at an arc length s, when one is returned, has coordinates rounded (8 units of rounding) from the point of the line whose arc length differs from s by at most one rounding per segment; one is returned whenever s falls short of the length by at least two roundings per segment. The same holds for a position returned on a curve of several line strings. Defect: a curve can panic at an arc length in its interior, next to the joint of two line strings, where each of them believes the other is responsible.", "quantifier": "all accurate elementary functions, all lines of any number of segments and any dimension, all finite coordinates and lengths up to 2^1000 (2^400 where distances are computed), all arc lengths from 0 on except 0 on a line that starts with a segment of length 0", "why_tests_cant": "The lines of a test have a few segments of round lengths, whose sums are exact; roundings that add up over thousands of segments, and arc lengths that fall between two rounded sums, do not occur in them.", "anchors": ["geokit/src/geometry/coordinate/curve/line_string.rs: LineString::length, param, LineStringBuilder", "geokit/src/geometry/primitive/curve.rs: Curve::length, param", "geokit/src/crs/geocentric.rs: GeocentricCrs::dist", "geokit/src/crs/projected.rs: ProjectedCrs::dist", "geokit/src/cs/cartesian/geocentric.rs: XYZ::dist_to", "geokit/src/cs/cartesian/projected.rs: ENH::dist_to"]}
{"id": "C70", "title": "Polynomials and sine series are summed accurately in binary64", "statement": "In binary64 evaluating a polynomial with n coefficients by eval_at gives a finite number that differs from the exact value by at most (1+2^-53)^(2n)-1 times the sum of the absolute values of the terms, and evaluating it by fast_eval_at by at most (1+2^-53)^n-1 times that sum (plus what underflow adds, 2^-1075 times the powers of x). The Clenshaw sum of a sine series with n coefficients at an angle up to 1000 radians is finite and differs from the exact sum of c_k sin(k x) by at most n^2 2^-46 times the sum of the absolute values of the coefficients.", "quantifier": "all accurate elementary functions, all finite coefficients in any number (up to 2^23 for sine series), all finite arguments, as long as the terms stay far below the largest float", "why_tests_cant": "Cancellation between the terms depends on coefficients and argument together; a test compares a few values with an expected decimal and cannot bound the error for the others, nor show that it grows no faster than stated with the number of terms.", "anchors": ["geokit/src/math/polynomial.rs: Polynomial::eval_at, fast_eval_at", "geokit/src/math/fp.rs: clenshaw_sin_sum"]}
{"id": "C71", "title": "Distances and lengths in space and on maps in any unit, in binary64", "statement": "In binary64 the distance Crs::dist of two positions in a geocentric system, in a geographic system with height (in any predefined unit, in either axis order) or on a map (in any predefined unit, with or without height) is returned without error or panic, finite, not negative, and differs from the Euclidean distance of the points the positions stand for (geocentric points on earth, easting, northing and height on a map) by at most 0.4 micrometres plus 2^-48 of the distance. A line string built point by point from n segments in such a system has the length of the way through these points to half a micrometre per segment plus (n+16) 2^-52 of the length.", "quantifier": "all accurate elementary functions, all earth-like ellipsoids and prime meridians, longitudes up to 7 radians, latitudes up to the poles, heights up to 99.999 km, maps up to 200000 km wide, lines of up to 2^30 segments", "why_tests_cant": "The error comes from reading angles and lengths in their units, converting to geocentric coordinates, subtracting and taking the hypotenuse; each test point exercises one combination of roundings out of all.", "anchors": ["geokit/src/crs/geographic.rs: GeographicCrs::dist", "geokit/src/crs/geocentric.rs: GeocentricCrs::dist", "geokit/src/crs/projected.rs: ProjectedCrs::dist", "geokit/src/geometry/coordinate/curve/line_string.rs: LineStringBuilder, LineString::length"]}
{"id": "C72", "title": "Complex arithmetic is accurate in binary64", "statement": "In binary64, with u = 2^-53: sums and differences of finite complex numbers, and sums and differences with a real number, are finite and within u times the modulus of the exact result; a product with a real number is within u, and a product of two complex numbers within 4u, of the product of the moduli (plus 2^-1072 for underflow); the modulus is not negative and within 2^-50; the inverse of a number whose modulus lies between 2^-400 and 2^400 exists, is finite, and its product with the number is within 4u of 1; the quotient times the divisor is within 9u of the dividend; and a polynomial with n real coefficients evaluated at a complex number differs from the exact value by at most (1+2^-51)^(2n)-1 times the sum of the moduli of the terms. (Outside this range of moduli the inverse may be wrong because the square of the modulus underflows: C05.)", "quantifier": "all finite binary64 parts within the stated ranges of moduli, all elementary functions (accurate ones for the modulus), any number of coefficients", "why_tests_cant": "Each operation rounds several times and products cancel between their parts, so the error depends on all four parts at once; tests compare a few small whole numbers, where nothing is rounded.", "anchors": ["geokit/src/math/complex.rs: Complex add, sub, mul, div, abs, inv", "geokit/src/math/polynomial.rs: Polynomial::eval_at"]}
{"id": "C73", "title": "What an ellipsoid reports of itself is right in binary64", "statement": "In binary64, Ellipsoid::from_ab keeps earth-sized semi-axes and records an inverse flattening whose inverse is within 2^-51 of (a - b)/a; from_ainvf computes the minor semi-axis to 3 nm; every predefined ellipsoid has semi-axes and inverse flattening that agree in this sense. For such ellipsoids the flattening f is within 5 2^-53, the third flattening n, the eccentricity e and its square within 2^-53, the square of the second eccentricity within 3 2^-53 of the exact expressions in a and b, and the second eccentricity is never NaN. With an accurate libm the prime vertical radius is right to 3 nm, the meridional radius to 17 nm and the radius of the conformal sphere to 11 nm at every latitude of at most 2 rad, and the reduced and geocentric latitudes are right to 2^-48 rad for all latitudes up to and including the poles.", "quantifier": "For all libm implementations (for radii and latitudes: all accurate to 4 ulp), all finite binary64 semi-axes from 6300 to 6400 km with a flattening of at most 1/100 (from_ainvf: major semi-axis from 6370 to 6400 km, inverse flattening from 101 to 6400000), all latitudes.", "why_tests_cant": "A test compares a few ellipsoids and latitudes with a table of a few digits. It cannot rule out an ellipsoid for which a - b, 1 - 1/invf or a^2 - b^2 loses its digits, nor a latitude next to the pole where the tangent exceeds 10^16 and amplifies the error of its factor.", "anchors": ["geokit/src/geodesy/ellipsoid.rs:33-63", "geokit/src/geodesy/ellipsoid.rs:96-190", "geokit/src/geodesy/ellipsoid.rs:206-281"]}
{"id": "C74", "title": "Directions and turns are accurate in binary64", "statement": "In binary64, Angle::normalized of a finite angle of at most 2^50 rad is finite, above -PI, at most PI plus 2^-52 (|a| + 8), and denotes the same direction, modulo the exact 2 pi, up to 2^-52 (|a| + 8); within a half turn it changes nothing except that -PI becomes PI. Angle::diff_to, the difference of longitudes and the difference of azimuths give an angle that turns the one direction into the other up to 2^-51 times the sum of the magnitudes plus 8 (azimuths: 16); sums of a longitude or an azimuth and an angle are as accurate. Turning from one azimuth by its difference to another leads to the other up to 2^-45 rad. A longitude that is changed by any number n of additions, subtractions and negations of angles of at most t rad stays within PI + 2^-51 (t + 16) and denotes the sum of the turns up to (n + 1) 2^-51 (t + 16). (The results may exceed PI by this error: C08.)", "quantifier": "all finite binary64 angles within the stated magnitudes, all elementary functions, sequences of calls of any length", "why_tests_cant": "The reduction subtracts a multiple of a rounded 2 pi, so its error grows with the number of turns and depends on how the quotient is rounded near odd multiples of pi; tests use a handful of multiples of 90 degrees, and none follows a long sequence of turns.", "anchors": ["geokit/src/quantities/angle.rs: Angle::normalized, Angle::diff_to", "geokit/src/cs/geodetic.rs: Lon add, sub, neg", "geokit/src/cs/azimuth.rs: Azimuth::new, add, sub"]}
{"id": "C75", "title": "Splitting into degrees, minutes and seconds is accurate in binary64 and is undone by the constructors", "statement": "In binary64, Angle::dms of a finite angle of at most 8 rad gives finite parts: whole degrees with the sign of the angle, whole minutes from 0 to 60 (60 only with zero seconds: the defect of C14), and seconds in [0, 60). |d| + m/60 + s/3600 is the magnitude in degrees up to 2e-10 degrees, and up to 1e-13 degrees when the seconds are not zero, that is when nothing was snapped to a whole minute. When the minutes are at most 59, the dms constructors of longitudes and azimuths (angles up to 6.2 rad; with debug assertions the degrees must be above -180) and of latitudes (up to 1.57 rad) accept the parts and give the angle back up to 4e-12 rad.", "quantifier": "all finite binary64 angles within the stated magnitudes, all elementary functions, debug and release builds", "why_tests_cant": "Whether rounding pushes the seconds to 60 or leaves 59.999 depends on the last bits of the angle near each of 21600 whole minutes; the tests try a few.", "anchors": ["geokit/src/quantities/angle.rs: Angle::dms", "geokit/src/cs/geodetic.rs: Lon::dms, Lat::dms", "geokit/src/cs/azimuth.rs: Azimuth::dms"]}
