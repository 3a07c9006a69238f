{
 "claims": [
  {
   "property": "C01",
   "status": "proved",
   "theorems": [
    "C01_eval_at_is_polynomial",
    "C01_fast_eval_at_is_polynomial",
    "C01_complex_eval_at_is_polynomial"
   ],
   "note": "Exact arithmetic, real and complex arguments."
  },
  {
   "property": "C02",
   "status": "proved",
   "theorems": [
    "C02_clenshaw_is_sine_series"
   ],
   "note": "Exact arithmetic."
  },
  {
   "property": "C03",
   "status": "proved",
   "theorems": [
    "C03_sum_is_error_free",
    "C03_sum_finite_is_not_enough_refuted"
   ],
   "note": "Binary64; the wider claim for any finite sum is refuted."
  },
  {
   "property": "C04",
   "status": "proved",
   "theorems": [
    "C04_remainder_exact",
    "C04_remainder_f64_identity",
    "C04_remainder_f64_error"
   ],
   "note": "Exact arithmetic for every modulus; binary64 identity and error bound for the modulus TAU."
  },
  {
   "property": "C05",
   "status": "proved",
   "theorems": [
    "C05_ring_laws",
    "C05_sum_and_product",
    "C05_conjugate",
    "C05_real_operands",
    "C05_inverse",
    "C05_division",
    "C05_modulus",
    "C05_polar_form",
    "C05_inverse_f64_refuted"
   ],
   "note": "Exact arithmetic; inverse underflow in binary64 is refuted with a witness."
  },
  {
   "property": "C06",
   "status": "proved",
   "theorems": [
    "C06_iter_fn_returns_first_converged",
    "C06_iter_fn_runs_forever_iff",
    "C06_iter_fn_nan_never_returns"
   ],
   "note": "Any arithmetic; NaN case in binary64."
  },
  {
   "property": "C07",
   "status": "proved",
   "theorems": [
    "C07_angle_roundtrip",
    "C07_length_roundtrip",
    "C07_angle_conversion",
    "C07_length_conversion",
    "C07_predefined_units",
    "C07_base_units_f64_exact",
    "C07_angle_units_f64_error",
    "C07_length_units_f64_error"
   ],
   "note": "Exact arithmetic for any unit; binary64 exact for radians and metres, relative error bounds for the other predefined units."
  },
  {
   "property": "C08",
   "status": "proved",
   "theorems": [
    "C08_wrapped_range_and_class",
    "C08_wrapped_identity_in_range",
    "C08_wrapped_f64_identity",
    "C08_wrapped_f64_error",
    "C08_wrapped_f64_range_refuted",
    "C08_wrapped_f64_huge_refuted",
    "C08_wrapped_f64_infinity"
   ],
   "note": "Proved in exact arithmetic; in binary64 exact on [-PI,PI] with an error bound elsewhere; the literal range claim is refuted in binary64."
  },
  {
   "property": "C09",
   "status": "proved",
   "theorems": [
    "C09_normalized_range_and_class",
    "C09_normalized_canonical"
   ],
   "note": "Exact arithmetic."
  },
  {
   "property": "C10",
   "status": "proved",
   "theorems": [
    "C10_diff_to_shortest_rotation",
    "C10_diff_to_antisymmetric"
   ],
   "note": "Exact arithmetic."
  },
  {
   "property": "C11",
   "status": "proved",
   "theorems": [
    "C11_lat_closed",
    "C11_lat_within_half_pi",
    "C11_lat_new_identity",
    "C11_lat_nan"
   ],
   "note": "Binary64, any sequence of calls."
  },
  {
   "property": "C12",
   "status": "proved",
   "theorems": [
    "C12_lon_run_range_and_sum",
    "C12_lon_run_range",
    "C12_lon_sub",
    "C12_normalized",
    "C12_lon_f64_range_refuted"
   ],
   "note": "Exact arithmetic for any sequence of calls; the binary64 range claim is refuted, see C08 for its error bound."
  },
  {
   "property": "C13",
   "status": "proved",
   "theorems": [
    "C13_azimuth_range",
    "C13_azimuth_difference"
   ],
   "note": "Exact arithmetic."
  },
  {
   "property": "C14",
   "status": "proved",
   "theorems": [
    "C14_dms_splits",
    "C14_dms_rebuilds",
    "C14_dms_f64_sign",
    "C14_dms_minutes_refuted",
    "C14_dms_f64_minutes_refuted"
   ],
   "note": "The splitting identity and the rebuild are proved; the documented minutes range is refuted."
  },
  {
   "property": "C15",
   "status": "proved",
   "theorems": [
    "C15_interval_new",
    "C15_interval_length",
    "C15_interval_singleton",
    "C15_interval_empty_full",
    "C15_interval_disjoint",
    "C15_interval_new_same_point",
    "C15_interval_same_point_refuted"
   ],
   "note": "All parts proved except that an interval of two equal longitudes is a point, which is refuted at -pi and proved elsewhere."
  },
  {
   "property": "C16",
   "status": "proved",
   "theorems": [
    "C16_geodetic_normalize",
    "C16_geodetic_normalize_in_range",
    "C16_geodetic_denormalize",
    "C16_geodetic_normalize_after_denormalize",
    "C16_geodetic_denormalize_after_normalize",
    "C16_projected_normalize",
    "C16_projected_normalize_after_denormalize",
    "C16_projected_denormalize_after_normalize",
    "C16_geocentric_normalize_after_denormalize",
    "C16_geocentric_denormalize_after_normalize"
   ],
   "note": "Exact arithmetic, all axes variants and any non-zero units; the geocentric round trip also covers NaN and infinities."
  },
  {
   "property": "C17",
   "status": "proved",
   "theorems": [
    "C17_geodetic_denormalize_frame",
    "C17_projected_denormalize_frame",
    "C17_geocentric_denormalize_frame",
    "C17_geodetic_normalize_frame",
    "C17_projected_normalize_frame",
    "C17_geocentric_normalize_frame",
    "C17_dimensions"
   ],
   "note": "Any arithmetic (FOps instance), all axes, all buffers."
  },
  {
   "property": "C18",
   "status": "proved",
   "theorems": [
    "C18_geodetic_tolerance",
    "C18_projected_tolerance",
    "C18_geocentric_tolerance",
    "C18_geodetic_tiny",
    "C18_geodetic_small_height_refuted",
    "C18_cartesian_tiny_small",
    "C18_antimeridian_refuted"
   ],
   "note": "Tolerances follow units and axis order. Findings: small() allows 1e-4 m of height, not the documented 1e-3; a geographic CRS compares raw longitudes, so 180E and 180W differ."
  },
  {
   "property": "C19",
   "status": "proved",
   "theorems": [
    "C19_llh_approx_eq",
    "C19_xyz_approx_eq",
    "C19_enh_approx_eq",
    "C19_approx_eq_reflexive",
    "C19_approx_eq_symmetric",
    "C19_crs_approx_eq_length",
    "C19_crs_approx_eq_all",
    "C19_crs_approx_eq_short_tolerance"
   ],
   "note": "llh/xyz/enh approx_eq characterised exactly; Crs::approx_eq panics on wrong lengths and on a short tolerance."
  },
  {
   "property": "C20",
   "status": "proved",
   "theorems": [
    "C20_xyz_metric",
    "C20_enh_metric",
    "C20_geocentric_crs_dist",
    "C20_projected_crs_dist",
    "C20_symmetric_f64",
    "C20_self_distance_f64"
   ],
   "note": "Metric laws over the reals; symmetry and zero self-distance in binary64 for any libm hypot that is even, resp. exact at zero."
  },
  {
   "property": "C21",
   "status": "proved",
   "theorems": [
    "C21_from_ab_f64",
    "C21_from_ainvf_f64",
    "C21_nan_panics",
    "C21_infinite_axis_refuted",
    "C21_positive_minor_axis_f64_refuted",
    "C21_from_ab",
    "C21_from_ainvf",
    "C21_from_ainvf_infinite",
    "C21_is_spherical",
    "C21_same_ellipsoid_ab",
    "C21_same_ellipsoid_ainvf"
   ],
   "note": "Acceptance in binary64 for all finite arguments and NaN; shape in exact arithmetic. Two _refuted theorems record the defects."
  },
  {
   "property": "C22",
   "status": "proved",
   "theorems": [
    "C22_parameters"
   ],
   "note": "Exact arithmetic, every shape 0 < b <= a."
  },
  {
   "property": "C23",
   "status": "proved",
   "theorems": [
    "C23_radii_bounds",
    "C23_radii_even",
    "C23_prime_vertical_radius",
    "C23_prime_meridional_radius",
    "C23_reduced_latitude",
    "C23_geocentric_latitude",
    "C23_auxiliary_order",
    "C23_auxiliary_odd",
    "C23_auxiliary_poles",
    "C23_surface_point_unique"
   ],
   "note": "Exact arithmetic; the radii are also characterised geometrically (distance to the axis, rate along the meridian)."
  },
  {
   "property": "C24",
   "status": "proved",
   "theorems": [
    "C24_ellipsoids_f64",
    "C24_ellipsoids_constructed_f64",
    "C24_ellipsoids",
    "C24_meridians_f64",
    "C24_meridians",
    "C24_ellipsoids_published",
    "C24_meridians_published",
    "C24_datums_published",
    "C24_meridian_new",
    "C24_sphere_refuted"
   ],
   "note": "Both arithmetics, every constant in the table; the claim about SPHERE is refuted."
  },
  {
   "property": "C25",
   "status": "proved",
   "theorems": [
    "C25_llh_to_xyz",
    "C25_geodetic_point_unique",
    "C25_llh_to_xyz_sphere",
    "C25_sphere_meridian_refuted",
    "C25_on_surface"
   ],
   "note": "Exact arithmetic. The spherical branch is shown to ignore the prime meridian."
  },
  {
   "property": "C26",
   "status": "proved",
   "theorems": [
    "C26_xyz_to_llh_to_xyz",
    "C26_xyz_to_llh_to_xyz_above",
    "C26_llh_to_xyz_to_llh",
    "C26_llh_to_xyz_to_llh_above",
    "C26_sphere_xyz_to_llh_to_xyz",
    "C26_sphere_llh_to_xyz_to_llh",
    "C26_centre_refuted"
   ],
   "note": "Exact arithmetic, both directions, Vermeille's closed form included; NaN at the centre is recorded."
  },
  {
   "property": "C27",
   "status": "proved",
   "theorems": [
    "C27_translation",
    "C27_translation_inverse",
    "C27_identity_inverse",
    "C27_translation_isometry",
    "C27_translation_round_trip_f64"
   ],
   "note": "Exact arithmetic; error bound in binary64."
  },
  {
   "property": "C28",
   "status": "proved",
   "theorems": [
    "C28_helmert_to_ref",
    "C28_helmert_conventions",
    "C28_helmert_residual",
    "C28_helmert_bound",
    "C28_helmert_without_rotation_and_scale",
    "C28_helmert_inverse_refuted"
   ],
   "note": "Exact arithmetic; exact inversion is refuted."
  },
  {
   "property": "C29",
   "status": "proved",
   "theorems": [
    "C29_fwd",
    "C29_bwd",
    "C29_round_trip",
    "C29_proper_coordinates_name_a_point",
    "C29_fwd_total",
    "C29_bwd_total",
    "C29_never_err",
    "C29_panics_iff_short"
   ],
   "note": "Round trip in exact arithmetic for geocentric and 3D geographic CRS; totality in any arithmetic for all CRS."
  },
  {
   "property": "C30",
   "status": "proved",
   "theorems": [
    "C30_proj_never_err",
    "C30_unproj_never_err",
    "C30_pole_is_not_reported"
   ],
   "note": "Any arithmetic."
  },
  {
   "property": "C31",
   "status": "proved",
   "theorems": [
    "C31_proj_keeps_height",
    "C31_unproj_keeps_height"
   ],
   "note": "Any arithmetic."
  },
  {
   "property": "C32",
   "status": "proved",
   "theorems": [
    "C32_inverse",
    "C32_map",
    "C32_lat0_ignored",
    "C32_natural_origin_refuted"
   ],
   "note": "lat0 finding: C32_lat0_ignored, C32_natural_origin_refuted"
  },
  {
   "property": "C33",
   "status": "proved",
   "theorems": [
    "C33_conformal",
    "C33_scale_1sp",
    "C33_scale_2sp",
    "C33_symmetric",
    "C33_increasing",
    "C33_sphere_inverse",
    "C33_ellipsoid_inverse",
    "C33_wgs84"
   ],
   "note": ""
  },
  {
   "property": "C34",
   "status": "proved",
   "theorems": [
    "C34_origin",
    "C34_central_meridian",
    "C34_east_west",
    "C34_north_south",
    "C34_injective_refuted"
   ],
   "note": "folding finding: C34_injective_refuted"
  },
  {
   "property": "C35",
   "status": "proved",
   "theorems": [
    "C35_unproj_terminates",
    "C35_sphere_inverse",
    "C35_nan_never_returns",
    "C35_finite_terminates_refuted"
   ],
   "note": "non-termination findings: C35_nan_never_returns, C35_finite_terminates_refuted"
  },
  {
   "property": "C36",
   "status": "proved",
   "theorems": [
    "C36_parameters",
    "C36_standard_meridian_refuted",
    "C36_every_zone_accepted"
   ],
   "note": "finding: C36_standard_meridian_refuted"
  },
  {
   "property": "C37",
   "status": "proved",
   "theorems": [
    "C37_vincenty",
    "C37_karney",
    "C37_rapp",
    "C37_rapp_azimuth_refuted"
   ],
   "note": "Rapp's azimuth for sin(s/a)<0 refuted."
  },
  {
   "property": "C38",
   "status": "proved",
   "theorems": [
    "C38_vincenty",
    "C38_rapp",
    "C38_rapp_opposite",
    "C38_rapp_opposite_meridian_refuted"
   ],
   "note": "Rapp's opposite-meridian branch refuted where wrong."
  },
  {
   "property": "C39",
   "status": "proved",
   "theorems": [
    "C39_swap",
    "C39_mirror",
    "C39_shift"
   ],
   "note": ""
  },
  {
   "property": "C40",
   "status": "proved",
   "theorems": [
    "C40_distance_to_itself_refuted",
    "C40_binary64_refuted",
    "C40_crs_dist_refuted",
    "C40_crs_dist_binary64_refuted",
    "C40_repeated_vertex_refuted"
   ],
   "note": "The expected zero distance is refuted; the theorems establish the failure."
  },
  {
   "property": "C41",
   "status": "proved",
   "theorems": [
    "C41_vincenty",
    "C41_rapp_azimuth_refuted"
   ],
   "note": "Rapp's azimuth refuted."
  },
  {
   "property": "C42",
   "status": "proved",
   "theorems": [
    "C42_direct_echo",
    "C42_inverse_echo",
    "C42_karney_inverse_refuted",
    "C42_vincenty_inverse_stops",
    "C42_rapp_inverse_stops",
    "C42_vincenty_direct_total",
    "C42_rapp_direct_total",
    "C42_vincenty_inverse_range"
   ],
   "note": "Karney's inverse refuted."
  },
  {
   "property": "C43",
   "status": "proved",
   "theorems": [
    "C43_equator",
    "C43_equator_near_antipodes_refuted",
    "C43_meridian",
    "C43_over_the_pole"
   ],
   "note": "Near-antipodal equatorial points refuted."
  },
  {
   "property": "C44",
   "status": "proved",
   "theorems": [
    "C44_built_line",
    "C44_closed_line",
    "C44_one_more_position",
    "C44_with_line_cases",
    "C44_run_never_panics",
    "C44_line_to_error",
    "C44_pos_iter",
    "C44_line_string_new",
    "C44_length_is_sum"
   ],
   "note": "Generic in the arithmetic and the CRS; the distance of a CRS is the subject of C20 and C38-C43."
  },
  {
   "property": "C45",
   "status": "proved",
   "theorems": [
    "C45_param_on_segment",
    "C45_param_start",
    "C45_param_end",
    "C45_param_beyond_panics",
    "C45_param_negative_extrapolates",
    "C45_zero_first_segment_refuted",
    "C45_param_length_f64_refuted"
   ],
   "note": "Includes the refuted parts: NaN for a zero-length first segment, extrapolation for negative s, panic of param(length) in binary64 (for any libm whose hypot satisfies the C standard on a zero argument)."
  },
  {
   "property": "C46",
   "status": "proved",
   "theorems": [
    "C46_built_curve",
    "C46_append_cases",
    "C46_built_lines_are_well_made",
    "C46_length_is_sum",
    "C46_param_dispatch",
    "C46_first_segment_dimension_refuted"
   ],
   "note": "CurveBuilder::with_seg does not check the first segment's dimension (refuted part)."
  },
  {
   "property": "C47",
   "status": "proved",
   "theorems": [
    "C47_curve_boundary",
    "C47_pos_eq",
    "C47_pos_eq_reflexive_f64",
    "C47_line_string_boundary"
   ],
   "note": "A closed curve with a NaN start is not a cycle: pos_eq is float equality."
  },
  {
   "property": "C48",
   "status": "proved",
   "theorems": [
    "C48_point_new",
    "C48_point_eq",
    "C48_point_eq_f64",
    "C48_point_set",
    "C48_geometry_types"
   ],
   "note": ""
  },
  {
   "property": "C49",
   "status": "proved",
   "theorems": [
    "C49_s2_on_ellipsoid",
    "C49_s2_on_sphere"
   ],
   "note": "Exact arithmetic; the random numbers and the output of bin/sample_s2.rs are not modelled."
  },
  {
   "property": "C50",
   "status": "proved",
   "theorems": [
    "C50_ellipsoid_equality",
    "C50_float_equality",
    "C50_ellipsoid_equivalence",
    "C50_ellipsoid_names_ignored",
    "C50_meridian_equivalence",
    "C50_datum_equivalence"
   ],
   "note": "binary64"
  },
  {
   "property": "C51",
   "status": "proved",
   "theorems": [
    "C51_distance_series",
    "C51_reversion",
    "C51_longitude_series",
    "C51_triangle_from_node",
    "C51_triangle_from_point"
   ],
   "note": "The triangle exactly; the series against their integrals, in exact arithmetic, with explicit constants."
  },
  {
   "property": "C52",
   "status": "proved",
   "theorems": [
    "C52_vincenty_direct",
    "C52_vincenty_direct_wgs84"
   ],
   "note": "Exact real arithmetic. The geodesic is specified by differential geometry (Spec/Geodesic.v); existence and uniqueness are part of the statement."
  },
  {
   "property": "C53",
   "status": "proved",
   "theorems": [
    "C53_vincenty_inverse",
    "C53_crs_dist",
    "C53_vincenty_inverse_wgs84"
   ],
   "note": "Exact real arithmetic. Near-antipodal pairs are outside the statement (see C43 for a pair where the iteration fails)."
  },
  {
   "property": "C54",
   "status": "proved",
   "theorems": [
    "C54_karney_direct",
    "C54_karney_direct_wgs84"
   ],
   "note": "Exact arithmetic. geodesic_within is in Spec/Geodesic.v; the end may be a pole."
  },
  {
   "property": "C55",
   "status": "proved",
   "theorems": [
    "C55_conformal",
    "C55_meridian_distance",
    "C55_wgs84"
   ],
   "note": "Exact arithmetic. conformal_at and meridian_arc are in Spec/Conformal.v."
  },
  {
   "property": "C56",
   "status": "proved",
   "theorems": [
    "C56_position",
    "C56_map",
    "C56_wgs84"
   ],
   "note": "Exact arithmetic; both directions, with explicit constants in three strips; the inverse terminates. Flattening at most 1/100."
  },
  {
   "property": "C57",
   "status": "proved",
   "theorems": [
    "C57_llh_to_xyz",
    "C57_predefined"
   ],
   "note": "Rounding errors of every operation, with the C library's accuracy as a hypothesis (met by a library that rounds correctly)."
  },
  {
   "property": "C58",
   "status": "proved",
   "theorems": [
    "C58_xyz_to_llh",
    "C58_xyz_to_llh_to_xyz",
    "C58_llh_to_xyz_to_llh"
   ],
   "note": "Binary64. The C library enters only through the hypothesis accurate (Spec/Accurate.v), which LibmOk.v shows to be met by a correctly rounding library."
  },
  {
   "property": "C59",
   "status": "proved",
   "theorems": [
    "C59_fwd",
    "C59_bwd"
   ],
   "note": "binary64; libm through `accurate`; nalgebra's order of additions is one of the possible ones"
  },
  {
   "property": "C60",
   "status": "proved",
   "theorems": [
    "C60_lon_dms",
    "C60_lat_dms",
    "C60_azimuth_dms",
    "C60_dms_panics",
    "C60_degrees_limit_refuted",
    "C60_dms_f64",
    "C60_degrees",
    "C60_cardinal",
    "C60_equal_up_to_turns"
   ],
   "note": "Exact arithmetic for all inputs, binary64 to 2e-14 rad; C60_degrees_limit_refuted records the unchecked upper limit of the degrees."
  },
  {
   "property": "C61",
   "status": "proved",
   "theorems": [
    "C61_web_mercator",
    "C61_mercator_1sp",
    "C61_mercator_2sp"
   ],
   "note": "Rounding-error calculus for tan, ln, exp, atan, powf and fused multiply-add composed with the exact results on conformality and on the inverse series (C33)."
  },
  {
   "property": "C62",
   "status": "proved",
   "theorems": [
    "C62_transverse_mercator",
    "C62_utm"
   ],
   "note": "Binary64, forward, to a micrometre; transverse_map is the exact map (conformal, scale k0 along the central meridian). UTM: parameters to rounding."
  },
  {
   "property": "C63",
   "status": "proved",
   "theorems": [
    "C63_transverse_mercator",
    "C63_utm"
   ],
   "note": "All positions and map coordinates of the quantifier, for every sufficiently accurate C library; the constants are not the best possible. Distances are chords of the unit sphere. The zones of k are those of C56 (Spec/Reach.v)."
  },
  {
   "property": "C64",
   "status": "proved",
   "theorems": [
    "C64_rapp_direct",
    "C64_rapp_direct_oblique",
    "C64_rapp_direct_wgs84"
   ],
   "note": "exact arithmetic; position only; the end of the geodesic further from the axis than the error, for which a sufficient condition on the start is also proved"
  },
  {
   "property": "C65",
   "status": "proved",
   "theorems": [
    "C65_rapp_inverse",
    "C65_rapp_inverse_wgs84"
   ],
   "note": "All pairs outside the excluded regions. Below 10 km the second azimuth is in range but not compared with the geodesic. The term the code calls cos_8_sigma_m is not cos 8 sigma_m (it uses sin 2 sigma for sin 2 sigma_m); its effect is inside the error bound."
  },
  {
   "property": "C66",
   "status": "proved",
   "theorems": [
    "C66_transverse_mercator",
    "C66_utm",
    "C66_between_transverse_mercator",
    "C66_between_utm"
   ],
   "note": "binary64; the truncated series and the iteration are in the bound, see C63"
  },
  {
   "property": "C67",
   "status": "proved",
   "theorems": [
    "C67_routes",
    "C67_between"
   ],
   "note": "binary64; all six ProjectionSpec variants; the truncated series are in the bounds"
  },
  {
   "property": "C68",
   "status": "proved",
   "theorems": [
    "C68_there_and_back",
    "C68_shifts",
    "C68_residual",
    "C68_coordinates"
   ],
   "note": "binary64; the residual of Helmert transformations is C28"
  },
  {
   "property": "C69",
   "status": "proved",
   "theorems": [
    "C69_length",
    "C69_distance",
    "C69_built_length",
    "C69_param_right",
    "C69_param_returns",
    "C69_curve_right",
    "C69_curve_interior_refuted"
   ],
   "note": "Lengths, distances, points of line strings and curves in binary64 for any number of segments; that Curve::param can panic in the interior of a curve is C69_curve_interior_refuted."
  },
  {
   "property": "C70",
   "status": "proved",
   "theorems": [
    "C70_polynomials",
    "C70_clenshaw"
   ],
   "note": "Real coefficients and arguments; complex arguments: C72."
  },
  {
   "property": "C71",
   "status": "proved",
   "theorems": [
    "C71_distance",
    "C71_length"
   ],
   "note": "Geographic systems of two dimensions measure geodesics (Vincenty); their accuracy is proved in exact arithmetic (Vincenty properties), not in binary64."
  },
  {
   "property": "C72",
   "status": "proved",
   "theorems": [
    "C72_sums",
    "C72_real_operand",
    "C72_products",
    "C72_modulus",
    "C72_inverses",
    "C72_quotients",
    "C72_polynomials"
   ],
   "note": ""
  },
  {
   "property": "C73",
   "status": "proved",
   "theorems": [
    "C73_from_ab",
    "C73_from_ainvf",
    "C73_predefined",
    "C73_parameters",
    "C73_radii",
    "C73_latitudes"
   ],
   "note": "Binary64 with an arbitrary libm; radii and latitudes assume an accurate one. Flat ellipsoids only: a spherical one has an infinite inverse flattening."
  },
  {
   "property": "C74",
   "status": "proved",
   "theorems": [
    "C74_normalized",
    "C74_normalized_identity",
    "C74_diff_to",
    "C74_longitude_difference",
    "C74_longitude_sums",
    "C74_azimuth_sum",
    "C74_azimuth_difference",
    "C74_azimuth_there",
    "C74_runs"
   ],
   "note": "Binary64 with an arbitrary libm."
  },
  {
   "property": "C75",
   "status": "proved",
   "theorems": [
    "C75_dms_splits",
    "C75_dms_there_and_back"
   ],
   "note": "binary64, angles up to 8 rad (there and back: 6.2 rad, latitudes 1.57 rad); sixty minutes, which the constructors refuse in debug builds, are excluded there and recorded as the defect of C14"
  }
 ]
}