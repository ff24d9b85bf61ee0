{
 "claims": [
  {
   "property": "C01",
   "status": "proved",
   "theorems": [
    "C01_batch_total"
   ],
   "note": "any scalar type; a Some result means no index was out of range"
  },
  {
   "property": "C02",
   "status": "proved",
   "theorems": [
    "C02_batch_rowwise"
   ],
   "note": "any scalar type, so bit for bit for floats"
  },
  {
   "property": "C03",
   "status": "proved",
   "theorems": [
    "C03_pose_reported",
    "C03_extrinsics_pose",
    "C03_cached_values"
   ],
   "note": "first part for any scalar type, second over exact reals"
  },
  {
   "property": "C04",
   "status": "proved",
   "theorems": [
    "C04_proper_rotation"
   ],
   "note": ""
  },
  {
   "property": "C05",
   "status": "proved",
   "theorems": [
    "C05_world_camera_inverse"
   ],
   "note": ""
  },
  {
   "property": "C06",
   "status": "proved",
   "theorems": [
    "C06_center_is_origin"
   ],
   "note": ""
  },
  {
   "property": "C07",
   "status": "proved",
   "theorems": [
    "C07_from_pose_inverse"
   ],
   "note": ""
  },
  {
   "property": "C08",
   "status": "proved",
   "theorems": [
    "C08_double_cover"
   ],
   "note": ""
  },
  {
   "property": "C09",
   "status": "proved",
   "theorems": [
    "C09_frame"
   ],
   "note": ""
  },
  {
   "property": "C10",
   "status": "proved",
   "theorems": [
    "C10_from_view_looks_at_target"
   ],
   "note": "exact reals; the roll angle is a parameter"
  },
  {
   "property": "C11",
   "status": "proved",
   "theorems": [
    "C11_from_view_up"
   ],
   "note": "exact reals, with the dyadic value of the f64 constant PI"
  },
  {
   "property": "C12",
   "status": "proved",
   "theorems": [
    "C12_degenerate_view_nan"
   ],
   "note": "every IEEE format, round to nearest even, sin/cos arbitrary"
  },
  {
   "property": "C13",
   "status": "proved",
   "theorems": [
    "C13_perspective_projection"
   ],
   "note": ""
  },
  {
   "property": "C14",
   "status": "proved",
   "theorems": [
    "C14_perspective_pixel_roundtrip"
   ],
   "note": ""
  },
  {
   "property": "C15",
   "status": "proved",
   "theorems": [
    "C15_perspective_point_on_its_ray"
   ],
   "note": ""
  },
  {
   "property": "C16",
   "status": "proved",
   "theorems": [
    "C16_same_pixel_iff_same_line"
   ],
   "note": ""
  },
  {
   "property": "C17",
   "status": "proved",
   "theorems": [
    "C17_camera_plane_not_finite"
   ],
   "note": "every IEEE format"
  },
  {
   "property": "C18",
   "status": "proved",
   "theorems": [
    "C18_from_normalized_reads_back",
    "C18_from_normalized_ieee"
   ],
   "note": "any scalar type, and every IEEE format without side conditions"
  },
  {
   "property": "C19",
   "status": "proved",
   "theorems": [
    "C19_from_normalized_rejects",
    "C19_from_normalized_rejects_ieee"
   ],
   "note": "exact reals with the f64 epsilon; every IEEE format with prec >= 3, emax >= prec + 2 (f32, f64 included)"
  },
  {
   "property": "C20",
   "status": "proved",
   "theorems": [
    "C20_degenerate_rejected_refuted"
   ],
   "note": "the documented claim is refuted by a witness"
  },
  {
   "property": "C21",
   "status": "proved",
   "theorems": [
    "C21_orthographic_projection"
   ],
   "note": ""
  },
  {
   "property": "C22",
   "status": "proved",
   "theorems": [
    "C22_orthographic_roundtrips"
   ],
   "note": ""
  },
  {
   "property": "C23",
   "status": "proved",
   "theorems": [
    "C23_points_on_rays"
   ],
   "note": ""
  },
  {
   "property": "C24",
   "status": "proved",
   "theorems": [
    "C24_zero_direction_nan"
   ],
   "note": "every IEEE format"
  },
  {
   "property": "C25",
   "status": "proved",
   "theorems": [
    "C25_accessors_agree"
   ],
   "note": "any scalar type"
  },
  {
   "property": "C26",
   "status": "proved",
   "theorems": [
    "C26_rays_move_with_points"
   ],
   "note": ""
  },
  {
   "property": "C27",
   "status": "proved",
   "theorems": [
    "C27_any_intrinsics_roundtrip"
   ],
   "note": "quantifies over all implementations of the trait with either bundle type; exact reals"
  },
  {
   "property": "C28",
   "status": "proved",
   "theorems": [
    "C28_ray_origins"
   ],
   "note": ""
  },
  {
   "property": "C29",
   "status": "proved",
   "theorems": [
    "C29_camera_roundtrips"
   ],
   "note": ""
  },
  {
   "property": "C30",
   "status": "proved",
   "theorems": [
    "C30_camera_matrix_models_camera"
   ],
   "note": "exact reals"
  },
  {
   "property": "C31",
   "status": "proved",
   "theorems": [
    "C31_camera_matrix_nan"
   ],
   "note": "every IEEE format; also when only the depth of the origin is a floating point zero"
  },
  {
   "property": "C32",
   "status": "proved",
   "theorems": [
    "C32_sign_flip_no_effect"
   ],
   "note": ""
  },
  {
   "property": "C33",
   "status": "proved",
   "theorems": [
    "C33_from_perspective_matrix"
   ],
   "note": ""
  },
  {
   "property": "C34",
   "status": "proved",
   "theorems": [
    "C34_from_matrix_inverts"
   ],
   "note": ""
  },
  {
   "property": "C35",
   "status": "proved",
   "theorems": [
    "C35_camera_center"
   ],
   "note": ""
  },
  {
   "property": "C36",
   "status": "proved",
   "theorems": [
    "C36_from_matrix_never_fails"
   ],
   "note": "any scalar type"
  },
  {
   "property": "C37",
   "status": "proved",
   "theorems": [
    "C37_rq"
   ],
   "note": ""
  },
  {
   "property": "C38",
   "status": "proved",
   "theorems": [
    "C38_error_cases"
   ],
   "note": "any scalar types and conversions; assumes the SVD routine returns the factors asked for"
  },
  {
   "property": "C39",
   "status": "proved",
   "theorems": [
    "C39_line_distance",
    "C39_least_squares"
   ],
   "note": "exact reals, any SVD routine that is sound when it returns; SvdFailed excluded"
  },
  {
   "property": "C40",
   "status": "proved",
   "theorems": [
    "C40_two_rays_suffice"
   ],
   "note": ""
  },
  {
   "property": "C41",
   "status": "proved",
   "theorems": [
    "C41_concurrent_rays"
   ],
   "note": ""
  },
  {
   "property": "C42",
   "status": "proved",
   "theorems": [
    "C42_nearly_parallel_rays",
    "C42_meeting_rays_refuted"
   ],
   "note": "a family of rays, and the refuted unconditional claim"
  },
  {
   "property": "C43",
   "status": "proved",
   "theorems": [
    "C43_parallel_rays"
   ],
   "note": ""
  },
  {
   "property": "C44",
   "status": "proved",
   "theorems": [
    "C44_only_lines_matter"
   ],
   "note": "exact reals; stronger than stated: no conditioning and no assumption on the SVD routine"
  },
  {
   "property": "C45",
   "status": "proved",
   "theorems": [
    "C45_rigid_motion"
   ],
   "note": ""
  },
  {
   "property": "C46",
   "status": "proved",
   "theorems": [
    "C46_triangulation"
   ],
   "note": ""
  },
  {
   "property": "C47",
   "status": "proved",
   "theorems": [
    "C47_jacobian_is_derivative"
   ],
   "note": ""
  },
  {
   "property": "C48",
   "status": "proved",
   "theorems": [
    "C48_jacobian_nan",
    "C48_projection_differentiable"
   ],
   "note": "every IEEE format; differentiability over exact reals"
  },
  {
   "property": "C49",
   "status": "proved",
   "theorems": [
    "C49_extrinsics_roundtrip",
    "C49_pose_and_view_roundtrip",
    "C49_perspective_roundtrip",
    "C49_orthographic_roundtrip",
    "C49_camera_roundtrip",
    "C49_camera_from_matrix_roundtrip"
   ],
   "note": ""
  },
  {
   "property": "C50",
   "status": "proved",
   "theorems": [
    "C50_extrinsics_map",
    "C50_extrinsics_seq",
    "C50_perspective_map",
    "C50_perspective_seq",
    "C50_well_typed",
    "C50_parameters_map",
    "C50_extrinsics_errors",
    "C50_perspective_errors"
   ],
   "note": ""
  },
  {
   "property": "C51",
   "status": "proved",
   "theorems": [
    "C51_any_quaternion_accepted",
    "C51_distances_not_preserved"
   ],
   "note": ""
  },
  {
   "property": "C52",
   "status": "proved",
   "theorems": [
    "C52_bundle_roundtrip"
   ],
   "note": ""
  },
  {
   "property": "C53",
   "status": "proved",
   "theorems": [
    "C53_grid",
    "C53_each_pixel_once"
   ],
   "note": ""
  },
  {
   "property": "C54",
   "status": "proved",
   "theorems": [
    "C54_roundtrip_intrinsics"
   ],
   "note": ""
  },
  {
   "property": "C55",
   "status": "proved",
   "theorems": [
    "C55_ortho_roundtrip_error",
    "C55_ortho_roundtrip_f64"
   ],
   "note": "Pixel round trips of the two intrinsic models in any IEEE format, with explicit ranges."
  },
  {
   "property": "C56",
   "status": "proved",
   "theorems": [
    "C56_persp_roundtrip_error",
    "C56_persp_roundtrip_f64"
   ],
   "note": ""
  },
  {
   "property": "C57",
   "status": "proved",
   "theorems": [
    "C57_drawing_inside_canvas"
   ],
   "note": ""
  },
  {
   "property": "C58",
   "status": "proved",
   "theorems": [
    "C58_view_along_up_axis_nan"
   ],
   "note": "every IEEE format, round to nearest even, sin/cos arbitrary"
  },
  {
   "property": "C59",
   "status": "proved",
   "theorems": [
    "C59_matrix_roundtrip"
   ],
   "note": ""
  },
  {
   "property": "C60",
   "status": "proved",
   "theorems": [
    "C60_matrix_scale_invariant"
   ],
   "note": ""
  },
  {
   "property": "C61",
   "status": "proved",
   "theorems": [
    "C61_normalization_not_needed"
   ],
   "note": ""
  },
  {
   "property": "C62",
   "status": "proved",
   "theorems": [
    "C62_svd_assumption_satisfiable"
   ],
   "note": ""
  },
  {
   "property": "C63",
   "status": "proved",
   "theorems": [
    "C63_roundtrip_camera"
   ],
   "note": ""
  },
  {
   "property": "C64",
   "status": "proved",
   "theorems": [
    "C64_helper_detects_errors"
   ],
   "note": ""
  },
  {
   "property": "C65",
   "status": "proved",
   "theorems": [
    "C65_wireframe"
   ],
   "note": "Examples/render-cube.rs: numbers only, no text output."
  },
  {
   "property": "C66",
   "status": "proved",
   "theorems": [
    "C66_helper_succeeds_ieee"
   ],
   "note": "Hypotheses bound parameters and pixels; tolerance is explicit."
  },
  {
   "property": "C67",
   "status": "proved",
   "theorems": [
    "C67_stored_quaternions",
    "C67_world_to_camera_error",
    "C67_rigid_f64"
   ],
   "note": "IEEE arithmetic of any format with at least 11 bits of precision; stored quaternion within 8 units of roundoff of a unit quaternion; coordinates within stated bounds. Order of operations inside nalgebra as modelled in Linalg.v."
  },
  {
   "property": "C68",
   "status": "proved",
   "theorems": [
    "C68_camera_to_world_error"
   ],
   "note": "IEEE arithmetic of any format with at least 11 bits of precision; stored quaternion within 8 units of roundoff of a unit quaternion; coordinates within stated bounds. Order of operations inside nalgebra as modelled in Linalg.v."
  },
  {
   "property": "C69",
   "status": "proved",
   "theorems": [
    "C69_world_camera_roundtrip_error"
   ],
   "note": "IEEE arithmetic of any format with at least 11 bits of precision; stored quaternion within 8 units of roundoff of a unit quaternion; coordinates within stated bounds. Order of operations inside nalgebra as modelled in Linalg.v."
  },
  {
   "property": "C70",
   "status": "proved",
   "theorems": [
    "C70_world_to_pixel_error",
    "C70_world_to_pixel_f64"
   ],
   "note": "IEEE arithmetic of any format with at least 11 bits of precision; stored quaternion within 8 units of roundoff of a unit quaternion; coordinates within stated bounds. Order of operations inside nalgebra as modelled in Linalg.v."
  },
  {
   "property": "C71",
   "status": "proved",
   "theorems": [
    "C71_world_pixel_roundtrip_error",
    "C71_world_pixel_roundtrip_f64"
   ],
   "note": "IEEE arithmetic of any format with at least 11 bits of precision; stored quaternion within 8 units of roundoff of a unit quaternion; coordinates within stated bounds. Order of operations inside nalgebra as modelled in Linalg.v."
  },
  {
   "property": "C72",
   "status": "proved",
   "theorems": [
    "C72_roundtrip_camera_ieee"
   ],
   "note": "IEEE arithmetic of any format with at least 11 bits of precision; stored quaternion within 8 units of roundoff of a unit quaternion; coordinates within stated bounds. Order of operations inside nalgebra as modelled in Linalg.v."
  },
  {
   "property": "C73",
   "status": "proved",
   "theorems": [
    "C73_optical_axis",
    "C73_view_target_at_principal_point"
   ],
   "note": "Exact real arithmetic."
  },
  {
   "property": "C74",
   "status": "proved",
   "theorems": [
    "C74_segments",
    "C74_segment_behind_camera_refuted"
   ],
   "note": "Exact real arithmetic. The condition on the depths is needed: C74_segment_behind_camera_refuted."
  },
  {
   "property": "C75",
   "status": "proved",
   "theorems": [
    "C75_visible_region_convex"
   ],
   "note": "Exact real arithmetic."
  },
  {
   "property": "C76",
   "status": "proved",
   "theorems": [
    "C76_rotation_homography",
    "C76_plane_homography"
   ],
   "note": "Exact real arithmetic."
  },
  {
   "property": "C77",
   "status": "proved",
   "theorems": [
    "C77_epipolar_constraint"
   ],
   "note": "Exact real arithmetic."
  },
  {
   "property": "C78",
   "status": "proved",
   "theorems": [
    "C78_moved_scene",
    "C78_moved_camera_exists",
    "C78_scaled_scene"
   ],
   "note": "Exact real arithmetic."
  },
  {
   "property": "C79",
   "status": "proved",
   "theorems": [
    "C79_right_and_up_in_the_image"
   ],
   "note": "Exact real arithmetic."
  },
  {
   "property": "C80",
   "status": "proved",
   "theorems": [
    "C80_rays_go_forward"
   ],
   "note": "Exact real arithmetic."
  },
  {
   "property": "C81",
   "status": "proved",
   "theorems": [
    "C81_vanishing_point"
   ],
   "note": "Exact real arithmetic."
  },
  {
   "property": "C82",
   "status": "proved",
   "theorems": [
    "C82_images_determine_camera",
    "C82_orthographic_images"
   ],
   "note": "Exact real arithmetic; positive focal lengths (without the sign condition a camera and its mirror image agree)."
  },
  {
   "property": "C83",
   "status": "proved",
   "theorems": [
    "C83_same_camera_iff_proportional"
   ],
   "note": "Exact real arithmetic."
  },
  {
   "property": "C84",
   "status": "proved",
   "theorems": [
    "C84_views_exist",
    "C84_mixed_triangulation"
   ],
   "note": "Exact real arithmetic; the SVD routine is a parameter assumed to be sound when it returns."
  },
  {
   "property": "C85",
   "status": "proved",
   "theorems": [
    "C85_two_rays_midpoint"
   ],
   "note": "Exact real arithmetic; the SVD routine is a parameter assumed to be sound when it returns."
  },
  {
   "property": "C86",
   "status": "proved",
   "theorems": [
    "C86_two_rays_spread",
    "C86_stability",
    "C86_pixel_noise"
   ],
   "note": "Exact real arithmetic; the SVD routine is a parameter assumed to be sound when it returns."
  },
  {
   "property": "C87",
   "status": "proved",
   "theorems": [
    "C87_approximate_svd"
   ],
   "note": "Exact real arithmetic apart from the SVD, which may be wrong by eta."
  },
  {
   "property": "C88",
   "status": "proved",
   "theorems": [
    "C88_scaling"
   ],
   "note": "Exact real arithmetic; no assumption on the SVD routine."
  },
  {
   "property": "C89",
   "status": "proved",
   "theorems": [
    "C89_point_at_distance_error",
    "C89_point_at_distance_f64"
   ],
   "note": "IEEE arithmetic with exact rounding to nearest; generic format and double precision."
  },
  {
   "property": "C90",
   "status": "proved",
   "theorems": [
    "C90_extreme_directions"
   ],
   "note": "Documents what the code does at the ends of the floating point range."
  },
  {
   "property": "C91",
   "status": "proved",
   "theorems": [
    "C91_intersection_error",
    "C91_conversions",
    "C91_intersection_f64"
   ],
   "note": "Any format with 24 to 53 bits, then numbers for f64. The SVD routine is an oracle with a backward error specification (svd_near)."
  },
  {
   "property": "C92",
   "status": "proved",
   "theorems": [
    "C92_partial_equivalence",
    "C92_self_equal"
   ],
   "note": "IEEE arithmetic of any format; comparison of the type parameter of Camera and RayBundle arbitrary"
  },
  {
   "property": "C93",
   "status": "proved",
   "theorems": [
    "C93_equal_extrinsics_iff",
    "C93_equal_iff_same_transform"
   ],
   "note": "first theorem IEEE, second exact reals"
  },
  {
   "property": "C94",
   "status": "proved",
   "theorems": [
    "C94_equal_extrinsics_same_results",
    "C94_equal_cameras_same_pixels"
   ],
   "note": "IEEE; same up to the sign of zeros"
  },
  {
   "property": "C95",
   "status": "proved",
   "theorems": [
    "C95_projection_example",
    "C95_intersection_example",
    "C95_error_text"
   ],
   "note": "sine and cosine at pi/2 and the SVD are hypotheses; layout of the text not modelled"
  },
  {
   "property": "C96",
   "status": "proved",
   "theorems": [
    "C96_vertices",
    "C96_edges",
    "C96_cube_drawn",
    "C96_cube_drawn_f64"
   ],
   "note": "Real model of both drawings and evaluation of the f64 model; the format of the numbers in the SVG text is not modelled."
  },
  {
   "property": "C97",
   "status": "proved",
   "theorems": [
    "C97_from_view_error",
    "C97_from_view_f64"
   ],
   "note": "All four branches of the conversion from matrix to quaternion, which are selected by comparisons of rounded values, are covered; sine and cosine of the library are parameters, required to be accurate at the one argument at which they are called."
  },
  {
   "property": "C98",
   "status": "proved",
   "theorems": [
    "C98_directions_error",
    "C98_from_view_directions",
    "C98_from_view_directions_f64"
   ],
   "note": ""
  },
  {
   "property": "C99",
   "status": "proved",
   "theorems": [
    "C99_target_at_principal_point",
    "C99_target_at_principal_point_f64"
   ],
   "note": ""
  },
  {
   "property": "C100",
   "status": "proved",
   "theorems": [
    "C100_sign_flip_no_effect_ieee",
    "C100_camera_matrix_error",
    "C100_camera_matrix_f64"
   ],
   "note": "IEEE arithmetic of any format; the exact matrix belongs to a unit quaternion near the stored one."
  },
  {
   "property": "C101",
   "status": "proved",
   "theorems": [
    "C101_jacobian_error",
    "C101_jacobian_f64"
   ],
   "note": "IEEE arithmetic of any format; powi(-2) is modelled as 1/(x*x)."
  },
  {
   "property": "C102",
   "status": "proved",
   "theorems": [
    "C102_ray_error"
   ],
   "note": "error of the translation found by cancelling R^T R"
  },
  {
   "property": "C103",
   "status": "proved",
   "theorems": [
    "C103_ray_passes_point"
   ],
   "note": "perspective and orthographic cameras"
  },
  {
   "property": "C104",
   "status": "proved",
   "theorems": [
    "C104_triangulation_error",
    "C104_triangulation_f64",
    "C104_own_pixels_f64"
   ],
   "note": "the SVD routine remains an oracle of stated accuracy"
  },
  {
   "property": "C105",
   "status": "proved",
   "theorems": [
    "C105_decomposition",
    "C105_converges",
    "C105_orthogonal_columns"
   ],
   "note": "Routine transcribed from knowledge of nalgebra 0.33, real arithmetic."
  },
  {
   "property": "C106",
   "status": "proved",
   "theorems": [
    "C106_least_squares_with_svd"
   ],
   "note": "Real arithmetic, with the transcribed decomposition in place of the oracle."
  },
  {
   "property": "C107",
   "status": "proved",
   "theorems": [
    "C107_always_a_point",
    "C107_parallel_rays"
   ],
   "note": "Real arithmetic, with the transcribed decomposition in place of the oracle."
  },
  {
   "property": "C108",
   "status": "proved",
   "theorems": [
    "C108_from_matrix_error",
    "C108_from_matrix_f64"
   ],
   "note": "D at least the unit roundoff and 3200000 D <= th; exponents of the rows within a quarter of the exponent range"
  },
  {
   "property": "C109",
   "status": "proved",
   "theorems": [
    "C109_matrix_roundtrip_error",
    "C109_matrix_roundtrip_f64"
   ],
   "note": "composition of C108 with the error of as_camera_matrix row by row"
  },
  {
   "property": "C110",
   "status": "proved",
   "theorems": [
    "C110_svd_error"
   ],
   "note": "assumes norm between 2^-400 and 2^400; the convergence under rounding is not proved, only over R (C105)"
  },
  {
   "property": "C111",
   "status": "proved",
   "theorems": [
    "C111_intersection_error",
    "C111_intersection_f64",
    "C111_intersection_f32"
   ],
   "note": "no assumption about the decomposition except that it converges; conditional on not SvdFailed"
  },
  {
   "property": "C112",
   "status": "proved",
   "theorems": [
    "C112_triangulation_error",
    "C112_triangulation_f64",
    "C112_own_pixels_f64"
   ],
   "note": "no assumption about the decomposition except that it converges; conditional on not SvdFailed"
  },
  {
   "property": "C113",
   "status": "proved",
   "theorems": [
    "C113_svd_converges"
   ],
   "note": "f64. The condition on pairs of directions always holds for the matrices of the normal equations (C114); it excludes nearly rank one matrices."
  },
  {
   "property": "C114",
   "status": "proved",
   "theorems": [
    "C114_intersection_error",
    "C114_intersection_f64",
    "C114_intersection_f32"
   ],
   "note": "The matrix of the normal equations of n rays has two singular values with squares adding up to at least n^2/2, up to rounding."
  },
  {
   "property": "C115",
   "status": "proved",
   "theorems": [
    "C115_triangulation_error",
    "C115_triangulation_f64",
    "C115_own_pixels_f64",
    "C115_triangulation_f32"
   ],
   "note": "Any IEEE format, f64, f32 and the program's own pixels in f64."
  },
  {
   "property": "C116",
   "status": "proved",
   "theorems": [
    "C116_svd_converges",
    "C116_svd_backward"
   ],
   "note": "f64. Removes the bound of 300 on the condition number from C113 and makes the backward error independent of it."
  },
  {
   "property": "C117",
   "status": "proved",
   "theorems": [
    "C117_intersection_total",
    "C117_intersection_f64",
    "C117_intersection_f32"
   ],
   "note": "Nothing is claimed about the coordinates of the point for parallel rays; they need not be finite."
  },
  {
   "property": "C118",
   "status": "proved",
   "theorems": [
    "C118_intersection_error",
    "C118_intersection_f64",
    "C118_intersection_f32"
   ],
   "note": "Improves C114, whose bound has the square of n/lam and which needs n <= 250 lam."
  },
  {
   "property": "C119",
   "status": "proved",
   "theorems": [
    "C119_triangulation_error",
    "C119_triangulation_f64",
    "C119_own_pixels_f64",
    "C119_triangulation_f32"
   ],
   "note": "Improves C115 for small baselines: the error grows with the first power of n/lam and with its square root in the pixel errors."
  },
  {
   "property": "C120",
   "status": "proved",
   "theorems": [
    "C120_svd_backward"
   ],
   "note": "C116 without the condition number. The third Householder pivot may be of any size (FloatSvdProofs27.v)."
  },
  {
   "property": "C121",
   "status": "proved",
   "theorems": [
    "C121_intersection_finite",
    "C121_intersection_f64",
    "C121_intersection_f32"
   ],
   "note": "C117 with the coordinates. The bound is that of the cutoff 1e-7 of the pseudo-inverse."
  },
  {
   "property": "C122",
   "status": "proved",
   "theorems": [
    "C122_triangulation_finite",
    "C122_triangulation_f64",
    "C122_triangulation_f32"
   ],
   "note": "From C121 and the bounds of C102."
  },
  {
   "property": "C123",
   "status": "proved",
   "theorems": [
    "C123_roundtrip_pixels_f64"
   ],
   "note": "From C109 and C70."
  },
  {
   "property": "C124",
   "status": "proved",
   "theorems": [
    "C124_matrix_pixels_f64"
   ],
   "note": "From C108 and C70: C33 with rounding."
  },
  {
   "property": "C125",
   "status": "proved",
   "theorems": [
    "C125_own_pixels_f32"
   ],
   "note": "The rays of pixel_to_world in single precision against the true lines of sight, then the intersection in double precision with nalgebra's decomposition and the conversion of the result back to single precision. Sizes: see good_cam32 in SpecFloatTri3.v."
  },
  {
   "property": "C126",
   "status": "proved",
   "theorems": [
    "C126_own_pixels_both_kinds"
   ],
   "note": "Sizes: see good_any in SpecFloatTri3.v. The list of cameras is a list of a sum type; the code has one type of intrinsics per list, the rays are collected into one Vec by the caller."
  },
  {
   "property": "C127",
   "status": "proved",
   "theorems": [
    "C127_matrix_triangulation"
   ],
   "note": "Sizes: see good_mcam in SpecFloatTri4.v (focal lengths 500 to 2000, skew up to 400, centers and point up to 10, pixels up to 2000)."
  },
  {
   "property": "C128",
   "status": "proved",
   "theorems": [
    "C128_angle_suffices"
   ],
   "note": "From C127 and C86."
  }
 ]
}