# Formal model of strawlab/cam-geom in Rocq (Coq 8.16.1)

## 1. Shape of the model

The crate is generic over a scalar type `R: RealField`.  The model is generic in
the same way: every definition takes a scalar type `T` with a record of
operations (`Ops T`, file `Scalar.v`), and the two families of instances are

* `R_ops`: exact real arithmetic (Coq's `Reals`).  Geometric properties
  (round trips, isometry, least squares, Jacobian ...) are proved here.
* `B_ops prec emax`: IEEE-754 binary arithmetic, round to nearest even, from
  Flocq (`BinarySingleNaN`), for every precision and exponent range; `f32` is
  `(24,128)` and `f64` is `(53,1024)`.  Special-value properties (NaN,
  infinities) and rounding error bounds are proved here.

Structural properties (no panic, shapes, row independence, serialization,
accessors, error paths) are proved for an arbitrary scalar type with arbitrary
operations, hence for both.

Rust to Gallina:

* `&mut` loops over a zero-initialised matrix are folds over the index range
  which read and write single entries; an out-of-range index is `None` (the
  panic).  Absence of panics and the row-wise meaning are *theorems*.
* `Result` is `Ok`/`Err`; a function which may panic returns `option`.
* traits `Bundle` and `IntrinsicParameters` are type classes, so theorems can
  quantify over all implementations.
* phantom coordinate frames are phantom type parameters.
* An `N x 3` matrix is a list of rows; small static matrices are records whose
  constructor takes the entries in the row-major order of `SMatrix::new`.

## 2. Files

All under `rocq/theories`.

| file | contents |
|---|---|
| `Scalar.v` | scalar operations, real and IEEE instances |
| `Linalg.v` | the parts of nalgebra/approx used |
| `Householder.v` | nalgebra `QR::new/q/r` |
| `SymEigen.v` | nalgebra `SVD::try_new` for 3x3 matrices, `SymmetricEigen`, `SymmetricTridiagonal`, `GivensRotation`, `wilkinson_shift` |
| `Bundles.v` | `lib.rs`, `ray_bundle_types.rs` |
| `Extrinsics.v` | `extrinsics.rs` |
| `Perspective.v`, `Orthographic.v` | the two intrinsic models |
| `Camera.v` | `camera.rs` |
| `RayIntersection.v`, `Convert.v` | `ray_intersection.rs`, conversions between f32 and f64 |
| `Linearize.v` | `linearize.rs` |
| `TestUtils.v` | `intrinsic_test_utils.rs`, `roundtrip_camera` of `camera.rs` |
| `Serde.v` | hand-written and derived (de)serializers |
| `Svg.v`, `Examples.v` | `examples/` |
| `Equality.v` | derived `PartialEq`, `Display` of errors |
| `Spec.v`, `SpecIsect.v`, `SpecSerde.v`, `SpecSvg.v`, `SpecFloatErr.v`, `SpecGeom.v`, `SpecTri.v`, `SpecFloatIsect.v`, `SpecEq.v`, `SpecFloatMat.v`, `SpecFloatTri.v`, `SpecFloatTri2.v`, `SpecFloatTri3.v`, `SpecFloatTri4.v`, `SpecFloatRQ.v`, `SpecFloatSvd.v`, `SpecFloatSvd2.v`, `SpecSvd.v` | the independent specification: plain formulas of geometry over R, vocabulary for serialized data, drawings and error bounds |
| `Rows.v`, `VecLemmas.v`, `*Base.v`, `*Proofs.v`, `*Proofs2.v`, `FloatRound.v` | lemmas and proofs |
| `Prop*.v` | the theorems, one or more per claim, each closed by `exact`, followed by `Print Assumptions` and by an `Example` which meets its hypotheses |

## 3. Plan per property

| id | modelled by | how proved |
|---|---|---|
| C01, C02 | loops with `option` indexing, any `Ops T` | induction over the index range: loop = row-wise map |
| C03-C09 | `Extrinsics.v` at `R_ops` | polynomial identities modulo \|q\|=1 (`ring`/`nsatz`) |
| C10, C11 | `from_view` incl. `look_at_lh`, `from_rotation_matrix`, `from_axis_angle` | rotation matrix -> quaternion -> matrix round trip in each of four branches; Machin's formula for the value of pi |
| C12, C17, C24, C31, C48, C58 | same functions at `B_ops` | NaN propagation lemmas on Flocq operations |
| C13-C16, C21-C23, C25-C29 | `R_ops` | `field` after the row-wise lemmas |
| C18-C20 | `approx::relative_eq` modelled as in approx 0.5 | case analysis; float case with Flocq |
| C30, C32, C34, C59-C61 | `R_ops` | `field` |
| C33, C35, C37 | concrete Householder QR | reflection lemma, orthogonality; Cramer's rule for the center |
| C36, C38 | any `Ops T` | case analysis |
| C39-C46 | `R_ops`, SVD as an oracle with the specification "if it returns, it returns an SVD" | normal equations, truncated pseudo-inverse |
| C47 | `R_ops` | exact remainder identity by `field`, then limits |
| C49-C52 | data model of serde (numbers, sequences, maps) | induction over lists |
| C53 | `num_iter::range_step` with checked `usize` addition | induction |
| C54, C63 | `R_ops` | from C14, C22, C29 |
| C55, C56, C66 | `B_ops prec emax`, then `f64` | Flocq error bounds |
| C57, C65 | `Svg.v` | induction over edges |
| C62 | `R_ops` | spectral theorem for symmetric 3x3 matrices, proved by maximizing the quadratic form on the sphere |
| C64 | any `Ops T` | unfolding the comparison loop |
| C67-C72 | `B_ops prec emax`, then `f64` | accumulated error calculus `app` in `FloatApprox.v` |
| C73-C81 | `R_ops` | `field`/`vring` on homogeneous coordinates, explicit epsilons for the limit |
| C82-C83 | `R_ops` | homogeneous coordinates on a ball, uniqueness of the RQ decomposition |
| C84-C88 | `R_ops` | quadratic form of the rays bounded below by `spread`; SVD oracle exact or within `eta` |
| C89-C90 | `B_ops prec emax`, then `f64` | relative error of the length through `Bsqrt_correct`; over- and underflow of squares |
| C91 | `B_ops prec emax` and `f64`, `Convert.v` | rounding error of every term and sum, perturbation of the normal equations, pseudo-inverse entry by entry |
| C92-C94 | `B_ops prec emax`, `R_ops` | fields compared one by one; arithmetic commutes with negation up to the sign of zeros; unit quaternions of one rotation are opposite |
| C95 | `f64`, `R_ops` | evaluation of the whole program in the kernel, C41 |
| C96 | `R_ops`, `f64` | spread of the projected vertices positive, so the scale of the drawing is defined; evaluation in the kernel for `f64` |
| C97-C99 | `B_ops prec emax`, `f64` | Euclidean error of unit vectors and cross products; largest diagonal entry up to rounding; error in units of u / s through C67, C70 |
| C100, C101 | `B_ops prec emax`, `f64` | the normalization divides everything by one float, so errors are counted relative to that scale; perturbation of the quotient rule; derivative of a quotient of linear functions |
| C102-C104 | `B_ops prec emax`, `f64` | error of unprojecting pushed through the pose; lines of nearby point and direction; tilt changes the spread by at most 2 s per ray; C87 and C91 for the normal equations |
| C105, C106, C107 | `R_ops`, nalgebra's 3x3 SVD in place of the oracle | similarity invariant of the QR steps; the Wilkinson shift makes b2^4 b1^2 fall by 8/27 per step, and its 4th power against its 3rd once small, so 29 steps suffice; each entry dropped is at most eps (d + d'); Gram matrix of the ordered columns against the triangular factor; C87 |
| C108, C109 | `B_ops prec emax`, `f64` | every Householder step is an exact reflection up to a multiple of u, so the float factors are near W^T rows for an exact orthogonal W; the rows being independent (kspread) makes W the exact factor up to D / kspread; determinants by Cramer's rule; the matrix normalized by a float is the exact one scaled by its inverse, so the depth of the origin does not enter |
| C110 | `f64`, nalgebra's 3x3 SVD | every rotation, reflection and 2x2 eigenvector of the float iteration is near an exact orthogonal one, so the product of the factors is near an exact orthogonal matrix which nearly diagonalizes the Gram matrix; the entries dropped are at most 1e-7 of their neighbours |
| C111, C112 | `B_ops prec emax`, `f32`, `f64`, nalgebra's 3x3 SVD in place of the oracle | C91 and C104 with the specification of the decomposition needed at the actual matrix only, supplied by C110: the spread of the rays bounds the condition number of the float sum |
| C113, C114, C115 | `f64`, then `B_ops prec emax`, `f32`, `f64` | the potential b1^2 b2^4 of C106 falls by 0.31 per step in floats too: the shift is accurate relative to the last entry beside the diagonal (giv_o_rel), and entries below 4.7e-8 of the norm are dropped; 96 steps take it below the least value of an active matrix; two perpendicular directions have squared sines adding up to at least 1 with every ray, which gives the condition of C113 |
| C116, C117, C118, C119 | `f64`, then `B_ops prec emax`, `f32`, `f64` | the two larger columns of M V are bounded below by the condition on pairs, so the error of the third alone enters the product, against the norm and not against the least singular value; the positive definiteness asked for in C113 weakened to what holds for any Gram matrix up to rounding; then as C114, C115 |
| C120, C121, C122 | `f64`, then `B_ops prec emax`, `f32`, `f64` | the QR factorisation with two large independent columns and a third of any size (`qr_app2`): the last pivot may vanish, the reflection is then a sign; for the point, the pseudo-inverse with some singular values dropped is at most 1/sigma with sigma the smallest kept, above the cutoff |
| C123, C124 | `f64` | C108 and C109 give the parameters, rotation and center of the camera read from the matrix; C70 with a larger unit of error `w` gives its pixels, and the exact pixel depends continuously on parameters and center (`camera_pixels`) |
| C125, C126 | `f32` and `f64`, then `f64` | the float ray of the float pixel of a camera is close to the true line of sight (`own_pixel32`, `own_pixel_ortho`); then the lemma behind C119 with the unit of error of the rays in single precision |
| C127, C128 | `f64` | C108 gives the camera read from the matrix; its exact pixel of X is within 1e-5 of that of the true camera (`pixel_shift`), its center within 1.1e-10, which changes the spread of the lines of sight little (`tilt_spread`); then the lemma behind C119; C128 with C86 for the spread |

## 4. Trusted base

### 4.1 The checker

* Coq 8.16.1's kernel (and the compiler and hardware it runs on). No kernel check is switched off,
  there is no `Admitted`, no axiom, parameter, functor or module type in this development, and no plugin
  beyond those of the standard library (`ring`, `lra`, `nsatz`, ...), whose results the kernel checks.
* The axioms listed in 4.4.
* The definitions of the libraries appearing in statements: `Coq.Reals`; Flocq's `binary_float` with
  `Bplus`, `Bminus`, `Bmult`, `Bdiv`, `Bsqrt`, `Bcompare` as a description of IEEE-754 arithmetic;
  Coquelicot's derivatives in C47 and C48 only.
* That the model files say what the Rust source says. Each definition cites the lines it transcribes.

### 4.2 What is modelled

Everything in `src/` that computes: both ray bundle types and the `RayBundle`, `Ray`, `Points`, `Pixels`
wrappers; `ExtrinsicParameters` with all constructors, accessors and conversions; both intrinsic models
including `from_normalized_3x4_matrix`; `Camera` with `from_perspective_matrix`, `as_camera_matrix`, the
private `rq`, `rq_decomposition`, `pmat2cam_center`; `best_intersection_of_rays` and `my_pinv`;
`JacobianPerspectiveCache`; the serializers and deserializers, derived and hand-written; the round-trip
helpers; derived `PartialEq` and the text of errors; and of the examples the SVG writer and wireframe
renderer and all three mains. The traits `Bundle` and
`IntrinsicParameters` are type classes; C01, C02, C27 and C64 quantify over implementations by users.

Rust features:

* panics (index out of range, `unwrap`, `usize` underflow, failing assertion) are `None`;
* matrices of `N` rows are lists of rows, and the type level `NPTS` is the length of the list;
* references, ownership, storage types and generic dispatch are not represented: each modelled function
  is pure in Rust as well;
* the scalar type is arbitrary. Theorems "for any scalar type" hold for every set of operations.
  For `f32` and `f64` the operations are those of Flocq with round to nearest, ties to even, one NaN
  (payloads and signs of NaN are not represented). `sin` and `cos` of floats are arbitrary functions.
  No fused multiply-add and no reassociation, as Rust guarantees.

### 4.3 What is not modelled or is simplified

* **External crates.** nalgebra, approx, num-traits, num-iter and serde are not in `/repo`. `Linalg.v` and
  `Householder.v` transcribe nalgebra 0.33 from knowledge of it: quaternion product and rotation,
  `to_rotation_matrix`, `from_rotation_matrix` (four branches), `look_at_lh`, `face_towards`, isometry
  inverse, `normalize`, matrix products (columns of the left factor accumulated left to right),
  Householder QR. The order of operations matters only for the theorems on IEEE arithmetic. Whether
  `face_towards` normalizes its y axis differs between versions and has no effect over R.
* **powi.** `x.powi(2)` is modelled as `x * x` and `x.powi(-2)` as `1 / (x * x)`, which is what
  the compiler's run-time routine computes; Rust leaves its precision unspecified.
* **SVD.** `SVD::try_new` is an oracle in `RayIntersection.v`. Theorems which need more than "it returns or not" assume that it is
  sound when it returns: U and V orthogonal, singular values nonnegative, product equal to
  the input, and that the factors asked for are present. C62 shows the assumption can be met. The
  code asks for convergence to 1e-7 only, so exact soundness is an idealisation; C87 bounds the effect of a
  decomposition which is off by `eta`. C91 takes every rounding outside the routine
  into account and specifies the routine by its backward error (`svd_near`).
  `SymEigen.v` transcribes, from knowledge of nalgebra 0.33, what `SVD::try_new` does for a 3x3 matrix:
  `svd_ordered3`, the symmetric eigenvalue iteration, tridiagonalization, Givens rotations, `wilkinson_shift`. C105, C106 and C107
  are about this routine over R, in place of the oracle; it converges for every matrix within 29 iterations when the tolerance is
  at least 1e-16 (the code allows 100 and asks for 1e-7), so `SvdFailed` never occurs over R. C110 takes the rounding inside the
  routine into account, for condition numbers up to 300. C113 proves that
  it converges under rounding within the 100 iterations of the code, for these condition numbers and two singular values which are not
  both small beside the first; C116 and C120 drop the condition number (singular matrices included). Not proved:
  nearly rank one matrices under rounding, which are never the matrix of the normal equations (`Smat_pairs`). C111, C112, C114 and
  C115 are C91 and C104 with the routine itself, for lines of sight spread by at least n / 250; C118 and C119 for a spread of about
  6e-6 n or more; C117, C121 and C122 say for any directions that a finite point is returned, with a coarse bound on where. `max_niter = 0` (no limit) is not represented,
  the code passes 100. A panic of the routine counts as a failure in `svd3_try_new`; C105 proves
  that over R it does not panic. C105_test64 runs the routine in double precision: its backward error is about 1e-9, so the
  `eta` to put into C91 and C104 is that of the tolerance, not of the rounding.
  Over R the conversions to and from `f64` are the identity; for `f32` they are `Convert.v`.
* **serde.** The data model (numbers, sequences, string-keyed maps, unit) is represented, the text layer (number
  printing and parsing, JSON's `null` for NaN, whitespace, duplicate keys dropped by a parser) is not.
  nalgebra's impls: static matrices are flat column-major tuples, dynamic ones `(data, nrows, ncols)`,
  `Unit` is transparent and is not renormalized.
* **Test helpers.** `usize` arithmetic is checked (as in a debug build); a zero step diverges in Rust and is
  `None` here. The function `as_scalar` from `usize` is arbitrary.
* **SVG example.** Numbers, not text and not the file system. The infinite initial bounds are `None`;
  `min`/`max` of NaN is not represented.
* **Exact reals.** Theorems at `R_ops` are about the algorithm, not about rounding. `1/0 = 0` in Coq's reals
  and `sqrt` of a negative is `0`: every theorem whose statement involves a division has the
  hypothesis that the divisor is nonzero, and the IEEE theorems (C12, C17, C24, C31, C48, C58) say what
  happens when it is zero.
* **Equality.** `UnitQuaternion` of nalgebra counts opposite coordinates as equal; everything else is compared
  number by number. The derived `PartialEq` of `Camera` and `RayBundle` is modelled for any comparison of the
  type parameter.
* `Debug` output (except of `Error`), `Clone`, `Send`/`Sync` checks, the unit tests themselves and the layout of
  what the examples print are not modelled.

### 4.4 What `Print Assumptions` lists

Every theorem of a `Prop*.v` file is followed by `Print Assumptions`. The results:

**Closed under the global context** (27 theorems): `C01_batch_total`, `C02_batch_rowwise`, `C25_accessors_agree`, `C36_from_matrix_never_fails`, `C95_error_text`, `C03_pose_reported`, `C18_from_normalized_reads_back`, `C38_error_cases`, `C49_extrinsics_roundtrip`, `C49_pose_and_view_roundtrip`, `C49_perspective_roundtrip`, `C49_orthographic_roundtrip`, `C49_camera_roundtrip`, `C49_camera_from_matrix_roundtrip`, `C50_extrinsics_map`, `C50_extrinsics_seq`, `C50_perspective_map`, `C50_perspective_seq`, `C50_well_typed`, `C50_parameters_map`, `C50_extrinsics_errors`, `C50_perspective_errors`, `C52_bundle_roundtrip`, `C65_wireframe`, `C53_grid`, `C53_each_pixel_once`, `C64_helper_detects_errors`.

**`ClassicalDedekindReals.sig_forall_dec`, `FunctionalExtensionality.functional_extensionality_dep`** (1 theorems): `C39_line_distance`.

**`ClassicalDedekindReals.sig_forall_dec`, `ClassicalDedekindReals.sig_not_dec`, `FunctionalExtensionality.functional_extensionality_dep`** (85 theorems): `C30_camera_matrix_models_camera`, `C32_sign_flip_no_effect`, `C33_from_perspective_matrix`, `C34_from_matrix_inverts`, `C35_camera_center`, `C37_rq`, `C47_jacobian_is_derivative`, `C59_matrix_roundtrip`, `C60_matrix_scale_invariant`, `C61_normalization_not_needed`, `C48_projection_differentiable`, `C26_rays_move_with_points`, `C27_any_intrinsics_roundtrip`, `C28_ray_origins`, `C29_camera_roundtrips`, `C96_vertices`, `C96_edges`, `C96_cube_drawn`, `C93_equal_iff_same_transform`, `C95_intersection_example`, `C03_extrinsics_pose`, `C03_cached_values`, `C04_proper_rotation`, `C05_world_camera_inverse`, `C06_center_is_origin`, `C07_from_pose_inverse`, `C08_double_cover`, `C09_frame`, `C10_from_view_looks_at_target`, `C67_stored_quaternions`, `C73_optical_axis`, `C73_view_target_at_principal_point`, `C74_segments`, `C74_segment_behind_camera_refuted`, `C75_visible_region_convex`, `C76_rotation_homography`, `C76_plane_homography`, `C77_epipolar_constraint`, `C78_moved_scene`, `C78_moved_camera_exists`, `C78_scaled_scene`, `C79_right_and_up_in_the_image`, `C80_rays_go_forward`, `C81_vanishing_point`, `C13_perspective_projection`, `C14_perspective_pixel_roundtrip`, `C15_perspective_point_on_its_ray`, `C16_same_pixel_iff_same_line`, `C19_from_normalized_rejects`, `C20_degenerate_rejected_refuted`, `C21_orthographic_projection`, `C22_orthographic_roundtrips`, `C23_points_on_rays`, `C62_svd_assumption_satisfiable`, `C40_two_rays_suffice`, `C39_least_squares`, `C41_concurrent_rays`, `C42_nearly_parallel_rays`, `C42_meeting_rays_refuted`, `C43_parallel_rays`, `C44_only_lines_matter`, `C45_rigid_motion`, `C46_triangulation`, `C51_any_quaternion_accepted`, `C51_distances_not_preserved`, `C105_decomposition`, `C105_converges`, `C105_orthogonal_columns`, `C106_least_squares_with_svd`, `C107_always_a_point`, `C107_parallel_rays`, `C57_drawing_inside_canvas`, `C54_roundtrip_intrinsics`, `C63_roundtrip_camera`, `C82_images_determine_camera`, `C82_orthographic_images`, `C83_same_camera_iff_proportional`, `C84_views_exist`, `C84_mixed_triangulation`, `C85_two_rays_midpoint`, `C86_two_rays_spread`, `C86_stability`, `C86_pixel_noise`, `C87_approximate_svd`, `C88_scaling`.

**`ClassicalDedekindReals.sig_forall_dec`, `ClassicalDedekindReals.sig_not_dec`, `Classical_Prop.classic`, `FunctionalExtensionality.functional_extensionality_dep`** (97 theorems): `C31_camera_matrix_nan`, `C48_jacobian_nan`, `C96_cube_drawn_f64`, `C92_partial_equivalence`, `C92_self_equal`, `C93_equal_extrinsics_iff`, `C94_equal_extrinsics_same_results`, `C94_equal_cameras_same_pixels`, `C95_projection_example`, `C11_from_view_up`, `C12_degenerate_view_nan`, `C58_view_along_up_axis_nan`, `C89_point_at_distance_error`, `C90_extreme_directions`, `C89_point_at_distance_f64`, `C55_ortho_roundtrip_error`, `C56_persp_roundtrip_error`, `C66_helper_succeeds_ieee`, `C55_ortho_roundtrip_f64`, `C56_persp_roundtrip_f64`, `C91_intersection_error`, `C91_conversions`, `C91_intersection_f64`, `C100_sign_flip_no_effect_ieee`, `C100_camera_matrix_error`, `C101_jacobian_error`, `C100_camera_matrix_f64`, `C101_jacobian_f64`, `C108_from_matrix_error`, `C109_matrix_roundtrip_error`, `C108_from_matrix_f64`, `C109_matrix_roundtrip_f64`, `C110_svd_error`, `C111_intersection_error`, `C111_intersection_f64`, `C111_intersection_f32`, `C112_triangulation_error`, `C112_triangulation_f64`, `C112_own_pixels_f64`, `C113_svd_converges`, `C114_intersection_error`, `C114_intersection_f64`, `C114_intersection_f32`, `C115_triangulation_error`, `C115_triangulation_f64`, `C115_own_pixels_f64`, `C115_triangulation_f32`, `C102_ray_error`, `C103_ray_passes_point`, `C104_triangulation_error`, `C104_triangulation_f64`, `C104_own_pixels_f64`, `C97_from_view_error`, `C98_directions_error`, `C98_from_view_directions`, `C99_target_at_principal_point`, `C97_from_view_f64`, `C98_from_view_directions_f64`, `C99_target_at_principal_point_f64`, `C67_world_to_camera_error`, `C68_camera_to_world_error`, `C69_world_camera_roundtrip_error`, `C70_world_to_pixel_error`, `C71_world_pixel_roundtrip_error`, `C72_roundtrip_camera_ieee`, `C67_rigid_f64`, `C70_world_to_pixel_f64`, `C71_world_pixel_roundtrip_f64`, `C17_camera_plane_not_finite`, `C18_from_normalized_ieee`, `C19_from_normalized_rejects_ieee`, `C24_zero_direction_nan`, `C116_svd_converges`, `C116_svd_backward`, `C117_intersection_total`, `C118_intersection_error`, `C117_intersection_f64`, `C118_intersection_f64`, `C117_intersection_f32`, `C118_intersection_f32`, `C119_triangulation_error`, `C119_triangulation_f64`, `C119_own_pixels_f64`, `C119_triangulation_f32`, `C120_svd_backward`, `C121_intersection_finite`, `C122_triangulation_finite`, `C121_intersection_f64`, `C121_intersection_f32`, `C122_triangulation_f64`, `C122_triangulation_f32`, `C123_roundtrip_pixels_f64`, `C124_matrix_pixels_f64`, `C125_own_pixels_f32`, `C126_own_pixels_both_kinds`, `C127_matrix_triangulation`, `C128_angle_suffices`.

All four are axioms of Coq's standard library: the first three come with the
classical reals (`Coq.Reals`), and `Classical_Prop.classic` is used by Flocq's proofs.
Flocq, Coquelicot and the rest of the installed libraries contribute no axiom.
