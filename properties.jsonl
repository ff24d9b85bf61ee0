{"id": "C01", "title": "Batch conversions never panic and keep the number of rows", "statement": "Every batch operation (world_to_camera, camera_to_world, camera_to_pixel, pixel_to_camera, world_to_pixel, pixel_to_world, ray_camera_to_world, point_on_ray, point_on_ray_at_distance, directions, centers) returns normally, without any out-of-range index, and its output has exactly as many rows as its input.", "quantifier": "every scalar type (exact reals, every IEEE format, NaN and infinities included), every camera, every number of rows including zero", "why_tests_cant": "needs every batch size and every scalar value; tests use 2 to 12288 fixed rows", "anchors": ["src/extrinsics.rs:world_to_camera,camera_to_world", "src/intrinsics_perspective.rs:camera_to_pixel,pixel_to_camera", "src/intrinsics_orthographic.rs:camera_to_pixel,pixel_to_camera", "src/ray_bundle_types.rs:Bundle impls", "src/camera.rs:world_to_pixel,pixel_to_world"]}
{"id": "C02", "title": "Batch conversions treat rows independently and in order", "statement": "Row i of the output of every batch operation depends only on row i of the input (and the camera): splitting a batch in two, converting the halves and stacking the results gives bit for bit the result of converting the whole batch.", "quantifier": "every scalar type including IEEE formats, every camera, every batch and every split point", "why_tests_cant": "a claim over all splits of all batches", "anchors": ["src/extrinsics.rs:world_to_camera,camera_to_world", "src/intrinsics_perspective.rs", "src/intrinsics_orthographic.rs", "src/ray_bundle_types.rs", "src/camera.rs"]}
{"id": "C03", "title": "Extrinsics report the pose they were built from", "statement": "from_rotation_and_camcenter(q, c) has camcenter() = c and pose().rotation = q bit for bit; for a unit q, world_to_camera maps every world point x to Rot(q)(x - c), rotation() is the matrix of q, translation() is -Rot(q) c, and matrix() is the 3x4 block [rotation | translation].", "quantifier": "all unit quaternions, all centers, all points (exact reals); the accessor part for every scalar type", "why_tests_cant": "infinitely many poses; the cached fields must all agree with one another", "anchors": ["src/extrinsics.rs:ExtrinsicParameters::from_rotation_and_camcenter,camcenter,pose,rotation,translation,matrix,world_to_camera"]}
{"id": "C04", "title": "The rotation of a pose is a proper rotation", "statement": "For every unit quaternion, rotation() is orthonormal with determinant +1 and world_to_camera preserves distances, and preserves orientation (triple products).", "quantifier": "all unit quaternions, centers and points (exact reals)", "why_tests_cant": "a universally quantified algebraic law", "anchors": ["src/extrinsics.rs:rotation,world_to_camera"]}
{"id": "C05", "title": "World and camera coordinates are mutually inverse", "statement": "camera_to_world(world_to_camera(x)) = x and world_to_camera(camera_to_world(x)) = x for every batch of points.", "quantifier": "all unit-quaternion poses, all batches (exact reals)", "why_tests_cant": "the tests check one pose and four points", "anchors": ["src/extrinsics.rs:camera_to_world,world_to_camera,cache.pose_inv"]}
{"id": "C06", "title": "The camera center is the origin of the camera frame", "statement": "world_to_camera(camcenter) = 0 and camera_to_world(0) = camcenter; moreover the center is the only point with camera coordinates 0.", "quantifier": "all unit-quaternion poses (exact reals)", "why_tests_cant": "all poses", "anchors": ["src/extrinsics.rs:camcenter,world_to_camera,camera_to_world"]}
{"id": "C07", "title": "from_pose and pose() are inverse", "statement": "from_pose(e.pose()) equals e in every field, and from_pose(p).pose() = p, for every rigid pose.", "quantifier": "all isometries with unit rotation (exact reals)", "why_tests_cant": "tests check one pose", "anchors": ["src/extrinsics.rs:from_pose,pose"]}
{"id": "C08", "title": "q and -q describe the same camera", "statement": "Extrinsics built from q and from -q (same center) convert every batch of points and rays identically and report identical matrix(), rotation(), translation(), forward(), up(), right().", "quantifier": "all quaternions, all centers and batches (exact reals)", "why_tests_cant": "double cover law for all rotations", "anchors": ["src/extrinsics.rs:from_rotation_and_camcenter"]}
{"id": "C09", "title": "forward, right and up are an orthonormal right-handed frame", "statement": "For every pose forward(), right() and up() are unit vectors, mutually orthogonal, with right x forward = up; they are the world directions that camera +z, +x and -y are mapped to.", "quantifier": "all unit-quaternion poses (exact reals)", "why_tests_cant": "all poses", "anchors": ["src/extrinsics.rs:forward,up,right,lookdir"]}
{"id": "C10", "title": "from_view looks at the target", "statement": "For camcenter != lookat and up not parallel to the view direction: camcenter() is the given center bit for bit, forward() is the unit vector from center to lookat, and the lookat point has camera coordinates (0, 0, |lookat - camcenter|). This does not depend on the value used for the roll constant pi.", "quantifier": "all non-degenerate views (exact reals)", "why_tests_cant": "tests check three views", "anchors": ["src/extrinsics.rs:from_view"]}
{"id": "C11", "title": "from_view keeps the requested up direction up", "statement": "With an exact half-turn, right() is orthogonal to the requested up vector, equals the normalized (view x up), and up() has positive dot product with the requested up and lies in the plane spanned by view and up. With the f64 constant pi the frame is rolled by exactly pi - PI_f64 about the view axis, so right() and up() are within 1.3e-16 of the ideal ones.", "quantifier": "all non-degenerate views (exact reals)", "why_tests_cant": "tests check three views", "anchors": ["src/extrinsics.rs:from_view,up,right"]}
{"id": "C12", "title": "from_view with a degenerate view yields NaN, not an error", "statement": "If lookat = camcenter, every component of the rotation quaternion is NaN in IEEE arithmetic although from_view returns normally, and every world point is mapped to NaN camera coordinates.", "quantifier": "every IEEE format, every finite camcenter, every up vector, every value of the trigonometric functions", "why_tests_cant": "all inputs of the degenerate family and all formats", "anchors": ["src/extrinsics.rs:from_view"]}
{"id": "C13", "title": "Perspective projection formula", "statement": "camera_to_pixel maps every camera-frame point with z != 0 to u = fx*x/z + skew*y/z + cx, v = fy*y/z + cy.", "quantifier": "all parameters, all batches with z != 0 (exact reals)", "why_tests_cant": "all parameters and points", "anchors": ["src/intrinsics_perspective.rs:From<PerspectiveParams>,camera_to_pixel"]}
{"id": "C14", "title": "Perspective pixel -> ray -> pixel is the identity", "statement": "If fx, fy != 0, projecting the point on the ray of any pixel (at unit parameter, or at any nonzero distance) gives that pixel back.", "quantifier": "all parameters with fx, fy != 0, all batches of pixels, all nonzero distances (exact reals)", "why_tests_cant": "tests check one camera on a 5-pixel grid at one distance", "anchors": ["src/intrinsics_perspective.rs:pixel_to_camera,camera_to_pixel", "src/ray_bundle_types.rs:point_on_ray,point_on_ray_at_distance"]}
{"id": "C15", "title": "Perspective point -> pixel -> ray passes through the point", "statement": "If fx, fy != 0 and z != 0, the ray returned for the projection of a camera-frame point (x,y,z) starts at the origin and contains the point: (x,y,z) = z * direction; for z > 0 the point is ahead of the camera on that ray.", "quantifier": "all parameters, all points with z != 0 (exact reals)", "why_tests_cant": "all points", "anchors": ["src/intrinsics_perspective.rs:pixel_to_camera,camera_to_pixel"]}
{"id": "C16", "title": "Two points share a pixel exactly when they are on one line through the center", "statement": "With fx, fy != 0 two camera-frame points with nonzero depth have the same perspective projection iff one is a nonzero multiple of the other; in particular points behind the camera project to the same finite pixels as their mirror image and are not rejected.", "quantifier": "all parameters and all pairs of points with z != 0 (exact reals)", "why_tests_cant": "an iff over all pairs of points", "anchors": ["src/intrinsics_perspective.rs:camera_to_pixel"]}
{"id": "C17", "title": "Points in the camera plane give non-finite pixels in IEEE arithmetic", "statement": "For a camera-frame point with z = +0 or -0, camera_to_pixel returns normally and both pixel coordinates are infinite or NaN - never a finite wrong pixel.", "quantifier": "every IEEE format, all parameters, all x and y including NaN and infinities", "why_tests_cant": "all float inputs", "anchors": ["src/intrinsics_perspective.rs:camera_to_pixel"]}
{"id": "C18", "title": "from_normalized_3x4_matrix reads the parameters back", "statement": "On the matrix [[fx,skew,cx,0],[0,fy,cy,0],[0,0,1,0]] the constructor succeeds and returns exactly these parameters, bit for bit; whenever it succeeds the parameters are the five named entries and the projection used is that of the parameters.", "quantifier": "all parameter values (exact reals and every IEEE format)", "why_tests_cant": "all parameter values", "anchors": ["src/intrinsics_perspective.rs:from_normalized_3x4_matrix"]}
{"id": "C19", "title": "from_normalized_3x4_matrix rejects exactly the non-normalized matrices", "statement": "It returns InvalidInput iff one of the six zero entries has absolute value above the machine epsilon, or the (2,2) entry is not within the relative tolerance of 1, or (IEEE) one of these seven entries is NaN or infinite.", "quantifier": "all 3x4 matrices (exact reals; IEEE: every NaN or infinity in a checked entry is rejected)", "why_tests_cant": "all matrices, tests check seven", "anchors": ["src/intrinsics_perspective.rs:from_normalized_3x4_matrix"]}
{"id": "C20", "title": "from_normalized_3x4_matrix does not reject degenerate cameras", "statement": "The documented claim that a matrix that does not represent a perspective camera is rejected is false: a matrix with fx = fy = 0 (no inverse projection) is accepted.", "quantifier": "refutation: there is an accepted matrix with zero focal lengths", "why_tests_cant": "documents a gap between doc comment and code for a whole family of inputs", "anchors": ["src/intrinsics_perspective.rs:from_normalized_3x4_matrix"]}
{"id": "C21", "title": "Orthographic projection formula", "statement": "camera_to_pixel maps (x,y,z) to (sx*x + cx, sy*y + cy) whatever z is; two points have the same pixel iff they agree in x and y (sx, sy != 0).", "quantifier": "all parameters, all batches (exact reals)", "why_tests_cant": "all parameters and points", "anchors": ["src/intrinsics_orthographic.rs:camera_to_pixel"]}
{"id": "C22", "title": "Orthographic round trips", "statement": "With sx, sy != 0 pixel -> ray -> point -> pixel is the identity at unit parameter and at every distance, and the ray of the projection of a point (x,y,z) starts at (x,y,0) and contains the point at signed distance z.", "quantifier": "all parameters with sx, sy != 0, all batches, all distances (exact reals)", "why_tests_cant": "tests check one camera on a grid at one distance", "anchors": ["src/intrinsics_orthographic.rs:pixel_to_camera,camera_to_pixel", "src/ray_bundle_types.rs"]}
{"id": "C23", "title": "Points on rays lie on the rays at the requested distance", "statement": "point_on_ray returns center + direction for each ray; point_on_ray_at_distance(d) returns center + t*direction with t*|direction| = d, so the point is at Euclidean distance |d| from the center and ahead of it for d > 0.", "quantifier": "both bundle types, all bundles with nonzero directions, all distances (exact reals)", "why_tests_cant": "tests check two rays and two distances", "anchors": ["src/ray_bundle_types.rs:point_on_ray,point_on_ray_at_distance"]}
{"id": "C24", "title": "Zero directions give NaN at a distance", "statement": "For a ray with zero direction, point_on_ray_at_distance gives NaN in every component in IEEE arithmetic, for every distance and center, and does not disturb the other rays of the bundle.", "quantifier": "every IEEE format, all centers, distances, and other rays", "why_tests_cant": "all float inputs", "anchors": ["src/ray_bundle_types.rs:point_on_ray_at_distance"]}
{"id": "C25", "title": "Bundle accessors agree", "statement": "centers() and directions() have one row per ray, equal to the shared and the per-ray components, and to_single_ray() of a one-ray bundle equals (row 0 of centers, row 0 of directions).", "quantifier": "both bundle types, every scalar type, all bundles", "why_tests_cant": "all bundles and scalar types", "anchors": ["src/ray_bundle_types.rs:to_single_ray,directions,centers", "src/lib.rs:RayBundle"]}
{"id": "C26", "title": "Moving a ray bundle moves its points", "statement": "For both bundle types, taking points on the rays (unit parameter or any distance) and then camera_to_world gives the same points as ray_camera_to_world and then taking points; direction lengths are preserved.", "quantifier": "both bundle types, all unit-quaternion poses, all bundles with nonzero directions, all distances (exact reals)", "why_tests_cant": "a commuting square over all bundles and poses", "anchors": ["src/extrinsics.rs:ray_camera_to_world", "src/ray_bundle_types.rs:to_pose"]}
{"id": "C27", "title": "Any intrinsic model that round-trips in the camera frame round-trips in a camera", "statement": "For every user-supplied implementation of IntrinsicParameters with either bundle type, if pixels -> rays -> points -> pixels is the identity in the camera frame then pixel_to_world -> point_on_ray -> world_to_pixel is the identity for every pose.", "quantifier": "all implementations of the trait, all unit-quaternion poses, all batches (exact reals)", "why_tests_cant": "quantifies over all implementations of a trait", "anchors": ["src/camera.rs:Camera::world_to_pixel,pixel_to_world", "src/lib.rs:IntrinsicParameters"]}
{"id": "C28", "title": "Camera rays come from the right place", "statement": "pixel_to_world of a perspective camera gives rays whose shared origin is camcenter(); of an orthographic camera, rays whose shared direction is forward() and whose origins lie in the plane through camcenter() orthogonal to forward().", "quantifier": "all cameras with unit-quaternion poses, all pixels (exact reals)", "why_tests_cant": "all cameras", "anchors": ["src/camera.rs:pixel_to_world"]}
{"id": "C29", "title": "Full camera round trips", "statement": "For a perspective camera with fx, fy != 0 (orthographic: sx, sy != 0) world_to_pixel(points on pixel_to_world(px)) = px, at unit parameter and at any nonzero (orthographic: any) distance; conversely every world point in front of the camera lies on the ray of its projection.", "quantifier": "all cameras with unit-quaternion poses, all pixels, all distances (exact reals)", "why_tests_cant": "tests check one pose", "anchors": ["src/camera.rs:world_to_pixel,pixel_to_world"]}
{"id": "C30", "title": "as_camera_matrix models the camera", "statement": "If the world origin is not in the camera plane, as_camera_matrix() is normalized (entry (2,3) is 1) and its homogeneous projection of every world point off the camera plane equals world_to_pixel.", "quantifier": "all perspective cameras with unit-quaternion pose and nonzero translation z, all points of nonzero depth (exact reals)", "why_tests_cant": "tests check one camera and two points", "anchors": ["src/camera.rs:as_camera_matrix"]}
{"id": "C31", "title": "as_camera_matrix fails when the world origin is in the camera plane", "statement": "If the origin of world coordinates has camera depth zero (for example the camera center is the world origin) as_camera_matrix() has a NaN entry (2,3) in IEEE arithmetic, whatever the intrinsics - the unconditional reading of its documentation is false.", "quantifier": "every IEEE format, all intrinsic parameters, all rotations (finite) with the camera at the world origin", "why_tests_cant": "a whole family of cameras", "anchors": ["src/camera.rs:as_camera_matrix"]}
{"id": "C32", "title": "The sign flip in as_camera_matrix has no effect", "statement": "Normalizing by entry (2,3) cancels the sign flip: the result equals K[R|t] / t_z with or without the flip.", "quantifier": "all cameras with nonzero translation z (exact reals)", "why_tests_cant": "all cameras", "anchors": ["src/camera.rs:as_camera_matrix", "src/linearize.rs:JacobianPerspectiveCache::new"]}
{"id": "C33", "title": "from_perspective_matrix models the given matrix", "statement": "For every 3x4 matrix with invertible left 3x3 block the constructed camera projects every world point with nonzero projective depth to the same pixel as the matrix, has fx > 0, fy > 0 and a unit rotation quaternion.", "quantifier": "all 3x4 real matrices with invertible left block, all points (exact reals, Householder QR as in nalgebra)", "why_tests_cant": "tests check two matrices", "anchors": ["src/camera.rs:from_perspective_matrix,rq,rq_decomposition,pmat2cam_center"]}
{"id": "C34", "title": "from_perspective_matrix inverts as_camera_matrix", "statement": "For a camera with fx, fy > 0 and nonzero translation z, from_perspective_matrix(as_camera_matrix(cam)) has the same fx, fy, skew, cx, cy, the same center and the same rotation matrix.", "quantifier": "all such cameras (exact reals)", "why_tests_cant": "tests compare two points of one camera", "anchors": ["src/camera.rs:from_perspective_matrix,as_camera_matrix"]}
{"id": "C35", "title": "The camera center of a projection matrix", "statement": "The center computed for P is the unique point X with P [X;1] = 0.", "quantifier": "all 3x4 matrices with invertible left block (exact reals)", "why_tests_cant": "all matrices", "anchors": ["src/camera.rs:pmat2cam_center"]}
{"id": "C36", "title": "from_perspective_matrix never reports an error", "statement": "It returns Ok for every matrix, of any scalar type, including singular and NaN matrices; the documented error variants are unreachable.", "quantifier": "every scalar type, every matrix", "why_tests_cant": "all inputs", "anchors": ["src/camera.rs:from_perspective_matrix,rq_decomposition"]}
{"id": "C37", "title": "The RQ decomposition is one", "statement": "For every 3x3 matrix, rq returns an upper triangular R with nonnegative diagonal and an orthogonal Q with A = R Q, including rank deficient input; the sign flipping loop of rq_decomposition never changes anything, and rq_decomposition of an invertible matrix gives a rotation.", "quantifier": "all real 3x3 matrices (exact reals)", "why_tests_cant": "all matrices", "anchors": ["src/camera.rs:rq,rq_decomposition"]}
{"id": "C38", "title": "Fewer than two rays are rejected", "statement": "best_intersection_of_rays returns MinimumTwoRaysNeeded iff fewer than two rays are given; the only other error is SvdFailed, exactly when the SVD iteration does not converge; it never panics.", "quantifier": "every scalar type, every list of rays, every behaviour of the SVD routine that returns the factors asked for", "why_tests_cant": "all lists and all SVD behaviours", "anchors": ["src/ray_intersection.rs:best_intersection_of_rays,my_pinv"]}
{"id": "C39", "title": "Best intersection is the least squares point", "statement": "If no direction is nearly parallel to all rays (every unit v has sum of squared sines above the cutoff 1e-7) the result is the unique point minimizing the sum of squared distances to the lines of the rays.", "quantifier": "all lists of at least two rays with nonzero directions satisfying the condition, every valid SVD (exact reals)", "why_tests_cant": "an optimality claim over all points of space", "anchors": ["src/ray_intersection.rs:best_intersection_of_rays"]}
{"id": "C40", "title": "Two sufficiently non-parallel rays suffice", "statement": "If two of the rays have unit directions with |cos| < 1 - 1e-7, the condition of the least squares property holds, however many further rays are given.", "quantifier": "all lists of rays (exact reals)", "why_tests_cant": "all lists of rays", "anchors": ["src/ray_intersection.rs:best_intersection_of_rays"]}
{"id": "C41", "title": "Rays through one point intersect there", "statement": "If all lines pass through X and two of them are sufficiently non-parallel, the result is X.", "quantifier": "all such lists of rays (exact reals)", "why_tests_cant": "all lists of rays", "anchors": ["src/ray_intersection.rs:best_intersection_of_rays"]}
{"id": "C42", "title": "Nearly parallel rays are silently mis-triangulated", "statement": "There are two non-parallel rays meeting in exactly one point for which the function returns Ok with a different point, for every valid SVD, because singular values below 1e-7 are dropped: the unconditional claim that intersecting rays give their intersection is false.", "quantifier": "refutation by a family of witnesses, for every valid SVD (exact reals)", "why_tests_cant": "a statement about every SVD behaviour", "anchors": ["src/ray_intersection.rs:my_pinv"]}
{"id": "C43", "title": "Parallel rays give a least squares point and no error", "statement": "For parallel rays the result is Ok and is a minimizer of the sum of squared distances, namely the one closest to the world origin.", "quantifier": "all lists of parallel rays, every valid SVD (exact reals)", "why_tests_cant": "all lists", "anchors": ["src/ray_intersection.rs:best_intersection_of_rays"]}
{"id": "C44", "title": "The result depends only on the lines", "statement": "Permuting the rays, rescaling or reversing directions by nonzero factors, and sliding centers along their rays do not change the result.", "quantifier": "all well-conditioned lists of rays (exact reals)", "why_tests_cant": "all permutations and rescalings", "anchors": ["src/ray_intersection.rs:best_intersection_of_rays"]}
{"id": "C45", "title": "Intersection commutes with rigid motion", "statement": "Moving all rays by a rigid motion moves the result by the same motion (for well-conditioned lists).", "quantifier": "all well-conditioned lists, all rigid motions (exact reals)", "why_tests_cant": "all motions", "anchors": ["src/ray_intersection.rs:best_intersection_of_rays"]}
{"id": "C46", "title": "Triangulation recovers the observed point", "statement": "A world point seen by several perspective cameras with sufficiently different viewing directions is recovered exactly by projecting it to pixels in each camera, back-projecting to rays, and intersecting the rays.", "quantifier": "all lists of perspective cameras, all points with nonzero depth in each (exact reals)", "why_tests_cant": "the test checks two cameras and one point", "anchors": ["src/ray_intersection.rs:tests::roundtrip", "src/camera.rs"]}
{"id": "C47", "title": "The Jacobian is the derivative of the projection", "statement": "linearize_at(p) is the Frechet derivative of world_to_pixel at p, with the exact remainder F(p+o) - F(p) = (d(p)/d(p+o)) * A o where d is the depth; in particular each entry is the partial derivative.", "quantifier": "all perspective cameras with nonzero translation z, all points and offsets of nonzero depth (exact reals)", "why_tests_cant": "a limit statement; the test checks one point with tolerance 1e-4", "anchors": ["src/linearize.rs:JacobianPerspectiveCache::new,linearize_at"]}
{"id": "C48", "title": "The Jacobian is NaN when the world origin is in the camera plane", "statement": "For a camera located at the world origin every entry of linearize_at is NaN in IEEE arithmetic for every point, although the projection itself is well defined and differentiable there.", "quantifier": "every IEEE format, all finite intrinsics and rotations, all points", "why_tests_cant": "a whole family of cameras", "anchors": ["src/linearize.rs:JacobianPerspectiveCache::new,linearize_at"]}
{"id": "C49", "title": "Serialization of cameras round-trips", "statement": "Deserializing the serialized form of an ExtrinsicParameters, IntrinsicParametersPerspective, IntrinsicParametersOrthographic or Camera gives back the same value in every field, including the recomputed caches; both map and sequence encodings and any order of the map entries are accepted.", "quantifier": "all values constructible through the API, every scalar type, every entry order", "why_tests_cant": "all values", "anchors": ["src/extrinsics.rs:Deserialize", "src/intrinsics_perspective.rs:Deserialize", "src/intrinsics_orthographic.rs", "src/camera.rs"]}
{"id": "C50", "title": "Malformed extrinsics and intrinsics are rejected", "statement": "Hand-written deserializers reject inputs with a missing, duplicated or unknown field and accept everything else well-typed.", "quantifier": "all field lists", "why_tests_cant": "all inputs", "anchors": ["src/extrinsics.rs:visit_map,visit_seq", "src/intrinsics_perspective.rs:visit_map,visit_seq"]}
{"id": "C51", "title": "Deserialization does not check that the quaternion is unit", "statement": "There is an accepted serialized ExtrinsicParameters whose world_to_camera does not preserve distances: deserialization does not establish the unit-quaternion invariant.", "quantifier": "refutation with a witness", "why_tests_cant": "documents an unenforced invariant", "anchors": ["src/extrinsics.rs:Deserialize"]}
{"id": "C52", "title": "Serialization of ray bundles round-trips", "statement": "A RayBundle of any number of rays and either bundle type round-trips through its serialized (column-major) form.", "quantifier": "all bundles, every scalar type", "why_tests_cant": "all sizes", "anchors": ["src/lib.rs:RayBundle derive", "src/ray_bundle_types.rs"]}
{"id": "C53", "title": "The test grid enumerates exactly the requested pixels", "statement": "generate_uv_raw(width,height,step,border) lists, row by row, exactly the pixels (border + i*step, border + j*step) with coordinates below width-border and height-border, each once; it panics iff border exceeds width (when at least one row is visited) or height, for positive step.", "quantifier": "all usize arguments with step > 0", "why_tests_cant": "all sizes; overflow behaviour near usize::MAX", "anchors": ["src/intrinsic_test_utils.rs:generate_uv_raw"]}
{"id": "C54", "title": "roundtrip_intrinsics succeeds for both camera models", "statement": "For every perspective (fx, fy != 0) and orthographic (sx, sy != 0) model, every grid and every eps >= 0 the public test helper does not panic (exact arithmetic).", "quantifier": "all models, all grids, all eps >= 0 (exact reals)", "why_tests_cant": "all models and grids", "anchors": ["src/intrinsic_test_utils.rs:roundtrip_intrinsics"]}
{"id": "C55", "title": "Orthographic round trip in double precision", "statement": "In IEEE arithmetic with round to nearest the pixel -> ray -> point -> pixel round trip of an orthographic camera changes each coordinate by at most a few units of roundoff: below 1e-10 for pixel coordinates and centers up to 10000 and scales between 1e-3 and 1e6 in f64.", "quantifier": "all f64 inputs in the stated ranges", "why_tests_cant": "more than 2^100 inputs", "anchors": ["src/intrinsics_orthographic.rs:pixel_to_camera,camera_to_pixel", "src/ray_bundle_types.rs:point_on_ray"]}
{"id": "C56", "title": "Perspective round trip in double precision", "statement": "Same as the orthographic claim for the perspective camera with bounded skew.", "quantifier": "all f64 inputs in the stated ranges", "why_tests_cant": "more than 2^100 inputs", "anchors": ["src/intrinsics_perspective.rs:pixel_to_camera,camera_to_pixel", "src/ray_bundle_types.rs:point_on_ray"]}
{"id": "C57", "title": "The example SVG writer keeps the drawing inside the canvas", "statement": "For a set of edges whose bounding box is not degenerate, every drawn endpoint is inside [5,295]x[5,195] and the aspect ratio of the drawing is preserved.", "quantifier": "all sets of edges with nondegenerate bounding box (exact reals)", "why_tests_cant": "all drawings", "anchors": ["examples/render-cube.rs:SvgWriter::add_edge,save"]}
{"id": "C58", "title": "Looking along the up axis silently gives NaN", "statement": "If the view direction and the up vector lie along the same coordinate axis (for example a camera looking straight down with up = +z), from_view returns normally but every component of the rotation quaternion is NaN in IEEE arithmetic and every world point is mapped to NaN.", "quantifier": "every pair of points differing in one coordinate only, every up vector along that axis, every IEEE format, every sin/cos", "why_tests_cant": "all positions along the axis and all float formats; the result is a NaN object rather than a panic, so nothing fails at construction", "anchors": ["src/extrinsics.rs:111-126"]}
{"id": "C59", "title": "as_camera_matrix inverts from_perspective_matrix", "statement": "For every 3x4 matrix P with invertible left block and nonzero last entry, as_camera_matrix of the camera made from P is P divided by its last entry.", "quantifier": "all such real matrices (exact reals)", "why_tests_cant": "all matrices", "anchors": ["src/camera.rs:from_perspective_matrix,as_camera_matrix"]}
{"id": "C60", "title": "from_perspective_matrix ignores the scale of the matrix", "statement": "P and s*P give cameras with the same intrinsic parameters, the same center and the same rotation matrix for every nonzero s, negative ones included.", "quantifier": "all real 3x4 matrices with invertible left block, all nonzero scales (exact reals)", "why_tests_cant": "all matrices and scales", "anchors": ["src/camera.rs:from_perspective_matrix,rq_decomposition"]}
{"id": "C61", "title": "The Jacobian does not need the normalized matrix", "statement": "The formulas of linearize_at applied to the plain matrix K[R|t] give the derivative of world_to_pixel for every camera, also when the world origin is in the camera plane.", "quantifier": "all perspective cameras with unit-quaternion pose, all points of nonzero depth (exact reals)", "why_tests_cant": "a limit statement over all cameras", "anchors": ["src/linearize.rs:JacobianPerspectiveCache::new,linearize_at"]}
{"id": "C62", "title": "The assumption on the SVD routine can be met", "statement": "Every symmetric 3x3 matrix has a singular value decomposition; for every list of rays there is a sound SVD routine which does not fail on it, so the intersection properties are not vacuous.", "quantifier": "all lists of rays (exact reals)", "why_tests_cant": "existence for all inputs", "anchors": ["src/ray_intersection.rs:my_pinv"]}
{"id": "C63", "title": "roundtrip_camera succeeds for both camera models", "statement": "For every pose (unit quaternion) and every perspective (fx, fy != 0) or orthographic (sx, sy != 0) camera the helper roundtrip_camera returns normally exactly when the grid generator does, for every eps >= 0 (exact arithmetic).", "quantifier": "all cameras, grids, eps >= 0 (exact reals)", "why_tests_cant": "all cameras and grids", "anchors": ["src/camera.rs:roundtrip_camera"]}
{"id": "C64", "title": "The public test helper detects every error above eps", "statement": "roundtrip_intrinsics returns normally exactly when every coordinate of every grid pixel comes back within eps, for any scalar type and any intrinsic model that keeps the number of points.", "quantifier": "all implementations of IntrinsicParameters, all scalar types, all grids", "why_tests_cant": "all implementations", "anchors": ["src/intrinsic_test_utils.rs:roundtrip_intrinsics"]}
{"id": "C65", "title": "The wireframe example panics exactly on a missing vertex", "statement": "For every list of vertices, list of edges, perspective or orthographic camera and scalar type, rendering a wireframe panics exactly when an edge names a vertex index outside the list; otherwise each drawn segment joins the projections of the two named vertices, in the order of the edges.", "quantifier": "all vertices, edges, cameras, scalar types", "why_tests_cant": "all inputs", "anchors": ["examples/render-cube.rs:render_wireframe"]}
{"id": "C66", "title": "The public round-trip helper succeeds in IEEE arithmetic", "statement": "In any IEEE binary format with at least 5 bits of precision, test_utils::roundtrip_intrinsics succeeds for orthographic and perspective cameras whose parameters and pixels are in stated ranges, provided the tolerance is at least 8 (orthographic) or 24 (perspective) units of roundoff times the largest pixel coordinate.", "quantifier": "all image sizes, steps, borders, parameters in range, IEEE formats", "why_tests_cant": "all parameters and formats", "anchors": ["src/intrinsic_test_utils.rs:roundtrip_intrinsics"]}
{"id": "C67", "title": "World to camera error in IEEE arithmetic", "statement": "In any IEEE binary format with at least 11 bits, if the stored quaternion is within 8 units of roundoff of a unit quaternion and coordinates are at most M, world_to_camera returns points within 610 u M of the exact rigid motion.", "quantifier": "all formats, quaternions, centers, points in range", "why_tests_cant": "all floating point inputs", "anchors": ["src/extrinsics.rs:world_to_camera"]}
{"id": "C68", "title": "Camera to world error in IEEE arithmetic", "statement": "Under the same hypotheses camera_to_world returns points within 1500 u M of the exact inverse motion.", "quantifier": "all formats, quaternions, centers, points in range", "why_tests_cant": "all floating point inputs", "anchors": ["src/extrinsics.rs:camera_to_world"]}
{"id": "C69", "title": "World-camera round trips in IEEE arithmetic", "statement": "World to camera to world comes back within 4000 u M, camera to world to camera within 4500 u M.", "quantifier": "all formats, quaternions, centers, points in range", "why_tests_cant": "all floating point inputs", "anchors": ["src/extrinsics.rs:world_to_camera", "src/extrinsics.rs:camera_to_world"]}
{"id": "C70", "title": "World to pixel error in IEEE arithmetic", "statement": "For points at depth at least d, world_to_pixel of a perspective camera is within 2600 u P M/d of the exact pinhole image; for an orthographic camera within 800 u P M of the exact parallel projection.", "quantifier": "all formats, cameras and points in range", "why_tests_cant": "all floating point inputs", "anchors": ["src/camera.rs:world_to_pixel"]}
{"id": "C71", "title": "Pixel to world to pixel error in IEEE arithmetic", "statement": "A pixel mapped to its world ray, to the point of the ray, and back to a pixel returns within 21000 u P M (perspective) or 7000 u P M (orthographic).", "quantifier": "all formats, cameras and pixels in range", "why_tests_cant": "all floating point inputs", "anchors": ["src/camera.rs:pixel_to_world", "src/camera.rs:world_to_pixel"]}
{"id": "C72", "title": "The whole-camera round-trip helper succeeds in IEEE arithmetic", "statement": "roundtrip_camera returns normally for cameras in the stated ranges when the tolerance is at least the error of C71.", "quantifier": "all formats, cameras and grids in range", "why_tests_cant": "all floating point inputs", "anchors": ["src/camera.rs:roundtrip_camera"]}
{"id": "C73", "title": "Optical axis and principal point", "statement": "A point with nonzero depth is seen at the principal point exactly when it lies on the optical axis; from_view shows the line from the camera through its target there. Perspective and orthographic.", "quantifier": "all poses, intrinsics and points", "why_tests_cant": "all real inputs", "anchors": ["src/camera.rs:world_to_pixel", "src/extrinsics.rs:forward", "src/extrinsics.rs:from_view"]}
{"id": "C74", "title": "Segments are seen as segments", "statement": "The image of a segment whose ends are in front of the camera is the segment between the images of its ends, in both directions; refuted for an end behind the camera; for orthographic cameras the division ratio is kept.", "quantifier": "all poses, intrinsics and segments", "why_tests_cant": "all real inputs", "anchors": ["src/camera.rs:world_to_pixel"]}
{"id": "C75", "title": "The visible region is convex", "statement": "If two points are in front of the camera and inside a pixel rectangle, so is every point between them.", "quantifier": "all poses, intrinsics, rectangles and points", "why_tests_cant": "all real inputs", "anchors": ["src/camera.rs:world_to_pixel"]}
{"id": "C76", "title": "Homographies", "statement": "Two perspective cameras with one center see every scene related by one invertible 3x3 matrix on homogeneous pixels, with the stated determinant; two cameras see the points of a plane so related.", "quantifier": "all camera pairs and points", "why_tests_cant": "all real inputs", "anchors": ["src/camera.rs:world_to_pixel"]}
{"id": "C77", "title": "Epipolar constraint", "statement": "For two perspective cameras there is a singular 3x3 matrix F, zero only if the centers coincide, with p2.F p1 = 0 for the images of any point; two pixels satisfy it exactly when the lines of their rays meet (if these are not parallel).", "quantifier": "all camera pairs, points and pixels", "why_tests_cant": "all real inputs", "anchors": ["src/camera.rs:world_to_pixel", "src/camera.rs:pixel_to_world"]}
{"id": "C78", "title": "Moved and scaled scenes", "statement": "Moving camera and scene by one rigid motion changes no pixel for any intrinsics and moves the rays; scaling both changes no perspective pixel and rescales orthographic ones.", "quantifier": "all poses, motions, intrinsics and points", "why_tests_cant": "all real inputs", "anchors": ["src/camera.rs:world_to_pixel", "src/camera.rs:pixel_to_world"]}
{"id": "C79", "title": "Right and up in the image", "statement": "Moving a point along right/up changes its pixel by +fx/depth in x and -fy/depth in y (and -skew/depth in x for up), keeping its depth, which is the dot product of its offset with forward.", "quantifier": "all poses, intrinsics, points and moves", "why_tests_cant": "all real inputs", "anchors": ["src/extrinsics.rs:right", "src/extrinsics.rs:up", "src/camera.rs:world_to_pixel"]}
{"id": "C80", "title": "Rays lead forward", "statement": "The points of the rays of perspective pixels have depth 1, and at positive (negative) distance they lie in front of (behind) the camera, never deeper than the distance.", "quantifier": "all poses, intrinsics, pixels and distances", "why_tests_cant": "all real inputs", "anchors": ["src/camera.rs:pixel_to_world", "src/lib.rs:point_on_ray_at_distance"]}
{"id": "C81", "title": "Vanishing points", "statement": "The pixels of points moving to infinity along a line not parallel to the image plane converge to the pixel of the direction of the line.", "quantifier": "all poses, intrinsics and lines", "why_tests_cant": "all real inputs", "anchors": ["src/camera.rs:world_to_pixel"]}
{"id": "C82", "title": "Images determine the camera", "statement": "Two perspective cameras with positive focal lengths which show the points of some ball at the same pixels have the same intrinsics, centre and rotation. Two orthographic cameras do so exactly when, up to a shift along their common axis, they are the same.", "quantifier": "all poses, intrinsics and balls", "why_tests_cant": "all real inputs", "anchors": ["src/camera.rs:world_to_pixel"]}
{"id": "C83", "title": "Same camera exactly for proportional matrices", "statement": "Two 3x4 matrices with invertible left part give the same camera exactly when one is a non-zero multiple of the other.", "quantifier": "all pairs of matrices", "why_tests_cant": "all real inputs", "anchors": ["src/camera.rs:from_perspective_matrix"]}
{"id": "C84", "title": "Triangulation with perspective and orthographic cameras", "statement": "The rays along which any mixture of perspective and orthographic cameras sees a point intersect in it.", "quantifier": "all points and finite sets of cameras in a well conditioned position", "why_tests_cant": "unbounded number of cameras", "anchors": ["src/camera.rs:world_to_pixel", "src/camera.rs:pixel_to_world", "src/ray_intersection.rs:best_intersection_of_rays"]}
{"id": "C85", "title": "Two rays meet in the middle of their common perpendicular", "statement": "For two rays which are not nearly parallel the result is the middle of the common perpendicular of the lines.", "quantifier": "all pairs of rays", "why_tests_cant": "all real inputs", "anchors": ["src/ray_intersection.rs:best_intersection_of_rays"]}
{"id": "C86", "title": "Triangulation is stable", "statement": "Rays which pass a point within distance e give a result within e*sqrt(n/lambda) of it, lambda measuring the spread of the directions; pixel errors move the result by a bounded amount.", "quantifier": "all rays, points and pixel errors", "why_tests_cant": "unbounded number of rays, all real inputs", "anchors": ["src/ray_intersection.rs:best_intersection_of_rays"]}
{"id": "C87", "title": "Effect of an inexact SVD", "statement": "If the singular value decomposition belongs to a matrix within eta of the right one, the result is off by at most eta/(lambda-eta) times the distance of the point from the origin.", "quantifier": "all rays, all inexact SVD routines", "why_tests_cant": "all real inputs", "anchors": ["src/ray_intersection.rs:best_intersection_of_rays"]}
{"id": "C88", "title": "Scaling the scene", "statement": "Scaling the centers of the rays scales the result and leaves the errors as they are, whatever the SVD returns.", "quantifier": "all rays, factors and SVD routines", "why_tests_cant": "all real inputs", "anchors": ["src/ray_intersection.rs:best_intersection_of_rays"]}
{"id": "C89", "title": "Accuracy of points at a distance", "statement": "In IEEE arithmetic point_on_ray_at_distance returns, for both kinds of ray bundle, points within 9 units of roundoff times the size of center and distance of the exact points, whatever the length of the directions (within the stated range).", "quantifier": "all IEEE formats, bundles, distances and directions in range", "why_tests_cant": "rounding depends on every bit of the input", "anchors": ["src/ray_bundle_types.rs:point_on_ray_at_distance"]}
{"id": "C90", "title": "Points at a distance along extreme directions", "statement": "If the square of a coordinate of the direction overflows, point_on_ray_at_distance returns the center for every finite distance; if the squares of all coordinates underflow to zero, no coordinate of the result is finite.", "quantifier": "all IEEE formats, all such directions and distances", "why_tests_cant": "special values of floating point arithmetic", "anchors": ["src/ray_bundle_types.rs:point_on_ray_at_distance"]}
{"id": "C91", "title": "Error of the intersection of rays in floating point", "statement": "For rays in single or double precision (or any format between), with directions of length in [2^-E, 2^E], centers bounded by M, and an SVD routine whose factors are within kappa*2^-53 of orthogonal matrices and whose product is within eta of its argument, best_intersection_of_rays returns one finite point whose distance from the exact least squares point of the same rays is bounded by an explicit formula in the number of rays, M, the unit roundoffs, eta, kappa and the spread of the directions. The conversions between f32 and f64 meet the hypotheses.", "quantifier": "all lists of at least 2 rays, all M, E, eta, kappa, spread with the stated ranges, all formats with 24 to 53 bits", "why_tests_cant": "the exact least squares point is not computable in floating point, and the bound is over all inputs", "anchors": ["src/ray_intersection.rs:best_intersection_of_rays", "src/ray_intersection.rs:my_pinv"]}
{"id": "C92", "title": "Equality of values is a partial equivalence", "statement": "The == of extrinsics, both intrinsics, cameras, bundle types and ray bundles is symmetric and transitive for IEEE numbers, including the comparison of unit quaternions which accepts opposite coordinates, and a value equals itself exactly when none of the numbers it stores (also in its cache) is NaN.", "quantifier": "all values of the types, all formats", "why_tests_cant": "the disjunction in the comparison of quaternions could break transitivity for particular triples; NaN in a cache is not visible from outside", "anchors": ["src/extrinsics.rs:ExtrinsicParameters", "src/intrinsics_perspective.rs:IntrinsicParametersPerspective", "src/camera.rs:Camera", "src/lib.rs:RayBundle"]}
{"id": "C93", "title": "Equal extrinsics are equal poses", "statement": "In IEEE arithmetic two extrinsics built by from_rotation_and_camcenter compare equal exactly when the centers are the same numbers, the quaternions have the same or opposite coordinates, and no NaN is stored: the cache adds nothing to the comparison. With exact numbers and unit quaternions they compare equal exactly when they transform every point alike.", "quantifier": "all quaternions and centers", "why_tests_cant": "the caches of q and -q are computed separately, whether they always agree is a statement about all of them", "anchors": ["src/extrinsics.rs:ExtrinsicParameters", "src/extrinsics.rs:from_rotation_and_camcenter"]}
{"id": "C94", "title": "Equal cameras behave alike", "statement": "Extrinsics which compare equal transform every point to the same numbers in both directions (up to the sign of zeros), and perspective cameras which compare equal project every point to the same pixels unless its depth is zero, in IEEE arithmetic.", "quantifier": "all pairs of equal values, all points", "why_tests_cant": "Equal values need not be identical; a computation could tell q from -q or 0 from -0", "anchors": ["src/extrinsics.rs:world_to_camera", "src/extrinsics.rs:camera_to_world", "src/camera.rs:world_to_pixel"]}
{"id": "C95", "title": "The examples print what the documentation says", "statement": "The program 3d-to-2d prints exactly the documented pixels (640,480) and (650,480) in double precision if the sine and cosine at pi/2 are correctly rounded; ray-intersect prints (1,1,0) for every sound SVD; the text of an error identifies the error.", "quantifier": "all SVD routines, all sine and cosine functions with the stated values", "why_tests_cant": "the documentation is not compared with the output, and the SVD and sine are external", "anchors": ["examples/3d-to-2d.rs:main", "examples/ray-intersect.rs:main", "src/lib.rs:Error"]}
{"id": "C96", "title": "render-cube draws a cube", "statement": "The vertices of render-cube are the eight points (+-1,+-1,+-1), and two are joined by one of its twelve edges exactly when they are at distance 2. The program does not panic; all vertices are in front of the camera; its two files show the edges by the central and the parallel projection of their ends, scaled alike in x and y into the canvas less its border. In double precision both files have twelve lines inside the canvas if sine and cosine are correctly rounded at pi/2.", "quantifier": "all vertices and edges of the example program; all sine and cosine functions with the stated values", "why_tests_cant": "nobody looks at the picture in a test; a wrong edge still draws a line", "anchors": ["examples/render-cube.rs:main", "examples/render-cube.rs:get_perspective_cam", "examples/render-cube.rs:get_ortho_cam", "examples/render-cube.rs:render_wireframe"]}
{"id": "C97", "title": "Accuracy of from_view", "statement": "In IEEE arithmetic with unit roundoff u the rotation stored by from_view is within 1000 u / s in every quaternion component of the exact rotation which takes the view direction to +z, its normal to +x and the perpendicular part of the up vector to -y, where s bounds the sine of the angle between up vector and view direction from below. In double precision, with s = 1/10 and coordinates up to 1000, within 2e-12.", "quantifier": "all IEEE formats with at least 14 bits, all centers, targets and up vectors in range, all sine and cosine functions accurate at half of pi", "why_tests_cant": "tests look at a few round viewpoints with a tolerance; the conversion from matrix to quaternion has four branches, chosen by rounded comparisons", "anchors": ["src/extrinsics.rs:from_view"]}
{"id": "C98", "title": "Accuracy of the reported directions", "statement": "In IEEE arithmetic forward(), right() and up() of a stored pose whose quaternion is within 8 w of a unit quaternion are within 2600 w M of the exact directions, M bounding the center; for from_view they are within 325000 (u/s) M of the requested directions. In double precision within 4e-7 for coordinates up to 1000.", "quantifier": "all IEEE formats with at least 14 bits, all poses in range", "why_tests_cant": "the difference of two points close to the center cancels, and the error grows with the distance of the center from the origin", "anchors": ["src/extrinsics.rs:forward", "src/extrinsics.rs:right", "src/extrinsics.rs:up", "src/extrinsics.rs:lookdir", "src/extrinsics.rs:from_view"]}
{"id": "C99", "title": "A target is seen at the principal point in IEEE arithmetic", "statement": "world_to_pixel of the target of from_view is within 325000 (u/s) P M/d of the principal point for perspective cameras, d the distance of the target, and within 100000 (u/s) P M of the center for orthographic ones. In double precision, for coordinates up to 1000, parameters up to 10000, distance 1 or more, within 4/1000 pixel.", "quantifier": "all IEEE formats with at least 14 bits, all cameras in range", "why_tests_cant": "end to end rounding error of construction and projection", "anchors": ["src/extrinsics.rs:from_view", "src/camera.rs:world_to_pixel"]}
{"id": "C100", "title": "Accuracy of the camera matrix", "statement": "In IEEE arithmetic the sign flip of as_camera_matrix has no effect for any camera, NaN and infinities included. With parameters up to P, coordinates up to M and the world origin at a depth of absolute value at least d0 the entries of the left part are within 1300 u (P/d0)(M/d0) of K[R|t]/t_z, those of the last column within 3100 u P (M/d0)^2, and the last entry is exactly 1. In double precision with P = 10000, M = 100, d0 = 1: within 2e-7 and 4e-5.", "quantifier": "all IEEE formats with at least 11 bits, all cameras in range; the sign flip for all cameras", "why_tests_cant": "all floating point inputs; the tests compare one camera with a tolerance", "anchors": ["src/camera.rs:as_camera_matrix", "src/linearize.rs:JacobianPerspectiveCache::new"]}
{"id": "C101", "title": "Accuracy of the Jacobian", "statement": "In IEEE arithmetic every entry of linearize_at is within 7000 u (P/d)(M/d) of the partial derivative of the exact projection, for points at a depth of absolute value at least d. Beyond the requirement that it exceeds the rounding error, the depth of the world origin, by which the cached matrix is divided, does not matter. In double precision with P = 10000, M = 100, d = 1: within 8e-7 pixels per unit of length.", "quantifier": "all IEEE formats with at least 11 bits, all cameras and points in range", "why_tests_cant": "the unit test compares one prediction of the linearized camera with a tolerance of 1e-4", "anchors": ["src/linearize.rs:linearize_at", "src/linearize.rs:JacobianPerspectiveCache::new"]}
{"id": "C102", "title": "Accuracy of the rays of pixels", "statement": "In IEEE arithmetic with unit roundoff u, the world rays reported for pixels by a camera of position at most M and parameters at most P start within 1461 u M of the camera center and have a direction within 302 u M of the line of sight of a point which projects within 13.2 u P of the given pixel (perspective); for an orthographic camera the direction is within 302 u of the viewing direction and the start within 1461 u M of a point of the image plane which projects within 4.1 u P of the pixel.", "quantifier": "all IEEE formats with at least 11 bits, all cameras and pixels in range", "why_tests_cant": "tests compare a few pixels of a few cameras", "anchors": ["src/camera.rs:pixel_to_world", "src/intrinsics_perspective.rs:pixel_to_camera", "src/intrinsics_orthographic.rs:pixel_to_camera", "src/extrinsics.rs:ray_camera_to_world"]}
{"id": "C103", "title": "The ray of a slightly wrong pixel passes close to the point", "statement": "In IEEE arithmetic, if a camera sees X at a pixel off by eps then the world ray which the program reports for this pixel passes X within 2600 u M + Z s and is tilted against the true line of sight by an angle of sine at most s, with s = 3.5 (eps + 13.2 u P)/f + 530 u M, f the smallest focal length and Z the depth.", "quantifier": "all IEEE formats, all cameras, points and pixels in range", "why_tests_cant": "a statement about all perturbations of pixels", "anchors": ["src/camera.rs:pixel_to_world"]}
{"id": "C104", "title": "Accuracy of triangulation, from pixels to the point", "statement": "In IEEE arithmetic, when cameras report X at pixels off by at most eps and the true lines of sight are spread by lam, the intersection computed from the reported rays is a finite point whose distance from X is bounded by an explicit expression in eps, u, the sizes, lam and the accuracy of the SVD routine. In double precision with centers up to 100, focal lengths from 500, parameters and pixels up to 10000, lam at least 1/5 and up to 10 cameras: within 0.06 Z eps + 1e-8 Z + (1e-11 + 6 eta) |X|, where eta is the accuracy of the SVD routine. A point projected by the program itself and triangulated from these pixels comes back within 1e-5 + 6 eta |X|.", "quantifier": "all cameras (perspective, orthographic, mixed), points, pixels in range, all SVD routines of the stated accuracy", "why_tests_cant": "the doc example triangulates one point from two cameras", "anchors": ["src/ray_intersection.rs:best_intersection_of_rays", "src/camera.rs:pixel_to_world", "src/camera.rs:world_to_pixel"]}
{"id": "C105", "title": "The singular value decomposition converges and is backward stable", "statement": "nalgebra's decomposition of a 3x3 matrix, with the tolerance eps the code passes, does not panic; with a tolerance of at least 1e-16 and at least 29 iterations it converges for every matrix. U and V are orthogonal, the singular values are not negative, and U diag(s) V is within 8 sqrt(eps) |m| of the matrix, and within 13 eps |m|^2 / lambda when no vector is shortened below the factor lambda.", "quantifier": "all real 3x3 matrices, tolerances and iteration limits", "why_tests_cant": "The iteration has data dependent branches (deflation, shifts, unrotated blocks); tests see matrices on which it behaves well.", "anchors": ["src/ray_intersection.rs: my_pinv", "nalgebra: SVD::try_new"]}
{"id": "C106", "title": "Intersection of rays with the actual decomposition", "statement": "With nalgebra's decomposition in place of an idealised one, best_intersection_of_rays of n rays spread by lambda >= 0.002 n returns one point within 2e-6 (n/lambda)^2 |x| of the least squares point x.", "quantifier": "all lists of at least 2 rays with nonzero directions and this spread, real arithmetic", "why_tests_cant": "The tolerance of 1e-7 inside the decomposition limits the accuracy for every configuration of rays; tests compare a few.", "anchors": ["src/ray_intersection.rs: best_intersection_of_rays, my_pinv"]}
{"id": "C107", "title": "Two or more rays always intersect; parallel rays", "statement": "With nalgebra's decomposition, best_intersection_of_rays of at least two rays with nonzero directions always returns one point, never SvdFailed, and does not panic. For parallel rays the point is within 2.5e-6 |x| of x, the least squares point closest to the origin.", "quantifier": "all lists of at least 2 rays with nonzero directions, real arithmetic", "why_tests_cant": "Whether the iteration converges within its limit, and what the pseudo inverse does with a rank deficient matrix computed only approximately, depends on all possible inputs.", "anchors": ["src/ray_intersection.rs: best_intersection_of_rays, my_pinv"]}
{"id": "C108", "title": "Rounding error of from_perspective_matrix", "statement": "For a matrix of floats whose rows are, relatively, within D of those of s K [R | -R c], with any nonzero scale s of either sign, from_perspective_matrix returns a camera whose intrinsics are within 25000 D/th of K relative to the row lengths of K, whose quaternion is within 44000 D/th of a unit quaternion of R, and whose center is within 100 D/th C of c; th is the determinant of K by the product of the lengths of its rows and C bounds |c|. In double precision, with correctly rounded entries, usual focal lengths and any scale from 1e-6 to 1e6: 3e-11 relative.", "quantifier": "all matrices of IEEE floats of any format with 14 bits or more close to s K [R | -R c], all K with positive focal lengths, all rotations, centers and scales within range", "why_tests_cant": "Tests decompose a few matrices of well behaved cameras; accuracy for every scale, sign, rotation and center, and the choice between the two signs under rounding, needs an analysis of every step of the QR decomposition.", "anchors": ["src/camera.rs: from_perspective_matrix, rq, rq_decomposition, pmat2cam_center"]}
{"id": "C109", "title": "Rounding error of camera to matrix and back", "statement": "from_perspective_matrix of as_camera_matrix of a float camera returns a camera with nearly the same intrinsics, rotation and center, whichever sign the normalization gives the matrix; the error does not depend on the depth of the world origin. In double precision, coordinates up to 100, focal lengths from 1 to 10000 and world origin at depth 1 or more: intrinsics to 6e-9 of the focal length, quaternion to 6e-9, center to 3e-9.", "quantifier": "all perspective cameras of floats within range whose world origin is not in the plane of the center", "why_tests_cant": "The round trip test covers one camera with a tolerance; the normalization divides by the depth of the world origin, which could amplify errors for other cameras.", "anchors": ["src/camera.rs: from_perspective_matrix, as_camera_matrix"]}
{"id": "C110", "title": "Rounding error of the singular value decomposition", "statement": "nalgebra's 3x3 decomposition in double precision with tolerance 1e-7 does not panic on a finite matrix with condition number at most 300 and norm between 2^-400 and 2^400; when it converges, the factors are within 1e-11 of orthogonal matrices, the values are finite and not negative, and the product is within 2.7e-6 times norm times condition number of the matrix.", "quantifier": "all finite double precision 3x3 matrices with condition number at most 300, up to 100 iterations", "why_tests_cant": "The routine is iterative: its Givens rotations, Householder steps and eigenvalue formula all round, and each branch depends on the data; tests check single decompositions.", "anchors": ["src/ray_intersection.rs: my_pinv"]}
{"id": "C111", "title": "Rounding error of the intersection of rays, with the program's own decomposition", "statement": "best_intersection_of_rays, computing with floats and with nalgebra's decomposition in double precision, returns one finite point whenever the decomposition converges, for rays spread by lam with n <= 250 lam. In double precision (coordinates up to 1e9, up to a million rays, n <= 100 lam) it is within 3.4e-6 (n/lam)^2 times the length of the exact point plus 1e-8 (n/lam) times the bound of the centers, in single precision within 8.5e-6 (n/lam)^2 and 6e-5 (n/lam).", "quantifier": "all lists of at least two float rays within range, in every IEEE format with 24 to 53 bits", "why_tests_cant": "C91 takes the decomposition as given within a tolerance; whether the actual iteration, stopped at 1e-7 with rounded rotations, meets it depends on every entry of the matrix.", "anchors": ["src/ray_intersection.rs: best_intersection_of_rays", "src/ray_intersection.rs: my_pinv"]}
{"id": "C112", "title": "Rounding error of triangulation from pixels, with the program's own decomposition", "statement": "From the pixels of a point X in several cameras (perspective or orthographic), each off by at most eps, through the rays computed by the program to the intersection computed with nalgebra's decomposition, all in floats: one finite point, off from X by the pixel error, the roundings and the tolerance of the decomposition. In double precision, up to 1000 cameras, n <= 50 lam: 0.06 Z eps + 1e-8 Z + 4e-6 n/lam + 4e-6 (n/lam)^2 |X|; for the program's own pixels 1e-5 + 4e-6 n/lam + 4e-6 (n/lam)^2 |X|.", "quantifier": "all points, all lists of at least two float cameras within range, all pixels within eps", "why_tests_cant": "The triangulation test uses one configuration; the error depends on the geometry of all cameras and on the iteration inside the decomposition.", "anchors": ["src/ray_intersection.rs: best_intersection_of_rays", "src/camera.rs: pixel_to_world", "src/camera.rs: world_to_pixel"]}
{"id": "C113", "title": "The singular value decomposition converges in double precision", "statement": "nalgebra's 3x3 decomposition in double precision, with tolerance 1e-7 and 100 iterations as in the code, succeeds on every finite matrix with condition number at most 300 and norm k between 2^-400 and 2^400 for which the squared lengths of the images of two perpendicular unit vectors add up to at least 0.49 k^2; its factors are as in C110.", "quantifier": "all finite double precision 3x3 matrices with condition number at most 300 and the stated second singular value", "why_tests_cant": "Convergence of a QR iteration with rounded rotations and a rounded shift is a claim about all matrices and up to 100 data dependent steps; a test sees the iterations of one matrix.", "anchors": ["src/ray_intersection.rs: my_pinv"]}
{"id": "C114", "title": "The intersection of rays never reports a failed decomposition", "statement": "C111 without its condition: for rays spread by lam with n <= 250 lam, best_intersection_of_rays, computing with floats and with nalgebra's decomposition in double precision, never returns SvdFailed and always returns one finite point, within the bounds of C111, in every IEEE format with 24 to 53 bits, in double and in single precision.", "quantifier": "all lists of at least two float rays within range, in every IEEE format with 24 to 53 bits", "why_tests_cant": "A test can show that the iteration converged for its own rays; that it converges for every list of rays follows only from a proof.", "anchors": ["src/ray_intersection.rs: best_intersection_of_rays", "src/ray_intersection.rs: my_pinv"]}
{"id": "C115", "title": "Triangulation from pixels always gives a point", "statement": "C112 without its condition: from the pixels of a point X in several cameras, each off by at most eps, the computation in floats always returns one finite point, within the bounds of C112; in single precision (centers up to 20, parameters and pixels up to 2000, focal lengths from 500, n <= 50 lam) within 0.06 Z eps + 0.006 Z + 0.03 n/lam + 1.1e-5 (n/lam)^2 |X|.", "quantifier": "all points, all lists of at least two float cameras within range, all pixels within eps", "why_tests_cant": "The triangulation test uses one configuration; that no configuration within range makes the decomposition fail cannot be tested.", "anchors": ["src/ray_intersection.rs: best_intersection_of_rays", "src/camera.rs: pixel_to_world", "src/camera.rs: world_to_pixel"]}
{"id": "C116", "title": "The singular value decomposition at any condition number", "statement": "In double precision, with the tolerance 1e-7 and the 100 iterations of the code, nalgebra's decomposition of a 3x3 matrix converges on every finite matrix, singular ones included, of norm at most k (2^-400 <= k <= 2^400) whose two smaller singular values have squares adding up to at least 0.49 k^2. If the condition number is at most 1e9, the factors are within 1e-11 of orthogonal matrices U, V and U S V^T is within 2.9e-6 k of the matrix.", "quantifier": "all finite f64 3x3 matrices meeting the condition", "why_tests_cant": "Tests try a few well conditioned matrices; convergence near singular ones, where the shift and the deflation threshold work at their limits, cannot be sampled.", "anchors": ["src/ray_intersection.rs: best_intersection_of_rays", "nalgebra 0.33 linalg/svd.rs: SVD::try_new"]}
{"id": "C117", "title": "Intersection of rays in any directions returns a point", "statement": "For at least two rays in floats, with centers of size at most M and direction lengths within range, the function returns exactly one point and neither an error nor a panic, whatever the directions, parallel rays included.", "quantifier": "all lists of at least two float rays within range, f32, f64 and any format between", "why_tests_cant": "The failure reported on non-convergence can be looked for only in chosen configurations.", "anchors": ["src/ray_intersection.rs: best_intersection_of_rays"]}
{"id": "C118", "title": "Rounding error of the intersection to first order in the spread", "statement": "For n float rays whose directions are spread by lam, with n <= 1e5 lam in double precision, the point returned is finite and within 4.3e-6 (n/lam) |x| + 1.3e-8 (n/lam) M of the least squares point x; in single precision, with n <= 1e4 lam, within 9e-6 (n/lam) |x| + 6e-5 (n/lam) M.", "quantifier": "all lists of at least two float rays within range with a positive spread", "why_tests_cant": "Tests compare single results with a loose tolerance; the dependence on the angle between nearly parallel rays needs all of them.", "anchors": ["src/ray_intersection.rs: best_intersection_of_rays"]}
{"id": "C119", "title": "Triangulation from pixels when the lines of sight are close together", "statement": "From pixels off by at most eps, of cameras with centers up to 100, focal lengths from 500 and parameters up to 10000, in double precision with n <= 1e4 lam and eps n <= 10 lam, the point found is finite and within sqrt(n/lam) Z (0.008 eps + 1e-10) + 4e-6 (n/lam) (1 + |X|) of the point X at depths up to Z; with the program's own pixels within 1e-6 sqrt(n/lam) + 4e-6 (n/lam) (1 + |X|). In single precision, with centers up to 20, parameters up to 2000, n <= 100 lam, within sqrt(n/lam) Z (0.009 eps + 0.005) + (n/lam) (0.006 + 1.1e-5 |X|).", "quantifier": "all points, all lists of at least two float cameras within range, all pixels within eps", "why_tests_cant": "The triangulation test uses one well spread configuration.", "anchors": ["src/ray_intersection.rs: best_intersection_of_rays", "src/camera.rs: pixel_to_world", "src/camera.rs: world_to_pixel"]}
{"id": "C120", "title": "The singular value decomposition of singular matrices", "statement": "In double precision, with the tolerance 1e-7 and the 100 iterations of the code, nalgebra's decomposition of a finite 3x3 matrix of norm at most k (2^-400 <= k <= 2^400), whose two smaller singular values have squares adding up to at least 0.49 k^2, gives factors within 1e-11 of orthogonal matrices U, V such that U S V^T is within 2.9e-6 k of the matrix. There is no condition on the smallest singular value: singular matrices are included.", "quantifier": "all finite f64 3x3 matrices meeting the condition", "why_tests_cant": "Rounding decides what happens at a zero pivot; the singular matrices are a set of measure zero which random tests do not hit.", "anchors": ["src/ray_intersection.rs: best_intersection_of_rays", "nalgebra 0.33 linalg/svd.rs: SVD::try_new"]}
{"id": "C121", "title": "Intersection of rays in any directions is a finite point", "statement": "For n >= 2 rays in floats with centers of size at most M and direction lengths within range, in any directions, parallel rays included, the function returns one point, all of its coordinates are finite, and it is at most 1e9 n M from the origin.", "quantifier": "all lists of at least two float rays within range, f32, f64 and any format between", "why_tests_cant": "A NaN or an infinity for nearly parallel rays would appear only for particular roundings.", "anchors": ["src/ray_intersection.rs: best_intersection_of_rays"]}
{"id": "C122", "title": "Triangulation from arbitrary pixels is a finite point", "statement": "For two or more perspective or orthographic cameras of moderate size and any pixels, whether or not they belong to one point of the scene, the rays which the program reports intersect, by the program, in one point with finite coordinates. In f64 and f32: up to a million cameras with centers up to 100, focal lengths from 500 to 10000 and pixels up to 10000.", "quantifier": "all such lists of float cameras and pixels", "why_tests_cant": "Mismatched pixels give rays in any relative position, including exactly parallel ones.", "anchors": ["src/ray_intersection.rs: best_intersection_of_rays", "src/camera.rs: pixel_to_world"]}
{"id": "C123", "title": "A camera and its matrix give the same pixels", "statement": "In double precision, from_perspective_matrix applied to as_camera_matrix of a camera gives a camera which projects every point within 10 of the origin at depth 1 or more to the same pixel as the given camera, up to 1/20, for focal lengths from 1 to 2000, pixels up to 2000 and the world origin at depth 1 or more.", "quantifier": "all such f64 cameras and points", "why_tests_cant": "The rounding errors of decomposition, quaternion and center act together on the pixel; tests try one camera.", "anchors": ["src/camera.rs: from_perspective_matrix", "src/camera.rs: as_camera_matrix", "src/camera.rs: world_to_pixel"]}
{"id": "C124", "title": "A camera made from a matrix projects like the matrix", "statement": "In double precision, for a matrix whose entries are those of s K [R | -R c] up to rounding, s of either sign, from_perspective_matrix gives a camera whose pixels are within 1/2000 of the projection by the exact matrix, for points within 10 of the origin at depth 1 or more, focal lengths from 1 to 2000 and pixels up to 2000.", "quantifier": "all such f64 matrices and points", "why_tests_cant": "The error of the decomposition depends on the matrix as a whole; tests try one.", "anchors": ["src/camera.rs: from_perspective_matrix", "src/camera.rs: world_to_pixel"]}
{"id": "C125", "title": "Triangulation in single precision from the program's own pixels", "statement": "In single precision, a point X of size at most 20, at depths between d >= 1 and Z in 2 to 1000 perspective cameras, projected by world_to_pixel and triangulated from these pixels by pixel_to_world and best_intersection_of_rays (which converts to double precision and uses nalgebra's decomposition), always comes back as one finite point, within sqrt(n/lam) Z (0.06/d + 0.005) + (n/lam)(0.006 + 1.1e-5 |X|) of X, where lam is the spread of the lines of sight.", "quantifier": "all points, all lists of 2 to 1000 cameras meeting the size conditions, all d, Z, lam with n <= 100 lam and n <= 1.6 d lam", "why_tests_cant": "the bound covers every rounding of every float input; tests see only a few points", "anchors": ["src/ray_intersection.rs: best_intersection_of_rays", "src/camera.rs: world_to_pixel, pixel_to_world", "src/intrinsics_perspective.rs: pixel_to_camera, camera_to_pixel"]}
{"id": "C126", "title": "Triangulation from own pixels, perspective and orthographic cameras together", "statement": "In double precision, a point projected into 2 to 1000 cameras, each perspective or orthographic, and triangulated from these pixels comes back as one finite point within 1e-6 sqrt(n/lam) + 4e-6 (n/lam)(1+|X|), where lam is the spread of the lines of sight and n <= 1e4 lam.", "quantifier": "all points, all mixed lists of cameras meeting the size conditions, all lam with n <= 1e4 lam", "why_tests_cant": "mixed camera kinds and all roundings; the tests of the crate use one kind and a few points", "anchors": ["src/ray_intersection.rs: best_intersection_of_rays", "src/camera.rs: world_to_pixel, pixel_to_world", "src/intrinsics_perspective.rs: pixel_to_camera, camera_to_pixel", "src/intrinsics_orthographic.rs: pixel_to_camera, camera_to_pixel"]}
{"id": "C127", "title": "Triangulation with cameras given by matrices", "statement": "In double precision, for 2 to 1000 camera matrices s K [R | -R c] (each entry rounded to a double, scale s of either sign) and a pixel of the same point X in each, known up to eps pixels: from_perspective_matrix finds the cameras, pixel_to_world the rays, and best_intersection_of_rays returns one finite point within sqrt(n/lam) Z (0.008 eps + 7e-7) + 4e-6 (n/lam)(1+|X|) of X, where lam is the spread of the true lines of sight and Z bounds the depths.", "quantifier": "all matrices, pixels, points meeting the size conditions, all eps <= 10 and lam with n <= 1e4 lam and eps n <= 10 lam", "why_tests_cant": "whole pipeline from matrices to the point, for all noise in the pixels up to eps and all roundings", "anchors": ["src/camera.rs: from_perspective_matrix, pixel_to_world", "src/ray_intersection.rs: best_intersection_of_rays"]}
{"id": "C128", "title": "Triangulation with matrices: two lines of sight at an angle suffice", "statement": "As C127, but with the angle between the true lines of sight of any two of the cameras (|cos| <= 1 - lam), wherever they stand in the list, in place of the spread of all lines of sight.", "quantifier": "all lists of matrices containing two such cameras, all pixels within eps, all points meeting the size conditions", "why_tests_cant": "whole pipeline from matrices to the point, for all noise in the pixels up to eps, all roundings and all further cameras", "anchors": ["src/camera.rs: from_perspective_matrix, pixel_to_world", "src/ray_intersection.rs: best_intersection_of_rays"]}
