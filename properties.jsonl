{"id": "C01", "title": "View features and landmark observations always mirror each other", "statement": "In every VSlamData state produced by the mapping API, a reconstruction's two indexes agree: feature f of view v is assigned landmark l if and only if l exists and lists (v, f) among its observations; every landmark has at least one observation, and every view has exactly one landmark entry per feature of its frame. In other words VSlam::sanity_check never logs a failure.", "quantifier": "all histories of adding frames, starting reconstructions, registering and removing views, splitting, merging and filtering landmarks, merging reconstructions and removing reconstructions; all frames, view counts and feature counts; matches handed in by the caller must pair no center feature twice and use frames that are in no reconstruction, and landmark maps must be injective", "why_tests_cant": "the two indexes are updated by different functions at different times; a stale entry only appears after particular interleavings of merge, split and removal, which a fixed test sequence samples at a handful of points", "anchors": ["cv-sfm/src/lib.rs: VSlamData::add_view, add_landmark, remove_view, split_observation, merge_landmarks", "cv-sfm/src/lib.rs: VSlam::incorporate_reconstruction, split_landmark, filter_non_robust_observations, merge_landmarks_dedup, sanity_check"]}
{"id": "C02", "title": "A frame belongs to at most one reconstruction and the link is exact", "statement": "In every reachable state frame(k).view = Some((r, v)) holds exactly when reconstruction r exists and contains a view v of frame k. Hence no frame is in two reconstructions, no frame points to a removed view, and removing a view or a reconstruction releases precisely its own frames.", "quantifier": "all histories of the mapping API, including failed registrations and reconstruction merges; frames handed to add_reconstruction must not be in a reconstruction yet", "why_tests_cant": "dangling or duplicated links need a failed merge or a removal at a specific moment of the history; tests cover one history", "anchors": ["cv-sfm/src/lib.rs: VSlamData::add_view, remove_view, remove_reconstruction", "cv-sfm/src/lib.rs: VSlam::try_merge_reconstructions, incorporate_reconstruction"]}
{"id": "C03", "title": "The mapping data structure never hits its internal panics", "statement": "Starting from a consistent state, registering a view with the matches the registration stage can produce, removing a view, splitting an observation or a landmark, merging landmarks with deduplication, incorporating a reconstruction and removing a reconstruction all complete without reaching a missing-key index, the 'landmark had 0 observations' panic, or a failed assertion; merging two landmarks directly completes exactly when they are distinct and share no view.", "quantifier": "all consistent states, all live keys, all match maps in which each landmark is used at most once and merged pairs share no view", "why_tests_cant": "absence of a panic over all histories cannot be sampled", "anchors": ["cv-sfm/src/lib.rs: remove_view, split_observation, merge_landmarks, merge_landmarks_dedup, add_view, register_frame_subset, are_landmarks_sharing_view"]}
{"id": "C04", "title": "Pose-graph optimisation survives losing a view", "statement": "apply_constraints completes and returns Some, or removes the reconstruction and returns None, even when some views are dropped during the run.", "quantifier": "all consistent reconstructions with live constraint edges, all iteration counts, all outcomes of the per-view update", "why_tests_cant": "needs a non-finite pose update in the middle of the iteration; ordinary data never produces one", "anchors": ["cv-sfm/src/lib.rs: apply_constraints, compute_momentum_bundle_adjust, constrain_view, apply_bundle_adjust, flatten_constraints"]}
{"id": "C05", "title": "Constraints only reference live, distinct views", "statement": "Every three-view constraint stored in a reconstruction names three distinct views that are still in it, and the constraints recorded for a view all contain that view, are pairwise different view triples and number at most optimization_maximum_three_view_constraints.", "quantifier": "all histories and all covisibility maps", "why_tests_cant": "depends on the order of removals and on hash-map iteration order", "anchors": ["cv-sfm/src/lib.rs: add_reconstruction, remove_view, generate_view_constraints, record_view_constraints, canonical_view_order"]}
{"id": "C06", "title": "Poses that agree with their constraints are a fixed point of the optimiser", "statement": "If every constraint of a reconstruction holds exactly for the current view poses, one round of pose-graph optimisation leaves every constrained pose unchanged, whatever the rate; each constraint contributes, to each of its three views, exactly the two relative poses to the other views.", "quantifier": "all view poses, all constraint sets, all rates", "why_tests_cant": "an identity over a continuous group; tests check a few numeric poses with tolerances", "anchors": ["cv-sfm/src/lib.rs: ThreeViewConstraint::edge_constraints, constrain_view, flatten_constraints"]}
{"id": "C07", "title": "Normalising a reconstruction changes only gauge", "statement": "After normalize_reconstruction (when it does not return early) the first view's pose is the identity, all rotations relative to the first view are unchanged, every relative translation between views is divided by the mean distance, and constraints which agreed with the poses still agree.", "quantifier": "all reconstructions, poses, constraints and positive mean distances", "why_tests_cant": "holds over a continuum of poses and any number of views", "anchors": ["cv-sfm/src/lib.rs: VSlam::normalize_reconstruction"]}
{"id": "C08", "title": "Merging reconstructions keeps every view and every track", "statement": "incorporate_reconstruction moves every source view to the destination (unless it lacks constraints), with poses that keep all relative poses between source views; two source observations that shared a landmark share one afterwards, and two that did not share one still do not unless the supplied map sends them to the same landmark; destination views, poses and tracks are untouched apart from added observations; the source reconstruction no longer exists.", "quantifier": "all pairs of consistent reconstructions and all injective landmark maps", "why_tests_cant": "needs arbitrary track structure over arbitrarily many views", "anchors": ["cv-sfm/src/lib.rs: VSlam::incorporate_reconstruction, try_merge_reconstructions; cv-core/src/pose.rs: WorldToWorld::from_camera_poses"]}
{"id": "C09", "title": "Filtering only separates observations", "statement": "filter_non_robust_observations, filter_non_robust_landmarks, split_landmark and split_observation never lose, invent or re-index an observation: the set of (view, feature) pairs is unchanged, two observations that end up on the same landmark were on the same landmark before, and poses, frames and constraints are untouched (unless the whole reconstruction is removed).", "quantifier": "all consistent states, all robustness verdicts the triangulator may return", "why_tests_cant": "verdicts are arbitrary functions of floating-point data; every pattern of rejection must be covered", "anchors": ["cv-sfm/src/lib.rs: filter_non_robust_observations, filter_non_robust_landmarks, split_landmark, split_observation"]}
{"id": "C10", "title": "Frame registration always terminates", "statement": "The growing-window loop which registers a frame terminates after finitely many attempts and offers every feature to the matcher exactly once.", "quantifier": "all frame sizes and all positive settings of single_view_initial_features (with 0 the loop is shown not to end)", "why_tests_cant": "termination for all settings is not observable by a finite test", "anchors": ["cv-sfm/src/lib.rs: VSlam::register_frame, register_frame_subset"]}
{"id": "C11", "title": "Candidate frames are the right ones, each once", "statement": "find_visually_similar_and_recent_frames never returns the queried frame, returns each frame at most once, returns every other frame of the feed closer than tracking_recent_frames, at most num_similar_frames others, none of them too recent; frames in a reconstruction are grouped under that reconstruction with their view and all the others are returned as free frames. A frame's feed position always equals its index in the feed.", "quantifier": "all databases of frames, all answers of the approximate nearest-neighbour index, all thresholds", "why_tests_cant": "approximate index may answer anything; tests see one answer", "anchors": ["cv-sfm/src/lib.rs: find_visually_similar_and_recent_frames, VSlamData::add_frame, abs_difference"]}
{"id": "C12", "title": "Symmetric matching is one-to-one and mutual", "statement": "symmetric_matching(a, b) pairs (i, j) only if j is the best and sufficiently better match of i and i is the best and sufficiently better match of j; indices are in range, no feature of a or of b occurs twice, and matching b with a gives the same pairs swapped. With an exact nearest-neighbour index a matched pair is strictly closer than every alternative by the margin.", "quantifier": "all descriptor sets, all margins, all answers of the nearest-neighbour index", "why_tests_cant": "one-to-one-ness must hold for every descriptor set including ties and duplicates", "anchors": ["cv-sfm/src/lib.rs: matching, symmetric_matching", "tutorial-code/chapter4-feature-matching/src/main.rs: matching, symmetric_matching"]}
{"id": "C13", "title": "Bicubic colour sampling stays in the image and is exact at pixels", "statement": "interpolate_bicubic never reads outside the image for any coordinates and image size, returns the default colour exactly when the 4x4 window is not inside the image, returns the stored pixel at integer coordinates, and reproduces affine images exactly.", "quantifier": "all image sizes, all coordinates", "why_tests_cant": "bounds and exactness over all coordinates", "anchors": ["cv-sfm/src/bicubic.rs: interpolate_bicubic, blend_cubic"]}
{"id": "C14", "title": "Exported PLY files are well formed", "statement": "The PLY export writes one vertex per point and five per camera, four triangles per camera when faces are requested and none otherwise; every face refers to three distinct vertices of its own camera and every index is within the vertex list.", "quantifier": "all numbers of points and cameras, both face settings", "why_tests_cant": "index arithmetic must hold for every count", "anchors": ["cv-sfm/src/export.rs: export"]}
{"id": "C15", "title": "FED reordering is a permutation of the time steps", "statement": "For every cycle with at least one step, reordering returns exactly the un-reordered step sizes, each once, and terminates without arithmetic underflow.", "quantifier": "all step counts n", "why_tests_cant": "an infinite family; depends on a prime search and modular arithmetic", "anchors": ["akaze/src/fed_tau.rs: fed_tau_internal"]}
{"id": "C16", "title": "FED step sizes add up to the requested diffusion time", "statement": "The step sizes returned for cycle time t sum to t, are all positive, and their number is the least n whose maximal cycle time tau_max*(n^2+n)/3 reaches t (up to the 1e-8 slack in the code).", "quantifier": "all t > 0, all tau_max > 0, all n", "why_tests_cant": "an infinite family of trigonometric sums", "anchors": ["akaze/src/fed_tau.rs: fed_tau_by_process_time, fed_tau_by_cycle_time, fed_tau_internal"]}
{"id": "C17", "title": "Vectorised filters equal plain correlation with replicated borders", "statement": "horizontal_filter and vertical_filter return, at every pixel, the correlation of the image with the kernel where samples beyond the border repeat the border pixel; the image size is kept and no read leaves the buffer.", "quantifier": "all image sizes, all odd kernel lengths, all pixel and kernel values", "why_tests_cant": "lane, tile and tail handling differs for every width/kernel-size residue", "anchors": ["akaze/src/image.rs: horizontal_filter, vertical_filter, separable_filter"]}
{"id": "C18", "title": "Gaussian blur preserves size, constants and range", "statement": "gaussian_blur keeps the image size, maps a constant image to the same constant, never leaves the interval spanned by the input values, and commutes with mirroring the image left-right and top-bottom.", "quantifier": "all images, all radii", "why_tests_cant": "range preservation must hold for all images", "anchors": ["akaze/src/image.rs: gaussian, gaussian_kernel, gaussian_blur"]}
{"id": "C19", "title": "A diffusion step conserves brightness and obeys the maximum principle", "statement": "One explicit diffusion step keeps the image size, keeps the sum of all pixels, leaves constant images unchanged, and for conductivities in [0,1] and step sizes up to 1/4 produces no value outside the range of the input.", "quantifier": "all images, all conductivity images of the same size, all steps", "why_tests_cant": "a conservation law over all images", "anchors": ["akaze/src/nonlinear_diffusion.rs: calculate_step"]}
{"id": "C20", "title": "Conductivity is always a fraction", "statement": "pm_g2 returns a value in (0,1] at every pixel, equal to 1 where the gradient vanishes and decreasing in gradient magnitude.", "quantifier": "all gradient images and all contrast factors, including the ones the contrast estimator can return", "why_tests_cant": "degenerate contrast factors only arise for special images", "anchors": ["akaze/src/nonlinear_diffusion.rs: pm_g2", "akaze/src/contrast_factor.rs: compute_contrast_factor"]}
{"id": "C21", "title": "The contrast factor is a percentile of the gradient histogram", "statement": "The contrast estimator never indexes outside its histogram and returns a bin edge k such that at least floor(percentile * number of non-zero gradients) interior pixels with non-zero gradient fall into bins up to it and fewer fall into the bins before the previous edge, or the fallback 0.03 when there is none.", "quantifier": "all images, all percentiles in [0,1], all positive bin counts", "why_tests_cant": "must hold for every gradient distribution", "anchors": ["akaze/src/contrast_factor.rs: compute_contrast_factor"]}
{"id": "C22", "title": "extract returns matching, sorted, bounded lists", "statement": "Akaze::extract returns equally many keypoints and descriptors, keypoints in non-increasing response order, at most maximum_features of them, all taken from the detected keypoints without repetition, the i-th descriptor being the descriptor of the i-th keypoint.", "quantifier": "all detected keypoint lists, all descriptor failures, all limits", "why_tests_cant": "holds for all lists and all failure patterns", "anchors": ["akaze/src/lib.rs: Akaze::extract, extract_from_gray_float_image", "akaze/src/descriptors.rs: extract_descriptors"]}
{"id": "C23", "title": "Descriptor bits are the documented comparisons and fit the buffer", "statement": "For every configuration with at most 3 channels and pattern size at least 1 descriptor extraction never reads outside the sampled images or its value buffer and never writes outside the 64-byte descriptor; bit number b of the result is set exactly when the b-th pair in level, channel, cell-pair order compares greater, and all bits beyond 162 per channel are zero.", "quantifier": "all keypoints, scale spaces, channel counts, pattern sizes", "why_tests_cant": "index arithmetic over all sizes and all 486 bits", "anchors": ["akaze/src/descriptors.rs: get_mldb_descriptor, mldb_fill_values, mldb_binary_comparisons"]}
{"id": "C24", "title": "Detected keypoints are strict local maxima away from the border", "statement": "Every keypoint reported by extrema detection corresponds to a pixel strictly greater than its eight neighbours and than the detector threshold, lies inside the image far enough from the border for orientation and sub-pixel sampling, carries the class_id, octave and size of its level, and after sub-pixel refinement moves by at most one pixel of its level.", "quantifier": "all scale spaces", "why_tests_cant": "all images; off-by-one errors at borders and row ends only show for particular sizes", "anchors": ["akaze/src/scale_space_extrema.rs: find_scale_space_extrema, do_subpixel_refinement, detect_keypoints"]}
{"id": "C25", "title": "Half-size images average their input", "statement": "half_size returns an image of floor(width/2) by floor(height/2) pixels whose values lie within the range of the input; for even sizes each is the mean of its 2x2 block and the image mean is preserved; constant images stay constant.", "quantifier": "all images with both sides at least 2", "why_tests_cant": "even/odd combinations and all sizes", "anchors": ["akaze/src/image.rs: GrayFloatImage::half_size"]}
{"id": "C26", "title": "The scale schedule is increasing and matches the image sizes", "statement": "allocate_evolutions produces levels with strictly increasing sigma and time, one level or num_sublevels per octave, only octaves whose smallest side is at least 40 pixels, and the size assumed for an octave is the size obtained by repeated halving.", "quantifier": "all image sizes and all configurations with positive sublevel count and base scale", "why_tests_cant": "all sizes and configurations", "anchors": ["akaze/src/evolution.rs: allocate_evolutions, EvolutionStep::new", "akaze/src/lib.rs: create_nonlinear_scale_space"]}
{"id": "C27", "title": "Homogeneous points are canonical", "statement": "Projective::from_homogeneous returns the same canonical point for every non-zero multiple of its input; its bearing has unit length, its fourth coordinate is non-negative and is the reciprocal of the distance; point() returns Some exactly for points not at infinity and inverts from_point; bearing() is the direction of that point.", "quantifier": "all homogeneous vectors with a non-zero spatial part", "why_tests_cant": "continuous input space with a sign case split", "anchors": ["cv-core/src/point.rs: Projective"]}
{"id": "C28", "title": "Poses act as rigid motions on points", "statement": "transform by a pose maps Euclidean points by R p + t, preserves distances between points, satisfies identity, composition and inverse laws, maps points at infinity to points at infinity, and scale multiplies only the translation.", "quantifier": "all rigid poses and all points, including points at infinity", "why_tests_cant": "continuous group; tests check samples", "anchors": ["cv-core/src/pose.rs: Pose trait and impls; cv-core/src/point.rs"]}
{"id": "C29", "title": "so(3) hat, vee and bracket are mutually consistent", "statement": "vee inverts hat, hat(w) v = w x v, hat2 is the square of hat, bracket equals the cross product, is bilinear and antisymmetric and satisfies the Jacobi identity; exponentiating yields an orthonormal matrix of determinant one, and log inverts exp on the open ball of radius pi.", "quantifier": "all vectors", "why_tests_cant": "polynomial and analytic identities over all reals", "anchors": ["cv-core/src/so3.rs: Skew3"]}
{"id": "C30", "title": "Se3TangentSpace behaves like a tangent vector", "statement": "Construction never stores NaN; addition is a commutative monoid with identity, sum is independent of order, scaling distributes; the isometry of the identity is the identity; inverse() undoes the transformation.", "quantifier": "all translations and rotations, including NaN inputs", "why_tests_cant": "continuous inputs", "anchors": ["cv-core/src/so3.rs: Se3TangentSpace"]}
{"id": "C31", "title": "Pose and point Jacobians are the derivatives they claim to be", "statement": "The Jacobian returned by transform_jacobians equals the derivative of the transformed homogeneous point with respect to the input point and to a perturbation of the pose (a translation along each axis, a rotation about each axis applied on the left).", "quantifier": "all poses, all points", "why_tests_cant": "finite-difference tests sample a few points with tolerance", "anchors": ["cv-core/src/pose.rs: transform_jacobians, transform_jacobian_self, transform_jacobian_point; cv-core/src/so3.rs: Skew3::jacobian_*"]}
{"id": "C32", "title": "Reprojection residuals are zero exactly on perfect matches and bounded", "statement": "The world-to-camera residual of a match lies in [0,2] and is zero exactly when the bearing points at the transformed landmark; the camera-to-camera residual lies in [0,2] and is finite whenever the eigensolver returns finite vectors.", "quantifier": "all poses, bearings and landmarks", "why_tests_cant": "all inputs", "anchors": ["cv-core/src/pose.rs: Residual impls"]}
{"id": "C33", "title": "Pinhole calibration round-trips", "statement": "For every pixel, uncalibrate(calibrate(pixel)) = pixel, and for every bearing in front of the camera calibrate(uncalibrate(b)) = b; bearings returned have unit length and positive depth; uncalibrate returns None exactly for bearings behind the camera; calibration inverts the intrinsic matrix.", "quantifier": "all intrinsics with non-zero focals and all pixels or bearings", "why_tests_cant": "continuous inputs", "anchors": ["cv-pinhole/src/lib.rs: CameraIntrinsics calibrate, uncalibrate, matrix"]}
{"id": "C34", "title": "Radial distortion round-trips and stays finite", "statement": "With K1 distortion, uncalibrate(calibrate(pixel)) = pixel for every pixel in the domain where the distortion polynomial is invertible, including the principal point and k1 = 0.", "quantifier": "all intrinsics, all k1, all pixels in the domain", "why_tests_cant": "the exceptional pixel is a single point of a continuum", "anchors": ["cv-pinhole/src/lib.rs: CameraIntrinsicsK1Distortion"]}
{"id": "C35", "title": "Camera specifications give intrinsics centred on the image", "statement": "from_sensor / from_sensor_square / intrinsics_centered place the principal point at the centre of the pixel grid and convert focal length to pixels.", "quantifier": "all sensor sizes, resolutions and focal lengths", "why_tests_cant": "all parameters; no test exists", "anchors": ["cv-pinhole/src/lib.rs: CameraSpecification"]}
{"id": "C36", "title": "Essential matrices characterise epipolar geometry", "statement": "The essential matrix built from a relative pose has zero residual on every correspondence consistent with the pose, satisfies det E = 0 and the trace constraint, and its residual is invariant to the length of the bearings.", "quantifier": "all relative poses, all points not at the camera centres", "why_tests_cant": "continuous", "anchors": ["cv-pinhole/src/essential.rs: From<CameraToCamera>, residual"]}
{"id": "C37", "title": "Pose recovery from an essential matrix contains the true pose", "statement": "Given a correct singular value decomposition, possible_unscaled_poses returns four poses with proper rotations such that, for the essential matrix of (R, t), one of them has rotation R and translation direction t; possible_unscaled_poses_bearing returns the two rotations and a unit direction of the same; recondition returns a matrix satisfying the essential constraints and leaves valid essential matrices unchanged.", "quantifier": "all relative poses with non-zero translation, all valid SVDs", "why_tests_cant": "sign and determinant cases of a continuous family", "anchors": ["cv-pinhole/src/essential.rs: possible_rotations_unscaled_translation, possible_rotations, possible_unscaled_poses, recondition"]}
{"id": "C38", "title": "Two-view triangulation is exact on noise-free bearings", "statement": "The relative triangulators, given the bearings of a point in general position in front of both cameras under a rigid pose with non-zero baseline, return that point.", "quantifier": "all poses, all points in front of both cameras not on the baseline", "why_tests_cant": "continuous", "anchors": ["cv-geom/src/triangulation.rs: AngularL1Triangulator, AngularLInfinityTriangulator, RelativeDltTriangulator, MeanMeanTriangulator"]}
{"id": "C39", "title": "Multi-view linear triangulation is exact on noise-free bearings", "statement": "The design matrix of the linear triangulator is positive semidefinite with the true point in its kernel; if the kernel is one-dimensional and the eigensolver is correct, the true point is returned, and fewer than two observations give None.", "quantifier": "all numbers of views, all poses, all points in front", "why_tests_cant": "any number of views", "anchors": ["cv-geom/src/triangulation.rs: LinearEigenTriangulator"]}
{"id": "C40", "title": "Triangulated points are in front of every camera", "statement": "As documented on the Triangulator traits, a returned point always passes the cheirality check: it lies in front of (in the direction of the bearing from) every observing camera; and points that do lie in front are not rejected.", "quantifier": "all poses, bearings and points", "why_tests_cant": "counterexamples need specific geometry", "anchors": ["cv-core/src/triangulation.rs docs; cv-geom/src/triangulation.rs: all triangulators"]}
{"id": "C41", "title": "Epipolar losses and gradients", "statement": "epipolar::loss lies in [0,1], is zero exactly when the bearings satisfy the epipolar constraint with the correct orientation, is invariant to the scale of the translation; point_gradient is orthogonal to the bearing and vanishes exactly when the point lies on the ray; rotation and world gradients vanish on perfect data.", "quantifier": "all translations and bearings", "why_tests_cant": "continuous, with NaN branch", "anchors": ["cv-geom/src/epipolar.rs"]}
{"id": "C42", "title": "Pose optimisers stop at perfect poses and never worsen trivially", "statement": "single- and three-view optimisers return the input poses unchanged when there are no landmarks or no iterations, leave a pose unchanged when all residual gradients vanish, run at most the given number of iterations, and return rigid, finite poses for finite inputs.", "quantifier": "all poses, landmark lists and iteration counts", "why_tests_cant": "all lists, degenerate landmarks", "anchors": ["cv-optimize/src/single_view_optimizer.rs", "cv-optimize/src/three_view_optimizer.rs"]}
{"id": "C43", "title": "Eight-point recovers the essential matrix of exact data", "statement": "For noise-free matches every row of the design matrix is orthogonal to the true essential matrix; if the null space is one-dimensional and the eigensolver is correct the estimate is a multiple of the true essential matrix, and estimate returns at most four poses.", "quantifier": "all relative poses and all match lists", "why_tests_cant": "continuous", "anchors": ["eight-point/src/lib.rs"]}
{"id": "C44", "title": "Five-point polynomial constraints are the essential constraints", "statement": "The polynomial products o1 and o2 evaluate to the product of their factors at every point; the ten constraint rows evaluate to det E and to the entries of the trace constraint for E = xX+yY+zZ+W; estimate returns at most 40 poses and none when the null space cannot be computed.", "quantifier": "all polynomials, all null-space bases, all evaluation points", "why_tests_cant": "polynomial identities in many variables", "anchors": ["nister-stewenius/src/lib.rs"]}
{"id": "C45", "title": "P3P helper routines are correct", "statement": "root2real returns the real roots of a monic quadratic when they exist, the Gauss-Newton refinement never returns distances with larger residual than it was given, and a pose whose distances satisfy the three cosine-law equations maps the three world points onto their bearings; samples with a point at infinity yield no pose; at most four poses are returned.", "quantifier": "all inputs", "why_tests_cant": "continuous, with degenerate branches", "anchors": ["lambda-twist/src/lib.rs"]}
{"id": "C46", "title": "Image derivatives are exact on ramps and blind to constants", "statement": "The Scharr derivative filters (simple and scaled, horizontal and vertical) return zero on constant images, return the exact slope, up to the documented kernel gain, at interior pixels of a linear ramp, keep the image size, and the determinant response is the scaled Hessian determinant of its inputs at every pixel.", "quantifier": "all image sizes, all sigma sizes of at least 1, all ramps", "why_tests_cant": "all sizes and all sigmas", "anchors": ["akaze/src/derivatives.rs", "akaze/src/detector_response.rs: detector_response"]}
{"id": "C47", "title": "Reprojection errors measure the triangulated point", "statement": "pose_reprojection_error is the difference, on the plane at depth one, between each observation and the projection of the triangulated point into its camera; it is None exactly when the triangulator gives nothing or the point is behind a camera; the average is half the sum of the two lengths and is zero only when both observations agree with the point.", "quantifier": "all poses, all observations, every triangulator, all points off the planes of depth zero", "why_tests_cant": "continuous inputs and any triangulator", "anchors": ["cv-pinhole/src/lib.rs: pose_reprojection_error, average_pose_reprojection_error"]}
{"id": "C48", "title": "The three-view gradient sees inconsistent translations", "statement": "three_view_gradients is the identity for both poses exactly when the three rays have a common point: rays that meet in pairs at different points give a translation gradient.", "quantifier": "all bearings and translations of three views", "why_tests_cant": "continuous, needs a configuration nobody thought of testing", "anchors": ["cv-geom/src/epipolar.rs: three_view_gradients, same_space_triangulate"]}
{"id": "C49", "title": "Refining a triangulated point never makes it worse", "statement": "For a rate between 0 and 2 the iterations of SineL1Triangulator never increase the sum of the squared distances from the point to the observed rays, whatever the number of iterations and the tolerance.", "quantifier": "all lists of observations, rates in [0,2], tolerances and iteration limits", "why_tests_cant": "continuous inputs, all iteration counts", "anchors": ["cv-geom/src/triangulation.rs: SineL1Triangulator"]}
{"id": "C50", "title": "Five-point recovers the essential matrix of exact data", "statement": "For noise-free matches with a four-dimensional null space and correct decompositions, one of the candidates of the five-point estimator is a multiple of the true essential matrix.", "quantifier": "all relative poses and all lists of five or more exact matches", "why_tests_cant": "continuous inputs; needs exact algebra to tell a wrong candidate from an inaccurate one", "anchors": ["nister-stewenius/src/lib.rs: five_points_relative_pose, compute_eigenvector"]}
{"id": "C51", "title": "The scale space conserves brightness", "statement": "The first image of the scale space is the Gaussian blur of the input; within an octave every further image has exactly the total brightness of the one before it, and the first image of an octave starts from the half-size image of the last one of the octave before and has that image's total brightness.", "quantifier": "all images with sides of at least 40 pixels, all usable settings, all step lists", "why_tests_cant": "all images and all step counts; errors at borders or in the step sizes only lose a little brightness", "anchors": ["akaze/src/lib.rs: create_nonlinear_scale_space", "akaze/src/nonlinear_diffusion.rs: calculate_step"]}
{"id": "C52", "title": "The scale space is a stable nonlinear diffusion", "statement": "Every level of the scale space is obtained from the one before (halved where a new octave starts) by the published diffusion steps, with conductivities from the gradient of its smoothed image and a contrast factor that shrinks by a quarter per octave. Although most steps of a cycle are longer than an explicit scheme allows, a whole cycle never increases the sum of squared deviations of the pixels from any value; with the default settings this holds from every level to every later one.", "quantifier": "all images with sides of at least 40 pixels that are not flat, all cycles", "why_tests_cant": "stability of a product of unstable steps for every image size, conductivity and order of steps", "anchors": ["akaze/src/lib.rs: create_nonlinear_scale_space", "akaze/src/fed_tau.rs: fed_tau_by_process_time", "akaze/src/nonlinear_diffusion.rs: calculate_step"]}
{"id": "C53", "title": "A frame is registered from its unambiguous matches only", "statement": "When a new frame is registered to a reconstruction, the pose estimator is given exactly those features whose best landmark (or best two landmarks that share no view) beats every other landmark offered by the candidate views by the configured margin, and whose landmarks no other considered feature matches as well; the features reported as matched are exactly those among them the estimator accepts; and registration is given up only after all features of the frame were considered.", "quantifier": "all databases, candidate views, frames, descriptor distances and pose estimators", "why_tests_cant": "all orders of the hash maps, all windows and all collisions between matches; an ambiguous match that slips through only shows as drift", "anchors": ["cv-sfm/src/lib.rs: VSlam::register_frame", "cv-sfm/src/lib.rs: VSlam::register_frame_subset"]}
{"id": "C54", "title": "A new reconstruction records exactly the matches it was started from", "statement": "Starting a reconstruction adds one reconstruction and changes no other one and no image; it has three views, of the three frames, the first at the identity and the others at the given poses, one constraint relating the three; two observations are on a common landmark exactly when the matches say so, and no two features of one view are. The automatic initialisation either changes nothing or does this for the given frame and two different offered frames with mutual best matches.", "quantifier": "all databases, frames and one-to-one match lists", "why_tests_cant": "all interleavings of three-way and two-way matches", "anchors": ["cv-sfm/src/lib.rs: VSlamData::add_reconstruction", "cv-sfm/src/lib.rs: VSlam::try_init", "cv-sfm/src/lib.rs: VSlam::init_reconstruction"]}
{"id": "C55", "title": "Adding, removing and merging change the tracks as asked and nothing else", "statement": "Adding a view puts each of its features on the landmark (or the two landmarks, which become one) it was matched with and on a landmark of its own otherwise; removing a view removes its observations and the constraints mentioning it; merging two landmarks joins their two tracks. All other observations keep their tracks, and all other frames, views, poses and constraints are unchanged.", "quantifier": "all databases reachable through the API, all views, landmarks and admissible matches", "why_tests_cant": "all shapes of the two mirrored indexes; losing or joining a single observation is invisible in any output", "anchors": ["cv-sfm/src/lib.rs: VSlamData::add_view", "cv-sfm/src/lib.rs: VSlamData::remove_view", "cv-sfm/src/lib.rs: VSlamData::merge_landmarks"]}
{"id": "C56", "title": "A rejected frame leaves no trace", "statement": "When a frame is registered to a reconstruction but then rejected for want of constraints, or a merge of two reconstructions is rejected so, the database is as before: the same views, poses, constraints, frames and tracks.", "quantifier": "all databases reachable through the API, all frames, candidate views and external routines", "why_tests_cant": "rejection needs a registered pose without constraints; what is left behind is a joined pair of tracks deep in the landmark tables", "anchors": ["cv-sfm/src/lib.rs: VSlam::incorporate_frame", "cv-sfm/src/lib.rs: VSlam::try_merge_reconstructions"]}
{"id": "C57", "title": "Merging landmarks which share views gives up the worse observations only", "statement": "Merging two landmarks that may be observed by common views gives up, in each common view, exactly the observation of the two that triangulates worse, puts it on a landmark of its own, and joins all others; if that leaves one of the landmarks without observations the merge is reported as failed and the remaining tracks are as before. It never fails on a valid database and changes no frame, view, pose or constraint.", "quantifier": "all databases reachable through the API, all pairs of landmarks, all triangulators", "why_tests_cant": "all numbers of common views and all outcomes of the comparisons, each made while earlier ones have already changed the database", "anchors": ["cv-sfm/src/lib.rs: VSlam::merge_landmarks_dedup"]}
{"id": "C58", "title": "Pose optimisation moves all views at once, by the constraints", "statement": "Each round of optimising a reconstruction over its constraints computes every view's new pose from its old pose and the old poses of the views it is constrained with, using every constraint on it once; views with no constraint or no new pose are removed together with the constraints mentioning them, all others keep their tracks; when fewer than three views would remain the whole reconstruction is removed and this is reported.", "quantifier": "all databases reachable through the API, numbers of rounds, constraint graphs and update rules", "why_tests_cant": "a sequential instead of simultaneous update, or a demand used twice, still converges on small examples", "anchors": ["cv-sfm/src/lib.rs: VSlam::apply_constraints", "cv-sfm/src/lib.rs: VSlam::flatten_constraints", "cv-sfm/src/lib.rs: VSlamData::apply_bundle_adjust"]}
{"id": "C59", "title": "The angular triangulators make the smallest possible correction", "statement": "When two noisy bearings do not meet, the point returned by the angular L1 triangulator has the smallest sum, and the point returned by the angular L-infinity triangulator the smallest maximum, of the two angles between observed bearings and the directions in which the cameras would see the point, among all points of space.", "quantifier": "all rigid relative poses and all pairs of unit bearings, whether or not they meet, and all competing points", "why_tests_cant": "optimality compares with infinitely many points; a triangulator correcting the wrong bearing is exact on noise-free test data and off by little on noisy data", "anchors": ["cv-geom/src/triangulation.rs: AngularL1Triangulator", "cv-geom/src/triangulation.rs: AngularLInfinityTriangulator"]}
{"id": "C60", "title": "Robustness of a landmark does not depend on hash order, coordinates or scale", "statement": "A landmark counts as robust exactly when it has the required number of observations (or as many as there are views) and two of its observing rays differ in direction by more than the configured cosine distance. The verdict does not depend on the iteration order of hash maps, and neither it nor the epipolar error of two observations changes when the reconstruction is normalised, i.e. moved rigidly and rescaled.", "quantifier": "all databases, landmarks, settings, iteration orders and changes of coordinates and unit of length", "why_tests_cant": "the verdict is a pairwise search over hash-map entries in world coordinates; tests see one iteration order and one coordinate system", "anchors": ["cv-sfm/src/lib.rs: VSlam::is_landmark_robust", "cv-sfm/src/lib.rs: VSlam::are_observations_robust", "cv-sfm/src/lib.rs: VSlam::is_bi_landmark_robust", "cv-sfm/src/lib.rs: VSlam::normalize_reconstruction"]}
{"id": "C61", "title": "Filtering separates exactly the observations that do not fit", "statement": "After filtering observations, two observations share a landmark exactly when they did before and they fit: for a landmark with two observations, when their epipolar error is below the sine threshold; for one with more, when the landmark can be triangulated and both are within the cosine threshold of the triangulated point. The reconstruction is kept exactly when enough robust landmarks remain. After filtering landmarks, two observations share a landmark exactly when they did before and the landmark is robust and can be triangulated.", "quantifier": "all reconstructions with rigid poses, all settings, triangulators and iteration orders", "why_tests_cant": "the filter changes the landmarks while it walks over them, so verdicts could depend on earlier splits; tests cover few reconstructions and one order", "anchors": ["cv-sfm/src/lib.rs: VSlam::filter_non_robust_observations", "cv-sfm/src/lib.rs: VSlam::filter_non_robust_landmarks"]}
{"id": "C62", "title": "The loss of an observation is a bounded misfit and decides duplicates", "statement": "The loss of an observation lies between 0 and 2: it is 2 for a lone observation or a landmark that cannot be triangulated, one minus the cosine of the epipolar error for a landmark with two observations, and otherwise one minus the cosine between the bearing and the triangulated point. When two landmarks seen twice by one view are merged, the observation given up in that view is the one with the larger loss.", "quantifier": "all reconstructions with rigid poses and unit bearings, all pairs of landmarks and triangulators", "why_tests_cant": "depends on the observations of two landmarks at once, including earlier decisions of the same merge", "anchors": ["cv-sfm/src/lib.rs: VSlam::observation_loss", "cv-sfm/src/lib.rs: VSlam::merge_landmarks_dedup"]}
{"id": "C63", "title": "Poses stay rigid motions along every history", "statement": "Whatever sequence of public operations is performed, and whatever the consensus processes answer (as long as they answer rigid poses), every pose stored for a view and every relative pose stored in a constraint is a rigid motion: registration, initialisation, refinement, pose-graph optimisation, scaling and joining reconstructions never produce a matrix that is not a rotation.", "quantifier": "all histories of public operations, settings, iteration orders, shuffles, triangulators and consensus answers", "why_tests_cant": "drift away from rotations only shows after many updates along particular histories, and inverting such a pose is silently wrong", "anchors": ["cv-sfm/src/lib.rs: VSlam", "cv-optimize/src/single_view_optimizer.rs: single_view_simple_optimize_l2", "cv-optimize/src/three_view_optimizer.rs", "cv-core/src/so3.rs"]}
{"id": "C64", "title": "A registered frame fits the reconstruction", "statement": "When a frame is registered, the triangulated robust landmarks among its unambiguous matches, those with the most observations first, were given to the pose estimator; the frame keeps exactly the matches whose bearing fits the other observations of the matched landmark under the final pose (epipolar error for a single other observation, otherwise distance of all observations from the point triangulated with the new one); at least the required number are left, more than half as many robust ones as were used for optimisation; and a pose which already agrees with all landmarks is not changed by the optimisation.", "quantifier": "all databases, frames, settings, estimators, triangulators, iteration orders and numbers of optimisation rounds", "why_tests_cant": "the final pose comes out of an iterative process with re-filtering; whether all kept matches fit the final pose, and not one of an earlier round, is not visible from the outside", "anchors": ["cv-sfm/src/lib.rs: VSlam::register_frame", "cv-sfm/src/lib.rs: VSlam::register_frame_subset", "cv-sfm/src/lib.rs: VSlam::is_observation_consistent"]}
{"id": "C65", "title": "Noise-free scenes are reconstructed without loss", "statement": "If every landmark is a point of the scene which its cameras see without noise and under rays at most 90 degrees apart, filtering separates no observation, and a new frame with noise-free matches is registered with exactly the pose of its camera and keeps all its matches, provided the triangulator and the pose estimator are exact on noise-free data; the linear triangulator is.", "quantifier": "all scenes, cameras, settings with positive thresholds, numbers of landmarks, views and features", "why_tests_cant": "tests see one scene; a threshold compared the wrong way round or a check against a stale pose rejects correct data only in some configurations", "anchors": ["cv-sfm/src/lib.rs: VSlam::register_frame", "cv-sfm/src/lib.rs: VSlam::filter_non_robust_observations", "cv-geom/src/triangulation.rs: LinearEigenTriangulator"]}
{"id": "C66", "title": "A new reconstruction is built from what three frames share, and is exact on noise-free data", "statement": "When a reconstruction is started from a frame and two others, the two relative poses come from the mutual best matches with that frame; the length of the second translation is set by the median over common matches of the ratio of distances; enough common matches, enough of them far apart, agree with the final rigid poses, and exactly those matches are kept that fit them (three-way matches by the triangulated point, others by the epipolar error). If the scene is noise-free and the pose estimator right up to the length of the translation, the two cameras are found exactly, in one common unit of length, every match is kept, and the reconstruction is indeed started if enough is shared.", "quantifier": "all databases, candidate frames, settings, shuffles, triangulators and consensus answers; for the second part all noise-free scenes", "why_tests_cant": "consensus, median, shuffled selection and an optimiser run in sequence; a scale applied to the wrong translation or inverted still yields a plausible reconstruction in any one test", "anchors": ["cv-sfm/src/lib.rs: VSlam::try_init", "cv-sfm/src/lib.rs: VSlam::init_reconstruction", "cv-sfm/src/lib.rs: VSlam::init_two_view", "cv-sfm/src/lib.rs: VSlam::is_tri_landmark_robust"]}
{"id": "C67", "title": "The relative poses demanded of three views come from their common landmarks and current poses", "statement": "When three views of a reconstruction are optimised together, the result is two rigid poses relative to the first view. They are computed from the landmarks seen most often among those offered, at most the configured number, and only if enough landmarks are offered and enough pairs of the used ones are far apart in all three views. The total length of the two translations is that of the views' current poses (or zero), so that optimisation cannot change the size of the map; and if the current poses fit all used bearings, the current poses are the result. Nothing is demanded only if too few landmarks are offered or too few pairs are far apart.", "quantifier": "all databases, views, landmark lists, settings and bearings", "why_tests_cant": "the optimiser iterates over many bearings; a lost rescaling changes the size of the map by a factor close to one per optimisation", "anchors": ["cv-sfm/src/lib.rs: VSlam::optimize_three_view", "cv-sfm/src/lib.rs: VSlam::generate_view_constraints"]}
{"id": "C68", "title": "Noise-free scenes are mapped truthfully along every history", "statement": "If every frame is a noise-free picture of one scene, matched features show the same point, and the consensus processes answer nothing but true poses, then after any sequence of adding frames, optimising, applying constraints, regenerating, filtering and normalising, every reconstruction is a correct map: all its camera poses are the true ones up to one choice of coordinate system and one unit of length, all observations of a landmark show one point, and all recorded constraints hold.", "quantifier": "all histories of operations that do not merge reconstructions, all scenes, orders and truthful external routines", "why_tests_cant": "the claim is about whole histories in which every step depends on the poses and landmarks left by all previous ones", "anchors": ["cv-sfm/src/lib.rs: VSlam::add_frame", "cv-sfm/src/lib.rs: VSlam::optimize_reconstruction", "cv-sfm/src/lib.rs: VSlam::regenerate_reconstruction", "cv-sfm/src/lib.rs: VSlam::filter_observations", "cv-sfm/src/lib.rs: VSlam::normalize_reconstruction"]}
{"id": "C69", "title": "Merging two correct maps gives a correct map", "statement": "When two reconstructions which are both correct maps of one scene (true camera poses up to coordinate system and unit of length) are merged through a frame they share, the result is a correct map of all their cameras.", "quantifier": "all pairs of correct maps, shared frames, landmark correspondences and settings", "why_tests_cant": "the error depends on the units in which the two maps happen to be; any test whose maps are made alike passes", "anchors": ["cv-sfm/src/lib.rs: VSlam::incorporate_reconstruction", "cv-sfm/src/lib.rs: VSlam::try_merge_reconstructions"]}
{"id": "C70", "title": "Features do not depend on the brightness and contrast of the image", "statement": "Extracting features from an image whose pixel values v have all been replaced by a * v + c (a > 0) gives, when the detector threshold is multiplied by a * a, the same keypoints (position, size, angle, octave) with responses multiplied by a * a, in the same order, and identical descriptors; in particular adding a constant to all pixels changes nothing at all.", "quantifier": "Every image, every a > 0 and every c, all usable settings with a descriptor pattern of at least 4, any angle function that depends on directions only, any sorting routine that works by comparisons.", "why_tests_cant": "The claim relates two runs of the whole pipeline for all images and a continuum of changes; tests run one image at two exposures and see rounding noise.", "anchors": ["akaze/src/lib.rs:extract_from_gray_float_image", "akaze/src/contrast_factor.rs:compute_contrast_factor", "akaze/src/nonlinear_diffusion.rs", "akaze/src/scale_space_extrema.rs", "akaze/src/descriptors.rs"]}
{"id": "C71", "title": "Images are loaded faithfully whatever their depth", "statement": "Loading a grey image of 8 or 16 bits gives an image of the same size whose pixels are finite numbers between 0 and 1 within 2^-24 of the grey level's fraction of white; black becomes 0, white becomes 1, and different levels stay different and in order. Transparency is ignored. An 8-bit image and the same image widened to 16 bits have bit for bit the same features.", "quantifier": "all images of all sizes and contents, all settings, all external numeric routines", "why_tests_cant": "65536 levels are divided and rounded in single precision; a wrong divisor or depth shifts all levels a little and looks right", "anchors": ["akaze/src/image.rs: GrayFloatImage::from_dynamic", "akaze/src/lib.rs: Akaze::extract"]}
{"id": "C72", "title": "The features of a frame are its keypoints, each with its own descriptor, direction and colour, strongest first", "statement": "The features made of a frame are exactly the keypoints that extraction with the configured threshold and number finds, each with its own descriptor, the bearing the camera model gives to its pixel, its response, and the colour of the picture at its pixel by bicubic interpolation; they are ordered by decreasing response and there are no more than configured. Every image of a supported kind with sides of at least 40 pixels has features: extraction returns, all bearings are unit vectors in front of the camera, all colours have eight bits. All other images panic.", "quantifier": "all images, cameras, settings, sorting routines and total orders of responses", "why_tests_cant": "keypoints, descriptors and colours travel in parallel lists through two sorts; a list sorted alone misattributes descriptors without any error", "anchors": ["cv-sfm/src/lib.rs: VSlam::kps_descriptors", "akaze/src/lib.rs: Akaze::extract", "akaze/src/image.rs: GrayFloatImage::from_dynamic"]}
{"id": "C73", "title": "The constraints recorded for a view are the ones that matter", "statement": "When three-view constraints are made for a view, none with enough common robust landmarks is missing while there is room for more; if the number allowed is at least the number of views in question, every such view is in some constraint; and with candidates sorted by their number of common landmarks a triple with the most of them is never left out. The constraints are recorded exactly if there are at least as many as configured, or one for each other view; nothing else is recorded.", "quantifier": "all databases, reconstructions, views, settings, iteration orders and pose optimisers", "why_tests_cant": "which triples survive depends on hash orders and on the overlap of all pairs of views; a biased selection still gives valid constraints and only weakens the map", "anchors": ["cv-sfm/src/lib.rs: VSlam::generate_view_constraints", "cv-sfm/src/lib.rs: VSlam::record_view_constraints"]}
{"id": "C74", "title": "The exported picture shows exactly the robust landmarks and all cameras", "statement": "Exporting a reconstruction writes one vertex for every landmark that is robust, can be triangulated from its observations and is not at infinity, at that place and in the colour of one of its observations, and one camera for every view, sized by the average distance of the landmarks it sees; it panics exactly if the reconstruction does not exist. If the map is correct, every vertex and every camera is at its true place up to one choice of coordinates and unit, and no robust landmark is left out.", "quantifier": "all databases satisfying the invariants, all reconstructions, iteration orders, settings, triangulators; for the second part all correct maps and exact triangulators", "why_tests_cant": "a viewer shows plausible clouds even if landmarks are dropped, doubled or placed with the wrong pose; the set of exported points depends on every observation in the map", "anchors": ["cv-sfm/src/lib.rs: VSlam::export_reconstruction", "cv-sfm/src/export.rs: export", "cv-sfm/src/export.rs: ExportCamera"]}
{"id": "C75", "title": "The mapping program runs through and exports truthfully", "statement": "Run on any images (and any saved data), the mapping program does not panic, leaves consistent data with the loaded frames followed by one frame per image in order, normalises every reconstruction exactly once and before it is exported, writes at most one file per image, writes one for an image exactly if there is an output directory and the image found its place, and has its own settings back afterwards; a second run on the saved data has the images of both. In a noise-free scene every file shows the true points and cameras. The maximum cosine distance an observation can have to be exported is respected.", "quantifier": "all sequences of images, saved databases satisfying the invariants, options, settings and results of the external routines within their contracts", "why_tests_cant": "the program is a long interaction of database, geometry and export; a reconstruction normalised twice or settings left behind show only as slowly degrading maps, and an option without effect shows nothing at all", "anchors": ["vslam-sandbox/src/main.rs: main", "vslam-sandbox/src/main.rs: Opt::export_maximum_cosine_distance"]}
{"id": "C76", "title": "The tutorial programs and the keypoint drawer draw what they say", "statement": "The features of two pictures are matched exactly if each is the other's nearest by a margin of more than 24 bits; there are no panics if both pictures have at least two features or have none. The matching pictures show both inputs unchanged side by side and, for every match (or every match the consensus keeps), one line whose ends lie in the pixels of its two features, the colours going once round the wheel. The keypoint drawings have one cross in the pixel of every keypoint, inside the picture. The motion printed by the last chapter is the way from the first camera to the second, seen from the second.", "quantifier": "all pictures, feature lists, orders of equally near neighbours, consensus results and poses", "why_tests_cant": "a line drawn one pixel off, a swapped pair of coordinates or a match accepted on one side only look right in a picture, and fail only for some pairs of images", "anchors": ["tutorial-code/chapter3-akaze-feature-extraction/src/main.rs", "tutorial-code/chapter4-feature-matching/src/main.rs", "tutorial-code/chapter5-geometric-verification/src/main.rs", "kpdraw/src/lib.rs: render_akaze_keypoints"]}
{"id": "C77", "title": "The mapping program works from image files and settings to the exported map", "statement": "Run on image files of at least 40 by 40 pixels with a settings file or without one, the mapping program extracts proper features from every image (unit bearings in front of the camera, at most as many as configured, strongest first), and runs to its end unless some image has fewer than three features; the database then holds the loaded frames followed by one frame per image with exactly these features, and everything said of a mapping session (C75) holds. An image of an unsupported kind or a smaller one ends the program. Every setting has its documented effect.", "quantifier": "all lists of image files, settings, saved databases, cameras, and results of the external routines within their contracts", "why_tests_cant": "the program is a composition of feature extraction, mapping and export with 41 settings; a setting that is never read, or features filed under the wrong frame, look right in every single run", "anchors": ["vslam-sandbox/src/main.rs: main", "cv-sfm/src/lib.rs: VSlam::add_frame", "cv-sfm/src/lib.rs: VSlam::kps_descriptors", "cv-sfm/src/settings.rs: VSlamSettings"]}
{"id": "C78", "title": "The settings file means what its names say", "statement": "A settings file given to the mapping program is accepted exactly when no setting is given twice and every given setting has a value of its kind (a number, or a whole number that fits its type); then every one of the 41 settings has the value given for its name, or its documented default. Entries with other names and the order of entries have no effect. Without an accepted file all settings have their defaults.", "quantifier": "all settings files (lists of named values), for all 41 settings, in any arithmetic", "why_tests_cant": "the reading code is derived from attributes, one per setting; a setting with the wrong default or under the wrong name only shows in runs that depend on just this setting", "anchors": ["cv-sfm/src/settings.rs: VSlamSettings", "cv-sfm/src/settings.rs: default_*", "vslam-sandbox/src/main.rs: main"]}
{"id": "C79", "title": "Parallel feature extraction returns what sequential extraction returns", "statement": "Built with the feature rayon, feature extraction ends under every schedule of its threads and every division of the work among them, never waits forever, and returns exactly the keypoints and descriptors, in the same order, that the build without this feature returns.", "quantifier": "all images, options, divisions of the parallel iterators and interleavings of the steps of all threads, in any arithmetic", "why_tests_cant": "tests see a handful of schedules; a race between threads shows rarely and only under some of them", "anchors": ["akaze/src/lib.rs: Akaze::extract_from_gray_float_image", "akaze/src/lib.rs: Akaze::create_nonlinear_scale_space", "akaze/src/detector_response.rs: Akaze::detector_response", "akaze/src/scale_space_extrema.rs: do_subpixel_refinement", "akaze/src/descriptors.rs: Akaze::extract_descriptors"]}
{"id": "C80", "title": "A saved map outlives any history of runs, and what interruptions do to it", "statement": "Whatever sequence of runs of the mapping program uses one data file, and wherever each run is stopped (killed, panicking or out of disk space), the file afterwards holds a consistent map with exactly the images of the runs that came to their end, in order, and the next run continues from it; a run without images leaves the file as it is. This is true as long as no run is stopped while it writes the file. The file is emptied before it is rewritten, so a run that is stopped while it writes loses the old map as well as the new one, and every later run refuses to start; and a file that cannot be opened for once is replaced.", "quantifier": "every finite sequence of runs with any images, settings and options, every point at which a run is stopped including every number of bytes written, every encoding that decodes what it encoded and no proper prefix of it", "why_tests_cant": "tests run the program to its end; stopping it at every byte of every write after every history cannot be tried", "anchors": ["vslam-sandbox/src/main.rs: main", "cv-sfm/src/lib.rs: VSlamData"]}
{"id": "C81", "title": "Feature detection has no preferred side of the image", "statement": "Mirroring an image, turning it upside down or by right angles, or exchanging its rows and columns turns every level of the scale space in the same way and nothing else: the smoothed and the diffused images, the contrast factor, the detector responses (at the pixels not close to the border if rows and columns are exchanged) and the local maxima that detection considers, whose keypoints have the turned places and the same responses, sizes, octaves and levels. If the one image makes construction fail, so does the other. Sides that are read backwards have to be halved down to the last octave without a remainder; halving a side of odd length prefers one end. The keypoints that are kept are turned too if no maximum rivals another; of equally strong maxima near to each other only the one met first is kept.", "quantifier": "every image, every one of the eight symmetries of the rectangle, all usable settings, every routine for the steps of diffusion", "why_tests_cant": "tests compare a few pictures with tolerances; a preferred side of one filter, of one border or of one comparison shows only in particular pixels of particular images", "anchors": ["akaze/src/lib.rs: Akaze::create_nonlinear_scale_space", "akaze/src/scale_space_extrema.rs: Akaze::find_scale_space_extrema", "akaze/src/evolution.rs: Akaze::allocate_evolutions", "akaze/src/nonlinear_diffusion.rs: calculate_step, pm_g2", "akaze/src/contrast_factor.rs: compute_contrast_factor", "akaze/src/image.rs: GrayFloatImage::half_size, gaussian_blur", "akaze/src/derivatives.rs: scharr_horizontal, scharr_vertical", "akaze/src/detector_response.rs: Akaze::detector_response"]}
{"id": "C82", "title": "A landmark can be judged without one of its views", "statement": "is_landmark_robust_without_view tells whether the landmark is robust when one view is ignored: enough other views observe it (or all of them) and two of them under rays which differ by more than the setting. triangulate_landmark_robust_without_view returns a point exactly then, the one triangulated from the observations in the other views. Neither depends on the ignored view's pose or features nor on the order in which the hash map is iterated. In a correct map ignoring a view does not move the point.", "quantifier": "all consistent databases, landmarks and views, all settings, every triangulator and iteration order", "why_tests_cant": "nothing in the repository calls these functions; the cases in which they differ from judging the landmark itself need particular maps", "anchors": ["cv-sfm/src/lib.rs: VSlam::is_landmark_robust_without_view, VSlam::triangulate_landmark_robust_without_view, VSlamData::landmark_pose_bearings_without_view"]}
{"id": "C83", "title": "The debugging check reports inconsistencies and nothing else", "statement": "sanity_check reports a feature of a view exactly when its landmark does not exist or does not list that feature for that view; after any history of operations it reports nothing; if it reports nothing the two indexes mirror each other.", "quantifier": "all databases, all histories of operations", "why_tests_cant": "a check is silent on every database a test builds; whether it is silent on all reachable ones and loud on all broken ones cannot be enumerated", "anchors": ["cv-sfm/src/lib.rs: VSlam::sanity_check"]}
