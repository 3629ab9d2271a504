(** C45: the perspective-three-point solver (lambda-twist/src/lib.rs). *)
From Coq Require Import Reals List Arith.
From Verif Require Import Num Outcome Lin LinSpec LinFacts Core P3p P3pSpec P3pFacts P3pSolve P3pDepths P3pPose P3pCubic P3pProps.
Import ListNotations.
Open Scope R_scope.

(** The case left out, a zero root and a non-positive one, is wrong: see the next but one. *)
Theorem C45_quadratic_roots_partial :
  forall b c : R, 0 <= b * b - 4 * c -> b < 0 \/ c <> 0 ->
    exists r1 r2, root2real (N := RNum) b c = (true, r1, r2) /\ forall x, x * x + b * x + c = (x - r1) * (x - r2).
Proof. exact root2real_roots. Qed.
Print Assumptions C45_quadratic_roots_partial.
Theorem C45_no_real_roots :
  forall b c : R, b * b - 4 * c < 0 -> fst (fst (root2real (N := RNum) b c)) = false /\ forall x, x * x + b * x + c <> 0.
Proof. exact root2real_complex. Qed.
Print Assumptions C45_no_real_roots.
(** x^2 + x: the first root is NaN. *)
Theorem C45_quadratic_roots_refuted :
  exists b c : F64, isfin b = true /\ isfin c = true /\ leb zero (b * b - ofZ 4 * c)%num = true /\
    isnan (snd (fst (root2real b c))) = true.
Proof. exact root2real_nan. Qed.
Print Assumptions C45_quadratic_roots_refuted.
Theorem C45_refinement_never_worse :
  forall (a12 a13 a23 b12 b13 b23 : R) n (l : rvec3),
    manhattan (law_residual a12 a13 a23 b12 b13 b23 (refine (N := RNum) a12 a13 a23 b12 b13 b23 n l)) <= manhattan (law_residual a12 a13 a23 b12 b13 b23 l).
Proof. exact refine_never_worse. Qed.
Print Assumptions C45_refinement_never_worse.
(** The refinement makes Newton steps on the three cosine laws, at most [n]; it stops early only when the residual is small or the next step would increase it. *)
Theorem C45_refinement_is_newton :
  forall (a12 a13 a23 b12 b13 b23 : R) n (l : rvec3), let l' := refine (N := RNum) a12 a13 a23 b12 b13 b23 n l in
    exists k, (k <= n)%nat /\ descends a12 a13 a23 b12 b13 b23 k l l' /\
    (k = n \/ manhattan (law_residual a12 a13 a23 b12 b13 b23 l') < / 10000000000 \/
     exists l'', (det (law_jacobian b12 b13 b23 l') <> 0 -> newton_step a12 a13 a23 b12 b13 b23 l' l'') /\
       manhattan (law_residual a12 a13 a23 b12 b13 b23 l') < manhattan (law_residual a12 a13 a23 b12 b13 b23 l'')).
Proof. exact refine_descends. Qed.
Print Assumptions C45_refinement_is_newton.
Theorem C45_refinement_keeps_solutions :
  forall (a12 a13 a23 b12 b13 b23 : R) n (l : rvec3), law_residual a12 a13 a23 b12 b13 b23 l = vzero ->
    refine (N := RNum) a12 a13 a23 b12 b13 b23 n l = l.
Proof. exact refine_zero. Qed.
Print Assumptions C45_refinement_keeps_solutions.
Theorem C45_laws_mean_congruence :
  forall w1 w2 w3 y1 y2 y3 l : rvec3, unit_vec y1 -> unit_vec y2 -> unit_vec y3 ->
    (law_residual (norm2 (vsub w1 w2)) (norm2 (vsub w1 w3)) (norm2 (vsub w2 w3)) (-2 * dot y1 y2) (-2 * dot y3 y1) (-2 * dot y2 y3) l = vzero <->
     congruent w1 w2 w3 y1 y2 y3 l).
Proof. exact law_congruent. Qed.
Print Assumptions C45_laws_mean_congruence.
Theorem C45_pose_from_depths :
  forall (B : rmat3) (w1 w2 w3 y1 y2 y3 l : rvec3),
    mmul B (mtrans (M3 (vsub w1 w2) (vsub w1 w3) (cross (vsub w1 w2) (vsub w1 w3)))) = mid -> congruent w1 w2 w3 y1 y2 y3 l ->
    let '(r, t) := pose_of_depths B w1 y1 y2 y3 l in rotation r /\ aligns (Iso r t) w1 w2 w3 y1 y2 y3 l.
Proof. exact pose_of_depths_correct. Qed.
Print Assumptions C45_pose_from_depths.
(** The roots of the cubic are the parameters of the degenerate cones. *)
Theorem C45_cubic :
  forall a12 a13 a23 c12 c23 c31 g : R,
    let '(p3, p2, p1, p0) := cubic_coefficients (N := RNum) a12 a13 a23 c12 c23 c31 in
    det (pencil a12 a13 a23 c12 c23 c31 g) = a23 * (p3 * (g * g * g) + p2 * (g * g) + p1 * g + p0).
Proof. exact pencil_det. Qed.
Print Assumptions C45_cubic.
Theorem C45_cone :
  forall (a12 a13 a23 c12 c23 c31 g : R) (l : rvec3), form (pencil a12 a13 a23 c12 c23 c31 g) l =
    (a23 * side c12 (vx l) (vy l) - a12 * side c23 (vy l) (vz l)) - g * (a23 * side c31 (vx l) (vz l) - a13 * side c23 (vy l) (vz l)).
Proof. exact pencil_form. Qed.
Print Assumptions C45_cone.
Theorem C45_eigenvectors :
  forall a12 a13 a23 c12 c23 c31 g : R, regular a12 a13 a23 c12 c23 c31 g ->
    exists e1 e2 v1 v2 v3, eigen_singular (d0_matrix (N := RNum) a12 a13 a23 c12 c23 c31 g) = (v1, v2, v3, e1, e2) /\
      mvec (pencil a12 a13 a23 c12 c23 c31 g) v1 = vscale e1 v1 /\ unit_vec v1 /\
      mvec (pencil a12 a13 a23 c12 c23 c31 g) v2 = vscale e2 v2 /\ unit_vec v2 /\ e1 * e2 < 0.
Proof. exact regular_eigenvectors. Qed.
Print Assumptions C45_eigenvectors.
(** For a root [g] of the cubic at which nothing degenerates, the triples of depths are exactly the solutions of the cosine laws in front of the camera. *)
Theorem C45_depths :
  forall a12 a13 a23 c12 c23 c31 g : R, 0 < a23 -> regular a12 a13 a23 c12 c23 c31 g ->
    forall l : rvec3, In l (depths (N := RNum) a12 a13 a23 c12 c23 c31 g) <->
      0 <= vx l /\ 0 < vy l /\ 0 < vz l /\ law_residual a12 a13 a23 (-2 * c12) (-2 * c31) (-2 * c23) l = vzero.
Proof. exact depths_exact. Qed.
Print Assumptions C45_depths.
(** The solver returns exactly the poses that put the three world points on their bearings, provided the root of the cubic is exact (the [root] routine is a parameter; [C45_cubic_root] bounds the error of the one in the code) and nothing degenerates. *)
Theorem C45_exactly_the_poses_partial :
  forall (root : R -> R -> R -> R) (n : nat) (inverse : rmat3 -> option rmat3) (from_matrix : rmat3 -> rmat3)
    (y1 y2 y3 w1 w2 w3 : rvec3) (h1 h2 h3 : rvec4),
    point h1 = Some w1 /\ point h2 = Some w2 /\ point h3 = Some w3 -> unit_vec y1 /\ unit_vec y2 /\ unit_vec y3 ->
    forall B, inverse (frame (vsub w1 w2) (vsub w1 w3)) = Some B -> mmul B (frame (vsub w1 w2) (vsub w1 w3)) = mid ->
    (forall r, rotation r -> from_matrix r = r) ->
    regular (norm2 (vsub w1 w2)) (norm2 (vsub w1 w3)) (norm2 (vsub w2 w3)) (dot y1 y2) (dot y2 y3) (dot y3 y1) (root_of root y1 y2 y3 w1 w2 w3) ->
    w2 <> w3 ->
    forall q, In q (solve_three_with (N := RNum) root n inverse from_matrix (y1, h1) (y2, h2) (y3, h3)) <->
      rigid q /\ exists l, 0 <= vx l /\ 0 < vy l /\ 0 < vz l /\ aligns q w1 w2 w3 y1 y2 y3 l.
Proof. exact solve_three_exact. Qed.
Print Assumptions C45_exactly_the_poses_partial.
(** Newton's method approaches a root from one side.  Left out: equal turning points ([C45_cubic_root_refuted]). *)
Theorem C45_cubic_root_turning_partial :
  forall b c d : R, 3 * c < b * b ->
    exists rho k, cubic_value b c d rho = 0 /\ 0 <= k <= (2 / 3) ^ 7 /\
      cube_root (N := RNum) b c d - rho = k * (cube_root_start (N := RNum) b c d - rho) /\
      (Rabs (cubic_value b c d (cube_root (N := RNum) b c d)) <= / 10000000000000 \/ k <= (2 / 3) ^ 50).
Proof. exact cube_root_stationary. Qed.
Print Assumptions C45_cubic_root_turning_partial.
(** Left out: cubics that are nearly flat at the point of inflection. *)
Theorem C45_cubic_root_monotone_partial :
  forall b c d : R, b * b < 3 * c -> / 10000 <= cubic_slope b c (- b / 3) ->
    exists rho k, cubic_value b c d rho = 0 /\ (forall x, cubic_value b c d x = 0 -> x = rho) /\ 0 <= k <= (2 / 3) ^ 6 /\
      Rabs (cube_root (N := RNum) b c d - rho) <= k * Rabs (cubic_value b c d (- b / 3) / cubic_slope b c (- b / 3)) /\
      (Rabs (cubic_value b c d (cube_root (N := RNum) b c d)) <= / 10000000000000 \/ k <= (2 / 3) ^ 49).
Proof. exact cube_root_monotone. Qed.
Print Assumptions C45_cubic_root_monotone_partial.
(** x^3 - 1: the result is NaN. *)
Theorem C45_cubic_root_refuted :
  exists b c d : F64, isfin b = true /\ isfin c = true /\ isfin d = true /\
    eqb (cubic_at b c d (ofZ 1)) zero = true /\ isnan (cube_root b c d) = true.
Proof. exact cube_root_nan. Qed.
Print Assumptions C45_cubic_root_refuted.
(** The root found is not the one with the largest derivative, as documented. *)
Theorem C45_sharpest_root_refuted :
  exists b c d r : R, cubic_value b c d r = 0 /\ cube_root (N := RNum) b c d < r - 8 /\
    (forall x, cubic_value b c d x = 0 -> x <> r -> cubic_slope b c x < cubic_slope b c r).
Proof. exact cube_root_not_sharpest. Qed.
Print Assumptions C45_sharpest_root_refuted.
(** When the eigenvalues have the same sign there is no solution, but depths are returned: after the five refinements the residual of the cosine laws is above 7. *)
Theorem C45_unsolvable_refuted :
  exists w1 w2 w3 y1 y2 y3 l : vec3 F64,
    (forall y, y = y1 \/ y = y2 \/ y = y3 -> ltb (abs_ (norm2 y - one)%num) (lit 1 1000000000000000) = true) /\
    In l (bad_depths w1 w2 w3 y1 y2 y3) /\ ltb (ofZ 7) (bad_residual w1 w2 w3 y1 y2 y3 l) = true.
Proof. exact garbage_depths. Qed.
Print Assumptions C45_unsolvable_refuted.
Theorem C45_at_most_four :
  forall (N : Num) n inverse from_matrix (s1 s2 s3 : vec3 N * vec4 N), (length (solve_three n inverse from_matrix s1 s2 s3) <= 4)%nat.
Proof. exact (fun N => solve_three_length cube_root). Qed.
Print Assumptions C45_at_most_four.
Theorem C45_points_at_infinity :
  forall (N : Num) n inverse from_matrix (s1 s2 s3 : vec3 N * vec4 N),
    point (snd s1) = None \/ point (snd s2) = None \/ point (snd s3) = None -> solve_three n inverse from_matrix s1 s2 s3 = [].
Proof. exact (fun N => solve_three_infinity cube_root). Qed.
Print Assumptions C45_points_at_infinity.
Theorem C45_collinear :
  forall n inverse from_matrix (y1 y2 y3 w1 w2 w3 : rvec3) (h1 h2 h3 : rvec4),
    point h1 = Some w1 -> point h2 = Some w2 -> point h3 = Some w3 -> ~ triangle w1 w2 w3 ->
    (forall X B, inverse X = Some B -> mmul B X = mid) -> solve_three (N := RNum) n inverse from_matrix (y1, h1) (y2, h2) (y3, h3) = [].
Proof. exact (collinear_none (cube_root (N := RNum))). Qed.
Print Assumptions C45_collinear.
Theorem C45_rigid :
  forall n inverse from_matrix s1 s2 s3, (forall r, rotation (from_matrix r)) ->
    forall q, In q (solve_three (N := RNum) n inverse from_matrix s1 s2 s3) -> rigid q.
Proof. exact (solve_three_rigid (cube_root (N := RNum))). Qed.
Print Assumptions C45_rigid.
(** Only the first three samples are used; fewer panic. *)
Theorem C45_estimate :
  forall (N : Num) n inverse from_matrix (samples : list (vec3 N * vec4 N)),
    (length samples < 3 -> p3p_estimate n inverse from_matrix samples = Panic)%nat /\
    (3 <= length samples -> p3p_estimate n inverse from_matrix samples = p3p_estimate n inverse from_matrix (firstn 3 samples) /\
      exists l, p3p_estimate n inverse from_matrix samples = Ok l /\ length l <= 4)%nat.
Proof. exact @p3p_estimate_spec. Qed.
Print Assumptions C45_estimate.
(** A sample that satisfies all premises; its cubic has the root 0. *)
Example C45_case : unit_vec p3p_y1 /\ unit_vec p3p_y2 /\ unit_vec p3p_y3 /\ rigid p3p_pose /\ triangle p3p_w1 p3p_w2 p3p_w3 /\
  point (of_point p3p_w1) = Some p3p_w1 /\ point (of_point p3p_w2) = Some p3p_w2 /\ point (of_point p3p_w3) = Some p3p_w3 /\
  aligns p3p_pose p3p_w1 p3p_w2 p3p_w3 p3p_y1 p3p_y2 p3p_y3 (V3 3 3 3) /\
  regular (norm2 (vsub p3p_w1 p3p_w2)) (norm2 (vsub p3p_w1 p3p_w3)) (norm2 (vsub p3p_w2 p3p_w3)) (dot p3p_y1 p3p_y2) (dot p3p_y2 p3p_y3) (dot p3p_y3 p3p_y1)
    (root_of (fun _ _ _ => 0) p3p_y1 p3p_y2 p3p_y3 p3p_w1 p3p_w2 p3p_w3) /\
  exists B, mmul B (frame (vsub p3p_w1 p3p_w2) (vsub p3p_w1 p3p_w3)) = mid.
Proof. exact p3p_case. Qed.
