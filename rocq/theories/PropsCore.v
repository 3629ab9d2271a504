(** Property theorems C27-C32: points, poses and tangent vectors (cv-core/src/point.rs,
    pose.rs, so3.rs).  The arithmetic is real arithmetic except where a theorem names the
    64-bit floating point instance [F64]. *)
From Coq Require Import Reals List Permutation.
From Verif Require Import Num Lin LinSpec Core CoreSpec CoreFacts So3Facts So3Log So3JacobianSpec So3Jacobian DesignFacts CoreProps.
Import ListNotations.
Open Scope R_scope.

(** ** C27 *)
(** The canonical form: unit direction, non-negative last coordinate, idempotent, a multiple of
    the input; a Euclidean point exists exactly off infinity, is the dehomogenised input, and
    direction and last coordinate are its direction and inverse distance. *)
Theorem C27_canonical_form :
  forall v : rvec4, xyz v <> vzero ->
    canonical (from_homogeneous v) /\ from_homogeneous (from_homogeneous v) = from_homogeneous v /\
    (exists c, c <> 0 /\ from_homogeneous v = hscale c v) /\
    (point (from_homogeneous v) = None <-> hw v = 0) /\
    (forall q, point (from_homogeneous v) = Some q ->
       xyz v = vscale (hw v) q /\ 0 < norm q /\ hw (from_homogeneous v) = / norm q /\
       bearing (from_homogeneous v) = normalize q).
Proof. exact normal_form. Qed.
Print Assumptions C27_canonical_form.
(** Every multiple has the same canonical form, unless the point is at infinity and the factor
    negative. *)
Theorem C27_multiples_partial :
  forall (c : R) (v : rvec4), c <> 0 -> hw v <> 0 \/ 0 < c ->
    from_homogeneous (hscale c v) = from_homogeneous v.
Proof. exact from_homogeneous_multiple. Qed.
Print Assumptions C27_multiples_partial.
(** The missing case is false: at infinity the opposite vector is the opposite direction. *)
Theorem C27_multiples_refuted :
  exists (v : rvec4) (c : R), xyz v <> vzero /\ c <> 0 /\ from_homogeneous (hscale c v) <> from_homogeneous v.
Proof. exact infinity_sign. Qed.
Print Assumptions C27_multiples_refuted.
(** [point] inverts [from_point], and every canonical point off infinity arises so. *)
Theorem C27_point_from_point :
  forall q : rvec3, q <> vzero -> point (from_point q : rvec4) = Some q.
Proof. exact point_from_point. Qed.
Print Assumptions C27_point_from_point.
Theorem C27_from_point_point :
  forall (p : rvec4) (q : rvec3), canonical p -> point p = Some q -> p = from_point q /\ q <> vzero.
Proof. exact canonical_point. Qed.
Print Assumptions C27_from_point_point.
(** The origin has no direction: in floating point its bearing is not a number. *)
Theorem C27_origin_refuted :
  exists q : vec3 F64, v_finite q = true /\ v_any_nan (bearing (from_point q)) = true.
Proof. exact origin_nan. Qed.
Print Assumptions C27_origin_refuted.
Example C27_case : canonical (from_point demo_point : rvec4) /\ demo_point <> vzero.
Proof. exact (conj demo_canonical (proj1 demo_not_zero)). Qed.

(** ** C28 *)
Theorem C28_rigid_action :
  forall (p : riso) (q q' : rvec3),
    rigid p -> q <> vzero -> q' <> vzero -> iso_point p q <> vzero -> iso_point p q' <> vzero ->
    exists u u', point (transform p (from_point q)) = Some u /\ point (transform p (from_point q')) = Some u' /\
      u = vadd (mvec (rot p) q) (trans p) /\ distance u u' = distance q q'.
Proof. exact poses_act. Qed.
Print Assumptions C28_rigid_action.
Theorem C28_canonical :
  forall (p : riso) (x : rvec4), off_centre p x -> canonical (transform p x).
Proof. exact transform_canonical. Qed.
Print Assumptions C28_canonical.
Theorem C28_identity : forall x : rvec4, canonical x -> transform (iso_id : riso) x = x.
Proof. exact transform_id. Qed.
Print Assumptions C28_identity.
Theorem C28_composition :
  forall (a b : riso) (x : rvec4), 0 <= hw x -> off_centre b x ->
    transform (iso_mul a b) x = transform a (transform b x).
Proof. exact transform_mul. Qed.
Print Assumptions C28_composition.
Theorem C28_inverse :
  forall (p : riso) (x : rvec4), rigid p -> canonical x -> off_centre p x ->
    transform (iso_inv p) (transform p x) = x.
Proof. exact transform_inv. Qed.
Print Assumptions C28_inverse.
Theorem C28_infinity :
  forall (p : riso) (x : rvec4), rigid p -> canonical x -> hw x = 0 ->
    off_centre p x /\ xyz (transform p x) = mvec (rot p) (xyz x) /\ hw (transform p x) = 0.
Proof. exact transform_infinity. Qed.
Print Assumptions C28_infinity.
Theorem C28_scale :
  forall (p : riso) (s : R) (q : rvec3),
    iso_point (pose_scale p s) q = vadd (mvec (rot p) q) (vscale s (trans p)) /\
    rot (pose_scale p s) = rot p /\ pose_scale p 1 = p /\
    forall s', pose_scale (pose_scale p s) s' = pose_scale p (s' * s).
Proof. exact scale_action. Qed.
Print Assumptions C28_scale.
(** [WorldToWorld::from_camera_poses] goes from one world to the other through the camera. *)
Theorem C28_from_camera_poses :
  forall (a b : riso) (x : rvec4), rigid b -> canonical x -> off_centre a x ->
    transform (iso_inv b) (transform a x) = transform (from_camera_poses a b) x.
Proof. exact from_camera_poses_correct. Qed.
Print Assumptions C28_from_camera_poses.
Example C28_case : rigid demo_pose /\ off_centre demo_pose (from_point demo_point) /\ canonical (from_point demo_point : rvec4) /\
  iso_point demo_pose demo_point = V3 (-1) 1 4.
Proof. exact (conj demo_pose_rigid (conj demo_off_centre (conj demo_canonical demo_point_image))). Qed.

(** ** C29 *)
Theorem C29_hat_vee :
  forall (w v : rvec3) (A : rmat3),
    vee (hat w) = w /\ (mtrans A = mneg A -> hat (vee A) = A) /\ mvec (hat w) v = cross w v /\
    hat2 w = mmul (hat w) (hat w).
Proof. exact (fun w v A => conj (vee_hat w) (conj (hat_vee A) (conj (hat_cross w v) (hat2_square w)))). Qed.
Print Assumptions C29_hat_vee.
Theorem C29_bracket :
  forall (a b c : rvec3) (s : R),
    bracket a b = cross a b /\
    hat (bracket a b) = msub (mmul (hat a) (hat b)) (mmul (hat b) (hat a)) /\
    bracket (vadd a b) c = vadd (bracket a c) (bracket b c) /\
    bracket a (vadd b c) = vadd (bracket a b) (bracket a c) /\
    bracket (vscale s a) b = vscale s (bracket a b) /\ bracket a (vscale s b) = vscale s (bracket a b) /\
    bracket a b = vneg (bracket b a) /\
    vadd (vadd (bracket a (bracket b c)) (bracket b (bracket c a))) (bracket c (bracket a b)) = vzero.
Proof.
  exact (fun a b c s => conj (bracket_cross a b) (conj (hat_bracket a b) (conj (bracket_add_l a b c)
    (conj (bracket_add_r a b c) (conj (bracket_scale_l s a b) (conj (bracket_scale_r s a b)
    (conj (bracket_anti a b) (bracket_jacobi a b c)))))))).
Qed.
Print Assumptions C29_bracket.
(** Any threshold, any routine finding a rotation near a matrix. *)
Theorem C29_exp_rotation :
  forall (nearest : rmat3 -> rmat3) (eps : R) (w : rvec3),
    0 <= eps -> (forall A, rotation (nearest A)) -> rotation (so3_exp (real_trig nearest eps) w).
Proof. exact exp_rotation. Qed.
Print Assumptions C29_exp_rotation.
(** Above the threshold it is Rodrigues' formula. *)
Theorem C29_exp_rodrigues :
  forall (nearest : rmat3 -> rmat3) (eps : R) (w : rvec3),
    0 <= eps -> eps < norm2 w -> so3_exp (real_trig nearest eps) w = rodrigues w /\ 0 < norm w.
Proof. exact exp_large. Qed.
Print Assumptions C29_exp_rodrigues.
(** Turns about one axis add up. *)
Theorem C29_exp_one_parameter :
  forall (u : rvec3) (a b : R) (nearest : rmat3 -> rmat3) (eps : R),
    0 <= eps -> unit_vec u -> eps < a * a -> eps < b * b -> eps < (a + b) * (a + b) -> 0 < a -> 0 < b ->
    let T := real_trig nearest eps in
    mmul (so3_exp T (vscale a u)) (so3_exp T (vscale b u)) = so3_exp T (vscale (a + b) u).
Proof. exact exp_law. Qed.
Print Assumptions C29_exp_one_parameter.
(** [log] inverts [exp] below the angle pi, except near 0 and near pi, where the threshold
    applies. *)
Theorem C29_log_exp_partial :
  forall (nearest : rmat3 -> rmat3) (eps : R) (w : rvec3),
    0 <= eps -> eps < norm2 w -> norm w < PI -> eps < 2 * sin (norm w) ->
    so3_log (real_trig nearest eps) (so3_exp (real_trig nearest eps) w) = w.
Proof. exact log_exp. Qed.
Print Assumptions C29_log_exp_partial.
(** Near pi the logarithm is lost. *)
Theorem C29_log_exp_refuted :
  forall (nearest : rmat3 -> rmat3) (eps : R), 0 < eps < 1 ->
    exists w : rvec3, norm w < PI /\ so3_log (real_trig nearest eps) (so3_exp (real_trig nearest eps) w) <> w.
Proof. exact near_pi. Qed.
Print Assumptions C29_log_exp_refuted.
(** [exp] inverts [log] on the rotations whose logarithm is above the threshold. *)
Theorem C29_exp_log_partial :
  forall (nearest : rmat3 -> rmat3) (eps : R) (A : rmat3),
    0 <= eps -> rotation A -> eps < norm2 (so3_log (real_trig nearest eps) A) ->
    so3_exp (real_trig nearest eps) (so3_log (real_trig nearest eps) A) = A.
Proof. exact exp_log. Qed.
Print Assumptions C29_exp_log_partial.
(** Half turns have no logarithm. *)
Theorem C29_exp_log_refuted :
  forall (nearest : rmat3 -> rmat3) (eps : R), 0 <= eps -> nearest mid = mid ->
    exists A : rmat3, rotation A /\ so3_log (real_trig nearest eps) A = vzero /\
      so3_exp (real_trig nearest eps) (so3_log (real_trig nearest eps) A) <> A.
Proof. exact exp_log_half_turn. Qed.
Print Assumptions C29_exp_log_refuted.
(** For every number type whose zero is a number: a logarithm is never NaN, and is the scaled axis unless that is. *)
Theorem C29_log_no_nan :
  forall (N : Num) (T : trig N) (m : mat3 N), isnan (zero : N) = false ->
    v_any_nan (so3_log T m) = false /\ (v_any_nan (scaled_axis T m) = false -> so3_log T m = scaled_axis T m).
Proof. exact (@so3_log_no_nan). Qed.
Print Assumptions C29_log_no_nan.
Example C29_case : let w := V3 0 0 (PI / 2) : rvec3 in / 4 < norm2 w /\ norm w < PI /\ / 4 < 2 * sin (norm w).
Proof. exact (log_exp_case (fun A => A)). Qed.

(** ** C30 *)
(** For every number type whose zero is a number: construction never stores NaN, and keeps
    what is not. *)
Theorem C30_new_no_nan :
  forall (N : Num) (t r : vec3 N), isnan (zero : N) = false ->
    (v_any_nan (se_t (se3_new t r)) = false /\ v_any_nan (se_r (se3_new t r)) = false) /\
    (v_any_nan t = false -> v_any_nan r = false -> se3_new t r = Se3 t r).
Proof. exact (fun N t r H => conj (se3_new_no_nan t r H) (se3_new_keeps t r)). Qed.
Print Assumptions C30_new_no_nan.
Theorem C30_addition :
  forall a b c : se3 RNum,
    se3_add a b = se3_add b a /\ se3_add a (se3_add b c) = se3_add (se3_add a b) c /\
    se3_add se3_id a = a /\ se3_add a (se3_inverse a) = se3_id /\
    forall s, se3_scale (se3_add a b) s = se3_add (se3_scale a s) (se3_scale b s).
Proof.
  exact (fun a b c => conj (se3_add_comm a b) (conj (se3_add_assoc a b c) (conj (se3_add_id a)
    (conj (se3_inverse_add a) (fun s => se3_scale_add s a b))))).
Qed.
Print Assumptions C30_addition.
Theorem C30_sum_any_order :
  forall l m : list (se3 RNum), Permutation l m -> se3_sum l = se3_sum m.
Proof. exact se3_sum_perm. Qed.
Print Assumptions C30_sum_any_order.
Theorem C30_sum_scale_and_split :
  forall (s : R) (l m : list (se3 RNum)) (x : se3 RNum),
    se3_sum (l ++ m) = se3_add (se3_sum l) (se3_sum m) /\
    se3_scale (se3_sum l) s = se3_sum (map (fun x => se3_scale x s) l) /\
    se3_scale x s = se3_scale_translation (se3_scale_rotation x s) s.
Proof. exact (fun s l m x => conj (se3_sum_app l m) (conj (se3_scale_sum s l) (se3_scale_parts s x))). Qed.
Print Assumptions C30_sum_scale_and_split.
Theorem C30_isometry :
  forall (nearest : rmat3 -> rmat3) (eps : R) (x : se3 RNum) (v : rvec3),
    let T := real_trig nearest eps in
    se3_isometry T se3_id = iso_id /\ rigid (se3_isometry T x) /\
    iso_point (se3_isometry T x) v = mvec (from_scaled_axis T (se_r x)) (vadd v (se_t x)).
Proof. exact (fun nearest eps x v => conj (isometry_id nearest eps) (conj (isometry_rigid nearest eps x) (isometry_point nearest eps x v))). Qed.
Print Assumptions C30_isometry.
(** [inverse] undoes the transformation exactly when the rotation fixes the translation. *)
Theorem C30_inverse_partial :
  forall (nearest : rmat3 -> rmat3) (eps : R) (x : se3 RNum),
    let T := real_trig nearest eps in
    se3_isometry T (se3_inverse x) = iso_inv (se3_isometry T x) <->
    mvec (from_scaled_axis T (se_r x)) (se_t x) = se_t x.
Proof. exact inverse_exact. Qed.
Print Assumptions C30_inverse_partial.
Theorem C30_inverse_refuted :
  forall (nearest : rmat3 -> rmat3) (eps : R), exists x : se3 RNum,
    se3_isometry (real_trig nearest eps) (se3_inverse x) <> iso_inv (se3_isometry (real_trig nearest eps) x).
Proof. exact inverse_wrong. Qed.
Print Assumptions C30_inverse_refuted.
(** A pose as six numbers: the translation, then the logarithm of the rotation. *)
Theorem C30_pose_numbers :
  forall (nearest : rmat3 -> rmat3) (eps : R) (x : se3 RNum) (v : rvec3), 0 <= eps -> (forall A, rotation (nearest A)) ->
    let T := real_trig nearest eps in
    rigid (pose_from_se3 T x) /\ iso_point (pose_from_se3 T x) v = vadd (mvec (so3_exp T (se_r x)) v) (se_t x).
Proof. exact six_numbers. Qed.
Print Assumptions C30_pose_numbers.
(** The list of the six numbers is the translation followed by the rotation. *)
Theorem C30_six_numbers :
  forall (N : Num) (a b c d e f : N),
    se3_to_vec (se3_from_vec a b c d e f) = [a; b; c; d; e; f] /\
    (forall x, se3_to_vec x = [a; b; c; d; e; f] -> x = se3_from_vec a b c d e f) /\
    se_t (se3_from_vec a b c d e f) = V3 a b c /\ se_r (se3_from_vec a b c d e f) = V3 d e f.
Proof. exact listed_numbers. Qed.
Print Assumptions C30_six_numbers.
(** Back and forth, where the logarithm and the exponential invert each other (C29). *)
Theorem C30_pose_numbers_round_trip_partial :
  forall (nearest : rmat3 -> rmat3) (eps : R) (x : se3 RNum) (p : riso), 0 <= eps ->
    let T := real_trig nearest eps in
    (eps < norm2 (se_r x) -> norm (se_r x) < PI -> eps < 2 * sin (norm (se_r x)) -> pose_se3 T (pose_from_se3 T x) = x) /\
    (rigid p -> eps < norm2 (so3_log T (rot p)) -> pose_from_se3 T (pose_se3 T p) = p).
Proof. exact (fun nearest eps x p He => conj (six_numbers_back nearest eps x He) (six_numbers_pose nearest eps p He)). Qed.
Print Assumptions C30_pose_numbers_round_trip_partial.

(** [rotations]: both are rotations about the given vectors by their lengths, the second the
    one of [isometry]; those of the inverse undo them. *)
Theorem C30_rotations :
  forall (nearest : rmat3 -> rmat3) (eps : R) (x : se3 RNum) (a b : rmat3),
    let T := real_trig nearest eps in
    se3_rotations T x = (a, b) ->
    rotation a /\ rotation b /\
    mvec a (se_t x) = se_t x /\ mvec b (se_r x) = se_r x /\
    (se_t x = vzero -> a = mid) /\ (se_t x <> vzero -> a = rodrigues (se_t x)) /\
    (se_r x = vzero -> b = mid) /\ (se_r x <> vzero -> b = rodrigues (se_r x)) /\
    se3_rotations T (se3_inverse x) = (mtrans a, mtrans b).
Proof. exact two_rotations. Qed.
Print Assumptions C30_rotations.

(** ** C31 *)
(** The Jacobian for the input point. *)
Theorem C31_input :
  forall (p : riso) (x : rvec4) i, (i < 4)%nat ->
    derivative4 (fun s => pose_output p (moved x (axis4 i) s)) (column4 (snd (transform_jacobian_input p x)) i).
Proof. exact jacobian_input_correct. Qed.
Print Assumptions C31_input.
(** The three functions agree with each other and with [transform]. *)
Theorem C31_agree :
  forall (N : Num) (p : iso N) (x : vec4 N),
    transform_jacobians p x = (transform p x, snd (transform_jacobian_input p x), snd (transform_jacobian_self p x)) /\
    fst (transform_jacobian_input p x) = transform p x /\ fst (transform_jacobian_self p x) = transform p x.
Proof. exact (fun N p x => conj eq_refl (conj eq_refl eq_refl)). Qed.
Print Assumptions C31_agree.
(** The Jacobian for the pose: translation columns are right; rotation columns are right in the
    three spatial rows, and their last entry is a coordinate of the translation where the
    derivative is 0. *)
Theorem C31_self_partial :
  forall (p : riso) (x : rvec4) i, (i < 3)%nat ->
    exists Jt Jr D,
      nth_error (snd (transform_jacobian_self p x)) i = Some Jt /\
      nth_error (snd (transform_jacobian_self p x)) (3 + i) = Some Jr /\
      derivative4 (fun s => pose_output (translated p (axis3 i) s) x) Jt /\
      derivative4 (fun s => pose_output (turned p (axis3 i) s) x) D /\
      xyz Jr = xyz D /\ hw D = 0 /\ hw Jr = dot (trans p) (axis3 i).
Proof. exact jacobian_self_partial. Qed.
Print Assumptions C31_self_partial.
Theorem C31_self_pure_rotation :
  forall (p : riso) (x : rvec4) i, (i < 3)%nat -> trans p = vzero ->
    exists J, nth_error (snd (transform_jacobian_self p x)) (3 + i) = Some J /\
      derivative4 (fun s => pose_output (turned p (axis3 i) s) x) J.
Proof. exact jacobian_self_pure_rotation. Qed.
Print Assumptions C31_self_pure_rotation.
Theorem C31_self_refuted :
  exists (p : riso) (x : rvec4) (i : nat) J,
    rigid p /\ canonical x /\ (i < 3)%nat /\ nth_error (snd (transform_jacobian_self p x)) (3 + i) = Some J /\
    ~ derivative4 (fun s => pose_output (turned p (axis3 i) s) x) J.
Proof. exact jacobian_self_wrong. Qed.
Print Assumptions C31_self_refuted.

(** The Jacobians of a rotation alone (so3.rs [jacobian_input], [jacobian_self]).  The first is
    the derivative for the input point. *)
Theorem C31_rotation_input :
  forall (T : trig RNum) (w : rvec3) (x : rvec4) i, (i < 4)%nat ->
    derivative4 (fun s => hmvec (mat_homogeneous (so3_exp T w)) (moved x (axis4 i) s)) (column4 (skew_jacobian_input T w) i).
Proof. exact rotation_input. Qed.
Print Assumptions C31_rotation_input.
(** The second, documented as [dy/dR = -hat(y)], is its negative: the derivative for a turn about
    axis [i] is row [i], and minus column [i]. *)
Theorem C31_rotation_self_partial :
  forall (y : rvec3) i, (i < 3)%nat ->
    derivative3 (fun s => mvec (axis_angle (axis3 i) (sin s) (cos s)) y) (row_of (skew_jacobian_self y) i) /\
    derivative3 (fun s => mvec (axis_angle (axis3 i) (sin s) (cos s)) y) (vneg (column3 (skew_jacobian_self y) i)).
Proof. exact rotation_self. Qed.
Print Assumptions C31_rotation_self_partial.
Theorem C31_rotation_self_refuted :
  exists (y : rvec3) (i : nat), (i < 3)%nat /\
    ~ derivative3 (fun s => mvec (axis_angle (axis3 i) (sin s) (cos s)) y) (column3 (skew_jacobian_self y) i).
Proof. exact rotation_self_wrong. Qed.
Print Assumptions C31_rotation_self_refuted.

(** ** C32 *)
Theorem C32_world_residual :
  forall (p : riso) (b : rvec3) (x : rvec4), unit_vec b -> off_centre p x ->
    0 <= world_residual p b x <= 2 /\ (world_residual p b x = 0 <-> b = bearing (transform p x)).
Proof. exact world_residual_range. Qed.
Print Assumptions C32_world_residual.
(** The residual of a camera pair is in range for every eigensolver whose vectors are points
    away from the two optical centres; it is zero only if both bearings point at the point of
    the smallest eigenvalue. *)
Theorem C32_camera_residual_partial :
  forall eigen (p : riso) (a b : rvec3), unit_vec a -> unit_vec b ->
    (forall l lam v, eigen (design [(iso_id, a); (p, b)]) = Some l -> In (lam, v) l ->
       xyz v <> vzero /\ off_centre p (from_homogeneous v)) ->
    0 <= camera_residual eigen p a b <= 2 /\
    (camera_residual eigen p a b = 0 ->
       exists l lam v, eigen (design [(iso_id, a); (p, b)]) = Some l /\ In (lam, v) l /\
         (forall lam' v', In (lam', v') l -> Rabs lam <= Rabs lam') /\
         a = bearing (from_homogeneous v) /\ b = bearing (transform p (from_homogeneous v))).
Proof. exact camera_residual_points. Qed.
Print Assumptions C32_camera_residual_partial.
(** A perfect match which is not along the baseline has residual zero, for every correct
    eigensolver. *)
Theorem C32_camera_perfect_match :
  forall eigen (p : riso) (q : rvec3), rigid p -> q <> vzero -> iso_point p q <> vzero ->
    let a := normalize q in let b := normalize (iso_point p q) in
    cross (mvec (rot p) a) b <> vzero ->
    (forall l, eigen (design [(iso_id, a); (p, b)]) = Some l -> eigen_correct (design [(iso_id, a); (p, b)]) l) ->
    eigen (design [(iso_id, a); (p, b)]) <> None ->
    camera_residual eigen p a b = 0.
Proof. exact camera_residual_perfect. Qed.
Print Assumptions C32_camera_perfect_match.
(** At an epipole the residual is NaN in floating point although every eigenvector is finite
    and exact. *)
Theorem C32_camera_finite_refuted :
  exists (eigen : mat4 F64 -> option (list (eigenpair F64))) (p : iso F64) (a b : vec3 F64),
    let D := design [(iso_id, a); (p, b)] in
    (exists l, eigen D = Some l /\ length l = 4%nat /\ forallb (fun e => h_finite (snd e)) l = true /\
       forallb (fun e => let r := hmvec D (snd e) in let k := hscale (fst e) (snd e) in
         (eqb (hx r) (hx k) && eqb (hy r) (hy k) && eqb (hz r) (hz k) && eqb (hw r) (hw k))%bool) l = true) /\
    isnan (camera_residual eigen p a b) = true.
Proof. exact epipole_nan. Qed.
Print Assumptions C32_camera_finite_refuted.
Example C32_case : rigid demo_pose /\ off_centre demo_pose (from_point demo_point) /\
  cross (mvec (rot demo_pose) (normalize demo_point)) (normalize (iso_point demo_pose demo_point)) <> vzero.
Proof. exact (conj demo_pose_rigid (conj demo_off_centre demo_residual_case)). Qed.
