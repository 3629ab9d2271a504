(** Property theorems C38-C41, C48, C49 and C59: triangulation and epipolar geometry (cv-geom).  Real
    arithmetic unless the statement says [F64]. *)
From Coq Require Import Reals List ZArith.
From Verif Require Import Num Lin LinSpec Core CoreSpec Geom GeomSpec GeomFacts GeomEpi GeomTri GeomNan GeomProps GeomAngle GeomAngleInf DesignFacts.
Import ListNotations.
Open Scope R_scope.

(** ** C38 *)
(** Missing from the full claim: rays more than 90 degrees apart, for which it is false. *)
Theorem C38_angular_l1_exact_partial :
  forall (p : riso) (q b : rvec3), rigid p -> q <> vzero -> sees p q b -> off_baseline p q ->
    (acute p q -> angular_l1 p (normalize q) b = Some (from_point q)) /\ (~ acute p q -> angular_l1 p (normalize q) b = None).
Proof. exact angular_l1_exact. Qed.
Print Assumptions C38_angular_l1_exact_partial.
Theorem C38_angular_l_infinity_exact_partial :
  forall (p : riso) (q b : rvec3), rigid p -> q <> vzero -> sees p q b -> off_baseline p q ->
    (acute p q -> angular_linf p (normalize q) b = Some (from_point q)) /\ (~ acute p q -> angular_linf p (normalize q) b = None).
Proof. exact angular_linf_exact. Qed.
Print Assumptions C38_angular_l_infinity_exact_partial.
(** The same for a correct singular value decomposition. *)
Theorem C38_relative_dlt_exact_partial :
  forall svd (p : riso) (q b : rvec3) vt, rigid p -> q <> vzero -> sees p q b -> off_baseline p q -> vz q <> 0 -> vz b <> 0 ->
    svd (dlt_design p (normalize q) b) = Some vt -> svd4_correct (dlt_design p (normalize q) b) vt ->
    (acute p q -> relative_dlt svd p (normalize q) b = Some (from_point q)) /\ (~ acute p q -> relative_dlt svd p (normalize q) b = None).
Proof. exact relative_dlt_exact. Qed.
Print Assumptions C38_relative_dlt_exact_partial.
(** The same for a correct eigenvalue decomposition. *)
Theorem C38_relative_linear_exact_partial :
  forall eigen (p : riso) (q b : rvec3) es, rigid p -> q <> vzero -> sees p q b -> off_baseline p q ->
    eigen (design [(iso_id, normalize q); (p, b)]) = Some es -> eigen_correct (design [(iso_id, normalize q); (p, b)]) es ->
    (acute p q -> relative (linear_eigen eigen) p (normalize q) b = Some (from_point q)) /\ (~ acute p q -> relative (linear_eigen eigen) p (normalize q) b = None).
Proof. exact relative_linear_exact. Qed.
Print Assumptions C38_relative_linear_exact_partial.
(** A point between two cameras that face each other is in front of both and is rejected. *)
Theorem C38_wide_angle_refuted :
  exists (p : riso) (q b : rvec3), rigid p /\ q <> vzero /\ sees p q b /\ off_baseline p q /\ 0 < vz q /\ 0 < vz (iso_point p q) /\
    angular_l1 p (normalize q) b = None /\ angular_linf p (normalize q) b = None /\
    forall svd vt, svd (dlt_design p (normalize q) b) = Some vt -> svd4_correct (dlt_design p (normalize q) b) vt -> relative_dlt svd p (normalize q) b = None.
Proof. exact angular_rejects. Qed.
Print Assumptions C38_wide_angle_refuted.
(** The averaging triangulator is exact when every camera is at the same distance from the point. *)
Theorem C38_mean_mean_exact_partial :
  forall (l : list (observation RNum)) (q : rvec3) (dist : R), q <> vzero -> 0 < dist ->
    (forall o, In o l -> vsub q (centre (fst o)) = vscale dist (direction o)) -> vsum direction l <> vzero ->
    (forall o, In o l -> cross (vsum direction l) (direction o) <> vzero) -> (forall o, In o l -> 0 <= dot (direction o) q) ->
    mean_mean l = Some (from_point q).
Proof. exact mean_mean_equidistant. Qed.
Print Assumptions C38_mean_mean_exact_partial.
(** Otherwise it is not: the noise-free bearings of one point give another one. *)
Theorem C38_mean_mean_refuted :
  exists (l : list (observation RNum)) (q q' : rvec3), (forall p b, In (p, b) l -> rigid p /\ sees p q b /\ 0 < vz b) /\
    mean_mean l = Some (from_point q') /\ point (from_point q') = Some q' /\ q' <> q.
Proof. exact mean_mean_wrong. Qed.
Print Assumptions C38_mean_mean_refuted.
Example C38_case : let p := left_camera in exists q b : rvec3, rigid p /\ q <> vzero /\ sees p q b /\ off_baseline p q /\ acute p q /\ 0 < vz q /\ 0 < vz b.
Proof. exact demo_two_view. Qed.
(** ** C39 *)
(** Missing from the full claim: points which a ray leads away from as seen from the world origin, and the world
    origin itself, for which it is false. *)
Theorem C39_linear_exact_partial :
  forall eigen (l : list (observation RNum)) (q : rvec3), q <> vzero ->
    (forall p b, In (p, b) l -> rigid p /\ unit_vec b /\ on_line p q b) ->
    (exists o1 o2, In o1 l /\ In o2 l /\ cross (direction o1) (direction o2) <> vzero) ->
    forall es, eigen (design l) = Some es -> eigen_correct (design l) es ->
    ((forall o, In o l -> 0 <= dot (direction o) q) -> linear_eigen eigen l = Some (from_point q)) /\
    ((exists o, In o l /\ dot (direction o) q < 0) -> linear_eigen eigen l = None).
Proof. exact linear_exact. Qed.
Print Assumptions C39_linear_exact_partial.
(** The refining triangulator gives the same point, whatever its settings. *)
Theorem C39_refined_exact_partial :
  forall eigen epsilon rate iterations (l : list (observation RNum)) (q : rvec3) es, q <> vzero ->
    (forall p b, In (p, b) l -> rigid p /\ unit_vec b /\ on_line p q b) ->
    (exists o1 o2, In o1 l /\ In o2 l /\ cross (direction o1) (direction o2) <> vzero) ->
    eigen (design l) = Some es -> eigen_correct (design l) es ->
    sine_l1 eigen epsilon rate iterations l = linear_eigen eigen l.
Proof. exact sine_l1_exact. Qed.
Print Assumptions C39_refined_exact_partial.
Theorem C39_design_positive :
  forall (l : list (observation RNum)) (x : rvec4), 0 <= hdot x (hmvec (design l) x).
Proof. exact design_positive. Qed.
Print Assumptions C39_design_positive.
Theorem C39_design_kernel :
  forall (l : list (observation RNum)) (q : rvec3), (forall p b, In (p, b) l -> rigid p /\ unit_vec b /\ on_line p q b) -> hmvec (design l) (of_point q) = hzero.
Proof. exact linear_kernel. Qed.
Print Assumptions C39_design_kernel.
Theorem C39_few_views :
  forall eigen (l : list (observation RNum)), (length l < 2)%nat -> linear_eigen eigen l = None.
Proof. exact linear_eigen_few. Qed.
Print Assumptions C39_few_views.
(** In floating point: the point is that of an eigenvalue which is a number, if there is one, and than which no
    other number is smaller. *)
Theorem C39_nan_eigenvalues :
  forall (eigen : mat4 F64 -> option (list (eigenpair F64))) (l : list (observation F64)) (p : vec4 F64) (es : list (eigenpair F64)),
    eigen (design l) = Some es -> linear_eigen eigen l = Some p ->
    exists lambda v, In (lambda, v) es /\ p = from_homogeneous v /\
      forall lambda' v', In (lambda', v') es -> isnan lambda' = false -> isnan lambda = false /\ ltb lambda' lambda = false.
Proof. exact eigen_used. Qed.
Print Assumptions C39_nan_eigenvalues.
Example C39_nan_case : exists p, linear_eigen (fun _ => Some nan_pairs) ahead = Some p /\ eqb (hx p) zero = true /\ eqb (hy p) zero = true /\ eqb (hz p) one = true /\ eqb (hw p) one = true.
Proof. exact nan_case. Qed.
(** A point between the cameras and the world origin is rejected. *)
Theorem C39_origin_in_the_way_refuted :
  exists (l : list (observation RNum)) (q : rvec3),
    (forall p b, In (p, b) l -> rigid p /\ sees p q b) /\ (forall p b, In (p, b) l -> 0 < vz b) /\
    (exists o1 o2, In o1 l /\ In o2 l /\ cross (direction o1) (direction o2) <> vzero) /\
    forall eigen es, eigen (design l) = Some es -> eigen_correct (design l) es -> linear_eigen eigen l = None.
Proof. exact linear_rejects. Qed.
Print Assumptions C39_origin_in_the_way_refuted.
(** A point at the world origin cannot be represented and is rejected. *)
Theorem C39_world_origin_refuted :
  exists (eigen : mat4 F64 -> option (list (eigenpair F64))) (l : list (observation F64)) es,
    forallb (fun o : observation F64 => v_eqb (iso_point (fst o) (V3 zero zero zero)) (snd o)) l = true /\ length l = 2%nat /\
    eigen (design l) = Some es /\ length es = 4%nat /\ forallb (exact_eigenpair (design l)) es = true /\ linear_eigen eigen l = None.
Proof. exact origin_lost. Qed.
Print Assumptions C39_world_origin_refuted.
(** A point at infinity in front of every camera is found or rejected depending on the sign of the eigenvector. *)
Theorem C39_infinity_refuted :
  exists (l : list (observation RNum)) (d : rvec3) (es es' : list (eigenpair RNum)),
    (forall p b, In (p, b) l -> rigid p /\ b = mvec (rot p) d /\ 0 < vz b) /\ eigen_correct (design l) es /\ eigen_correct (design l) es' /\
    linear_eigen (fun _ => Some es) l = Some (V4 (vx d) (vy d) (vz d) 0) /\ linear_eigen (fun _ => Some es') l = None.
Proof. exact infinity_sign. Qed.
Print Assumptions C39_infinity_refuted.
Example C39_case : (forall p b, In (p, b) two_cameras -> rigid p /\ unit_vec b /\ on_line p near_point b) /\
  exists o1 o2, In o1 two_cameras /\ In o2 two_cameras /\ cross (direction o1) (direction o2) <> vzero.
Proof. exact (conj two_cameras_lines two_cameras_independent). Qed.
(** ** C40 *)
(** The point is in front of the first camera.  Missing: the second camera, for which it is false. *)
Theorem C40_angular_l1_partial :
  forall (p : riso) (a b : rvec3) x, unit_vec a -> angular_l1 p a b = Some x -> 0 <= dot (bearing x) a.
Proof. exact angular_l1_front. Qed.
Print Assumptions C40_angular_l1_partial.
Theorem C40_angular_l_infinity_partial :
  forall (p : riso) (a b : rvec3) x, unit_vec a -> angular_linf p a b = Some x -> 0 <= dot (bearing x) a.
Proof. exact angular_linf_front. Qed.
Print Assumptions C40_angular_l_infinity_partial.
Theorem C40_relative_dlt_partial :
  forall svd (p : riso) (a b : rvec3) x, relative_dlt svd p a b = Some x -> 0 <= dot (bearing x) a /\ 0 <= dot (bearing x) (direction (p, b)).
Proof. exact relative_dlt_front. Qed.
Print Assumptions C40_relative_dlt_partial.
(** The triangulators from many views compare the rays with the direction of the point from the world origin. *)
Theorem C40_linear_partial :
  forall eigen (l : list (observation RNum)) x, linear_eigen eigen l = Some x -> forall o, In o l -> 0 <= dot (direction o) (bearing x).
Proof. exact linear_eigen_front. Qed.
Print Assumptions C40_linear_partial.
Theorem C40_mean_mean_partial :
  forall (l : list (observation RNum)) x, mean_mean l = Some x -> forall o, In o l -> 0 <= dot (direction o) (bearing x).
Proof. exact mean_mean_front. Qed.
Print Assumptions C40_mean_mean_partial.
(** A returned point can be behind the second camera, opposite to its bearing. *)
Theorem C40_angular_refuted :
  exists (p : riso) (a b q : rvec3), rigid p /\ unit_vec a /\ unit_vec b /\
    angular_l1 p a b = Some (from_point q) /\ angular_linf p a b = Some (from_point q) /\ q <> vzero /\ dot b (iso_point p q) < 0.
Proof. exact away_accepts. Qed.
Print Assumptions C40_angular_refuted.
Theorem C40_linear_refuted :
  exists (l : list (observation RNum)) (q : rvec3) (p : riso) (b : rvec3),
    (forall p b, In (p, b) l -> rigid p /\ unit_vec b) /\ In (p, b) l /\ q <> vzero /\ dot b (iso_point p q) < 0 /\
    forall eigen es, eigen (design l) = Some es -> eigen_correct (design l) es -> linear_eigen eigen l = Some (from_point q).
Proof. exact linear_accepts. Qed.
Print Assumptions C40_linear_refuted.
(** ** C41 *)
Theorem C41_loss_range :
  forall t a b : rvec3, unit_vec a -> unit_vec b -> 0 <= epipolar_loss t a b <= 1.
Proof. exact loss_range. Qed.
Print Assumptions C41_loss_range.
(** Zero exactly on the epipolar constraint with the rays at most 90 degrees apart. *)
Theorem C41_loss_zero :
  forall t a b : rvec3, cross a t <> vzero \/ cross b t <> vzero ->
    (epipolar_loss t a b = 0 <-> dot a (cross b t) = 0 /\ 0 <= dot a b).
Proof. exact loss_zero. Qed.
Print Assumptions C41_loss_zero.
(** The larger of the two sines between a bearing and the epipolar plane of the other is never exceeded: the value
    divides the triple product by the larger of the two normals. *)
Theorem C41_loss_value :
  forall t a b : rvec3, 0 <= dot a b ->
    epipolar_loss t a b = Rabs (dot a (cross b t)) / Rmax (norm (cross a t)) (norm (cross b t)).
Proof. exact loss_max. Qed.
Print Assumptions C41_loss_value.
Theorem C41_loss_opposed :
  forall t a b : rvec3, dot a b < 0 -> epipolar_loss t a b = 1.
Proof. exact loss_behind. Qed.
Print Assumptions C41_loss_opposed.
(** Missing: rays more than 90 degrees apart, for which it is false. *)
Theorem C41_loss_exact_partial :
  forall t a b q : rvec3, unit_vec a -> unit_vec b -> meet_at t a b q -> 0 <= dot a b -> epipolar_loss t a b = 0.
Proof. exact loss_exact. Qed.
Print Assumptions C41_loss_exact_partial.
Theorem C41_loss_symmetric :
  forall t a b : rvec3, epipolar_loss t a b = epipolar_loss t b a.
Proof. exact loss_symmetric. Qed.
Print Assumptions C41_loss_symmetric.
Theorem C41_loss_scale :
  forall (t a b : rvec3) (s : R), s <> 0 -> epipolar_loss (vscale s t) a b = epipolar_loss t a b.
Proof. exact loss_scale. Qed.
Print Assumptions C41_loss_scale.
(** Rays that meet in front of both cameras can have the largest loss. *)
Theorem C41_loss_wide_angle_refuted :
  exists t a b q : rvec3, unit_vec a /\ unit_vec b /\ meet_at t a b q /\ epipolar_loss t a b = 1.
Proof. exact loss_rejects. Qed.
Print Assumptions C41_loss_wide_angle_refuted.
(** Rays whose only common point is behind a camera can have no loss. *)
Theorem C41_loss_orientation_refuted :
  exists (t a b : rvec3) (lam mu : R), unit_vec a /\ unit_vec b /\ cross a b <> vzero /\ 0 < lam /\ mu < 0 /\
    vscale lam a = vadd t (vscale mu b) /\ epipolar_loss t a b = 0.
Proof. exact loss_accepts. Qed.
Print Assumptions C41_loss_orientation_refuted.
(** Both bearings along the translation: the normals are not numbers and the loss is 1. *)
Theorem C41_loss_epipole :
  exists t a b : vec3 F64, v_finite t = true /\ v_finite a = true /\ v_finite b = true /\ eqb (norm2 a) one = true /\ eqb (norm2 b) one = true /\
    isnan (norm2 (normalize (cross b t))) = true /\ eqb (epipolar_loss t a b) one = true.
Proof. exact loss_nan_one. Qed.
Print Assumptions C41_loss_epipole.
Theorem C41_point_gradient_orthogonal :
  forall t b : rvec3, unit_vec b -> dot (point_gradient t b) b = 0.
Proof. exact point_gradient_orth. Qed.
Print Assumptions C41_point_gradient_orthogonal.
Theorem C41_point_gradient_zero :
  forall t b : rvec3, unit_vec b -> (point_gradient t b = vzero <-> exists s : R, t = vscale s b).
Proof. exact point_gradient_zero. Qed.
Print Assumptions C41_point_gradient_zero.
Theorem C41_point_gradient_moves_to_the_ray :
  forall t b : rvec3, exists s : R, vsub t (point_gradient t b) = vscale s b.
Proof. exact point_gradient_moves. Qed.
Print Assumptions C41_point_gradient_moves_to_the_ray.
Theorem C41_world_gradient_zero :
  forall t b : rvec3, unit_vec b -> t <> vzero -> (world_pose_gradient t b = se3_id <-> exists s : R, t = vscale s b).
Proof. exact world_pose_gradient_zero. Qed.
Print Assumptions C41_world_gradient_zero.
(** The translation is the distance to the ray, across it; the rotation is the sine of the angle to the bearing. *)
Theorem C41_world_gradient_parts :
  forall t b : rvec3, unit_vec b -> t <> vzero ->
    dot (se_t (world_pose_gradient t b)) b = 0 /\ norm (se_t (world_pose_gradient t b)) = norm (cross t b) /\
    dot (se_r (world_pose_gradient t b)) t = 0 /\ norm (se_r (world_pose_gradient t b)) = norm (cross t b) / norm t.
Proof. exact world_pose_gradient_parts. Qed.
Print Assumptions C41_world_gradient_parts.
Theorem C41_rotation_gradient_zero :
  forall t a b : rvec3, cross a t <> vzero -> cross b t <> vzero -> (rotation_gradient t a b = vzero <-> dot a (cross b t) = 0).
Proof. exact rotation_gradient_zero. Qed.
Print Assumptions C41_rotation_gradient_zero.
Theorem C41_three_view_perfect :
  forall q ftoc stoc : rvec3, q <> vzero -> q <> ftoc -> q <> stoc ->
    three_view_gradients (normalize q) (normalize (vsub q ftoc)) ftoc (normalize (vsub q stoc)) stoc = (se3_id, se3_id).
Proof. exact three_view_perfect. Qed.
Print Assumptions C41_three_view_perfect.
(** ** C48 *)
(** Rays which meet in pairs, in front of the cameras, give no gradient wherever they meet. *)
Theorem C48_three_view_pairwise :
  forall c f ftoc s stoc qcf qcs qfs : rvec3, unit_vec c -> unit_vec f -> unit_vec s ->
    meet_at ftoc c f qcf -> meet_at stoc c s qcs -> meet_at (vsub stoc ftoc) f s qfs ->
    three_view_gradients c f ftoc s stoc = (se3_id, se3_id).
Proof. exact three_view_pairwise. Qed.
Print Assumptions C48_three_view_pairwise.
Theorem C48_three_view_inconsistent_refuted :
  exists c f ftoc s stoc : rvec3, unit_vec c /\ unit_vec f /\ unit_vec s /\ three_view_gradients c f ftoc s stoc = (se3_id, se3_id) /\
    ~ exists x y z : R, vscale x c = vadd ftoc (vscale y f) /\ vscale x c = vadd stoc (vscale z s).
Proof. exact three_view_blind. Qed.
Print Assumptions C48_three_view_inconsistent_refuted.
(** Rays which meet in pairs when both cameras are mirrored in the centre one, and are less than 90
    degrees apart, give no rotation; each outer camera is moved across its own ray by two thirds of
    what the other pair asks for, and both by a third of the opposite of what they ask of the centre. *)
Theorem C48_three_view_mirrored :
  forall c f ftoc s stoc qcf qcs qfs : rvec3, unit_vec c -> unit_vec f -> unit_vec s ->
    cross c f <> vzero -> cross c s <> vzero -> cross f s <> vzero -> 0 <= dot c f -> 0 <= dot c s -> 0 <= dot f s ->
    meet_at (vneg ftoc) c f qcf -> meet_at (vneg stoc) c s qcs -> meet_at (vneg (vsub stoc ftoc)) f s qfs ->
    three_view_gradients c f ftoc s stoc =
      (Se3 (vadd (vscale (2/3) (offset (vsub qcs ftoc) f)) (vscale (-(1/3)) (offset (vadd qfs ftoc) c))) vzero,
       Se3 (vadd (vscale (2/3) (offset (vsub qcf stoc) s)) (vscale (-(1/3)) (offset (vadd qfs ftoc) c))) vzero).
Proof. exact three_view_mirrored. Qed.
Print Assumptions C48_three_view_mirrored.
(** The rotations for any rays off the baselines: two thirds of what a camera's own pair with the centre asks for, and
    a third of what the outer pair does. *)
Theorem C48_three_view_rotations :
  forall c f ftoc s stoc : rvec3, let (first, second) := three_view_gradients c f ftoc s stoc in
    se_r first = vsub (vscale (2 / 3 * turning ftoc c f) ftoc) (vscale (1 / 3 * turning (vsub stoc ftoc) f s) (vsub stoc ftoc)) /\
    se_r second = vadd (vscale (2 / 3 * turning stoc c s) stoc) (vscale (1 / 3 * turning (vsub stoc ftoc) f s) (vsub stoc ftoc)).
Proof. exact three_view_rotations. Qed.
Print Assumptions C48_three_view_rotations.
Example C48_mirrored_case : exists c f ftoc s stoc qcf qcs qfs : rvec3, unit_vec c /\ unit_vec f /\ unit_vec s /\
  cross c f <> vzero /\ cross c s <> vzero /\ cross f s <> vzero /\ 0 <= dot c f /\ 0 <= dot c s /\ 0 <= dot f s /\
  meet_at (vneg ftoc) c f qcf /\ meet_at (vneg stoc) c s qcs /\ meet_at (vneg (vsub stoc ftoc)) f s qfs.
Proof. exact mirrored_case. Qed.
(** ** C49 *)
Theorem C49_refinement_error :
  forall eigen epsilon rate iterations (l : list (observation RNum)) (q : rvec3), 0 <= rate <= 2 ->
    (forall p b, In (p, b) l -> rigid p /\ unit_vec b) -> q <> vzero -> linear_eigen eigen l = Some (from_point q) ->
    exists q', sine_l1 eigen epsilon rate iterations l = Some (from_point q') /\ square_error l q' <= square_error l q.
Proof. exact sine_l1_error. Qed.
Print Assumptions C49_refinement_error.
Example C49_case : exists (l : list (observation RNum)) (q : rvec3) (p : riso) (b : rvec3),
  (forall p b, In (p, b) l -> rigid p /\ unit_vec b) /\ In (p, b) l /\ q <> vzero /\ dot b (iso_point p q) < 0 /\
  forall eigen es, eigen (design l) = Some es -> eigen_correct (design l) es -> linear_eigen eigen l = Some (from_point q).
Proof. exact linear_accepts. Qed.

(** ** C59 *)
(** No point of space fits the two bearings better, in the sum of the angular errors for one
    triangulator and in the larger of the two for the other.  Missing from the full claim: results
    behind the second camera, for which it is false. *)
Theorem C59_angular_l1_best_partial :
  forall (p : riso) (a b : rvec3) x q, rigid p -> unit_vec a -> unit_vec b ->
    angular_l1 p a b = Some x -> point x = Some q -> 0 < dot (iso_point p q) b ->
    forall q' : rvec3, q' <> vzero -> iso_point p q' <> vzero ->
      first_error a q + second_error p b q <= first_error a q' + second_error p b q'.
Proof. exact angular_l1_best. Qed.
Print Assumptions C59_angular_l1_best_partial.
Theorem C59_angular_l_infinity_best_partial :
  forall (p : riso) (a b : rvec3) x q, rigid p -> unit_vec a -> unit_vec b ->
    angular_linf p a b = Some x -> point x = Some q -> 0 < dot (iso_point p q) b ->
    forall q' : rvec3, q' <> vzero -> iso_point p q' <> vzero ->
      Rmax (first_error a q) (second_error p b q) <= Rmax (first_error a q') (second_error p b q').
Proof. exact angular_linf_best. Qed.
Print Assumptions C59_angular_l_infinity_best_partial.
(** Nor does any direction, that is, any point at infinity. *)
Theorem C59_angular_l1_directions_partial :
  forall (p : riso) (a b : rvec3) x q, rigid p -> unit_vec a -> unit_vec b ->
    angular_l1 p a b = Some x -> point x = Some q -> 0 < dot (iso_point p q) b ->
    forall u : rvec3, unit_vec u -> first_error a q + second_error p b q <= angle a u + angle b (mvec (rot p) u).
Proof. exact angular_l1_far. Qed.
Print Assumptions C59_angular_l1_directions_partial.
Theorem C59_angular_l_infinity_directions_partial :
  forall (p : riso) (a b : rvec3) x q, rigid p -> unit_vec a -> unit_vec b ->
    angular_linf p a b = Some x -> point x = Some q -> 0 < dot (iso_point p q) b ->
    forall u : rvec3, unit_vec u -> Rmax (first_error a q) (second_error p b q) <= Rmax (angle a u) (angle b (mvec (rot p) u)).
Proof. exact angular_linf_far. Qed.
Print Assumptions C59_angular_l_infinity_directions_partial.
(** Results at infinity, when the planes through the baseline and the two bearings are not at right angles.  Real
    arithmetic gives 0 / 0 = 0, so a result at infinity appears where the two corrected bearings are
    equal; in binary64 the quotient is not a number and nothing is returned ([C59_equal_rays]). *)
Theorem C59_angular_l1_at_infinity_partial :
  forall (p : riso) (a b : rvec3) x, rigid p -> unit_vec a -> unit_vec b ->
    dot (cross (direction (p, b)) (centre p)) (cross a (centre p)) <> 0 -> angular_l1 p a b = Some x -> point x = None ->
    (forall q : rvec3, q <> vzero -> iso_point p q <> vzero ->
       angle a (bearing x) + angle b (mvec (rot p) (bearing x)) <= first_error a q + second_error p b q) /\
    (forall u : rvec3, unit_vec u -> angle a (bearing x) + angle b (mvec (rot p) (bearing x)) <= angle a u + angle b (mvec (rot p) u)).
Proof. exact angular_l1_at_infinity. Qed.
Print Assumptions C59_angular_l1_at_infinity_partial.
Theorem C59_angular_l_infinity_at_infinity_partial :
  forall (p : riso) (a b : rvec3) x, rigid p -> unit_vec a -> unit_vec b ->
    dot (cross (direction (p, b)) (centre p)) (cross a (centre p)) <> 0 -> angular_linf p a b = Some x -> point x = None ->
    (forall q : rvec3, q <> vzero -> iso_point p q <> vzero ->
       Rmax (angle a (bearing x)) (angle b (mvec (rot p) (bearing x))) <= Rmax (first_error a q) (second_error p b q)) /\
    (forall u : rvec3, unit_vec u ->
       Rmax (angle a (bearing x)) (angle b (mvec (rot p) (bearing x))) <= Rmax (angle a u) (angle b (mvec (rot p) u))).
Proof. exact angular_linf_at_infinity. Qed.
Print Assumptions C59_angular_l_infinity_at_infinity_partial.
Theorem C59_equal_rays : forall t a : vec3 F64, intersect t a a = None.
Proof. exact intersect_same. Qed.
Print Assumptions C59_equal_rays.
(** A result behind the second camera is not the best. *)
Theorem C59_behind_refuted :
  exists (p : riso) (a b : rvec3) q q', rigid p /\ unit_vec a /\ unit_vec b /\ q' <> vzero /\ iso_point p q' <> vzero /\
    angular_l1 p a b = Some (from_point q) /\ angular_linf p a b = Some (from_point q) /\
    first_error a q' + second_error p b q' < first_error a q + second_error p b q /\
    Rmax (first_error a q') (second_error p b q') < Rmax (first_error a q) (second_error p b q).
Proof. exact away_worse. Qed.
Print Assumptions C59_behind_refuted.
(** Bearings which do not meet. *)
Example C59_l1_case : exists (p : riso) (a b : rvec3) x q, rigid p /\ unit_vec a /\ unit_vec b /\
  ~ (exists lam mu : R, vscale lam a = vadd (centre p) (vscale mu (direction (p, b)))) /\
  angular_l1 p a b = Some x /\ point x = Some q /\ 0 < dot (iso_point p q) b.
Proof. exact l1_noisy. Qed.
Example C59_l_infinity_case : exists (p : riso) (a b : rvec3) x q, rigid p /\ unit_vec a /\ unit_vec b /\
  ~ (exists lam mu : R, vscale lam a = vadd (centre p) (vscale mu (direction (p, b)))) /\
  angular_linf p a b = Some x /\ point x = Some q /\ 0 < dot (iso_point p q) b.
Proof. exact linf_noisy. Qed.
(** Bearings corrected to the same direction. *)
Example C59_l1_far_case : exists (p : riso) (a b : rvec3) x, rigid p /\ unit_vec a /\ unit_vec b /\ direction (p, b) <> a /\
  dot (cross (direction (p, b)) (centre p)) (cross a (centre p)) <> 0 /\ angular_l1 p a b = Some x /\ point x = None.
Proof. exact l1_far_case. Qed.
Example C59_l_infinity_far_case : exists (p : riso) (a b : rvec3) x, rigid p /\ unit_vec a /\ unit_vec b /\ direction (p, b) <> a /\
  dot (cross (direction (p, b)) (centre p)) (cross a (centre p)) <> 0 /\ angular_linf p a b = Some x /\ point x = None.
Proof. exact linf_far_case. Qed.
