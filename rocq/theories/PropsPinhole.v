(** Property theorems C33-C37 and C47: pinhole cameras, essential matrices and reprojection
    errors (cv-pinhole).  Real arithmetic unless the statement says [F64]. *)
From Coq Require Import Reals List ZArith.
From Verif Require Import Num Lin LinSpec Core CoreSpec Pinhole PinholeSpec PinholeFacts EssentialFacts PinholeProps FloatPinholeSpec FloatPinhole.
Import ListNotations.
Open Scope R_scope.

(** ** C33 *)
Theorem C33_pixel_round_trip :
  forall (k : intrinsics RNum) (p : rvec2), regular k -> uncalibrate k (calibrate k p) = Some p.
Proof. exact pixel_round_trip. Qed.
Print Assumptions C33_pixel_round_trip.
Theorem C33_bearing_round_trip :
  forall (k : intrinsics RNum) (b : rvec3), regular k -> unit_vec b -> 0 < vz b ->
    exists p, uncalibrate k b = Some p /\ calibrate k p = b.
Proof. exact bearing_round_trip. Qed.
Print Assumptions C33_bearing_round_trip.
Theorem C33_bearings_are_unit_and_in_front :
  forall (k : intrinsics RNum) (p : rvec2), unit_vec (calibrate k p) /\ 0 < vz (calibrate k p).
Proof. exact calibrate_front. Qed.
Print Assumptions C33_bearings_are_unit_and_in_front.
Theorem C33_behind_the_camera :
  forall (k : intrinsics RNum) (b : rvec3), uncalibrate k b = None <-> vz b < 0.
Proof. exact uncalibrate_none. Qed.
Print Assumptions C33_behind_the_camera.
(** The pixel is where the matrix of the intrinsics projects the bearing. *)
Theorem C33_matrix_of_calibrated :
  forall (k : intrinsics RNum) (p : rvec2), regular k -> projects k (calibrate k p) p.
Proof. exact calibrate_projects. Qed.
Print Assumptions C33_matrix_of_calibrated.
Theorem C33_matrix_of_uncalibrated :
  forall (k : intrinsics RNum) (b : rvec3) (p : rvec2), 0 < vz b -> (uncalibrate k b = Some p <-> projects k b p).
Proof. exact uncalibrate_projects. Qed.
Print Assumptions C33_matrix_of_uncalibrated.
(** Each setter changes its own entries of the matrix and no others; a new camera has the identity matrix. *)
Theorem C33_setters :
  forall (N : Num) (k : intrinsics N) (fx fy x y s : N) (a b c d e f g h i : N),
    intrinsic_matrix k = M3 (V3 a b c) (V3 d e f) (V3 g h i) ->
    intrinsic_matrix (set_focals k (V2 fx fy)) = M3 (V3 fx b c) (V3 d fy f) (V3 g h i) /\
    intrinsic_matrix (set_focal k fx) = M3 (V3 fx b c) (V3 d fx f) (V3 g h i) /\
    intrinsic_matrix (set_principal_point k (V2 x y)) = M3 (V3 a b x) (V3 d e y) (V3 g h i) /\
    intrinsic_matrix (set_skew k s) = M3 (V3 a s c) (V3 d e f) (V3 g h i) /\
    intrinsic_matrix (intrinsics_id (N := N)) = M3 (V3 one zero zero) (V3 zero one zero) (V3 zero zero one).
Proof. exact setter_matrices. Qed.
Print Assumptions C33_setters.
(** A bearing across the optical axis is projected to infinity instead of being refused. *)
Theorem C33_across_the_axis_refuted :
  exists (k : intrinsics F64) (b : vec3 F64) q, finite2 (focals k) = true /\ v_finite b = true /\
    eqb (norm2 b) one = true /\ eqb (vz b) zero = true /\ uncalibrate k b = Some q /\ finite2 q = false.
Proof. exact sideways_nan. Qed.
Print Assumptions C33_across_the_axis_refuted.
Example C33_case : regular doc_intrinsics.
Proof. exact (proj1 demo_intrinsics_case). Qed.

(** In binary64, for all cameras and pixels of any practical size: the bearing is finite, in front of the camera and of length
    one up to rounding, and the pixel comes back up to a relative error of [2 ^ -49]. *)
Theorem C33_float_bearing :
  forall (k : intrinsics F64) (p : vec2 F64), practical k p -> let b := calibrate k p in
    finite_double (vx b) /\ finite_double (vy b) /\ finite_double (vz b) /\ 0 < value (vz b) /\
    Rabs (value (vx b) ^ 2 + value (vy b) ^ 2 + value (vz b) ^ 2 - 1) <= / 2 ^ 50.
Proof. exact float_bearing. Qed.
Print Assumptions C33_float_bearing.
Theorem C33_float_round_trip :
  forall (k : intrinsics F64) (p : vec2 F64), practical k p -> let c := principal_point k in
    exists q, uncalibrate k (calibrate k p) = Some q /\ finite_double (px q) /\ finite_double (py q) /\
      Rabs (value (px q) - value (px p)) <= / 2 ^ 49 * (Rabs (value (px p)) + Rabs (value (px c)) + Rabs (value (py p)) + Rabs (value (py c))) + / 2 ^ 700 /\
      Rabs (value (py q) - value (py p)) <= / 2 ^ 50 * (Rabs (value (py p)) + Rabs (value (py c))) + / 2 ^ 700.
Proof. exact float_pixel. Qed.
Print Assumptions C33_float_round_trip.
Example C33_float_case : practical (Intrinsics (N := F64) (V2 (N := F64) (ofZ 800) (ofZ 900)) (V2 (N := F64) (ofZ 500) (ofZ 600)) (ofZ 2)) (V2 (N := F64) (ofZ 471) (ofZ 322)).
Proof. exact practical_case. Qed.

(** ** C34.  The distortion [r -> r (1 + k1 r^2)^-1] is invertible where [-1 < k1 r^2 <= 1]. *)
Theorem C34_pixel_round_trip_partial :
  forall (k : intrinsics RNum) (k1 : R) (p : rvec2), regular k ->
    let kr := k1 * norm2_2 (to_plane k p) in -1 < kr <= 1 -> kr <> 0 ->
    uncalibrate_k1 k k1 (calibrate_k1 k k1 p) = Some p.
Proof. exact k1_pixel_round_trip. Qed.
Print Assumptions C34_pixel_round_trip_partial.
Theorem C34_bearing_round_trip_partial :
  forall (k : intrinsics RNum) (k1 : R) (b : rvec3), regular k -> unit_vec b -> 0 < vz b ->
    let ku := k1 * norm2_2 (dehomogenize b) in 4 * ku <= 1 -> ku <> 0 ->
    exists p, uncalibrate_k1 k k1 b = Some p /\ calibrate_k1 k k1 p = b /\
      k1 * norm2_2 (to_plane k p) <> 0 /\ -1 < k1 * norm2_2 (to_plane k p) <= 1.
Proof. exact k1_bearing_round_trip. Qed.
Print Assumptions C34_bearing_round_trip_partial.
Theorem C34_bearings_are_unit_and_in_front :
  forall (k : intrinsics RNum) (k1 : R) (p : rvec2), unit_vec (calibrate_k1 k k1 p) /\ 0 < vz (calibrate_k1 k k1 p).
Proof. exact calibrate_k1_front. Qed.
Print Assumptions C34_bearings_are_unit_and_in_front.
(** The excluded cases [k1 r^2 = 0]: the principal point and [k1 = 0] yield NaN. *)
Theorem C34_principal_point_refuted :
  exists (k : intrinsics F64) (k1 : F64) (p q : vec2 F64),
    finite2 (focals k) = true /\ finite2 (principal_point k) = true /\ isfin (skew k) = true /\ isfin k1 = true /\
    p = principal_point k /\ v_finite (calibrate_k1 k k1 p) = true /\
    uncalibrate_k1 k k1 (calibrate_k1 k k1 p) = Some q /\ nan2 q = true.
Proof. exact principal_point_nan. Qed.
Print Assumptions C34_principal_point_refuted.
Theorem C34_no_distortion_refuted :
  exists (k : intrinsics F64) (p q : vec2 F64),
    finite2 (focals k) = true /\ finite2 (principal_point k) = true /\ isfin (skew k) = true /\ finite2 p = true /\
    v_finite (calibrate_k1 k zero p) = true /\ uncalibrate_k1 k zero (calibrate_k1 k zero p) = Some q /\ nan2 q = true.
Proof. exact zero_k1_nan. Qed.
Print Assumptions C34_no_distortion_refuted.
(** A tiny positive distortion, with which the round trip is exact over the reals, moves a pixel by more than 15 in binary64. *)
Theorem C34_cancellation_refuted :
  exists (k : intrinsics F64) (k1 : F64) (p q : vec2 F64),
    finite2 (focals k) = true /\ finite2 (principal_point k) = true /\ isfin (skew k) = true /\ finite2 p = true /\
    ltb zero (k1 * norm2_2 (to_plane k p))%num = true /\ leb (k1 * norm2_2 (to_plane k p))%num one = true /\
    uncalibrate_k1 k k1 (calibrate_k1 k k1 p) = Some q /\ finite2 q = true /\ leb (ofZ 15) (px q - px p)%num = true.
Proof. exact cancellation. Qed.
Print Assumptions C34_cancellation_refuted.
Example C34_case : regular doc_intrinsics /\
  -1 < -164624 / 1000000 * norm2_2 (to_plane doc_intrinsics (V2 471 322 : rvec2)) <= 1 /\
  -164624 / 1000000 * norm2_2 (to_plane doc_intrinsics (V2 471 322 : rvec2)) <> 0.
Proof. exact demo_intrinsics_case. Qed.

(** ** C35 *)
Theorem C35_from_sensor :
  forall (w h : Z) (s : rvec2), (w <> 0)%Z -> (h <> 0)%Z ->
    let d := pixel_dimensions (from_sensor (w, h) s) in px d * IZR w = px s /\ py d * IZR h = py s.
Proof. exact from_sensor_size. Qed.
Print Assumptions C35_from_sensor.
Theorem C35_from_sensor_square :
  forall (w h : Z) (sw : R), (w <> 0)%Z ->
    let d := pixel_dimensions (from_sensor_square (N := RNum) (w, h) sw) in px d * IZR w = sw /\ py d = px d.
Proof. exact from_sensor_square_size. Qed.
Print Assumptions C35_from_sensor_square.
(** The principal point is the centre of the pixel grid exactly when the size of a pixel, in
    the sensor's unit, happens to be the number of pixels. *)
Theorem C35_centred_partial :
  forall (s : specification RNum) (f : R),
    let k := intrinsics_centered s f in
    focals k = V2 f f /\ skew k = 0 /\
    (principal_point k = V2 ((IZR (fst (pixels s)) - 1) / 2) ((IZR (snd (pixels s)) - 1) / 2) <->
     pixel_dimensions s = V2 (IZR (fst (pixels s))) (IZR (snd (pixels s)))).
Proof. exact centered_intrinsics. Qed.
Print Assumptions C35_centred_partial.
Theorem C35_centred_refuted :
  exists (s : specification RNum) (f : R), s = from_sensor (640, 480)%Z (V2 (64 / 10) (48 / 10)) /\
    principal_point (intrinsics_centered s f) <> V2 ((IZR (fst (pixels s)) - 1) / 2) ((IZR (snd (pixels s)) - 1) / 2) /\
    px (focals (intrinsics_centered s f)) <> f / px (pixel_dimensions s).
Proof. exact centre_wrong. Qed.
Print Assumptions C35_centred_refuted.

(** ** C36 *)
Theorem C36_residual_of_correspondence_partial :
  forall (p : riso) (q : rvec3) (s t : R), s <> 0 -> t <> 0 -> vz q <> 0 -> vz (iso_point p q) <> 0 ->
    essential_residual (essential_of p) (vscale s q) (vscale t (iso_point p q)) = 0.
Proof. exact correspondence_residual. Qed.
Print Assumptions C36_residual_of_correspondence_partial.
Theorem C36_residual_at_infinity_partial :
  forall (p : riso) (d : rvec3), vz d <> 0 -> vz (mvec (rot p) d) <> 0 ->
    essential_residual (essential_of p) d (mvec (rot p) d) = 0.
Proof. exact direction_residual. Qed.
Print Assumptions C36_residual_at_infinity_partial.
(** Conversely, rays with residual zero which are not parallel meet. *)
Theorem C36_zero_residual_means_meeting_rays :
  forall (p : riso) (a b : rvec3), vz a <> 0 -> vz b <> 0 -> essential_residual (essential_of p) a b = 0 ->
    cross (mvec (rot p) a) b <> vzero -> exists x y : R, iso_point p (vscale x a) = vscale y b.
Proof. exact residual_meet. Qed.
Print Assumptions C36_zero_residual_means_meeting_rays.
Theorem C36_essential_constraints :
  forall p : riso, rigid p -> essential (essential_of p).
Proof. exact essential_of_essential. Qed.
Print Assumptions C36_essential_constraints.
Theorem C36_residual_ignores_length :
  forall (E : rmat3) (a b : rvec3) (s t : R), s <> 0 -> t <> 0 -> vz a <> 0 -> vz b <> 0 ->
    essential_residual E (vscale s a) (vscale t b) = essential_residual E a b.
Proof. exact residual_scale. Qed.
Print Assumptions C36_residual_ignores_length.
(** A consistent point beside a camera (depth zero) has residual NaN. *)
Theorem C36_beside_the_camera_refuted :
  exists (p : iso F64) (q : vec3 F64), v_finite q = true /\ v_finite (iso_point p q) = true /\ rot p = mid /\
    eqb (norm2 q) one = true /\ isnan (essential_residual (essential_of p) q (iso_point p q)) = true.
Proof. exact sideways_residual. Qed.
Print Assumptions C36_beside_the_camera_refuted.
Example C36_case : rigid demo_svd_pose /\ vz (V3 0 0 1 : rvec3) <> 0 /\ vz (iso_point demo_svd_pose (V3 0 0 1)) <> 0.
Proof. exact demo_residual_case. Qed.

(** ** C37 *)
Theorem C37_four_poses :
  forall try_svd (p : riso) d, rigid p -> trans p <> vzero ->
    try_svd (essential_of p) = Some d -> svd_correct (essential_of p) d ->
    exists l, possible_unscaled_poses try_svd (essential_of p) = Some l /\ length l = 4%nat /\
      (forall q, In q l -> rigid q /\ unit_vec (trans q)) /\ In (Iso (rot p) (normalize (trans p))) l.
Proof. exact possible_poses_spec. Qed.
Print Assumptions C37_four_poses.
(** They are all the poses with that essential matrix up to scale, each once. *)
Theorem C37_exactly_four :
  forall try_svd (p : riso) d, rigid p -> trans p <> vzero ->
    try_svd (essential_of p) = Some d -> svd_correct (essential_of p) d ->
    exists l, possible_unscaled_poses try_svd (essential_of p) = Some l /\ NoDup l /\
      forall q, In q l <-> rigid q /\ unit_vec (trans q) /\ exists c : R, essential_of q = mscale c (essential_of p).
Proof. exact possible_poses_exactly. Qed.
Print Assumptions C37_exactly_four.
Theorem C37_two_rotations :
  forall try_svd (p : riso) d, rigid p -> trans p <> vzero ->
    try_svd (essential_of p) = Some d -> svd_correct (essential_of p) d ->
    exists a b, possible_unscaled_poses_bearing try_svd (essential_of p) = Some [a; b] /\ rigid a /\ rigid b /\
      trans a = trans b /\ possible_rotations try_svd (essential_of p) = Some [rot a; rot b] /\
      (rot a = rot p \/ rot b = rot p) /\ (trans a = normalize (trans p) \/ trans a = vneg (normalize (trans p))).
Proof. exact possible_bearing_spec. Qed.
Print Assumptions C37_two_rotations.
Theorem C37_recondition :
  forall try_svd (E : rmat3) d, try_svd E = Some d -> svd_correct E d ->
    exists E', recondition try_svd E = Some E' /\ essential E' /\ (essential E -> E' = E).
Proof. exact recondition_spec. Qed.
Print Assumptions C37_recondition.
Theorem C37_no_decomposition :
  forall try_svd (E : rmat3), try_svd E = None ->
    possible_rotations_unscaled_translation try_svd E = None /\ possible_rotations try_svd E = None /\
    possible_unscaled_poses try_svd E = None /\ possible_unscaled_poses_bearing try_svd E = None /\
    recondition try_svd E = None.
Proof. exact possible_none. Qed.
Print Assumptions C37_no_decomposition.
Example C37_case : rigid demo_svd_pose /\ trans demo_svd_pose <> vzero /\ svd_correct (essential_of demo_svd_pose) demo_svd.
Proof. exact demo_svd_case. Qed.

(** ** C47 *)
Theorem C47_reprojection_error :
  forall tri (p : riso) (a b q : rvec3), tri p a b = Some (from_point q) -> vz q <> 0 -> vz (iso_point p q) <> 0 ->
    pose_reprojection_error tri p a b =
      if (Rltb (vz q) 0 || Rltb (vz (iso_point p q)) 0)%bool then None
      else Some (sub_2 (dehomogenize a) (dehomogenize q), sub_2 (dehomogenize b) (dehomogenize (iso_point p q))).
Proof. exact reprojection_spec. Qed.
Print Assumptions C47_reprojection_error.
Theorem C47_average_error :
  forall tri (p : riso) (a b q : rvec3), tri p a b = Some (from_point q) -> 0 < vz q -> 0 < vz (iso_point p q) ->
    exists ea eb e, pose_reprojection_error tri p a b = Some (ea, eb) /\
      ea = sub_2 (dehomogenize a) (dehomogenize q) /\ eb = sub_2 (dehomogenize b) (dehomogenize (iso_point p q)) /\
      average_pose_reprojection_error tri p a b = Some e /\ e = (norm_2 ea + norm_2 eb) / 2 /\ 0 <= e /\
      (e = 0 <-> dehomogenize a = dehomogenize q /\ dehomogenize b = dehomogenize (iso_point p q)).
Proof. exact average_spec. Qed.
Print Assumptions C47_average_error.
