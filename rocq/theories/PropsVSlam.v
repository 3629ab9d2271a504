(** C77: the mapping program from image files and settings on (vslam-sandbox/src/main.rs, cv-sfm/src/settings.rs). *)
From stdpp Require Import gmap list.
From Coq Require Import Reals ZArith Lia.
From Verif Require Import Outcome Num Lin LinSpec Core CoreSpec Gray GraySpec Diffuse Akaze AkazeSpec AkazeDemo Bicubic BicubicSpec Pinhole Frame FrameSpec Sfm SfmSpec SfmUse SfmGeom SfmGeomSpec Sandbox SandboxSpec VSlam VSlamSpec VSlamFacts VSlamDemo.
Open Scope nat_scope.

(** Over the reals: every image has features; and unless there is one with fewer than three of them, the program runs to its
    end.  The frames are those loaded and one for each image with the image's features, and all that C75 says holds of the
    session with these features, seen in their bearings and exported in their colours. *)
Theorem C77_program :
  forall (nearest : rmat3 -> rmat3) (eps : R) (checks : bool) (A : angles RNum) (luma : R * R * R -> R) (lumaa : R * R * R * R -> R)
    (float_ord : R -> R -> bool) (sort : forall T : Type, (T -> T -> bool) -> list T -> list T) (k : intrinsics RNum) (k1 : R),
    (forall T, sorts (sort T)) -> (forall a b, float_ord a b = true \/ float_ord b a = true) -> (forall a b c, float_ord a b = true -> float_ord b c = true -> float_ord a c = true) ->
  forall (opt : options RNum) (file : option (vslam_settings RNum)) (loaded : option (vdata riso described)) (photos : list rphoto),
    let v := default vslam_default file in let d0 := default vdata_init loaded in
    0 < vs_single_view_initial_features v -> data_ok d0 -> Forall loadable photos -> Forall (routines_ok (vs_tracking_features v)) photos ->
    (forall p kf fr, p ∈ photos -> has_frame d0 kf fr -> 3 <= length (f_feats fr) < ph_fuel Rwidths p) ->
  exists fuel0, forall fuel, fuel0 <= fuel ->
  exists fss, Forall2 (fun p fs => photo_features Rwidths Rmath Rmath A Rcasts Rexp2 (fed_quarter checks fuel) luma lumaa float_ord sort k k1 v p = Ok fs /\ proper_features float_ord (vs_tracking_features v) fs) photos fss /\
  ((exists fs, fs ∈ fss /\ length fs < 3) \/
   exists ss, mapping Rwidths Rmath Rmath A Rcasts (real_trig nearest eps) Rexp2 (fed_quarter checks fuel) luma lumaa float_ord sort k k1 opt file loaded photos = Ok ss /\
    data_ok (ss_data ss) /\ ss_settings ss = geometry_of v /\
    (forall kf, f_feats <$> sm_map (d_frames (ss_data ss)) !! kf = if decide (kf < sm_next (d_frames d0)) then f_feats <$> sm_map (d_frames d0) !! kf else fss !! (kf - sm_next (d_frames d0))) /\
    let ps := zip_with (picture_of Rwidths v) photos fss in
    (forall q x, q ∈ ps -> t_bearing (p_tools q) x = f_bearing x.2) /\
    session_of (real_trig nearest eps) (fun x => f_color x.2) (tracking_of v) opt (geometry_of v) loaded ps = Ok ss /\
    orderly (fun x => f_color x.2) opt (geometry_of v) d0 ps (ss_events ss) /\ last_written opt d0 ps ss).
Proof. exact program_runs_or. Qed.
Print Assumptions C77_program.

(** An image of another kind, or a smaller one, ends the program. *)
Theorem C77_other_images_panic :
  forall (nearest : rmat3 -> rmat3) (eps : R) (checks : bool) (A : angles RNum) (luma : R * R * R -> R) (lumaa : R * R * R * R -> R)
    (float_ord : R -> R -> bool) (sort : forall T : Type, (T -> T -> bool) -> list T -> list T) (k : intrinsics RNum) (k1 : R),
    (forall T, sorts (sort T)) -> (forall a b, float_ord a b = true \/ float_ord b a = true) -> (forall a b c, float_ord a b = true -> float_ord b c = true -> float_ord a c = true) ->
  forall (opt : options RNum) (file : option (vslam_settings RNum)) (loaded : option (vdata riso described)) (photos : list rphoto) (p : rphoto) (after : list rphoto),
    let v := default vslam_default file in let d0 := default vdata_init loaded in
    0 < vs_single_view_initial_features v -> data_ok d0 -> Forall loadable photos -> Forall (routines_ok (vs_tracking_features v)) photos ->
    (forall p kf fr, p ∈ photos -> has_frame d0 kf fr -> 3 <= length (f_feats fr) < ph_fuel Rwidths p) ->
    (sides (ph_gray Rwidths p) = None \/ exists w h, sides (ph_gray Rwidths p) = Some (w, h) /\ (w < 40 \/ h < 40)) ->
  exists fuel0, forall fuel, fuel0 <= fuel ->
    (forall p fs, p ∈ photos -> photo_features Rwidths Rmath Rmath A Rcasts Rexp2 (fed_quarter checks fuel) luma lumaa float_ord sort k k1 v p = Ok fs -> 3 <= length fs) ->
    mapping Rwidths Rmath Rmath A Rcasts (real_trig nearest eps) Rexp2 (fed_quarter checks fuel) luma lumaa float_ord sort k k1 opt file loaded (photos ++ p :: after) = Panic.
Proof. exact program_panics. Qed.
Print Assumptions C77_other_images_panic.

(** Two settings have no effect, in any arithmetic: the maximum number of matches for two-view optimisation and the
    maximum number of its iterations. *)
Theorem C77_two_view_settings_ignored :
  forall (P : widths) (M32 : math (single P)) (M64 : math (double P)) (A : angles (single P)) (K : casts (single P)) (T : trig (double P)) exp2 fed luma lumaa float_ord sort k k1
    (opt : options (double P)) (v : vslam_settings (double P)) loaded photos (a b : nat), let v' := set_two_view a b v in
    vs_two_view_optimization_maximum_matches v' = a /\ vs_two_view_patience v' = b /\
    mapping P M32 M64 A K T exp2 fed luma lumaa float_ord sort k k1 opt (Some v') loaded photos = mapping P M32 M64 A K T exp2 fed luma lumaa float_ord sort k k1 opt (Some v) loaded photos.
Proof. exact program_unused. Qed.
Print Assumptions C77_two_view_settings_ignored.

(** Every step works with the setting of its name, in any arithmetic: the strategy, the geometry, the thresholds of the two
    consensus processes, and the number of features and the detection threshold. *)
Theorem C77_settings :
  forall (P : widths) (M32 : math (single P)) (M64 : math (double P)) (A : angles (single P)) (K : casts (single P)) exp2 fed luma lumaa float_ord sort k k1
    (v : vslam_settings (double P)) (p : photo P),
    tracking_similar_frames (tracking_of v) = vs_tracking_similar_frames v /\
    tracking_recent_frames (tracking_of v) = vs_tracking_recent_frames v /\
    tracking_similar_frame_recent_threshold (tracking_of v) = vs_tracking_similar_frame_recent_threshold v /\
    tracking_similar_frame_search_num (tracking_of v) = vs_tracking_similar_frame_search_num v /\
    two_view_match_better_by (tracking_of v) = vs_two_view_match_better_by v /\
    single_view_initial_features (tracking_of v) = vs_single_view_initial_features v /\
    single_view_match_better_by (tracking_of v) = vs_single_view_match_better_by v /\
    optimization_robust_covisibility_minimum_landmarks (tracking_of v) = vs_optimization_robust_covisibility_minimum_landmarks v /\
    optimization_maximum_three_view_constraints (tracking_of v) = vs_optimization_maximum_three_view_constraints v /\
    optimization_minimum_new_constraints (tracking_of v) = vs_optimization_minimum_new_constraints v /\
    optimization_iterations (tracking_of v) = vs_optimization_iterations v /\
    reconstruction_optimization_iterations (tracking_of v) = vs_reconstruction_optimization_iterations v /\
    maximum_cosine_distance (geometry_of v) = vs_maximum_cosine_distance v /\
    maximum_sine_distance (geometry_of v) = vs_maximum_sine_distance v /\
    robust_view_bearing_pair_minimum_cosine_distance (geometry_of v) = vs_robust_view_bearing_pair_minimum_cosine_distance v /\
    robust_view_num_robust_bearing_pair (geometry_of v) = vs_robust_view_num_robust_bearing_pair v /\
    minimum_robust_landmarks (geometry_of v) = vs_minimum_robust_landmarks v /\
    robust_minimum_observations (geometry_of v) = vs_robust_minimum_observations v /\
    robust_observation_incidence_minimum_cosine_distance (geometry_of v) = vs_robust_observation_incidence_minimum_cosine_distance v /\
    single_view_optimization_num_matches (geometry_of v) = vs_single_view_optimization_num_matches v /\
    single_view_filter_loop_iterations (geometry_of v) = vs_single_view_filter_loop_iterations v /\
    single_view_patience (geometry_of v) = vs_single_view_patience v /\
    single_view_optimization_rate (geometry_of v) = vs_single_view_optimization_rate v /\
    single_view_minimum_landmarks (geometry_of v) = vs_single_view_minimum_landmarks v /\
    single_view_minimum_robust_landmarks (geometry_of v) = vs_single_view_minimum_robust_landmarks v /\
    two_view_minimum_robust_matches (geometry_of v) = vs_two_view_minimum_robust_matches v /\
    three_view_patience (geometry_of v) = vs_three_view_patience v /\
    three_view_minimum_relative_scales (geometry_of v) = vs_three_view_minimum_relative_scales v /\
    three_view_filter_loop_iterations (geometry_of v) = vs_three_view_filter_loop_iterations v /\
    three_view_optimization_landmarks (geometry_of v) = vs_three_view_optimization_landmarks v /\
    three_view_minimum_robust_matches (geometry_of v) = vs_three_view_minimum_robust_matches v /\
    optimization_minimum_landmarks (geometry_of v) = vs_optimization_minimum_landmarks v /\
    optimization_maximum_landmarks (geometry_of v) = vs_optimization_maximum_landmarks v /\
    constraint_patience (geometry_of v) = vs_constraint_patience v /\
    graph_optimization_rate (geometry_of v) = vs_graph_optimization_rate v /\
    t_single_view (photo_tools P v p) = t_single_view (ph_tools P p (vs_single_view_consensus_threshold v) (vs_two_view_consensus_threshold v)) /\
    t_two_view (photo_tools P v p) = t_two_view (ph_tools P p (vs_single_view_consensus_threshold v) (vs_two_view_consensus_threshold v)) /\
    t_triangulate (photo_tools P v p) = t_triangulate (ph_tools P p (vs_single_view_consensus_threshold v) (vs_two_view_consensus_threshold v)) /\
    photo_features P M32 M64 A K exp2 fed luma lumaa float_ord sort k k1 v p =
      kps_descriptors P M32 M64 A K exp2 fed luma lumaa float_ord sort (vs_tracking_features v) (vs_akaze_threshold v) k k1 (ph_gray P p) (ph_rgb P p).
Proof. exact settings_used. Qed.
Print Assumptions C77_settings.

(** The default settings and an image of 60 times 50 pixels meet the premises; this image alone is added, whatever its features. *)
Example C77_example : let p := plain_photo (S (2 ^ 13)) in
  0 < vs_single_view_initial_features (vslam_default : vslam_settings RNum) /\ loadable p /\ routines_ok (vs_tracking_features (vslam_default : vslam_settings RNum)) p /\
  sides (ph_gray Rwidths p) = Some (60, 50) /\ (forall T, sorts (@insertion T)) /\
  forall nearest eps opt fs, exists ss, session_of (real_trig nearest eps) (described_colour Rwidths) (tracking_of (vslam_default : vslam_settings RNum)) opt (geometry_of (vslam_default : vslam_settings RNum)) None [picture_of Rwidths (vslam_default : vslam_settings RNum) p fs] = Ok ss /\
    f_feats <$> sm_map (d_frames (ss_data ss)) !! 0 = Some fs.
Proof.
  cbv zeta. split; [apply Nat.neq_0_lt_0, Nat.pow_nonzero; discriminate|]. split; [apply plain_loadable|]. split; [apply plain_routines, Nat.lt_succ_diag_r|].
  split; [reflexivity|]. split; [intros T; exact insertion_sorts|]. intros nearest eps opt fs. eexists. split; [apply plain_first|]. reflexivity.
Qed.
