(** The model of the mapping program from image files and settings on (vslam-sandbox/src/main.rs, cv-sfm/src/settings.rs and
    cv-sfm/src/lib.rs [add_frame]): the extraction of features (Frame.v) and the program on features (Sandbox.v) together. *)
From stdpp Require Import gmap list.
From Coq Require Import ZArith.
From Verif Require Import Outcome Num Lin Core Gray Diffuse Akaze Bicubic Pinhole Frame Sfm SfmPose SfmGeom SfmExport Sandbox.
Open Scope nat_scope.

(** settings.rs 7-263 [VSlamSettings]. *)
Record vslam_settings (N : Num) := VSlamSettings {
  vs_akaze_threshold : N;
  vs_maximum_cosine_distance : N;
  vs_maximum_sine_distance : N;
  vs_robust_view_bearing_pair_minimum_cosine_distance : N;
  vs_robust_view_num_robust_bearing_pair : nat;
  vs_minimum_robust_landmarks : nat;
  vs_robust_minimum_observations : nat;
  vs_robust_observation_incidence_minimum_cosine_distance : N;
  vs_single_view_consensus_threshold : N;
  vs_single_view_optimization_num_matches : nat;
  vs_single_view_filter_loop_iterations : nat;
  vs_single_view_patience : nat;
  vs_single_view_initial_features : nat;
  vs_single_view_optimization_rate : N;
  vs_single_view_minimum_landmarks : nat;
  vs_single_view_minimum_robust_landmarks : nat;
  vs_single_view_match_better_by : nat;
  vs_two_view_consensus_threshold : N;
  vs_two_view_minimum_robust_matches : nat;
  vs_two_view_match_better_by : nat;
  vs_two_view_optimization_maximum_matches : nat;
  vs_two_view_patience : nat;
  vs_three_view_patience : nat;
  vs_three_view_minimum_relative_scales : nat;
  vs_three_view_filter_loop_iterations : nat;
  vs_three_view_optimization_landmarks : nat;
  vs_three_view_minimum_robust_matches : nat;
  vs_reconstruction_optimization_iterations : nat;
  vs_tracking_features : nat;
  vs_tracking_similar_frames : nat;
  vs_tracking_similar_frame_recent_threshold : nat;
  vs_tracking_similar_frame_search_num : nat;
  vs_tracking_recent_frames : nat;
  vs_optimization_maximum_three_view_constraints : nat;
  vs_optimization_minimum_new_constraints : nat;
  vs_optimization_iterations : nat;
  vs_optimization_minimum_landmarks : nat;
  vs_optimization_maximum_landmarks : nat;
  vs_optimization_robust_covisibility_minimum_landmarks : nat;
  vs_graph_optimization_rate : N;
  vs_constraint_patience : nat
}.
Arguments VSlamSettings {_}.
Arguments vs_akaze_threshold {_} _.
Arguments vs_maximum_cosine_distance {_} _.
Arguments vs_maximum_sine_distance {_} _.
Arguments vs_robust_view_bearing_pair_minimum_cosine_distance {_} _.
Arguments vs_robust_view_num_robust_bearing_pair {_} _.
Arguments vs_minimum_robust_landmarks {_} _.
Arguments vs_robust_minimum_observations {_} _.
Arguments vs_robust_observation_incidence_minimum_cosine_distance {_} _.
Arguments vs_single_view_consensus_threshold {_} _.
Arguments vs_single_view_optimization_num_matches {_} _.
Arguments vs_single_view_filter_loop_iterations {_} _.
Arguments vs_single_view_patience {_} _.
Arguments vs_single_view_initial_features {_} _.
Arguments vs_single_view_optimization_rate {_} _.
Arguments vs_single_view_minimum_landmarks {_} _.
Arguments vs_single_view_minimum_robust_landmarks {_} _.
Arguments vs_single_view_match_better_by {_} _.
Arguments vs_two_view_consensus_threshold {_} _.
Arguments vs_two_view_minimum_robust_matches {_} _.
Arguments vs_two_view_match_better_by {_} _.
Arguments vs_two_view_optimization_maximum_matches {_} _.
Arguments vs_two_view_patience {_} _.
Arguments vs_three_view_patience {_} _.
Arguments vs_three_view_minimum_relative_scales {_} _.
Arguments vs_three_view_filter_loop_iterations {_} _.
Arguments vs_three_view_optimization_landmarks {_} _.
Arguments vs_three_view_minimum_robust_matches {_} _.
Arguments vs_reconstruction_optimization_iterations {_} _.
Arguments vs_tracking_features {_} _.
Arguments vs_tracking_similar_frames {_} _.
Arguments vs_tracking_similar_frame_recent_threshold {_} _.
Arguments vs_tracking_similar_frame_search_num {_} _.
Arguments vs_tracking_recent_frames {_} _.
Arguments vs_optimization_maximum_three_view_constraints {_} _.
Arguments vs_optimization_minimum_new_constraints {_} _.
Arguments vs_optimization_iterations {_} _.
Arguments vs_optimization_minimum_landmarks {_} _.
Arguments vs_optimization_maximum_landmarks {_} _.
Arguments vs_optimization_robust_covisibility_minimum_landmarks {_} _.
Arguments vs_graph_optimization_rate {_} _.
Arguments vs_constraint_patience {_} _.

Section settings.
Context {N : Num}.
(** settings.rs 265-483 [default]. *)
Definition vslam_default : vslam_settings N := {|
  vs_akaze_threshold := lit 1 1000;
  vs_maximum_cosine_distance := lit 1 100000;
  vs_maximum_sine_distance := lit 1 10;
  vs_robust_view_bearing_pair_minimum_cosine_distance := lit 1 100;
  vs_robust_view_num_robust_bearing_pair := 3;
  vs_minimum_robust_landmarks := 32;
  vs_robust_minimum_observations := 3;
  vs_robust_observation_incidence_minimum_cosine_distance := lit 1 1000;
  vs_single_view_consensus_threshold := lit 1 100000;
  vs_single_view_optimization_num_matches := 2 ^ 11;
  vs_single_view_filter_loop_iterations := 5;
  vs_single_view_patience := 10 ^ 5;
  vs_single_view_initial_features := 2 ^ 13;
  vs_single_view_optimization_rate := lit 1 1000;
  vs_single_view_minimum_landmarks := 2 ^ 5;
  vs_single_view_minimum_robust_landmarks := 2 ^ 6;
  vs_single_view_match_better_by := 24;
  vs_two_view_consensus_threshold := lit 1 10000000;
  vs_two_view_minimum_robust_matches := 2 ^ 8;
  vs_two_view_match_better_by := 24;
  vs_two_view_optimization_maximum_matches := 2 ^ 9;
  vs_two_view_patience := 2 ^ 12;
  vs_three_view_patience := 2 ^ 16;
  vs_three_view_minimum_relative_scales := 2 ^ 4;
  vs_three_view_filter_loop_iterations := 2 ^ 3;
  vs_three_view_optimization_landmarks := 2 ^ 10;
  vs_three_view_minimum_robust_matches := 32;
  vs_reconstruction_optimization_iterations := 1;
  vs_tracking_features := 2 ^ 13;
  vs_tracking_similar_frames := 0;
  vs_tracking_similar_frame_recent_threshold := 0;
  vs_tracking_similar_frame_search_num := 2 ^ 9;
  vs_tracking_recent_frames := 32;
  vs_optimization_maximum_three_view_constraints := 2 ^ 6;
  vs_optimization_minimum_new_constraints := 4;
  vs_optimization_iterations := 2 ^ 10;
  vs_optimization_minimum_landmarks := 24;
  vs_optimization_maximum_landmarks := 64;
  vs_optimization_robust_covisibility_minimum_landmarks := 2 ^ 4;
  vs_graph_optimization_rate := lit 1 1000;
  vs_constraint_patience := 2 ^ 12
|}.
(** The part of the settings that Sfm.v uses, and the part that SfmGeom.v uses. *)
Definition tracking_of (v : vslam_settings N) : settings :=
  Settings (vs_tracking_similar_frames v) (vs_tracking_recent_frames v) (vs_tracking_similar_frame_recent_threshold v) (vs_tracking_similar_frame_search_num v) (vs_two_view_match_better_by v) (vs_single_view_initial_features v) (vs_single_view_match_better_by v) (vs_optimization_robust_covisibility_minimum_landmarks v) (vs_optimization_maximum_three_view_constraints v) (vs_optimization_minimum_new_constraints v) (vs_optimization_iterations v) (vs_reconstruction_optimization_iterations v).
Definition geometry_of (v : vslam_settings N) : gsettings N :=
  GSettings (vs_maximum_cosine_distance v) (vs_maximum_sine_distance v) (vs_robust_view_bearing_pair_minimum_cosine_distance v) (vs_robust_view_num_robust_bearing_pair v) (vs_minimum_robust_landmarks v) (vs_robust_minimum_observations v) (vs_robust_observation_incidence_minimum_cosine_distance v) (vs_single_view_optimization_num_matches v) (vs_single_view_filter_loop_iterations v) (vs_single_view_patience v) (vs_single_view_optimization_rate v) (vs_single_view_minimum_landmarks v) (vs_single_view_minimum_robust_landmarks v) (vs_two_view_minimum_robust_matches v) (vs_three_view_patience v) (vs_three_view_minimum_relative_scales v) (vs_three_view_filter_loop_iterations v) (vs_three_view_optimization_landmarks v) (vs_three_view_minimum_robust_matches v) (vs_optimization_minimum_landmarks v) (vs_optimization_maximum_landmarks v) (vs_constraint_patience v) (vs_graph_optimization_rate v).
End settings.

Section program.
Context (P : widths) (M32 : math (single P)) (M64 : math (double P)) (A : angles (single P)) (K : casts (single P)) (T : trig (double P)).
Notation f32 := (single P).
Notation f64 := (double P).
Context (exp2 : f64 -> f64) (fed : f64 -> outcome (list f64)).
Variables (rgb_luma : f32 * f32 * f32 -> f32) (rgba_luma : f32 * f32 * f32 * f32 -> f32).
Variables (float_ord : f32 -> f32 -> bool) (sort : forall T : Type, (T -> T -> bool) -> list T -> list T).
(** main.rs 71-78: the camera. *)
Variables (k : intrinsics f64) (k1 : f64).

(** cv-sfm/src/lib.rs [Frame::descriptor_features]: descriptors with their features. *)
Notation described := (list N * feature P)%type.
(** An image file, and what the external routines do while it is worked on; the two sample consensus processes get their
    thresholds (main.rs 104-118). *)
Record photo := Photo {
  ph_gray : grayscale f32;
  ph_rgb : image (Z * Z * Z);
  ph_tools : f64 -> f64 -> tools f64 described;
  ph_orders : orders;
  ph_similar : vdata (iso f64) described -> key -> nat -> list key;
  ph_knn : list described -> described -> nat -> list (nat * nat);
  ph_sort : list (key * key * key * list key) -> list (key * key * key * list key);
  ph_fuel : nat
}.
(** cv-sfm/src/lib.rs 86-97 [Frame::bearing], [Frame::color]. *)
Definition described_bearing (x : described) : vec3 f64 := f_bearing (snd x).
Definition described_colour (x : described) : colour := f_color (snd x).
(** The routines with the bearing that the features carry. *)
Definition photo_tools (v : vslam_settings f64) (p : photo) : tools f64 described :=
  let G := ph_tools p (vs_single_view_consensus_threshold v) (vs_two_view_consensus_threshold v) in
  Tools described_bearing (t_triangulate G) (t_two_view G) (t_single_view G) (t_asin G) (t_normal G) (t_shuffle G).
(** cv-sfm/src/lib.rs 790-792: what feature extraction returns for a photo. *)
Definition photo_features (v : vslam_settings f64) (p : photo) : outcome (list described) :=
  kps_descriptors P M32 M64 A K exp2 fed rgb_luma rgba_luma float_ord sort (vs_tracking_features v) (vs_akaze_threshold v) k k1 (ph_gray p) (ph_rgb p).
Definition picture_of (v : vslam_settings f64) (p : photo) (features : list described) : picture f64 described :=
  Picture features (photo_tools v p) (ph_orders p) (ph_similar p) (ph_knn p) (ph_sort p) (ph_fuel p).
(** main.rs 131-165: one image, from its file on. *)
Definition add_photo (v : vslam_settings f64) (opt : options f64) (feed : key) (ss : session f64 described) (p : photo) : outcome (session f64 described) :=
  let! features := photo_features v p in
  add_picture T described_colour (tracking_of v) opt feed ss (picture_of v p features).
(** main.rs 80-165: the program; [file] is the content of the settings file, if it could be read. *)
Definition mapping (opt : options f64) (file : option (vslam_settings f64)) (loaded : option (vdata (iso f64) described)) (photos : list photo) : outcome (session f64 described) :=
  let v := default vslam_default file in
  let (d, feed) := add_feed (default vdata_init loaded) in
  foldM (add_photo v opt feed) photos (Session (geometry_of v) d ∅ []).
End program.
