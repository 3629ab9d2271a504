(** Specification vocabulary for C78: the settings, by name. *)
From stdpp Require Import base list strings option.
From Coq Require Import ZArith.
From Verif Require Import Num Sfm SfmGeom VSlam SettingsFile.
Open Scope string_scope.

Section settings.
Context {N : Num}.
(** The settings that are real numbers, with their defaults. *)
Definition real_settings : list (string * (vslam_settings N -> N) * N) :=
  [("akaze_threshold", vs_akaze_threshold, lit 1 1000);
   ("maximum_cosine_distance", vs_maximum_cosine_distance, lit 1 100000);
   ("maximum_sine_distance", vs_maximum_sine_distance, lit 1 10);
   ("robust_view_bearing_pair_minimum_cosine_distance", vs_robust_view_bearing_pair_minimum_cosine_distance, lit 1 100);
   ("robust_observation_incidence_minimum_cosine_distance", vs_robust_observation_incidence_minimum_cosine_distance, lit 1 1000);
   ("single_view_consensus_threshold", vs_single_view_consensus_threshold, lit 1 100000);
   ("single_view_optimization_rate", vs_single_view_optimization_rate, lit 1 1000);
   ("two_view_consensus_threshold", vs_two_view_consensus_threshold, lit 1 10000000);
   ("graph_optimization_rate", vs_graph_optimization_rate, lit 1 1000)].
(** The settings that are numbers of things, with their defaults and the limits of their types. *)
Definition count_settings : list (string * (vslam_settings N -> nat) * nat * Z) :=
  [("robust_view_num_robust_bearing_pair", vs_robust_view_num_robust_bearing_pair, (3)%nat, 2 ^ 64)%Z;
   ("minimum_robust_landmarks", vs_minimum_robust_landmarks, (32)%nat, 2 ^ 64)%Z;
   ("robust_minimum_observations", vs_robust_minimum_observations, (3)%nat, 2 ^ 64)%Z;
   ("single_view_optimization_num_matches", vs_single_view_optimization_num_matches, (2 ^ 11)%nat, 2 ^ 64)%Z;
   ("single_view_filter_loop_iterations", vs_single_view_filter_loop_iterations, (5)%nat, 2 ^ 64)%Z;
   ("single_view_patience", vs_single_view_patience, (10 ^ 5)%nat, 2 ^ 64)%Z;
   ("single_view_initial_features", vs_single_view_initial_features, (2 ^ 13)%nat, 2 ^ 64)%Z;
   ("single_view_minimum_landmarks", vs_single_view_minimum_landmarks, (2 ^ 5)%nat, 2 ^ 64)%Z;
   ("single_view_minimum_robust_landmarks", vs_single_view_minimum_robust_landmarks, (2 ^ 6)%nat, 2 ^ 64)%Z;
   ("single_view_match_better_by", vs_single_view_match_better_by, (24)%nat, 2 ^ 32)%Z;
   ("two_view_minimum_robust_matches", vs_two_view_minimum_robust_matches, (2 ^ 8)%nat, 2 ^ 64)%Z;
   ("two_view_match_better_by", vs_two_view_match_better_by, (24)%nat, 2 ^ 32)%Z;
   ("two_view_optimization_maximum_matches", vs_two_view_optimization_maximum_matches, (2 ^ 9)%nat, 2 ^ 64)%Z;
   ("two_view_patience", vs_two_view_patience, (2 ^ 12)%nat, 2 ^ 64)%Z;
   ("three_view_patience", vs_three_view_patience, (2 ^ 16)%nat, 2 ^ 64)%Z;
   ("three_view_minimum_relative_scales", vs_three_view_minimum_relative_scales, (2 ^ 4)%nat, 2 ^ 64)%Z;
   ("three_view_filter_loop_iterations", vs_three_view_filter_loop_iterations, (2 ^ 3)%nat, 2 ^ 64)%Z;
   ("three_view_optimization_landmarks", vs_three_view_optimization_landmarks, (2 ^ 10)%nat, 2 ^ 64)%Z;
   ("three_view_minimum_robust_matches", vs_three_view_minimum_robust_matches, (32)%nat, 2 ^ 64)%Z;
   ("reconstruction_optimization_iterations", vs_reconstruction_optimization_iterations, (1)%nat, 2 ^ 64)%Z;
   ("tracking_features", vs_tracking_features, (2 ^ 13)%nat, 2 ^ 64)%Z;
   ("tracking_similar_frames", vs_tracking_similar_frames, (0)%nat, 2 ^ 64)%Z;
   ("tracking_similar_frame_recent_threshold", vs_tracking_similar_frame_recent_threshold, (0)%nat, 2 ^ 64)%Z;
   ("tracking_similar_frame_search_num", vs_tracking_similar_frame_search_num, (2 ^ 9)%nat, 2 ^ 64)%Z;
   ("tracking_recent_frames", vs_tracking_recent_frames, (32)%nat, 2 ^ 64)%Z;
   ("optimization_maximum_three_view_constraints", vs_optimization_maximum_three_view_constraints, (2 ^ 6)%nat, 2 ^ 64)%Z;
   ("optimization_minimum_new_constraints", vs_optimization_minimum_new_constraints, (4)%nat, 2 ^ 64)%Z;
   ("optimization_iterations", vs_optimization_iterations, (2 ^ 10)%nat, 2 ^ 64)%Z;
   ("optimization_minimum_landmarks", vs_optimization_minimum_landmarks, (24)%nat, 2 ^ 64)%Z;
   ("optimization_maximum_landmarks", vs_optimization_maximum_landmarks, (64)%nat, 2 ^ 64)%Z;
   ("optimization_robust_covisibility_minimum_landmarks", vs_optimization_robust_covisibility_minimum_landmarks, (2 ^ 4)%nat, 2 ^ 64)%Z;
   ("constraint_patience", vs_constraint_patience, (2 ^ 12)%nat, 2 ^ 64)%Z].
Definition setting_names : list string := map (fun x => x.1.1) real_settings ++ map (fun x => x.1.1.1) count_settings.

(** The number [r], or the number [n] of things below [limit], is written as [j]. *)
Definition writes_real (j : json N) (r : N) : Prop := j = JFloat r \/ exists z, j = JInt z /\ r = ofZ z.
Definition writes_count (limit : Z) (j : json N) (n : nat) : Prop := j = JInt (Z.of_nat n) /\ (Z.of_nat n < limit)%Z.

(** The setting [name] has the value given in the file, or its default [dflt]. *)
Definition taken_from {A : Type} (writes : json N -> A -> Prop) (file : settings_file N) (name : string) (dflt value : A) : Prop :=
  (exists j, (name, j) ∈ file /\ writes j value) \/ (forall j, (name, j) ∉ file) /\ value = dflt.
(** The entries for [name] can be used: at most one, with a value of the right kind. *)
Definition usable {A : Type} (writes : json N -> A -> Prop) (file : settings_file N) (name : string) : Prop :=
  (forall i j x y, file !! i = Some (name, x) -> file !! j = Some (name, y) -> i = j) /\ forall x, (name, x) ∈ file -> exists a, writes x a.
(** The settings [v] are what the file says. *)
Record settings_from (file : settings_file N) (v : vslam_settings N) : Prop := {
  sf_reals : forall name get dflt, (name, get, dflt) ∈ real_settings -> taken_from writes_real file name dflt (get v);
  sf_counts : forall name get dflt limit, (name, get, dflt, limit) ∈ count_settings -> taken_from (writes_count limit) file name dflt (get v)
}.
Record readable (file : settings_file N) : Prop := {
  rd_reals : forall name get dflt, (name, get, dflt) ∈ real_settings -> usable writes_real file name;
  rd_counts : forall name get dflt limit, (name, get, dflt, limit) ∈ count_settings -> usable (writes_count limit) file name
}.
End settings.
