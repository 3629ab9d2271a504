(** The model of the settings file of the mapping program (cv-sfm/src/settings.rs 1-264, vslam-sandbox/src/main.rs 91-101).

    The file is a JSON object; the code that reads it is derived by serde from the attributes of the structure, with the
    behaviour documented there: unknown names are ignored, a missing name has its default, a name given twice or a value of
    another type is an error.  Not modelled: the syntax of JSON, and a file that is an array instead of an object. *)
From stdpp Require Import base list strings option.
From Coq Require Import ZArith.
From Verif Require Import Outcome Num Lin Core Gray Diffuse Akaze Bicubic Pinhole Frame Sfm SfmPose SfmGeom SfmExport Sandbox VSlam.
Open Scope string_scope.

Section file.
Context {N : Num}.
(** A value in the file: a number without or with a fraction or exponent, or anything else. *)
Inductive json := JInt (z : Z) | JFloat (x : N) | JOther.
Definition settings_file : Type := list (string * json).

(** serde: [f64], [usize] (64 bits) and [u32]. *)
Definition as_real (j : json) : option N := match j with JInt z => Some (ofZ z) | JFloat x => Some x | JOther => None end.
Definition as_count (limit : Z) (j : json) : option nat :=
  match j with JInt z => if (0 <=? z)%Z && (z <? limit)%Z then Some (Z.to_nat z) else None | _ => None end.
(** serde: a field with a default. *)
Definition read_field {A : Type} (value : json -> option A) (name : string) (dflt : A) (file : settings_file) : option A :=
  match filter (fun x : string * json => x.1 = name) file with
  | [] => Some dflt
  | [x] => value x.2
  | _ => None
  end.
Definition read_real := read_field as_real.
Definition read_usize := read_field (as_count (2 ^ 64)).
Definition read_u32 := read_field (as_count (2 ^ 32)).
(** settings.rs 4-263: the derived code. *)
Definition read_settings (file : settings_file) : option (vslam_settings N) :=
  let dflt : vslam_settings N := vslam_default in
  x0 ← read_real "akaze_threshold" (vs_akaze_threshold dflt) file;
  x1 ← read_real "maximum_cosine_distance" (vs_maximum_cosine_distance dflt) file;
  x2 ← read_real "maximum_sine_distance" (vs_maximum_sine_distance dflt) file;
  x3 ← read_real "robust_view_bearing_pair_minimum_cosine_distance" (vs_robust_view_bearing_pair_minimum_cosine_distance dflt) file;
  x4 ← read_usize "robust_view_num_robust_bearing_pair" (vs_robust_view_num_robust_bearing_pair dflt) file;
  x5 ← read_usize "minimum_robust_landmarks" (vs_minimum_robust_landmarks dflt) file;
  x6 ← read_usize "robust_minimum_observations" (vs_robust_minimum_observations dflt) file;
  x7 ← read_real "robust_observation_incidence_minimum_cosine_distance" (vs_robust_observation_incidence_minimum_cosine_distance dflt) file;
  x8 ← read_real "single_view_consensus_threshold" (vs_single_view_consensus_threshold dflt) file;
  x9 ← read_usize "single_view_optimization_num_matches" (vs_single_view_optimization_num_matches dflt) file;
  x10 ← read_usize "single_view_filter_loop_iterations" (vs_single_view_filter_loop_iterations dflt) file;
  x11 ← read_usize "single_view_patience" (vs_single_view_patience dflt) file;
  x12 ← read_usize "single_view_initial_features" (vs_single_view_initial_features dflt) file;
  x13 ← read_real "single_view_optimization_rate" (vs_single_view_optimization_rate dflt) file;
  x14 ← read_usize "single_view_minimum_landmarks" (vs_single_view_minimum_landmarks dflt) file;
  x15 ← read_usize "single_view_minimum_robust_landmarks" (vs_single_view_minimum_robust_landmarks dflt) file;
  x16 ← read_u32 "single_view_match_better_by" (vs_single_view_match_better_by dflt) file;
  x17 ← read_real "two_view_consensus_threshold" (vs_two_view_consensus_threshold dflt) file;
  x18 ← read_usize "two_view_minimum_robust_matches" (vs_two_view_minimum_robust_matches dflt) file;
  x19 ← read_u32 "two_view_match_better_by" (vs_two_view_match_better_by dflt) file;
  x20 ← read_usize "two_view_optimization_maximum_matches" (vs_two_view_optimization_maximum_matches dflt) file;
  x21 ← read_usize "two_view_patience" (vs_two_view_patience dflt) file;
  x22 ← read_usize "three_view_patience" (vs_three_view_patience dflt) file;
  x23 ← read_usize "three_view_minimum_relative_scales" (vs_three_view_minimum_relative_scales dflt) file;
  x24 ← read_usize "three_view_filter_loop_iterations" (vs_three_view_filter_loop_iterations dflt) file;
  x25 ← read_usize "three_view_optimization_landmarks" (vs_three_view_optimization_landmarks dflt) file;
  x26 ← read_usize "three_view_minimum_robust_matches" (vs_three_view_minimum_robust_matches dflt) file;
  x27 ← read_usize "reconstruction_optimization_iterations" (vs_reconstruction_optimization_iterations dflt) file;
  x28 ← read_usize "tracking_features" (vs_tracking_features dflt) file;
  x29 ← read_usize "tracking_similar_frames" (vs_tracking_similar_frames dflt) file;
  x30 ← read_usize "tracking_similar_frame_recent_threshold" (vs_tracking_similar_frame_recent_threshold dflt) file;
  x31 ← read_usize "tracking_similar_frame_search_num" (vs_tracking_similar_frame_search_num dflt) file;
  x32 ← read_usize "tracking_recent_frames" (vs_tracking_recent_frames dflt) file;
  x33 ← read_usize "optimization_maximum_three_view_constraints" (vs_optimization_maximum_three_view_constraints dflt) file;
  x34 ← read_usize "optimization_minimum_new_constraints" (vs_optimization_minimum_new_constraints dflt) file;
  x35 ← read_usize "optimization_iterations" (vs_optimization_iterations dflt) file;
  x36 ← read_usize "optimization_minimum_landmarks" (vs_optimization_minimum_landmarks dflt) file;
  x37 ← read_usize "optimization_maximum_landmarks" (vs_optimization_maximum_landmarks dflt) file;
  x38 ← read_usize "optimization_robust_covisibility_minimum_landmarks" (vs_optimization_robust_covisibility_minimum_landmarks dflt) file;
  x39 ← read_real "graph_optimization_rate" (vs_graph_optimization_rate dflt) file;
  x40 ← read_usize "constraint_patience" (vs_constraint_patience dflt) file;
  Some (VSlamSettings x0 x1 x2 x3 x4 x5 x6 x7 x8 x9 x10 x11 x12 x13 x14 x15 x16 x17 x18 x19 x20 x21 x22 x23 x24 x25 x26 x27 x28 x29 x30 x31 x32 x33 x34 x35 x36 x37 x38 x39 x40).
End file.
Arguments json : clear implicits.
Arguments settings_file : clear implicits.

(** main.rs 91-101 and the rest of the program: [content] is the object in the settings file, if there is one; a file that
    cannot be read is ignored. *)
Definition mapping_with (P : widths) (M32 : math (single P)) (M64 : math (double P)) (A : angles (single P)) (K : casts (single P)) (T : trig (double P))
    (exp2 : double P -> double P) (fed : double P -> outcome (list (double P))) rgb_luma rgba_luma float_ord sort k k1
    (opt : options (double P)) (content : option (settings_file (double P))) loaded photos :=
  mapping P M32 M64 A K T exp2 fed rgb_luma rgba_luma float_ord sort k k1 opt (content ≫= read_settings) loaded photos.
