(** The model of the mapping program vslam-sandbox/src/main.rs.  Not modelled: reading the command line, the settings
    file and the images (an image is given by its features, see Frame.v), and the encoding of the data file.  The
    name of an exported file is the pair of the image's frame and the reconstruction. *)
From stdpp Require Import gmap list.
From Verif Require Import Outcome Num Lin Core Geom Sfm SfmPose SfmGeom Bicubic SfmExport.
Open Scope nat_scope.

Section program.
Context {N : Num} (T : trig N) {F : Type} (colour_of : F -> colour) (s : settings).
Notation vdata := (vdata (iso N) F).
Notation env := (env (iso N) F).

(** An image, and what the external routines do while it is worked on. *)
Record picture := Picture {
  p_features : list F;
  p_tools : tools N F;
  p_orders : orders;
  p_similar : vdata -> key -> nat -> list key;
  p_knn : list F -> F -> nat -> list (nat * nat);
  p_sort : list (key * key * key * list key) -> list (key * key * key * list key);
  p_fuel : nat
}.
(** main.rs 29-34, 53-58: the options of the export; [output] is [None] without a directory to write to. *)
Record options := Options {
  output : option unit;
  export_maximum_cosine_distance : N;
  export_robust_minimum_observations : nat;
  no_camera_faces : bool
}.
(** What the program does beside adding frames. *)
Inductive event := Normalised (r : key) | Exported (k r : key) (file : ply N).
(** main.rs 100-130: the settings and the data of [vslam], and [normalized]. *)
Record session := Session {
  ss_settings : gsettings N;
  ss_data : vdata;
  ss_normalized : gset key;
  ss_events : list event
}.

Definition picture_env (st : gsettings N) (p : picture) : env := geometric T st (p_tools p) (p_orders p) (p_similar p) (p_knn p) (p_sort p) (p_fuel p).
(** main.rs 147-150: the settings while a reconstruction is exported. *)
Definition export_settings (opt : options) (st : gsettings N) : gsettings N :=
  GSettings (export_maximum_cosine_distance opt) (maximum_sine_distance st) (robust_view_bearing_pair_minimum_cosine_distance st) (robust_view_num_robust_bearing_pair st) (minimum_robust_landmarks st)
    (export_robust_minimum_observations opt) (robust_observation_incidence_minimum_cosine_distance st) (single_view_optimization_num_matches st) (single_view_filter_loop_iterations st)
    (single_view_patience st) (single_view_optimization_rate st) (single_view_minimum_landmarks st) (single_view_minimum_robust_landmarks st) (two_view_minimum_robust_matches st)
    (three_view_patience st) (three_view_minimum_relative_scales st) (three_view_filter_loop_iterations st) (three_view_optimization_landmarks st) (three_view_minimum_robust_matches st)
    (optimization_minimum_landmarks st) (optimization_maximum_landmarks st) (constraint_patience st) (graph_optimization_rate st).

(** main.rs 136-139: a reconstruction which has not been met yet is normalised. *)
Definition normalize_new (p : picture) (ss : session) (r : key) : outcome session :=
  if decide (r ∈ ss_normalized ss) then Ok ss
  else let! d := normalize_reconstruction iso_mul iso_inv (picture_env (ss_settings ss) p) (ss_data ss) r in
       Ok (Session (ss_settings ss) d ({[r]} ∪ ss_normalized ss) (ss_events ss ++ [Normalised r])).
(** main.rs 140-163. *)
Definition export_current (opt : options) (p : picture) (ss : session) (k r : key) : outcome session :=
  match output opt with
  | None => Ok ss
  | Some _ =>
      let old_settings := ss_settings ss in
      let ss1 := Session (export_settings opt (ss_settings ss)) (ss_data ss) (ss_normalized ss) (ss_events ss) in
      let! file := export_reconstruction (ss_settings ss1) (p_tools p) (p_orders p) colour_of (ss_data ss1) r (negb (no_camera_faces opt)) in
      Ok (Session old_settings (ss_data ss1) (ss_normalized ss1) (ss_events ss1 ++ [Exported k r file]))
  end.
(** main.rs 131-165: one image. *)
Definition add_picture (opt : options) (feed : key) (ss : session) (p : picture) : outcome session :=
  let! (d, k) := add_frame iso_id iso_mul iso_inv (picture_env (ss_settings ss) p) s (ss_data ss) feed (p_features p) in
  let ss1 := Session (ss_settings ss) d (ss_normalized ss) (ss_events ss) in
  let! fr := unwrap (sm_get (d_frames d) k) in
  match f_view fr with
  | None => Ok ss1
  | Some (r, _) => let! ss2 := normalize_new p ss1 r in export_current opt p ss2 k r
  end.
(** main.rs 99-165, from the data that was loaded (or the default) on. *)
Definition session_of (opt : options) (st : gsettings N) (loaded : option vdata) (pictures : list picture) : outcome session :=
  let (d, feed) := add_feed (default vdata_init loaded) in
  foldM (add_picture opt feed) pictures (Session st d ∅ []).
(** main.rs 167-175: what is saved. *)
Definition saved (pictures : list picture) (ss : session) : option vdata :=
  match pictures with [] => None | _ => Some (ss_data ss) end.
End program.
Arguments picture N F : clear implicits.
Arguments session N F : clear implicits.
Arguments event N : clear implicits.
Arguments options N : clear implicits.
