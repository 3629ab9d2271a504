(** C78: what the settings file of the mapping program means (cv-sfm/src/settings.rs, vslam-sandbox/src/main.rs 91-101). *)
From stdpp Require Import base list strings option.
From Coq Require Import Reals ZArith Lra.
From Verif Require Import Outcome Num Lin LinFacts Core Gray Diffuse Akaze Bicubic BicubicSpec Pinhole Frame Sfm SfmPose SfmGeom SfmExport Sandbox VSlam SettingsFile SettingsFileSpec SettingsFileFacts.
Open Scope string_scope.

(** The forty-one settings have different names.  A file is accepted exactly if no setting is given twice and every given one
    has a value of its kind; each setting then has the value given for its name, or its documented default. *)
Theorem C78_settings_file : forall (N : Num),
  NoDup (setting_names (N := N)) /\ length (setting_names (N := N)) = 41 /\
  forall file : settings_file N,
    ((exists v, read_settings file = Some v) <-> readable file) /\
    forall v, read_settings file = Some v -> settings_from file v.
Proof. exact (fun N => conj (proj1 names_nodup) (conj (proj2 names_nodup) (fun file => conj (read_iff file) (fun v H => proj1 (read_from file v H))))). Qed.
Print Assumptions C78_settings_file.

(** Entries with other names and the order of the entries have no effect. *)
Theorem C78_other_entries : forall (N : Num) (file file' : settings_file N),
  filter (fun x : string * json N => x.1 ∈ setting_names (N := N)) file ≡ₚ filter (fun x : string * json N => x.1 ∈ setting_names (N := N)) file' ->
  read_settings file = read_settings file'.
Proof. exact (fun N => read_known). Qed.
Print Assumptions C78_other_entries.

(** The program works with the settings of the file if it is accepted, and else, or if there is none, with the defaults. *)
Theorem C78_program :
  forall (P : widths) (M32 : math (single P)) (M64 : math (double P)) (A : angles (single P)) (K : casts (single P)) (T : trig (double P)) exp2 fed luma lumaa float_ord sort k k1
    (opt : options (double P)) (content : option (settings_file (double P))) loaded photos,
  exists v, mapping_with P M32 M64 A K T exp2 fed luma lumaa float_ord sort k k1 opt content loaded photos = mapping P M32 M64 A K T exp2 fed luma lumaa float_ord sort k k1 opt (Some v) loaded photos /\
    ((exists file, content = Some file /\ readable file /\ settings_from file v) \/ (forall file, content = Some file -> ~ readable file) /\ settings_from [] v).
Proof. exact program_settings. Qed.
Print Assumptions C78_program.

(** It is not true that a well-formed entry takes effect: a count written as 8192.0 elsewhere in the file discards the whole
    file, without an error. *)
Theorem C78_given_settings_refuted :
  exists (file : settings_file RNum) (x : R), ("akaze_threshold", JFloat (N := RNum) x) ∈ file /\ usable writes_real file "akaze_threshold" /\ x <> vs_akaze_threshold (vslam_default : vslam_settings RNum) /\
  forall (M32 M64 : math RNum) (A : angles RNum) (K : casts RNum) (T : trig RNum) exp2 fed luma lumaa float_ord sort k k1 (opt : options RNum) loaded photos,
    mapping_with Rwidths M32 M64 A K T exp2 fed luma lumaa float_ord sort k k1 opt (Some file) loaded photos =
    mapping_with Rwidths M32 M64 A K T exp2 fed luma lumaa float_ord sort k k1 opt None loaded photos.
Proof. exact given_discarded. Qed.
Print Assumptions C78_given_settings_refuted.

(** A file with a number, a count, an unknown name and no other setting. *)
Example C78_example : exists v : vslam_settings RNum,
  read_settings [("note", JOther); ("two_view_patience", JInt 7%Z); ("akaze_threshold", JFloat (N := RNum) (1 / 2)%R)] = Some v /\
  vs_two_view_patience v = 7 /\ vs_akaze_threshold v = (1 / 2)%R /\ vs_tracking_recent_frames v = 32.
Proof. eexists. split; [reflexivity|]. split; [reflexivity|]. split; reflexivity. Qed.
Example C78_rejected : read_settings (N := RNum) [("two_view_patience", JInt 7%Z); ("two_view_patience", JInt 7%Z)] = None /\
  read_settings (N := RNum) [("two_view_patience", JInt (-1)%Z)] = None /\ read_settings (N := RNum) [("akaze_threshold", JOther)] = None /\
  read_settings (N := RNum) [("two_view_match_better_by", JInt (2 ^ 32)%Z)] = None.
Proof. repeat split. Qed.
