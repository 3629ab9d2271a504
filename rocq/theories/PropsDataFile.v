(** Property C80: the data file of the mapping program over any number of runs, each of which may stop at any point.
    Definitions used in the statements come from the model (Sfm.v, SfmGeom.v, Sandbox.v, DataFile.v) and
    from the specifications SfmSpec.v, SandboxSpec.v and DataFileSpec.v. *)
From Coq Require Import Reals.
From stdpp Require Import gmap list.
From Verif Require Import Outcome Num Lin LinSpec Core CoreSpec Bicubic Sfm SfmSpec SfmUse SfmPoseSpec SfmGeom SfmGeomSpec SfmExport Sandbox SandboxSpec SandboxDemo DataFile DataFileSpec DataFileFacts DataFileDemo.
Open Scope nat_scope.

(** After any number of runs that were not interrupted while they wrote the file, every run has started, and the file
    is a consistent map of the images of the runs that came to their end, in order. *)
Theorem C80_history :
  forall (T : trig RNum) (F : Type) (colour_of : F -> colour) (B : Type) (encode : vdata riso F -> list B) (decode : list B -> option (vdata riso F)),
    encoding_ok encode decode ->
  forall rs : list (run RNum F), runs_ok T rs -> Forall undisturbed rs ->
    stored encode decode (file_after_runs T colour_of encode decode None rs) (rs ≫= kept) /\
    forall before r after, rs = before ++ r :: after -> exists ss, work T colour_of decode (file_after_runs T colour_of encode decode None before) r = Ok ss.
Proof. exact @history_stored. Qed.
Print Assumptions C80_history.

(** A run without images leaves the file as it is. *)
Theorem C80_untouched :
  forall (T : trig RNum) (F : Type) (colour_of : F -> colour) (B : Type) (encode : vdata riso F -> list B) (decode : list B -> option (vdata riso F)) (f : disk B) (r : run RNum F),
    r_pictures r = [] -> file_after T colour_of encode decode f r = f.
Proof. exact @untouched. Qed.
Print Assumptions C80_untouched.

(** A run that is interrupted while it writes leaves so many bytes of the new map.  Unless these are all,
    neither map can be had any more: every later run panics, and the file stays what it is. *)
Theorem C80_interrupted :
  forall (T : trig RNum) (F : Type) (colour_of : F -> colour) (B : Type) (encode : vdata riso F -> list B) (decode : list B -> option (vdata riso F)),
    encoding_ok encode decode ->
  forall (rs : list (run RNum F)) (r : run RNum F) (n : nat) (later : list (run RNum F)), runs_ok T (rs ++ [r]) -> Forall undisturbed rs ->
    r_opened r = true -> r_created r = true -> r_ending r = Interrupted_after n -> r_pictures r <> [] ->
    exists d, file_after_runs T colour_of encode decode None (rs ++ [r]) = Some (take n (encode d)) /\
      stored encode decode (Some (encode d)) ((rs ≫= kept) ++ r_pictures r) /\
      (n < length (encode d) -> Forall (fun r => r_opened r = true) later ->
       useless T colour_of encode decode (file_after_runs T colour_of encode decode None (rs ++ [r] ++ later)) /\
       file_after_runs T colour_of encode decode None (rs ++ [r] ++ later) = file_after_runs T colour_of encode decode None (rs ++ [r])).
Proof. exact @interrupted_runs. Qed.
Print Assumptions C80_interrupted.

(** So a map that was saved does not survive every interruption, *)
Theorem C80_interrupted_refuted :
  forall (B : Type) (colour_of : nat -> colour) (encode : vdata riso nat -> list B) (decode : list B -> option (vdata riso nat)), encoding_ok encode decode ->
    exists (T : trig RNum) (rs : list (run RNum nat)) (r : run RNum nat) (ps : list (picture RNum nat)),
      runs_ok T (rs ++ [r]) /\ Forall undisturbed rs /\ r_opened r = true /\ ps <> [] /\
      stored encode decode (file_after_runs T colour_of encode decode None rs) ps /\
      useless T colour_of encode decode (file_after_runs T colour_of encode decode None (rs ++ [r])).
Proof. exact @interrupted_case. Qed.
Print Assumptions C80_interrupted_refuted.
(** and one that cannot be opened for once is replaced by a map that has only the images of that run. *)
Theorem C80_unopened_refuted :
  forall (B : Type) (colour_of : nat -> colour) (encode : vdata riso nat -> list B) (decode : list B -> option (vdata riso nat)), encoding_ok encode decode ->
    exists (T : trig RNum) (rs : list (run RNum nat)) (r : run RNum nat) (ps : list (picture RNum nat)),
      runs_ok T (rs ++ [r]) /\ Forall undisturbed rs /\ r_ending r = Completed /\ ps <> [] /\
      stored encode decode (file_after_runs T colour_of encode decode None rs) ps /\
      stored encode decode (file_after_runs T colour_of encode decode None (rs ++ [r])) (r_pictures r).
Proof. exact @unopened_case. Qed.
Print Assumptions C80_unopened_refuted.

(** Three images in two runs. *)
Example C80_row : forall (B : Type) (colour_of : nat -> colour) (encode : vdata riso nat -> list B) (decode : list B -> option (vdata riso nat)), encoding_ok encode decode ->
  runs_ok row_trig [first_run Completed; last_run true Completed] /\ Forall undisturbed [first_run Completed; last_run true Completed] /\
  stored encode decode (file_after_runs row_trig colour_of encode decode None [first_run Completed; last_run true Completed]) (row_picture <$> seq 0 3) /\
  stored encode decode (file_after_runs row_trig colour_of encode decode None [first_run Completed; last_run true Interrupted_before]) first_images.
Proof. exact @plain_case. Qed.
Example C80_encoding : encoding_ok (fun d : vdata riso nat => [d; d]) (fun bytes => match bytes with [d; _] => Some d | _ => None end).
Proof. exact some_encoding. Qed.
