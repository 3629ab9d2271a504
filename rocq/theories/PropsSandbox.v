(** Property C75: the mapping program.
    Definitions used in the statements come from the model (Sfm.v, SfmGeom.v, SfmExport.v, Sandbox.v) and
    from the specifications SfmSpec.v, SfmTruthSpec.v, SfmExportSpec.v and SandboxSpec.v. *)
From Coq Require Import Reals.
From stdpp Require Import gmap list.
From Verif Require Import Outcome Num Lin LinSpec Core CoreSpec Bicubic Sfm SfmSpec SfmUse SfmDemo SfmPoseSpec SfmGeom SfmGeomSpec SfmStartDemo SfmSceneDemo SfmTruthSpec SfmTruthDemo SfmExport SfmExportSpec Sandbox SandboxSpec SandboxFacts SandboxDemo.
Open Scope nat_scope.

(** The program runs to its end, and leaves consistent data: the frames that were loaded, and one for each image,
    in order.  A reconstruction is normalised once, before it is exported; at most one file is written for an
    image, and one is written if the image found its place; the settings are back when the export is done. *)
Theorem C75_session :
  forall (T : trig RNum) (F : Type) (colour_of : F -> colour) (s : settings) (opt : options RNum) (st : gsettings RNum)
    (loaded : option (vdata riso F)) (ps : list (picture RNum F)), let d0 := default vdata_init loaded in
    data_ok d0 -> pictures_ok T s st d0 ps ->
    exists ss, session_of T colour_of s opt st loaded ps = Ok ss /\ data_ok (ss_data ss) /\ ss_settings ss = st /\
      frames_follow d0 ps (ss_data ss) /\ orderly colour_of opt st d0 ps (ss_events ss) /\ last_written opt d0 ps ss.
Proof. exact @session_runs. Qed.
Print Assumptions C75_session.

(** A second session on what the first has saved has the images of both. *)
Theorem C75_resumed :
  forall (T : trig RNum) (F : Type) (colour_of : F -> colour) (s : settings) (opt : options RNum) (st : gsettings RNum) (ps1 ps2 : list (picture RNum F)),
    pictures_ok T s st vdata_init (ps1 ++ ps2) ->
    exists ss1 ss2, session_of T colour_of s opt st None ps1 = Ok ss1 /\ session_of T colour_of s opt st (saved ps1 ss1) ps2 = Ok ss2 /\ data_ok (ss_data ss2) /\
      forall k, f_feats <$> sm_map (d_frames (ss_data ss2)) !! k = p_features <$> (ps1 ++ ps2) !! k.
Proof. exact @session_resumed. Qed.
Print Assumptions C75_resumed.

(** In a noise-free scene every file shows the truth. *)
Theorem C75_truth :
  forall (F : Type) (colour_of : F -> colour) (s : settings) (opt : options RNum) (st : gsettings RNum) (nearest : rmat3 -> rmat3) (eps : R)
    (bearing_of : F -> rvec3) (cam : key -> riso) (pt : key -> nat -> rvec3) (D : vdata riso F), true_scene bearing_of cam pt D ->
  forall (loaded : option (vdata riso F)) (ps : list (picture RNum F)) (ss : session RNum F),
    session_of (real_trig nearest eps) colour_of s opt st loaded ps = Ok ss -> ss_data ss = D ->
    data_ok (default vdata_init loaded) -> (forall r rc, has_recon (default vdata_init loaded) r rc -> mapped cam pt D rc) ->
    (forall p, p ∈ ps -> truthful bearing_of cam pt D s nearest eps st (p_tools p) (picture_env (real_trig nearest eps) st p)) ->
    no_merging (real_trig nearest eps) colour_of s opt st loaded ps ->
    forall k r file, Exported k r file ∈ ss_events ss -> true_file opt st cam pt D ps r file.
Proof. exact @session_truth. Qed.
Print Assumptions C75_truth.

(** The option of the maximum cosine distance has no effect at all, *)
Theorem C75_cosine_option_ignored :
  forall (T : trig RNum) (F : Type) (colour_of : F -> colour) (s : settings) (opt : options RNum) (st : gsettings RNum)
    (loaded : option (vdata riso F)) (ps : list (picture RNum F)) (x : R),
    session_of T colour_of s (Options (N := RNum) (output opt) x (export_robust_minimum_observations opt) (no_camera_faces opt)) st loaded ps = session_of T colour_of s opt st loaded ps.
Proof. exact @cosine_ignored. Qed.
Print Assumptions C75_cosine_option_ignored.
(** so it does not keep observations from being exported which are further off. *)
Theorem C75_cosine_option_refuted :
  forall colour_of : nat -> colour, exists (st : gsettings RNum) (G : tools RNum nat) (o : orders) (d : vdata riso nat) (r : key) (rc : recon riso) (opt : options RNum)
    (l : key) (pc : vertex RNum) (v : key) (f : nat) (pose : riso) (bearing : rvec3),
    orders_ok o /\ tools_ok G /\ data_ok d /\ has_recon d r rc /\ pictured (export_settings opt st) G o colour_of d rc l pc /\
    assigned rc v f l /\ observed (t_bearing G) d rc (v, f) (pose, bearing) /\ unit_vec bearing /\
    (export_maximum_cosine_distance opt < 1 - dot bearing (normalize (iso_point pose pc.1)))%R.
Proof. exact cosine_refuted. Qed.
Print Assumptions C75_cosine_option_refuted.

(** Three images of forty points in a row: the third is exported. *)
Example C75_row : forall colour_of : nat -> colour, let T := real_trig (fun _ => mid) 1 in let ps := row_picture <$> seq 0 3 in
  data_ok (vdata_init : vdata riso nat) /\ pictures_ok T scene_settings start_gs vdata_init ps /\ no_merging T colour_of scene_settings row_options start_gs None ps /\
  exists ss r file, session_of T colour_of scene_settings row_options start_gs None ps = Ok ss /\ Exported 2 r file ∈ ss_events ss /\
    true_scene scene_bearing row_pose row_point (ss_data ss) /\
    forall p, p ∈ ps -> truthful scene_bearing row_pose row_point (ss_data ss) scene_settings (fun _ => mid) 1 start_gs (p_tools p) (picture_env T start_gs p).
Proof. exact row_case. Qed.
