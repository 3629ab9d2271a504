(** The model of [export_reconstruction] (cv-sfm/src/lib.rs): what is handed to the PLY export. *)
From stdpp Require Import gmap list.
From Coq Require Import ZArith.
From Verif Require Import Outcome Num Lin Core Sfm SfmPose SfmGeom Bicubic.
Open Scope nat_scope.

Section export.
Context {N : Num} {F : Type} (st : gsettings N) (G : tools N F) (o : orders).
(** lib.rs 95-97 [Frame::color]: the colour stored in a feature. *)
Context (colour_of : F -> colour).
Notation vdata := (vdata (iso N) F).
Notation recon := (recon (iso N)).

(** lib.rs 243-245, 284-291 [observation_color]. *)
Definition observation_colour (d : vdata) (rc : recon) (v : key) (f : nat) : outcome colour :=
  let! w := unwrap (sm_get (r_views rc) v) in
  let! fr := unwrap (sm_get (d_frames d) (v_frame w)) in
  let! x := unwrap (f_feats fr !! f) in
  Ok (colour_of x).

(** lib.rs 2297-2309: a robust landmark with a Euclidean point gets the colour of the first of its
    observations. *)
Definition landmark_vertex (d : vdata) (rc : recon) (l : key) : outcome (option (vertex N)) :=
  let! m := unwrap (sm_get (r_lms rc) l) in
  assert_ (obs_readable d rc m)
    match triangulate_robust st G o d rc [l] with
    | Some h => match point h with
                | Some p => match obs_list o l m with
                            | [] => Panic
                            | x :: _ => let! c := observation_colour d rc x.1 x.2 in Ok (Some (p, c))
                            end
                | None => Ok None
                end
    | None => Ok None
    end.

(** lib.rs 2317-2331: the camera of a view, as large as its robust landmarks are far. *)
Definition view_camera (d : vdata) (rc : recon) (v : key) : outcome (export_camera N) :=
  let! w := unwrap (sm_get (r_views rc) v) in
  assert_ (forallb (landmark_readable d rc) (v_lms w))
    (Ok (camera_of_view (v_pose w) (mean_distance (fun l => triangulate_robust st G o d rc [l]) w))).

(** lib.rs 2285-2340 [export_reconstruction], without creating the file. *)
Definition export_reconstruction (d : vdata) (r : key) (camera_faces : bool) : outcome (ply N) :=
  let! rc := unwrap (sm_get (d_recs d) r) in
  let! points := mapM (landmark_vertex d rc) (o_lms o (sm_keys (r_lms rc))) in
  let! cameras := mapM (view_camera d rc) (o_views o (sm_keys (r_views rc))) in
  Ok (export (omap (fun y => y) points) cameras camera_faces).
End export.
