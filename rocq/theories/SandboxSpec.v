(** Specification vocabulary for C75: the mapping program, over the reals. *)
From stdpp Require Import gmap list.
From Coq Require Import Reals.
From Verif Require Import Outcome Num Lin LinSpec Core Geom GeomSpec Sfm SfmSpec SfmUse SfmPoseSpec SfmGeom SfmGeomSpec SfmTruthSpec Bicubic SfmExport SfmExportSpec Sandbox.
Open Scope nat_scope.

Section spec.
Context (T : trig RNum) {F : Type} (colour_of : F -> colour) (s : settings) (opt : options RNum) (st : gsettings RNum).
Implicit Types (d : vdata riso F) (p : picture RNum F) (ps : list (picture RNum F)).

(** What keeps the program from panicking (C03): the external routines keep their contracts, every image has at least three
    features, and so has every frame that was loaded. *)
Record pictures_ok d ps : Prop := {
  po_env : forall p, p ∈ ps -> env_ok (picture_env T st p);
  po_features : forall p q, p ∈ ps -> q ∈ ps -> 3 <= length (p_features q) < p_fuel p;
  po_loaded : forall p k fr, p ∈ ps -> has_frame d k fr -> 3 <= length (f_feats fr) < p_fuel p;
  po_window : 0 < single_view_initial_features s;
  po_updates : forall p, p ∈ ps -> optimization_iterations s <= 1 \/ update_total (picture_env T st p)
}.

(** The frames are those of [d0], followed by one for each image. *)
Definition frames_follow d0 ps d : Prop := forall k,
  f_feats <$> sm_map (d_frames d) !! k =
  if decide (k < sm_next (d_frames d0)) then f_feats <$> sm_map (d_frames d0) !! k else p_features <$> ps !! (k - sm_next (d_frames d0)).

(** The file of frame [k] and reconstruction [r] shows the reconstruction, which contains the frame, as it was at
    some time, with the minimum number of observations given for the export and the minimum incidence of the settings. *)
Definition file_of p (k r : key) (file : ply RNum) : Prop := exists d v exporting, data_ok d /\ is_view_of d r v k /\
  robust_minimum_observations exporting = export_robust_minimum_observations opt /\
  robust_observation_incidence_minimum_cosine_distance exporting = robust_observation_incidence_minimum_cosine_distance st /\
  export_reconstruction exporting (p_tools p) (p_orders p) colour_of d r (negb (no_camera_faces opt)) = Ok file.

Definition normalised (l : list (event RNum)) : list key := omap (fun x => match x with Normalised r => Some r | Exported _ _ _ => None end) l.
Definition exported_frames (l : list (event RNum)) : list key := omap (fun x => match x with Normalised _ => None | Exported k _ _ => Some k end) l.

(** No reconstruction is normalised twice, and none is exported before it was normalised; at most one file is written for
    an image. *)
Record orderly d0 ps (l : list (event RNum)) : Prop := {
  od_once : NoDup (normalised l);
  od_before : forall before after k r file, l = before ++ Exported k r file :: after -> r ∈ normalised before;
  od_files : NoDup (exported_frames l);
  od_shows : forall k r file, Exported k r file ∈ l -> exists i p, ps !! i = Some p /\ k = sm_next (d_frames d0) + i /\ file_of p k r file
}.
(** A file is written for the last image exactly if there is a directory to write to and the image's frame has found its
    place in a reconstruction. *)
Definition last_written d0 ps (ss : session RNum F) : Prop := forall before p, ps = before ++ [p] ->
  ((exists r file, Exported (sm_next (d_frames d0) + length before) r file ∈ ss_events ss) <->
   output opt <> None /\ exists r v, is_view_of (ss_data ss) r v (sm_next (d_frames d0) + length before)).

(** What is compared with a new frame belongs to at most one reconstruction, whenever an image is added. *)
Definition no_merging (loaded : option (vdata riso F)) ps : Prop := forall before p after ss d k, ps = before ++ p :: after ->
  session_of T colour_of s opt st loaded before = Ok ss ->
  data_add_frame (ss_data ss) (sm_next (d_feeds (default vdata_init loaded))) (p_features p) = Ok (d, k) -> one_place s (picture_env T st p) d k.

(** The file shows the truth: the scene [D] as its camera [k0] sees it, in some unit of length.  There is one
    point for each robust landmark, where the point is that its observations show, and one camera for each view. *)
Definition true_file (cam : key -> riso) (pt : key -> nat -> rvec3) (D : vdata riso F) ps (r : key) (file : ply RNum) : Prop :=
  exists p d rc k0 unit ls points vs cameras, p ∈ ps /\ data_ok d /\ has_recon d r rc /\ (exists fr, has_frame D k0 fr) /\ (0 < unit)%R /\
    file = export points cameras (negb (no_camera_faces opt)) /\
    NoDup ls /\ (forall l, l ∈ ls <-> robust_landmark (t_bearing (p_tools p)) (export_robust_minimum_observations opt) (robust_observation_incidence_minimum_cosine_distance st) d rc l) /\
    Forall2 (fun l (pc : vertex RNum) => forall v f q, assigned rc v f l -> shows pt rc (v, f) q -> pc.1 = place_from cam k0 unit q) ls points /\
    NoDup vs /\ (forall v, v ∈ vs <-> exists w, has_view rc v w) /\
    Forall2 (fun v c => exists w, has_view rc v w /\ optical_center c = place_from cam k0 unit (GeomSpec.centre (cam (v_frame w)))) vs cameras.
End spec.
