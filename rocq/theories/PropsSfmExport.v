(** Property C74: the exported picture of a reconstruction.
    Definitions used in the statements come from the model (Sfm.v, SfmGeom.v, Bicubic.v,
    SfmExport.v) and from the specifications SfmSpec.v, SfmTruthSpec.v and SfmExportSpec.v. *)
From Coq Require Import Reals.
From stdpp Require Import gmap list.
From Verif Require Import Outcome Num Lin LinSpec Core CoreSpec GeomSpec Bicubic Sfm SfmSpec SfmDemo SfmPoseSpec SfmGeom SfmGeomSpec SfmSceneDemo SfmTruthSpec SfmTruthDemo SfmExport SfmExportSpec SfmExportFacts SfmExportDemo.
Open Scope R_scope.

(** The picture is made of one vertex for each landmark which can be [pictured] (it is robust, it can be
    triangulated, and its place is not at infinity), and of one camera for each view. *)
Theorem C74_exported :
  forall (F : Type) (st : gsettings RNum) (G : tools RNum F) (o : orders) (colour_of : F -> colour), orders_ok o ->
  forall (d : vdata riso F) (r : key) (rc : recon riso) (camera_faces : bool), data_ok d -> has_recon d r rc ->
    exists ls points vs cameras, export_reconstruction st G o colour_of d r camera_faces = Ok (export points cameras camera_faces) /\
      NoDup ls /\ Forall2 (pictured st G o colour_of d rc) ls points /\ (forall l pc, pictured st G o colour_of d rc l pc -> l ∈ ls) /\
      NoDup vs /\ (forall v, v ∈ vs <-> exists w, has_view rc v w) /\ Forall2 (drawn st G o d rc) vs cameras.
Proof. exact @exported. Qed.
Print Assumptions C74_exported.

Theorem C74_missing :
  forall (F : Type) (st : gsettings RNum) (G : tools RNum F) (o : orders) (colour_of : F -> colour)
    (d : vdata riso F) (r : key) (camera_faces : bool),
    sm_map (d_recs d) !! r = None -> export_reconstruction st G o colour_of d r camera_faces = Panic.
Proof. exact @export_missing. Qed.
Print Assumptions C74_missing.

(** In the picture of a correct map every point and every camera is at its true place, up to one choice
    of coordinates and of a unit of length, and no robust landmark is left out. *)
Theorem C74_truth :
  forall (F : Type) (st : gsettings RNum) (G : tools RNum F) (o : orders) (colour_of : F -> colour), orders_ok o ->
  forall (bearing_of : F -> rvec3) (cam : key -> riso) (pt : key -> nat -> rvec3) (d : vdata riso F) (r : key) (rc : recon riso),
    true_scene bearing_of cam pt d -> data_ok d -> has_recon d r rc -> mapped cam pt d rc ->
    t_bearing G = bearing_of -> exact_triangulator (t_triangulate G) -> 0 <= robust_observation_incidence_minimum_cosine_distance st ->
    exists k0 unit, (exists fr, has_frame d k0 fr) /\ 0 < unit /\
      (forall l pc, pictured st G o colour_of d rc l pc -> forall v f p, assigned rc v f l -> shows pt rc (v, f) p -> pc.1 = place_from cam k0 unit p) /\
      (forall l, robust st G d rc l -> exists pc, pictured st G o colour_of d rc l pc) /\
      (forall v c, drawn st G o d rc v c -> exists w, has_view rc v w /\ optical_center c = place_from cam k0 unit (centre (cam (v_frame w)))).
Proof. exact @exported_truth. Qed.
Print Assumptions C74_truth.

(** Three cameras in a row which see three points. *)
Example C74_case : forall colour_of : nat -> colour, let e := scene_e (fun _ => mid) 1 in
  let d := scene_data iso_id iso_mul iso_inv (scene_pose 1) (scene_pose 2) e in let rc := scene_rc iso_id iso_mul iso_inv (scene_pose 1) (scene_pose 2) e in
  orders_ok demo_orders /\ true_scene scene_bearing scene_pose row_point d /\ data_ok d /\ has_recon d 0%nat rc /\ mapped scene_pose row_point d rc /\
  t_bearing scene_tools = scene_bearing /\ exact_triangulator (t_triangulate scene_tools) /\
  forall l, (l < 3)%nat -> exists pc, pictured scene_gs scene_tools demo_orders colour_of d rc l pc /\ pc.1 = (V3 (INR (l + 1)) 0 10 : rvec3).
Proof. exact (export_example (fun _ => mid) 1). Qed.
