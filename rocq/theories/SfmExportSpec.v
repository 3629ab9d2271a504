(** Specification vocabulary for C74: the exported picture of a reconstruction, over the reals. *)
From stdpp Require Import gmap list.
From Coq Require Import Reals.
From Verif Require Import Num Lin LinSpec Core CoreSpec Sfm SfmSpec SfmPoseSpec SfmGeom SfmGeomSpec Bicubic.
Open Scope R_scope.

Section spec.
Context {F : Type} (st : gsettings RNum) (G : tools RNum F) (o : orders) (colour_of : F -> colour).
Implicit Types (rc : recon riso) (d : vdata riso F).

Definition robust d rc l : Prop :=
  robust_landmark (t_bearing G) (robust_minimum_observations st) (robust_observation_incidence_minimum_cosine_distance st) d rc l.
(** All observations of the robust landmark [l] together are triangulated to [h]. *)
Definition located d rc (l : key) (h : vec4 RNum) : Prop :=
  robust d rc l /\ exists ps, listed (t_bearing G) o d rc l ps /\ t_triangulate G ps = Some h.
(** The vertex of landmark [l]: the Euclidean point, and the colour of one of the features assigned to
    the landmark. *)
Definition pictured d rc (l : key) (pc : vertex RNum) : Prop :=
  (exists h, located d rc l h /\ point h = Some pc.1) /\
  exists v f w fr x, assigned rc v f l /\ has_view rc v w /\ has_frame d (v_frame w) fr /\ f_feats fr !! f = Some x /\ pc.2 = colour_of x.
(** The distance of landmark [l] from a camera. *)
Definition distant d rc (pose : riso) (l : key) (x : R) : Prop :=
  exists h q, located d rc l h /\ point (transform pose h) = Some q /\ x = norm q.
Definition average (l : list R) : R := match l with [] => 0 | _ => total l / INR (length l) end.
(** The camera of view [v]: its size follows from the average distance of all its landmarks that have
    one. *)
Definition drawn d rc (v : key) (c : export_camera RNum) : Prop :=
  exists w ks ds, has_view rc v w /\ ks `sublist_of` v_lms w /\ (forall k, k ∈ v_lms w -> k ∉ ks -> forall x, ~ distant d rc (v_pose w) k x) /\
    Forall2 (distant d rc (v_pose w)) ks ds /\ c = camera_of_view (v_pose w) (average ds).
End spec.
