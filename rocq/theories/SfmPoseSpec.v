(** Specification vocabulary for C06 and C07: relative poses, constraints which hold. *)
From stdpp Require Import gmap list.
From Coq Require Import Reals.
From Verif Require Import Num Lin LinSpec Core Sfm SfmSpec.
Open Scope R_scope.

(** The motion from the camera of pose [q] to the camera of pose [p]. *)
Definition relative (p q : riso) : riso := iso_mul p (iso_inv q).

(** A constraint holds for the poses of its three views. *)
Definition holds (rc : recon riso) (c : constraint3 riso) : Prop :=
  let '(a, b, z) := c_views c in
  forall wa wb wz, has_view rc a wa -> has_view rc b wb -> has_view rc z wz ->
    c_poses c = (relative (v_pose wb) (v_pose wa), relative (v_pose wz) (v_pose wa)).

(** Every view has a rigid pose. *)
Definition rigid_views (rc : recon riso) : Prop := forall v w, has_view rc v w -> rigid (v_pose w).

Fixpoint total (l : list R) : R := match l with [] => 0 | x :: l' => x + total l' end.

(** [rc'] is [rc] seen from the camera of pose [p0], with every length divided by [m]: views keep
    frame and landmarks, landmarks and the set of constraints stay. *)
Record gauge_changed (rc rc' : recon riso) (p0 : riso) (m : R) : Prop := {
  gc_views : forall v w', has_view rc' v w' <-> exists w, has_view rc v w /\ v_frame w' = v_frame w /\ v_lms w' = v_lms w /\ v_pose w' = pose_scale (relative (v_pose w) p0) (/ m);
  gc_lms : r_lms rc' = r_lms rc;
  gc_cons : forall k c', has_constraint rc' k c' <-> exists c, has_constraint rc k c /\ c_views c' = c_views c /\ c_poses c' = (pose_scale (c_poses c).1 (/ m), pose_scale (c_poses c).2 (/ m))
}.

(** The landmark [k] is triangulated, and is at distance [x] from the camera of pose [p] (the
    triangulation is in homogeneous coordinates, so the point may be at infinity). *)
Definition away (triangulate : key -> option (vec4 RNum)) (p : riso) (k : key) (x : R) : Prop :=
  exists h q, triangulate k = Some h /\ point (transform p h) = Some q /\ x = norm q.
