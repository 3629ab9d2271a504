(** Property theorems C06 and C07: pose-graph optimisation and normalisation over real
    isometries (cv-sfm/src/lib.rs 167-180, 1885-1936, 2241-2283, 2358-2414, 2519-2532). *)
From stdpp Require Import gmap list.
From Coq Require Import Reals.
From Verif Require Import Outcome Num Lin LinSpec Core CoreSpec GeomSpec.
From Verif Require Import Sfm SfmSpec SfmUse SfmEffects SfmDemo SfmPose SfmPoseSpec SfmPoseFacts SfmPoseDemo.
Open Scope R_scope.

(** If every constraint holds for the poses, then for every rate and every number of rounds
    each constrained view keeps its pose, frame and landmarks, every constraint stays, and
    nothing but views without constraints is dropped.  The reconstruction itself is dropped
    only if it has no constraint at all. *)
Theorem C06_exact_poses_are_fixed :
  forall (F : Type) (nearest : rmat3 -> rmat3) (eps rate : R) (e : env riso F) s d r rc,
    orders_ok (e_ord e) -> 0 <= eps -> nearest mid = mid ->
    e_update e = pose_update (real_trig nearest eps) rate ->
    data_ok d -> has_recon d r rc -> rigid_views rc -> (forall k c, has_constraint rc k c -> holds rc c) ->
    exists d' b, apply_constraints iso_mul iso_inv e s d r = Ok (d', b) /\ data_ok d' /\ only_recon r d d' /\
      if b : bool then exists rc', has_recon d' r rc' /\ (optimization_iterations s = 0%nat -> rc' = rc) /\
        ((0 < optimization_iterations s)%nat -> forall v w,
           has_view rc' v w <-> has_view rc v w /\ exists k c, has_constraint rc k c /\ con_has c v = true) /\
        ((0 < optimization_iterations s)%nat -> forall v f l,
           assigned rc' v f l <-> assigned rc v f l /\ exists k c, has_constraint rc k c /\ con_has c v = true) /\
        (forall k c, has_constraint rc' k c <-> has_constraint rc k c)
      else sm_map (d_recs d') !! r = None /\ (0 < optimization_iterations s)%nat /\ forall k c, ~ has_constraint rc k c.
Proof. exact @fixed_point. Qed.
Print Assumptions C06_exact_poses_are_fixed.

(** A constraint which holds for poses [pa], [pb], [pz] contributes to each of its views
    exactly the relative poses to the two others. *)
Theorem C06_edges_are_relative_poses :
  forall (c : constraint3 riso) a b z (pa pb pz : riso),
    c_views c = (a, b, z) -> rigid pa -> rigid pb -> rigid pz ->
    c_poses c = (relative pb pa, relative pz pa) ->
    edge_constraints iso_mul iso_inv c ≡ₚ
      [(a, (b, relative pa pb)); (a, (z, relative pa pz)); (b, (a, relative pb pa));
       (b, (z, relative pb pz)); (z, (a, relative pz pa)); (z, (b, relative pz pb))].
Proof. exact edges_relative. Qed.
Print Assumptions C06_edges_are_relative_poses.

Example C06_case : data_ok screw_data /\ has_recon screw_data 0 screw_rc /\ rigid_views screw_rc /\
  sm_size (r_views screw_rc) = 4%nat /\ sm_size (r_cons screw_rc) = 4%nat /\
  forall k c, has_constraint screw_rc k c -> holds screw_rc c.
Proof. exact screw_case. Qed.
Example C06_case_env : forall rate, orders_ok (e_ord (screw_e rate)) /\
  e_update (screw_e rate) = pose_update (real_trig (fun _ => mid) 1) rate.
Proof. exact screw_update_case. Qed.

(** Normalisation completes; it changes nothing unless the mean distance of the robust
    landmarks from some view [v0] is accepted, and then moves that view to the origin and
    divides every translation by that mean. *)
Theorem C07_normalisation :
  forall (F : Type) (normal : R -> bool) tri (e : env riso F) d r rc,
    orders_ok (e_ord e) -> data_ok d -> has_recon d r rc -> (exists v w, has_view rc v w) ->
    (forall v w, has_view rc v w -> e_rescale e d r v = rescale_by (N := RNum) normal tri w) ->
    exists d' rc' v0 w0, normalize_reconstruction iso_mul iso_inv e d r = Ok d' /\ data_ok d' /\
      only_recon r d d' /\ has_recon d' r rc' /\ has_view rc v0 w0 /\
      (if normal (mean_distance tri w0) then gauge_changed rc rc' (v_pose w0) (mean_distance tri w0) else rc' = rc).
Proof. exact @normalize_gauge. Qed.
Print Assumptions C07_normalisation.

(** What that means: the first view is the origin; rotations between views are unchanged and
    translations between views are divided by the mean; points seen from a view move along
    their rays; constraints which held still hold. *)
Theorem C07_only_gauge_changes :
  forall rc rc' v0 w0 (m : R), rigid_views rc -> has_view rc v0 w0 -> m <> 0 ->
    gauge_changed rc rc' (v_pose w0) m ->
    (exists w0', has_view rc' v0 w0' /\ v_pose w0' = iso_id) /\
    (forall v w u x v' u', has_view rc v w -> has_view rc u x -> has_view rc' v v' -> has_view rc' u u' ->
       rot (relative (v_pose v') (v_pose u')) = rot (relative (v_pose w) (v_pose x)) /\
       trans (relative (v_pose v') (v_pose u')) = vscale (/ m) (trans (relative (v_pose w) (v_pose x)))) /\
    (forall v w w' q, has_view rc v w -> has_view rc' v w' ->
       iso_point (v_pose w') (vscale (/ m) (iso_point (v_pose w0) q)) = vscale (/ m) (iso_point (v_pose w) q)) /\
    (forall k c c', has_constraint rc k c -> has_constraint rc' k c' -> holds rc c -> holds rc' c').
Proof. exact gauge_facts. Qed.
Print Assumptions C07_only_gauge_changes.

(** The accepted mean is positive and is the average of the distances of the triangulated
    landmarks from the view. *)
Theorem C07_mean_distance :
  forall (normal : R -> bool) tri (w : view riso), (forall x, normal x = true -> x <> 0) ->
    normal (mean_distance (N := RNum) tri w) = true ->
    exists ks l, ks `sublist_of` v_lms w /\ (forall k, k ∈ v_lms w -> k ∉ ks -> forall x, ~ away tri (v_pose w) k x) /\
      Forall2 (away tri (v_pose w)) ks l /\ l <> [] /\
      mean_distance (N := RNum) tri w = total l / INR (length l) /\ 0 < mean_distance (N := RNum) tri w.
Proof. exact mean_positive. Qed.
Print Assumptions C07_mean_distance.

(** The distance of a landmark at the point [q] is that of [q] from the centre of the camera. *)
Theorem C07_distance : forall tri (p : riso) k (x : R) (q : rvec3),
  rigid p -> tri k = Some (from_point q) -> q <> vzero -> q <> centre p ->
  (away tri p k x <-> x = norm (vsub q (centre p))).
Proof. exact away_distance. Qed.
Print Assumptions C07_distance.

Example C07_case : forall rate, orders_ok (e_ord (screw_e rate)) /\ (exists v w, has_view screw_rc v w) /\
  (forall v w, has_view screw_rc v w -> e_rescale (screw_e rate) screw_data 0 v = rescale_by (N := RNum) nonzero screw_landmark w) /\
  (forall x, nonzero x = true -> x <> 0%R) /\ exists w, has_view screw_rc 0 w /\ nonzero (mean_distance (N := RNum) screw_landmark w) = true.
Proof. exact screw_normalize_case. Qed.
