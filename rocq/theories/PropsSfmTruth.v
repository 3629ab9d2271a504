(** Theorems C67 to C69: what the three-view optimisation demands of the views of a
    reconstruction, and that noise-free scenes are mapped truthfully along histories,
    and what merging two correct maps does. *)
From stdpp Require Import gmap list.
From Coq Require Import Reals Lra Lia.
From Verif Require Import Outcome Num Lin LinSpec LinFacts Core CoreSpec Geom GeomSpec OptimizeSpec MatchingSpec Sfm SfmSpec SfmUse SfmEffects SfmData SfmProps SfmDemo SfmPose SfmPoseSpec.
From Verif Require Import SfmGeom SfmGeomSpec SfmGeomFacts SfmGeomRigid SfmGeomReg SfmGeomExact SfmSceneDemo SfmGeomStart SfmGeomStartExact SfmStartDemo.
From Verif Require Import SfmTruthSpec SfmDemand SfmTruth SfmTruthRun SfmTruthDemo SfmMergeTruth.
Open Scope nat_scope.

(** ** C67: the demands of the three-view optimisation *)
Theorem C67_demanded :
  forall (F : Type) (nearest : rmat3 -> rmat3) (eps : R) (st : gsettings RNum) (G : tools RNum F) (o : orders) similar knn sort fuel
    (d : vdata riso F) (r : key) (rc : recon riso) (x y z : key) (ls : list key) (ps : riso * riso),
    let e := geometric (real_trig nearest eps) st G o similar knn sort fuel in
    tools_ok G -> data_ok d -> has_recon d r rc -> rigid_views rc -> NoDup ls ->
    (forall l, l ∈ ls -> (exists f, assigned rc x f l) /\ (exists f, assigned rc y f l) /\ exists f, assigned rc z f l) ->
    e_optimize3 e d r (x, y, z) ls = Some ps -> demanded (t_bearing G) st d rc x y z ls ps.
Proof. exact @optimize_demanded. Qed.
Print Assumptions C67_demanded.

(** Nothing is demanded only for a reason. *)
Theorem C67_refused :
  forall (F : Type) (nearest : rmat3 -> rmat3) (eps : R) (st : gsettings RNum) (G : tools RNum F) (o : orders) similar knn sort fuel
    (d : vdata riso F) (r : key) (rc : recon riso) (x y z : key) (ls : list key) (wx wy wz : view riso),
    let e := geometric (real_trig nearest eps) st G o similar knn sort fuel in
    tools_ok G -> data_ok d -> has_recon d r rc -> NoDup ls ->
    (forall l, l ∈ ls -> (exists f, assigned rc x f l) /\ (exists f, assigned rc y f l) /\ exists f, assigned rc z f l) ->
    has_view rc x wx -> has_view rc y wy -> has_view rc z wz ->
    e_optimize3 e d r (x, y, z) ls = None -> refused (t_bearing G) st d rc x y z ls.
Proof. exact @optimize_refused. Qed.
Print Assumptions C67_refused.

(** The scene of C65, in which three cameras see three points, meets the hypotheses and the
    current poses are demanded. *)
Example C67_scene : forall nearest eps, exists d r rc wx wy wz ps,
  let e := geometric (real_trig nearest eps) scene_gs scene_tools demo_orders (fun _ _ _ => []) scene_knn (fun l => l) 100 in
  tools_ok scene_tools /\ data_ok d /\ has_recon d r rc /\ rigid_views rc /\ NoDup [0; 1; 2] /\
  (forall l, l ∈ [0; 1; 2] -> (exists f, assigned rc 0 f l) /\ (exists f, assigned rc 1 f l) /\ exists f, assigned rc 2 f l) /\
  has_view rc 0 wx /\ has_view rc 1 wy /\ has_view rc 2 wz /\ v_pose wx <> v_pose wy /\
  e_optimize3 e d r (0, 1, 2) [0; 1; 2] = Some ps /\ ps = (v_pose wy, v_pose wz).
Proof. exact demand_example. Qed.
(** With more landmarks asked for than are offered, nothing is demanded. *)
Example C67_nothing : forall nearest eps st d rc, length [0; 1; 2] < optimization_minimum_landmarks st ->
  optimize_three_view (real_trig nearest eps) st scene_tools d rc (0, 1, 2) [0; 1; 2] = None.
Proof. exact refused_example. Qed.

(** ** C68: noise-free scenes are mapped truthfully *)
Theorem C68_truth :
  forall (F : Type) (bearing_of : F -> rvec3) (cam : key -> riso) (pt : key -> nat -> rvec3) (s : settings) (ops : list (op riso F)) (D : vdata riso F),
    true_scene bearing_of cam pt D -> all_allowed bearing_of cam pt D s vdata_init ops -> run iso_id iso_mul iso_inv s ops = Ok D ->
    forall r rc, has_recon D r rc -> mapped cam pt D rc.
Proof. exact @truth_run. Qed.
Print Assumptions C68_truth.

(** Four cameras in a row, forty points: the frames alone make a reconstruction. *)
Example C68_row : exists D, true_scene scene_bearing row_pose row_point D /\
  all_allowed scene_bearing row_pose row_point D scene_settings vdata_init (row_ops (fun _ => mid) 1 4) /\
  run iso_id iso_mul iso_inv scene_settings (row_ops (fun _ => mid) 1 4) = Ok D.
Proof. exact row_example. Qed.
(** After three frames it has the true cameras. *)
Example C68_three : exists d r rc unit, run iso_id iso_mul iso_inv scene_settings (row_ops (fun _ => mid) 1 3) = Ok d /\ has_recon d r rc /\ (0 < unit)%R /\
  forall k, k < 3 -> exists v w, has_view rc v w /\ v_frame w = k /\ v_pose w = pose_scale (row_pose k) unit.
Proof. exact three_example. Qed.

(** ** C69: merging two correct maps *)
(** A moved view is at a wrong place, unless the two maps have one unit of length or its camera is
    in the place of the common frame's. *)
Theorem C69_moved_poses :
  forall (cam : key -> riso), (forall k, rigid (cam k)) ->
  forall (F : Type) (e : env riso F) (s : settings) (d : vdata riso F) (src_k dest_k : key) (src dest : recon riso) (lmap : gmap key key) (k k0 k1 : key) (u u1 : R) (d' : vdata riso F),
    env_ok e -> data_ok d -> src_k <> dest_k -> has_recon d src_k src -> has_recon d dest_k dest -> injective lmap -> targets_live lmap dest ->
    (forall v w, has_view src v w -> v_pose w = seen_from cam k1 u1 (v_frame w)) ->
    incorporate_reconstruction iso_mul iso_inv e s d src_k dest_k (world_of cam k k0 k1 u u1) lmap = Ok d' ->
    exists dest', has_recon d' dest_k dest' /\ (forall v w, has_view dest v w -> has_view dest' v w) /\
      forall v w, has_view dest' v w -> has_view dest v w \/
        (exists sv w0, has_view src sv w0 /\ v_frame w = v_frame w0) /\
        v_pose w = iso_mul (seen_from cam k u1 (v_frame w)) (seen_from cam k0 u k) /\
        (v_pose w = seen_from cam k0 u (v_frame w) <-> u1 = u \/ centre (cam (v_frame w)) = centre (cam k)).
Proof. exact @merged_thm. Qed.
Print Assumptions C69_moved_poses.

(** With one unit of length poses and tracks stay true, whatever the external routines answer. *)
Theorem C69_poses_and_tracks :
  forall (cam : key -> riso), (forall k, rigid (cam k)) ->
  forall (F : Type) (pt : key -> nat -> rvec3) (e : env riso F) (s : settings) (d : vdata riso F) (src_k dest_k : key) (src dest : recon riso) (lmap : gmap key key) (k k0 k1 : key) (u : R) (d' : vdata riso F),
    env_ok e -> data_ok d -> src_k <> dest_k -> has_recon d src_k src -> has_recon d dest_k dest -> injective lmap -> targets_live lmap dest ->
    (forall v w, has_view src v w -> v_pose w = seen_from cam k1 u (v_frame w)) -> (forall v w, has_view dest v w -> v_pose w = seen_from cam k0 u (v_frame w)) ->
    (forall x y p q, same_track src x y -> shows pt src x p -> shows pt src y q -> p = q) -> (forall x y p q, same_track dest x y -> shows pt dest x p -> shows pt dest y q -> p = q) ->
    (forall l l' x y p q, lmap !! l = Some l' -> assigned src x.1 x.2 l -> assigned dest y.1 y.2 l' -> shows pt src x p -> shows pt dest y q -> p = q) ->
    incorporate_reconstruction iso_mul iso_inv e s d src_k dest_k (world_of cam k k0 k1 u u) lmap = Ok d' ->
    exists dest', has_recon d' dest_k dest' /\ (forall v w, has_view dest' v w -> v_pose w = seen_from cam k0 u (v_frame w)) /\
      (forall x y p q, same_track dest' x y -> shows pt dest' x p -> shows pt dest' y q -> p = q).
Proof. exact @merged_same_unit. Qed.
Print Assumptions C69_poses_and_tracks.

(** If constraints are made by the numerical code, the result is a correct map. *)
Theorem C69_one_unit :
  forall (cam : key -> riso), (forall k, rigid (cam k)) ->
  forall (F : Type) (bearing_of : F -> rvec3) (pt : key -> nat -> rvec3) (D : vdata riso F) (nearest : rmat3 -> rmat3) (eps : R) (st : gsettings RNum) (G : tools RNum F) (o : orders) similar knn sort fuel
    (s : settings) (d : vdata riso F) (src_k dest_k : key) (src dest : recon riso) (lmap : gmap key key) (k k0 k1 : key) (u : R) (d' : vdata riso F),
    let e := geometric (real_trig nearest eps) st G o similar knn sort fuel in
    true_scene bearing_of cam pt D -> tools_ok G -> t_bearing G = bearing_of -> env_ok e -> data_ok d -> frames_of D d ->
    src_k <> dest_k -> has_recon d src_k src -> has_recon d dest_k dest -> mapped cam pt D src -> mapped cam pt D dest -> injective lmap -> targets_live lmap dest ->
    (exists fr, has_frame D k0 fr) -> (0 < u)%R -> (forall v w, has_view src v w -> v_pose w = seen_from cam k1 u (v_frame w)) -> (forall v w, has_view dest v w -> v_pose w = seen_from cam k0 u (v_frame w)) ->
    (forall l l' x y p q, lmap !! l = Some l' -> assigned src x.1 x.2 l -> assigned dest y.1 y.2 l' -> shows pt src x p -> shows pt dest y q -> p = q) ->
    incorporate_reconstruction iso_mul iso_inv e s d src_k dest_k (world_of cam k k0 k1 u u) lmap = Ok d' ->
    exists dest', has_recon d' dest_k dest' /\ mapped cam pt D dest'.
Proof. exact @merged_mapped. Qed.
Print Assumptions C69_one_unit.

(** In general the result is not a correct map: six cameras in a row, two correct maps of three of them
    each, the second one in a unit of half the length. *)
Theorem C69_units_refuted : exists (cam : key -> riso) (pt : key -> nat -> rvec3) (e : env riso nat) (s : settings) (d d' : vdata riso nat) (src dest dest' : recon riso) (lmap : gmap key key),
  env_ok e /\ reachable_by s d /\ has_recon d 1 src /\ has_recon d 0 dest /\ mapped cam pt d src /\ mapped cam pt d dest /\
  (forall v w, has_view src v w -> v_pose w = seen_from cam 3 2 (v_frame w)) /\ (forall v w, has_view dest v w -> v_pose w = seen_from cam 0 1 (v_frame w)) /\
  injective lmap /\ targets_live lmap dest /\
  (forall l l' x y p q, lmap !! l = Some l' -> assigned src x.1 x.2 l -> assigned dest y.1 y.2 l' -> shows pt src x p -> shows pt dest y q -> p = q) /\
  incorporate_reconstruction iso_mul iso_inv e s d 1 0 (world_of cam 3 0 3 1 2) lmap = Ok d' /\ has_recon d' 0 dest' /\ ~ mapped cam pt d' dest'.
Proof. exact units_refuted. Qed.
Print Assumptions C69_units_refuted.

(** The same cameras with two maps in one unit meet the hypotheses of the other theorems. *)
Example C69_poses_example : exists (cam : key -> riso) (pt : key -> nat -> rvec3) (e : env riso nat) (s : settings) (d d' : vdata riso nat) (src dest : recon riso) (lmap : gmap key key),
  (forall k, rigid (cam k)) /\ env_ok e /\ data_ok d /\ has_recon d 1 src /\ has_recon d 0 dest /\ mapped cam pt d src /\ mapped cam pt d dest /\
  (forall v w, has_view src v w -> v_pose w = seen_from cam 3 1 (v_frame w)) /\ (forall v w, has_view dest v w -> v_pose w = seen_from cam 0 1 (v_frame w)) /\
  injective lmap /\ targets_live lmap dest /\
  (forall l l' x y p q, lmap !! l = Some l' -> assigned src x.1 x.2 l -> assigned dest y.1 y.2 l' -> shows pt src x p -> shows pt dest y q -> p = q) /\
  incorporate_reconstruction iso_mul iso_inv e s d 1 0 (world_of cam 3 0 3 1 1) lmap = Ok d'.
Proof. exact units_one. Qed.
Example C69_one_unit_example : forall nearest eps, exists (bearing_of : nat -> rvec3) (cam : key -> riso) (pt : key -> nat -> rvec3) (st : gsettings RNum) (G : tools RNum nat) (s : settings) (d : vdata riso nat) (src dest : recon riso) (lmap : gmap key key),
  let e := geometric (real_trig nearest eps) st G demo_orders (fun _ _ _ => []) scene_knn (fun l => l) 100 in
  (forall k, rigid (cam k)) /\ true_scene bearing_of cam pt d /\ tools_ok G /\ t_bearing G = bearing_of /\ env_ok e /\ data_ok d /\ frames_of d d /\ has_recon d 1 src /\ has_recon d 0 dest /\ mapped cam pt d src /\ mapped cam pt d dest /\
  injective lmap /\ targets_live lmap dest /\ (exists fr, has_frame d 0 fr) /\
  (forall v w, has_view src v w -> v_pose w = seen_from cam 3 1 (v_frame w)) /\ (forall v w, has_view dest v w -> v_pose w = seen_from cam 0 1 (v_frame w)) /\
  (forall l l' x y p q, lmap !! l = Some l' -> assigned src x.1 x.2 l -> assigned dest y.1 y.2 l' -> shows pt src x p -> shows pt dest y q -> p = q) /\
  exists d', incorporate_reconstruction iso_mul iso_inv e s d 1 0 (world_of cam 3 0 3 1 1) lmap = Ok d'.
Proof. exact units_geometric. Qed.
