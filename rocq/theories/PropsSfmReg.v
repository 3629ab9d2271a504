(** Theorems C63-C65: poses along a history, registration of a frame, and noise-free scenes, with the
    numerical code of the mapping in place of oracles. *)
From stdpp Require Import gmap list.
From Coq Require Import Reals Lra Lia.
From Verif Require Import Outcome Num Lin LinSpec LinFacts Core CoreSpec So3Facts Geom GeomSpec OptimizeSpec Sfm SfmSpec SfmUse SfmEffects SfmDemo SfmPose SfmPoseSpec.
From Verif Require Import SfmGeom SfmGeomSpec SfmGeomFacts SfmGeomRigid SfmGeomReg SfmGeomExact SfmSceneDemo.
Open Scope nat_scope.

(** ** C63: poses stay rigid along every history *)
Theorem C63_rigid :
  forall (F : Type) (nearest : rmat3 -> rmat3) (eps : R), (0 <= eps)%R -> (forall A, rotation (nearest A)) ->
  forall (s : settings) (ops : list (op riso F)) (d : vdata riso F),
    (forall x, x ∈ ops -> (forall e, uses x = Some e -> numerical (real_trig nearest eps) e) /\ Forall rigid (given x)) ->
    run iso_id iso_mul iso_inv s ops = Ok d ->
    forall r rc, has_recon d r rc -> rigid_views rc /\ forall k c, has_constraint rc k c -> rigid (c_poses c).1 /\ rigid (c_poses c).2.
Proof. exact @history_rigid. Qed.
Print Assumptions C63_rigid.

(** The numerical code meets the contract the theorems about histories ask for. *)
Theorem C63_contract :
  forall (F : Type) (nearest : rmat3 -> rmat3) (eps : R) (st : gsettings RNum) (G : tools RNum F) (o : orders) similar knn sort fuel,
    tools_ok G -> orders_ok o ->
    (forall (d : vdata riso F) k n, NoDup (similar d k n) /\ similar d k n ⊆ d_lsh d) ->
    (forall fs f n, length (knn fs f n) = Nat.min n (length fs) /\ NoDup (knn fs f n).*1 /\ forall i x, (i, x) ∈ knn fs f n -> i < length fs) ->
    (forall l, sort l ≡ₚ l) -> env_ok (geometric (real_trig nearest eps) st G o similar knn sort fuel).
Proof. exact @geometric_ok. Qed.
Print Assumptions C63_contract.

Example C63_case : let e := scene_e (fun _ => mid) 1 in let ops := scene_ops (scene_pose 1) (scene_pose 2) e in
  (forall A : rmat3, rotation ((fun _ => mid) A)) /\ env_ok e /\
  (forall x, x ∈ ops -> (forall e, uses x = Some e -> numerical (real_trig (fun _ => mid) 1) e) /\ Forall rigid (given x)) /\
  exists d rc, run iso_id iso_mul iso_inv scene_settings ops = Ok d /\ has_recon d 0 rc /\ forall v, v < 3 -> exists w, has_view rc v w.
Proof.
  exact (conj (fun _ => rotation_id) (conj (scene_e_ok _ _) (conj (scene_allowed _ _) (ex_intro _ _ (ex_intro _ _ (conj (scene_run_ok _ _) (conj (scene_has_recon _ _) (scene_view_exists _ _)))))))).
Qed.

(** ** C64: what is known of a registered frame *)
Theorem C64_registration :
  forall (F : Type) (nearest : rmat3 -> rmat3) (eps : R) (st : gsettings RNum) (G : tools RNum F) (o : orders) similar knn sort fuel
    (s : settings) (d : vdata riso F) (r k : key) (views : list key) (rc : recon riso) (fr : frame F) (pose : riso) (found : gmap nat (list key)),
    let e := geometric (real_trig nearest eps) st G o similar knn sort fuel in
    tools_ok G -> env_ok e -> has_recon d r rc -> recon_ok d rc -> rigid_views rc -> has_frame d k fr ->
    (forall v, v ∈ views -> exists w, has_view rc v w) -> 0 < single_view_match_better_by s ->
    register_frame e s d r k views = Ok (Some (pose, found)) ->
    exists hi ms points start inliers, hi <= length (f_feats fr) /\ usable_matches e s d rc (f_feats fr) views hi ms /\
      registered st G o d rc fr ms pose found points start inliers.
Proof. exact @register_frame_geometric. Qed.
Print Assumptions C64_registration.

Example C64_case : let e := scene_e (fun _ => mid) 1 in let d := scene_data iso_id iso_mul iso_inv (scene_pose 1) (scene_pose 2) e in
  exists rc, tools_ok scene_tools /\ env_ok e /\ data_ok d /\ has_recon d 0 rc /\ rigid_views rc /\ (exists fr, has_frame d 3 fr) /\
    (forall v, v ∈ [0; 1; 2] -> exists w, has_view rc v w) /\
    exists found, register_frame e scene_settings d 0 3 [0; 1; 2] = Ok (Some (scene_pose 3, found)).
Proof.
  exact (ex_intro _ _ (conj scene_tools_ok (conj (scene_e_ok _ _) (conj (scene_data_ok _ _) (conj (scene_has_recon _ _) (conj (scene_rigid_views _ _)
    (conj (scene_frame_exists _ _ 3 ltac:(lia)) (conj (scene_views_exist _ _) (scene_registered _ _))))))))).
Qed.

(** ** C65: noise-free scenes *)

(** The linear triangulator is exact, if the eigenvalue decomposition is correct. *)
Theorem C65_triangulator :
  forall eigen, (forall l, exists es, eigen (design l) = Some es /\ eigen_correct (design l) es) -> exact_triangulator (linear_eigen eigen).
Proof. exact linear_exact_triangulator. Qed.
Print Assumptions C65_triangulator.

(** Filtering leaves the tracks of a noise-free reconstruction as they are. *)
Theorem C65_filter :
  forall (F : Type) (nearest : rmat3 -> rmat3) (eps : R) (st : gsettings RNum) (G : tools RNum F) (o : orders),
    exact_triangulator (t_triangulate G) -> (0 < maximum_sine_distance st)%R -> (0 < maximum_cosine_distance st)%R ->
  forall similar knn sort fuel (d : vdata riso F) (r : key) (rc : recon riso),
    orders_ok o -> data_ok d -> has_recon d r rc -> rigid_views rc -> exact_recon (t_bearing G) o d rc ->
    exists d' b rc' n, filter_observations (geometric (real_trig nearest eps) st G o similar knn sort fuel) d r = Ok (d', b) /\ data_ok d' /\ only_recon r d d' /\ separated rc rc' /\
      (forall x y, same_track rc' x y <-> same_track rc x y) /\
      exactly n (robust_landmark (t_bearing G) (robust_minimum_observations st) (robust_observation_incidence_minimum_cosine_distance st) d rc') /\
      (b = true <-> minimum_robust_landmarks st <= n) /\
      if b then has_recon d' r rc' else sm_map (d_recs d') !! r = None.
Proof. exact @filter_exact. Qed.
Print Assumptions C65_filter.

(** A frame whose matches are noise-free gets the pose of its camera, and keeps all its matches. *)
Theorem C65_registration :
  forall (F : Type) (nearest : rmat3 -> rmat3) (eps : R) (st : gsettings RNum) (G : tools RNum F) (o : orders),
    exact_triangulator (t_triangulate G) -> (0 < maximum_sine_distance st)%R -> (0 < maximum_cosine_distance st)%R ->
    (0 <= robust_observation_incidence_minimum_cosine_distance st)%R ->
  forall similar knn sort fuel (s : settings) (d : vdata riso F) (r k : key) (views : list key) (rc : recon riso) (fr : frame F) (pose : riso) res,
    let e := geometric (real_trig nearest eps) st G o similar knn sort fuel in
    tools_ok G -> env_ok e -> has_recon d r rc -> recon_ok d rc -> rigid_views rc -> has_frame d k fr ->
    (forall v, v ∈ views -> exists w, has_view rc v w) -> 0 < single_view_match_better_by s ->
    (forall hi ms, usable_matches e s d rc (f_feats fr) views hi ms -> forall m, m ∈ ms -> exact_match (t_bearing G) o d rc fr pose m) ->
    (forall points, (forall bh, bh ∈ points -> agrees pose bh) -> single_view_minimum_landmarks st <= length points -> t_single_view G points = Some (pose, seq 0 (length points))) ->
    0 < single_view_optimization_num_matches st ->
    (forall ms, usable_matches e s d rc (f_feats fr) views (length (f_feats fr)) ms -> single_view_minimum_robust_landmarks st <= length ms /\
      exists n, exactly n (fun m => m ∈ ms /\ exists bh, triangulated (t_bearing G) (t_triangulate G) o (robust_minimum_observations st) (robust_observation_incidence_minimum_cosine_distance st) d rc fr m bh) /\
        0 < n /\ single_view_minimum_landmarks st <= n) ->
    register_frame e s d r k views = Ok res ->
    exists found hi ms, res = Some (pose, found) /\ usable_matches e s d rc (f_feats fr) views hi ms /\ forall f ls, found !! f = Some ls <-> (ls, f) ∈ ms.
Proof. exact @register_frame_exact. Qed.
Print Assumptions C65_registration.

Example C65_case : let e := scene_e (fun _ => mid) 1 in let d := scene_data iso_id iso_mul iso_inv (scene_pose 1) (scene_pose 2) e in
  exists rc fr, exact_triangulator (t_triangulate scene_tools) /\ exact_recon scene_bearing demo_orders d rc /\ has_recon d 0 rc /\ has_frame d 3 fr /\
    (forall hi ms, usable_matches e scene_settings d rc (f_feats fr) [0; 1; 2] hi ms -> forall m, m ∈ ms -> exact_match scene_bearing demo_orders d rc fr (scene_pose 3) m) /\
    (forall ms, usable_matches e scene_settings d rc (f_feats fr) [0; 1; 2] 3 ms -> 3 <= length ms /\
      exists n, exactly n (fun m => m ∈ ms /\ exists bh, triangulated scene_bearing two_ray demo_orders 3 0 d rc fr m bh) /\ 0 < n /\ 3 <= n).
Proof. exact (scene_exact_case (fun _ => mid) 1). Qed.
