(** Theorem C66: what a new reconstruction of three frames is made of, with the numerical code of
    the mapping in place of oracles. *)
From stdpp Require Import gmap list.
From Coq Require Import Reals Lra Lia.
From Verif Require Import Outcome Num Lin LinSpec LinFacts Core CoreSpec Geom GeomSpec OptimizeSpec MatchingSpec Sfm SfmSpec SfmUse SfmEffects SfmDemo SfmPose SfmPoseSpec.
From Verif Require Import SfmGeom SfmGeomSpec SfmGeomFacts SfmGeomRigid SfmGeomReg SfmGeomExact SfmSceneDemo SfmGeomStart SfmGeomStartExact SfmStartDemo.
Open Scope nat_scope.

(** ** C66: starting a reconstruction *)
Theorem C66_start :
  forall (F : Type) (nearest : rmat3 -> rmat3) (eps : R) (st : gsettings RNum) (G : tools RNum F) (o : orders) similar knn sort fuel
    (s : settings) (d : vdata riso F) (center : key) (options : list key) (d' : vdata riso F),
    let e := geometric (real_trig nearest eps) st G o similar knn sort fuel in
    tools_ok G -> (forall l p ixs, t_two_view G l = Some (p, ixs) -> NoDup ixs) -> env_ok e -> data_ok d ->
    free_frame d center -> NoDup options -> center ∉ options -> (forall k, k ∈ options -> free_frame d k) ->
    try_init iso_id e s d center options = Ok d' ->
    d' = d \/ exists first second fc ff fs q1 ms1 q2 ms2 scale p1 p2 k1 k2 r, first ∈ options /\ second ∈ options /\ first <> second /\
      has_frame d center fc /\ has_frame d first ff /\ has_frame d second fs /\
      pair_started st G knn (two_view_match_better_by s) fc ff q1 ms1 /\ pair_started st G knn (two_view_match_better_by s) fc fs q2 ms2 /\
      three_started st G fc ff fs ms1 ms2 q1 q2 scale p1 p2 /\
      (forall m, m ∈ k1 <-> kept_first st G fc ff fs ms1 ms2 p1 p2 m) /\ (forall m, m ∈ k2 <-> kept_second st G fc ff fs ms1 ms2 p1 p2 m) /\
      data_ok d' /\ new_reconstruction iso_id d center first second p1 p2 k1 k2 r d'.
Proof. intros F nearest eps st G o similar knn sort fuel. exact (try_init_geometric nearest eps st G o similar knn sort fuel). Qed.
Print Assumptions C66_start.

(** In a noise-free scene a new reconstruction has the true cameras, in some unit of length, and
    keeps all matches. *)
Theorem C66_exact :
  forall (F : Type) (nearest : rmat3 -> rmat3) (eps : R) (st : gsettings RNum) (G : tools RNum F) (o : orders),
    exact_triangulator (t_triangulate G) -> (0 < maximum_sine_distance st)%R -> (0 < maximum_cosine_distance st)%R ->
  forall similar knn sort fuel (s : settings) (d : vdata riso F) (center : key) (options : list key) (d' : vdata riso F) (cam : key -> riso),
    let e := geometric (real_trig nearest eps) st G o similar knn sort fuel in
    tools_ok G -> (forall l p ixs, t_two_view G l = Some (p, ixs) -> NoDup ixs) -> env_ok e -> data_ok d ->
    free_frame d center -> NoDup options -> center ∉ options -> (forall k, k ∈ options -> free_frame d k) ->
    (forall k fc fk, k ∈ options -> has_frame d center fc -> has_frame d k fk -> exact_pair_scene st G knn (two_view_match_better_by s) fc fk (cam k)) ->
    (forall k l fc fk fl, k ∈ options -> l ∈ options -> k <> l -> has_frame d center fc -> has_frame d k fk -> has_frame d l fl ->
       exact_triples G knn (two_view_match_better_by s) fc fk fl (cam k) (cam l)) ->
    try_init iso_id e s d center options = Ok d' ->
    d' = d \/ exists first second fc ff fs unit k1 k2 r, first ∈ options /\ second ∈ options /\ first <> second /\
      has_frame d center fc /\ has_frame d first ff /\ has_frame d second fs /\ (0 < unit)%R /\
      (forall i j, (i, j) ∈ k1 <-> mutual knn (f_feats fc) (f_feats ff) (two_view_match_better_by s) i j) /\
      (forall i j, (i, j) ∈ k2 <-> mutual knn (f_feats fc) (f_feats fs) (two_view_match_better_by s) i j) /\
      data_ok d' /\ new_reconstruction iso_id d center first second (pose_scale (cam first) unit) (pose_scale (cam second) unit) k1 k2 r d'.
Proof. exact @try_init_exact. Qed.
Print Assumptions C66_exact.

(** If the first two options share enough with the centre, it is made. *)
Theorem C66_progress :
  forall (F : Type) (nearest : rmat3 -> rmat3) (eps : R) (st : gsettings RNum) (G : tools RNum F) (o : orders),
    exact_triangulator (t_triangulate G) -> (0 < maximum_sine_distance st)%R -> (0 < maximum_cosine_distance st)%R -> 32 <= three_view_optimization_landmarks st ->
  forall similar knn sort fuel (s : settings) (d : vdata riso F) (center first second : key) (others : list key) (cam : key -> riso) (fc ff fs : frame F),
    let e := geometric (real_trig nearest eps) st G o similar knn sort fuel in
    let options := first :: second :: others in
    tools_ok G -> (forall l p ixs, t_two_view G l = Some (p, ixs) -> NoDup ixs) -> env_ok e -> data_ok d ->
    free_frame d center -> NoDup options -> center ∉ options -> (forall k, k ∈ options -> free_frame d k) ->
    (forall k fk, k ∈ options -> has_frame d k fk -> exact_pair_scene st G knn (two_view_match_better_by s) fc fk (cam k)) ->
    (forall k l fk fl, k ∈ options -> l ∈ options -> k <> l -> has_frame d k fk -> has_frame d l fl -> exact_triples G knn (two_view_match_better_by s) fc fk fl (cam k) (cam l)) ->
    has_frame d center fc -> has_frame d first ff -> has_frame d second fs ->
    enough_pair st knn (two_view_match_better_by s) fc ff -> enough_pair st knn (two_view_match_better_by s) fc fs ->
    enough_triples st G knn (two_view_match_better_by s) fc ff fs (cam first) (cam second) ->
    exists d' unit r k1 k2, try_init iso_id e s d center options = Ok d' /\ (0 < unit)%R /\
      (forall i j, (i, j) ∈ k1 <-> mutual knn (f_feats fc) (f_feats ff) (two_view_match_better_by s) i j) /\
      (forall i j, (i, j) ∈ k2 <-> mutual knn (f_feats fc) (f_feats fs) (two_view_match_better_by s) i j) /\
      data_ok d' /\ new_reconstruction iso_id d center first second (pose_scale (cam first) unit) (pose_scale (cam second) unit) k1 k2 r d'.
Proof. exact @try_init_progress. Qed.
Print Assumptions C66_progress.

Example C66_case : let e := start_e (fun _ => mid) 1 in let d := start_data iso_id iso_mul iso_inv (scene_e (fun _ => mid) 1) in
  exact_triangulator (t_triangulate start_tools) /\ tools_ok start_tools /\ (forall l p ixs, t_two_view start_tools l = Some (p, ixs) -> NoDup ixs) /\ env_ok e /\ data_ok d /\
  (exists fc ff fs, has_frame d 0 fc /\ has_frame d 1 ff /\ has_frame d 2 fs /\ free_frame d 0 /\ (forall k, k ∈ [1; 2] -> free_frame d k) /\
    (forall k fk, k ∈ [1; 2] -> has_frame d k fk -> exact_pair_scene start_gs start_tools scene_knn (two_view_match_better_by scene_settings) fc fk (scene_pose k)) /\
    (forall k l fk fl, k ∈ [1; 2] -> l ∈ [1; 2] -> k <> l -> has_frame d k fk -> has_frame d l fl -> exact_triples start_tools scene_knn (two_view_match_better_by scene_settings) fc fk fl (scene_pose k) (scene_pose l)) /\
    enough_pair start_gs scene_knn (two_view_match_better_by scene_settings) fc ff /\ enough_pair start_gs scene_knn (two_view_match_better_by scene_settings) fc fs /\
    enough_triples start_gs start_tools scene_knn (two_view_match_better_by scene_settings) fc ff fs (scene_pose 1) (scene_pose 2)) /\
  exists d' unit r k1 k2, try_init iso_id e scene_settings d 0 [1; 2] = Ok d' /\ (0 < unit)%R /\ new_reconstruction iso_id d 0 1 2 (pose_scale (scene_pose 1) unit) (pose_scale (scene_pose 2) unit) k1 k2 r d'.
Proof.
  exact (conj two_ray_exact (conj start_tools_ok (conj start_inliers (conj (start_e_ok _ _) (conj (start_data_ok _ _) (conj (start_case _ _) (start_found _ _))))))).
Qed.

(** Which matches take part in the estimate of the scale does depend on the lengths of the
    translations, although the code means it not to: a noise-free match can be left out. *)
Theorem C66_scale_refuted : exists tri c1 c2 q x unit, exact_triangulator tri /\ exact_rays q (three_rays c1 c2 x) /\ resolved [(iso_id, x.1.1); (c1, x.1.2)] /\ resolved [(iso_id, x.1.1); (c2, x.2)] /\
  (0 < unit)%R /\ ~ three_fit tri 1 0 c1 (pose_scale c2 unit) x.
Proof. exact scale_left_out. Qed.
Print Assumptions C66_scale_refuted.
