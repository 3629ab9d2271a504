(** Theorems C82 and C83: landmarks judged without one of their views, and the debugging check
    of the mapping database. *)
From stdpp Require Import gmap list.
From Coq Require Import Reals ZArith.
From Verif Require Import Outcome Num Lin LinSpec Core CoreSpec Geom GeomSpec Sfm SfmSpec SfmUse SfmEffects SfmDemo SfmPose SfmPoseSpec SfmPoseDemo.
From Verif Require Import SfmGeom SfmGeomSpec SfmGeomDemo SfmSceneDemo SfmTruthSpec SfmTruthDemo SfmExportSpec SfmWithout SfmWithoutSpec SfmWithoutProps SfmWithoutTruth.
Open Scope nat_scope.

(** ** C82: ignoring a view *)
(** The verdict: two other views see the landmark under different rays. *)
Theorem C82_verdict :
  forall (F : Type) (st : gsettings RNum) (G : tools RNum F) (o : orders) (d : vdata riso F) (rc : recon riso) (l : key) m (v : key),
    orders_ok o -> recon_ok d rc -> has_landmark rc l m ->
    robust_without st G o d rc l v = true <->
    wide_without (t_bearing G) (robust_observation_incidence_minimum_cosine_distance st) d rc l v.
Proof. exact @without_iff. Qed.
Print Assumptions C82_verdict.
Theorem C82_any_order :
  forall (F : Type) (st : gsettings RNum) (G : tools RNum F) (o o' : orders) (d : vdata riso F) (rc : recon riso) (l : key) m (v : key),
    orders_ok o -> orders_ok o' -> recon_ok d rc -> has_landmark rc l m ->
    robust_without st G o d rc l v = robust_without st G o' d rc l v.
Proof. exact @without_any_order. Qed.
Print Assumptions C82_any_order.
(** The point: the triangulator's answer for the observations in the other views. *)
Theorem C82_point :
  forall (F : Type) (st : gsettings RNum) (G : tools RNum F) (o : orders) (d : vdata riso F) (rc : recon riso) (l : key) m (v : key) (h : vec4 RNum),
    orders_ok o -> recon_ok d rc -> has_landmark rc l m ->
    triangulate_without st G o d rc l v = Some h <->
    wide_without (t_bearing G) (robust_observation_incidence_minimum_cosine_distance st) d rc l v /\
    exists ps, listed_without (t_bearing G) o d rc l v ps /\ t_triangulate G ps = Some h.
Proof. exact @without_point. Qed.
Print Assumptions C82_point.
(** Whatever becomes of the ignored view, verdict and point stay; in every arithmetic. *)
Theorem C82_view_ignored :
  forall (N : Num) (F : Type) (st : gsettings N) (G : tools N F) (o : orders) (d : vdata (iso N) F) (rc rc' : recon (iso N)) (l v : key),
    same_but v rc rc' ->
    robust_without st G o d rc' l v = robust_without st G o d rc l v /\
    triangulate_without st G o d rc' l v = triangulate_without st G o d rc l v.
Proof. exact @without_same. Qed.
Print Assumptions C82_view_ignored.
(** In a correct map (C68) ignoring a view does not move the point: it is at its true place, up to
    the one choice of coordinates and unit of the map. *)
Theorem C82_truth :
  forall (F : Type) (st : gsettings RNum) (G : tools RNum F) (o : orders) (bearing_of : F -> rvec3) (cam : key -> riso) (pt : key -> nat -> rvec3)
    (d : vdata riso F) (r : key) (rc : recon riso),
    orders_ok o -> true_scene bearing_of cam pt d -> data_ok d -> has_recon d r rc -> mapped cam pt d rc ->
    t_bearing G = bearing_of -> exact_triangulator (t_triangulate G) -> (0 <= robust_observation_incidence_minimum_cosine_distance st)%R ->
    exists k0 unit, (exists fr, has_frame d k0 fr) /\ (0 < unit)%R /\
      forall l v, robust_without st G o d rc l v = true -> forall u f p, assigned rc u f l -> shows pt rc (u, f) p ->
        triangulate_without st G o d rc l v = Some (from_point (place_from cam k0 unit p)).
Proof. exact @without_truth. Qed.
Print Assumptions C82_truth.
Example C82_truth_case : let e := scene_e (fun _ => mid) 1%R in
  let d := scene_data iso_id iso_mul iso_inv (scene_pose 1) (scene_pose 2) e in let rc := scene_rc iso_id iso_mul iso_inv (scene_pose 1) (scene_pose 2) e in
  orders_ok demo_orders /\ true_scene scene_bearing scene_pose row_point d /\ data_ok d /\ has_recon d 0 rc /\ mapped scene_pose row_point d rc /\
  t_bearing scene_tools = scene_bearing /\ exact_triangulator (t_triangulate scene_tools) /\
  forall l, l < 3 -> robust_without scene_gs scene_tools demo_orders d rc l 2 = true.
Proof. exact (without_example (fun _ => (0, 0, 0)%Z) (fun _ => mid) 1%R). Qed.
(** A landmark which is robust in the sense of C60 when the view is ignored passes; ... *)
Theorem C82_robust_partial :
  forall (F : Type) (st : gsettings RNum) (G : tools RNum F) (o : orders) (d : vdata riso F) (rc : recon riso) (l : key) m (v : key),
    orders_ok o -> recon_ok d rc -> has_landmark rc l m ->
    robust_ignoring (t_bearing G) (robust_minimum_observations st) (robust_observation_incidence_minimum_cosine_distance st) d rc l v ->
    robust_without st G o d rc l v = true.
Proof. exact @without_weaker. Qed.
Print Assumptions C82_robust_partial.
Example C82_case : orders_ok demo_orders /\ recon_ok screw_data screw_rc /\ (exists m, has_landmark screw_rc 1 m) /\
  robust_ignoring screw_bearing 3 (1 / 2) screw_data screw_rc 1 1.
Proof. exact screw_ignoring. Qed.
(** ... but the minimum number of observations is not asked for: a landmark passes which is robust
    neither with the view nor without it. *)
Theorem C82_robust_refuted :
  exists (st : gsettings RNum) (G : tools RNum nat) (o : orders) (d : vdata riso nat) (rc : recon riso) (l v : key) m,
    orders_ok o /\ recon_ok d rc /\ has_landmark rc l m /\ robust_without st G o d rc l v = true /\
    ~ robust_ignoring (t_bearing G) (robust_minimum_observations st) (robust_observation_incidence_minimum_cosine_distance st) d rc l v /\
    landmarks_robust st G o d rc [l] = false.
Proof. exact without_too_few. Qed.
Print Assumptions C82_robust_refuted.

(** ** C83: the debugging check *)
(** It reports exactly the entries of views which no landmark mirrors. *)
Theorem C83_reports :
  forall (P : Type) (rc : recon P) (x : report), x ∈ sanity_check rc <-> justified rc x.
Proof. exact @sanity_reports. Qed.
Print Assumptions C83_reports.
(** After any history it is silent. *)
Theorem C83_silent :
  forall (P F : Type) (one : P) (mul : P -> P -> P) (inv : P -> P) (s : settings) (ops : list (op P F)) (d : vdata P F),
    used_well one mul inv s vdata_init ops -> run one mul inv s ops = Ok d ->
    forall r rc, has_recon d r rc -> sanity_check rc = [].
Proof. exact @sanity_history. Qed.
Print Assumptions C83_silent.
(** Silence means half of the mirror (C01), ... *)
Theorem C83_half_partial :
  forall (P : Type) (rc : recon P), sanity_check rc = [] <-> forall v f l, assigned rc v f l -> observes rc l v f.
Proof. exact @sanity_silent. Qed.
Print Assumptions C83_half_partial.
(** ... not the other half. *)
Theorem C83_mirror_refuted : exists rc : recon nat, sanity_check rc = [] /\ ~ mirrored rc.
Proof. exact sanity_blind. Qed.
Print Assumptions C83_mirror_refuted.
(** It notices what the matches of C01_any_matches_refuted do. *)
Example C83_double_match : exists (ops : list (op Z nat)) d rc,
  demo_run (demo_settings 0 1) ops = Ok d /\ has_recon d 0 rc /\ sanity_check rc <> [].
Proof. exact sanity_double. Qed.
