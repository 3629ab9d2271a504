(** Theorems C60-C62: robust landmarks, filtering and the loss of an observation in the mapping
    code, with its numerical code in place of oracles. *)
From stdpp Require Import gmap list.
From Coq Require Import Reals Lra.
From Verif Require Import Outcome Num Lin LinSpec Core CoreSpec Geom GeomSpec Sfm SfmSpec SfmEffects SfmDemo SfmPose SfmPoseSpec SfmPoseDemo.
From Verif Require Import SfmGeom SfmGeomSpec SfmGeomFacts SfmGeomThms SfmGeomDemo Optimize OptimizeSpec SfmGeomRate.
Open Scope nat_scope.

(** ** C60: a landmark is robust when enough views see it from different directions *)
Theorem C60_robust :
  forall (F : Type) (st : gsettings RNum) (G : tools RNum F) (o : orders) (d : vdata riso F) (rc : recon riso) (l : key) m,
    orders_ok o -> recon_ok d rc -> has_landmark rc l m ->
    landmarks_robust st G o d rc [l] = true <->
    robust_landmark (t_bearing G) (robust_minimum_observations st) (robust_observation_incidence_minimum_cosine_distance st) d rc l.
Proof. exact @robust_iff. Qed.
Print Assumptions C60_robust.

(** The specification does not mention the order in which the hash map of the landmark is
    iterated. *)
Theorem C60_any_order :
  forall (F : Type) (st : gsettings RNum) (G : tools RNum F) (o o' : orders) (d : vdata riso F) (rc : recon riso) (l : key) m,
    orders_ok o -> orders_ok o' -> recon_ok d rc -> has_landmark rc l m ->
    landmarks_robust st G o d rc [l] = landmarks_robust st G o' d rc [l].
Proof. exact @robust_any_order. Qed.
Print Assumptions C60_any_order.

(** Neither robustness nor the epipolar error depends on the coordinate system and the unit of
    length, which normalisation changes (C07). *)
Theorem C60_gauge :
  forall (F : Type) (bearing_of : F -> rvec3) (d : vdata riso F) (rc rc' : recon riso) (p0 : riso) (m : R) minimum incidence (l : key),
    rigid p0 -> gauge_changed rc rc' p0 m ->
    robust_landmark bearing_of minimum incidence d rc' l <-> robust_landmark bearing_of minimum incidence d rc l.
Proof. exact @gauge_robust. Qed.
Print Assumptions C60_gauge.
Theorem C60_gauge_pairs :
  forall (F : Type) (bearing_of : F -> rvec3) (d : vdata riso F) (rc rc' : recon riso) (p0 : riso) (m : R) x y px py qx qy,
    rigid p0 -> rigid_views rc -> m <> 0%R -> gauge_changed rc rc' p0 m ->
    observed bearing_of d rc x px -> observed bearing_of d rc y py -> observed bearing_of d rc' x qx -> observed bearing_of d rc' y qy ->
    pair_error qx qy = pair_error px py.
Proof. exact @gauge_pairs. Qed.
Print Assumptions C60_gauge_pairs.

Example C60_case : data_ok screw_data /\ has_recon screw_data 0 screw_rc /\
  robust_landmark screw_bearing 3 (1 / 2) screw_data screw_rc 1 /\ ~ robust_landmark screw_bearing 3 (1 / 2) screw_data screw_rc 0.
Proof. exact (conj (proj1 screw_case) (conj (proj1 (proj2 screw_case)) screw_robust_case)). Qed.

(** ** C61: filtering splits off exactly the observations which do not fit *)
Theorem C61_filter_observations :
  forall (F : Type) (T : trig RNum) (st : gsettings RNum) (G : tools RNum F) (o : orders) similar knn sort fuel (d : vdata riso F) (r : key) (rc : recon riso),
    orders_ok o -> data_ok d -> has_recon d r rc -> rigid_views rc ->
    exists d' b rc' n, filter_observations (geometric T st G o similar knn sort fuel) d r = Ok (d', b) /\ data_ok d' /\ only_recon r d d' /\ separated rc rc' /\
      (forall x y, x <> y -> same_track rc' x y <-> exists l, assigned rc x.1 x.2 l /\ assigned rc y.1 y.2 l /\
         kept_together (t_bearing G) (t_triangulate G) o (maximum_sine_distance st) (maximum_cosine_distance st) d rc l x y) /\
      exactly n (robust_landmark (t_bearing G) (robust_minimum_observations st) (robust_observation_incidence_minimum_cosine_distance st) d rc') /\
      (b = true <-> minimum_robust_landmarks st <= n) /\
      if b then has_recon d' r rc' else sm_map (d_recs d') !! r = None.
Proof. exact @filter_observations_geometric. Qed.
Print Assumptions C61_filter_observations.

Theorem C61_filter_landmarks :
  forall (F : Type) (T : trig RNum) (st : gsettings RNum) (G : tools RNum F) (o : orders) similar knn sort fuel (d : vdata riso F) (r : key) (rc : recon riso),
    orders_ok o -> data_ok d -> has_recon d r rc ->
    exists d' rc', filter_landmarks (geometric T st G o similar knn sort fuel) d r = Ok d' /\ data_ok d' /\ only_recon r d d' /\ has_recon d' r rc' /\ separated rc rc' /\
      forall x y, x <> y -> same_track rc' x y <-> exists l, assigned rc x.1 x.2 l /\ assigned rc y.1 y.2 l /\
        robust_landmark (t_bearing G) (robust_minimum_observations st) (robust_observation_incidence_minimum_cosine_distance st) d rc l /\
        exists ps h, listed (t_bearing G) o d rc l ps /\ t_triangulate G ps = Some h.
Proof. exact @filter_landmarks_geometric. Qed.
Print Assumptions C61_filter_landmarks.

Example C61_case :
  orders_ok demo_orders /\ data_ok screw_data /\ has_recon screw_data 0 screw_rc /\ rigid_views screw_rc /\
  kept_together screw_bearing (t_triangulate screw_tools) demo_orders 1 (1 / 2) screw_data screw_rc 0 (0, 0) (1, 0) /\
  ~ kept_together screw_bearing (t_triangulate screw_tools) demo_orders 1 (1 / 2) screw_data screw_rc 1 (0, 1) (1, 1).
Proof. exact screw_filter_case. Qed.

(** ** C62: the loss says how badly an observation fits, and of two observations of one view the
    one which fits worse is given up *)
Theorem C62_loss :
  forall (F : Type) (T : trig RNum) (G : tools RNum F) (o : orders) (d : vdata riso F) (rc : recon riso) v f l,
    orders_ok o -> recon_ok d rc -> rigid_views rc -> (forall x, unit_vec (t_bearing G x)) -> t_cos T = cos -> t_asin G = asin ->
    assigned rc v f l ->
    badness (t_bearing G) (t_triangulate G) o d rc (v, f) (observation_loss T G o d rc v f) /\ (0 <= observation_loss T G o d rc v f <= 2)%R.
Proof. exact @loss_badness. Qed.
Print Assumptions C62_loss.

Theorem C62_duplicates :
  forall (F : Type) (T : trig RNum) (st : gsettings RNum) (G : tools RNum F) (o : orders) similar knn sort fuel (d : vdata riso F) (r : key) (rc : recon riso) (a b : key) ma mb,
    orders_ok o -> data_ok d -> has_recon d r rc -> has_landmark rc a ma -> has_landmark rc b mb ->
    rigid_views rc -> (forall x, unit_vec (t_bearing G x)) -> t_cos T = cos -> t_asin G = asin ->
    exists d' res rc' (X : list (key * nat)), merge_landmarks_dedup (geometric T st G o similar knn sort fuel) d r a b = Ok (d', res) /\
      has_recon d' r rc' /\ (forall x, x ∈ X -> alone rc' x) /\
      forall v fa fb, assigned rc v fa a -> assigned rc v fb b -> exists rcv la lb, separated rc rcv /\ assigned rcv v fa a /\ assigned rcv v fb b /\
        badness (t_bearing G) (t_triangulate G) o d rcv (v, fa) la /\ badness (t_bearing G) (t_triangulate G) o d rcv (v, fb) lb /\
        forall f, (v, f) ∈ X <-> f = if Rle_dec la lb then fb else fa.
Proof. exact @dedup_geometric. Qed.
Print Assumptions C62_duplicates.

Example C62_case : orders_ok demo_orders /\ data_ok screw_data /\ has_recon screw_data 0 screw_rc /\ rigid_views screw_rc /\
  (forall x, unit_vec (t_bearing screw_tools x)) /\ t_asin screw_tools = asin /\ t_cos (real_trig (fun _ => mid) 1) = cos /\
  (exists ma mb, has_landmark screw_rc 0 ma /\ has_landmark screw_rc 1 mb) /\ assigned screw_rc 0 0 0 /\ assigned screw_rc 0 1 1.
Proof. exact screw_duplicates_case. Qed.

(** ** C42 in the mapping code: which rates and numbers of steps it uses *)
Theorem C42_mapping_single_view :
  forall (nearest : rmat3 -> rmat3) (eps : R) (st : gsettings RNum) (pose : riso) ls, ls <> [] -> let T := real_trig nearest eps in
    run (fun p => [plain_sums (deltas p ls)]) (fun p => iso_mul (se3_isometry T (mean_step (single_view_optimization_rate st) (length ls) (deltas p ls))) p)
      (single_view_patience st) pose (single_optimize T st pose ls).
Proof. exact mapping_single. Qed.
Print Assumptions C42_mapping_single_view.
Theorem C42_mapping_three_view :
  forall (nearest : rmat3 -> rmat3) (eps : R) (st : gsettings RNum) (poses : riso * riso) ls, ls <> [] -> let T := real_trig nearest eps in
    exists result, three_optimize T st poses ls = invert result /\
    run (fun p => [plain_sums (firsts p ls); plain_sums (seconds p ls)])
      (fun p => move T p (mean_step (1 / 1000)%R (length ls) (firsts p ls), mean_step (1 / 1000)%R (length ls) (seconds p ls))) (three_view_patience st) (invert poses) result.
Proof. exact mapping_three. Qed.
Print Assumptions C42_mapping_three_view.
