(** Properties C01-C05 and C08-C11 of the mapping database.  Definitions used in the statements
    come from the model (Sfm.v) and from the specifications SfmSpec.v, SfmUse.v and
    SfmEffects.v; concrete histories are in SfmDemo.v. *)
From Coq Require Import ZArith.
From stdpp Require Import gmap list.
From Verif Require Import Outcome Sfm SfmSpec SfmUse SfmEffects SfmDemo SfmThms SfmHist SfmProps.
Open Scope nat_scope.

(** ** C01: view features and landmark observations mirror each other *)

(** After any history the two indexes of every reconstruction agree, no landmark is empty and
    every view has one entry per feature of its frame. *)
Theorem C01_indexes_mirror :
  forall (P F : Type) (one : P) (mul : P -> P -> P) (inv : P -> P) (s : settings) (ops : list (op P F)) (d : vdata P F),
    used_well one mul inv s vdata_init ops -> run one mul inv s ops = Ok d ->
    forall r rc, has_recon d r rc -> mirrored rc /\ no_empty_landmark rc /\ one_entry_per_feature d rc.
Proof. exact history_mirrored. Qed.
Print Assumptions C01_indexes_mirror.

(** The same from any consistent database, one operation at a time. *)
Theorem C01_every_operation_keeps_consistency :
  forall (P F : Type) (one : P) (mul : P -> P -> P) (inv : P -> P) (s : settings) (d d' : vdata P F) (x : op P F),
    data_ok d -> op_allowed d x -> step one mul inv s d x = Ok d' -> data_ok d'.
Proof. exact step_consistent. Qed.
Print Assumptions C01_every_operation_keeps_consistency.

Example C01_history : exists d rc,
  used_well 0%Z Z.add Z.opp (demo_settings 10 1) vdata_init demo_ops /\ demo_run (demo_settings 10 1) demo_ops = Ok d /\
  has_recon d 0 rc /\ sm_size (r_views rc) = 6 /\ assigned rc 5 1 1 /\ assigned rc 0 1 1.
Proof. exact demo_history. Qed.

(** Without the condition on the matches the public [add_reconstruction] breaks the mirror:
    here a center feature is matched to two features of another frame. *)
Theorem C01_any_matches_refuted : exists (ops : list (op Z nat)) d rc v f l,
  demo_run (demo_settings 0 1) ops = Ok d /\ has_recon d 0 rc /\ assigned rc v f l /\ ~ observes rc l v f.
Proof. exact double_match_breaks. Qed.
Print Assumptions C01_any_matches_refuted.

(** ** C02: a frame belongs to at most one reconstruction and the link is exact *)
Theorem C02_links_exact :
  forall (P F : Type) (one : P) (mul : P -> P -> P) (inv : P -> P) (s : settings) (ops : list (op P F)) (d : vdata P F),
    used_well one mul inv s vdata_init ops -> run one mul inv s ops = Ok d ->
    frame_links_exact d /\
    (forall r v k, is_view_of d r v k -> exists fr, has_frame d k fr) /\
    (forall k r v r' v', is_view_of d r v k -> is_view_of d r' v' k -> r = r' /\ v = v').
Proof. exact history_links. Qed.
Print Assumptions C02_links_exact.

(** Removing a view releases its own frame only. *)
Theorem C02_remove_view_releases :
  forall (P F : Type) (d : vdata P F) (r v : key) (rc : recon P) (w : view P),
    data_ok d -> has_recon d r rc -> has_view rc v w ->
    exists d', remove_view d r v = Ok d' /\ data_ok d' /\ only_recon r d d' /\
      forall r' v' k, is_view_of d' r' v' k <-> is_view_of d r' v' k /\ (r', v') <> (r, v).
Proof. exact @remove_view_thm. Qed.
Print Assumptions C02_remove_view_releases.

(** Removing a reconstruction releases its own frames only. *)
Theorem C02_remove_reconstruction_releases :
  forall (P F : Type) (o : orders) (d : vdata P F) (r : key) (rc : recon P),
    orders_ok o -> data_ok d -> has_recon d r rc ->
    exists d', remove_reconstruction o d r = Ok d' /\ data_ok d' /\ only_recon r d d' /\ sm_map (d_recs d') !! r = None /\
      forall r' v' k, is_view_of d' r' v' k <-> is_view_of d r' v' k /\ r' <> r.
Proof. exact @remove_reconstruction_thm. Qed.
Print Assumptions C02_remove_reconstruction_releases.

Example C02_history : data_ok demo_data /\ has_recon demo_data 0 demo_rc /\ is_view_of demo_data 0 5 5 /\ is_view_of demo_data 0 0 2.
Proof. exact demo_links. Qed.

(** Without the condition that the frames are free, [add_reconstruction] puts a frame into two
    reconstructions. *)
Theorem C02_any_frames_refuted : exists (ops : list (op Z nat)) d k,
  demo_run (demo_settings 0 1) ops = Ok d /\ is_view_of d 0 0 k /\ is_view_of d 1 0 k.
Proof. exact same_frame_twice. Qed.
Print Assumptions C02_any_frames_refuted.

(** ** C03: no internal panics *)
Theorem C03_operations_complete :
  forall (P F : Type) (one : P) (mul : P -> P -> P) (inv : P -> P) (s : settings) (d : vdata P F) (x : op P F),
    data_ok d -> op_allowed d x -> op_ready s d x ->
    exists d', step one mul inv s d x = Ok d' /\ data_ok d'.
Proof. exact @step_total. Qed.
Print Assumptions C03_operations_complete.

(** Whatever registration accepts can be added to the reconstruction. *)
Theorem C03_registered_view_is_added :
  forall (P F : Type) (e : env P F) (s : settings) (d : vdata P F) (r k : key) (views : list key) (rc : recon P) (fr : frame F) (p : P) (ms : gmap nat (list key)),
    env_ok e -> data_ok d -> has_recon d r rc -> has_frame d k fr -> f_view fr = None ->
    (forall v, v ∈ views -> exists w, has_view rc v w) -> register_frame e s d r k views = Ok (Some (p, ms)) ->
    exists d' v, add_view (e_ord e) d r k p (fun f => ms !! f) = Ok (d', v) /\ data_ok d' /\ only_recon r d d' /\ is_view_of d' r v k.
Proof. exact @register_add_thm. Qed.
Print Assumptions C03_registered_view_is_added.

(** Merging two landmarks completes exactly when they are distinct and share no view. *)
Theorem C03_merge_completes_iff :
  forall (P F : Type) (e : env P F) (d : vdata P F) (r : key) (rc : recon P) (a b : key) (ma mb : gmap nat nat),
    orders_ok (e_ord e) -> data_ok d -> has_recon d r rc -> has_landmark rc a ma -> has_landmark rc b mb ->
    ((exists rc', rec_merge (e_ord e) rc a b = Ok rc') <-> a <> b /\ forall v, ma !! v = None \/ mb !! v = None).
Proof. exact @merge_exact. Qed.
Print Assumptions C03_merge_completes_iff.

Example C03_next_frame : data_ok demo_data /\ op_allowed demo_data (demo_frame demo_e) /\ op_ready (demo_settings 10 1) demo_data (demo_frame demo_e).
Proof. exact demo_next_ready. Qed.

(** Frames with fewer than three features make registration panic. *)
Theorem C03_two_features_refuted : exists (ops : list (op Z nat)),
  used_well 0%Z Z.add Z.opp (demo_settings 10 1) vdata_init ops /\ demo_run (demo_settings 10 1) ops = Panic.
Proof. exact two_features_panic. Qed.
Print Assumptions C03_two_features_refuted.

(** ** C04: pose-graph optimisation survives losing a view *)

(** Missing for the full property: several iterations in which a view is dropped; that case is
    refuted below. *)
Theorem C04_optimisation_completes_partial :
  forall (P F : Type) (mul : P -> P -> P) (inv : P -> P) (e : env P F) (s : settings) (d : vdata P F) (r : key) (rc : recon P),
    orders_ok (e_ord e) -> data_ok d -> has_recon d r rc ->
    (optimization_iterations s <= 1 \/ update_total e) ->
    exists d' b, apply_constraints mul inv e s d r = Ok (d', b) /\ data_ok d' /\ only_recon r d d' /\
      (if b : bool then exists rc', has_recon d' r rc' else sm_map (d_recs d') !! r = None).
Proof. exact @apply_constraints_thm. Qed.
Print Assumptions C04_optimisation_completes_partial.

Example C04_one_iteration : data_ok demo_data /\ has_recon demo_data 0 demo_rc /\ optimization_iterations (demo_settings 10 1) <= 1.
Proof. exact demo_one_iteration. Qed.

(** With two iterations, dropping one view in the first makes the second panic. *)
Theorem C04_dropped_view_refuted : exists (e : env Z nat) (s : settings) (d : vdata Z nat) (r : key) (rc : recon Z),
  env_ok e /\ data_ok d /\ has_recon d r rc /\ sm_size (r_views rc) = 6 /\ apply_constraints Z.add Z.opp e s d r = Panic.
Proof. exact dropped_view_panics. Qed.
Print Assumptions C04_dropped_view_refuted.

(** ** C05: constraints reference live, distinct views *)
Theorem C05_constraints_live :
  forall (P F : Type) (one : P) (mul : P -> P -> P) (inv : P -> P) (s : settings) (ops : list (op P F)) (d : vdata P F),
    used_well one mul inv s vdata_init ops -> run one mul inv s ops = Ok d ->
    forall r rc, has_recon d r rc -> constraints_live rc.
Proof. exact history_constraints. Qed.
Print Assumptions C05_constraints_live.

Theorem C05_constraints_of_a_view :
  forall (P F : Type) (e : env P F) (s : settings) (d : vdata P F) (r : key) (rc : recon P) (v : key) (w : view P),
    env_ok e -> data_ok d -> has_recon d r rc -> has_view rc v w ->
    exists d' b, record_view_constraints e s d r v = Ok (d', b) /\ data_ok d' /\ only_recon r d d' /\
      exists rc', has_recon d' r rc' /\ if b : bool then recorded_for e s d r rc v rc' else rc' = rc.
Proof. exact @record_thm. Qed.
Print Assumptions C05_constraints_of_a_view.

Example C05_history : has_recon demo_data 0 demo_rc /\ sm_size (r_cons demo_rc) = 12 /\
  exists c, has_constraint demo_rc 1 c /\ c_views c = (0, 1, 3).
Proof. exact demo_constraints. Qed.

(** ** C08: merging reconstructions keeps every view and every track *)
Theorem C08_merge_keeps_views_and_tracks :
  forall (P F : Type) (mul : P -> P -> P) (inv : P -> P) (e : env P F) (s : settings) (d : vdata P F) (src_k dest_k : key)
      (src dest : recon P) (world_transform : P) (lmap : gmap key key),
    env_ok e -> data_ok d -> src_k <> dest_k -> has_recon d src_k src -> has_recon d dest_k dest ->
    injective lmap -> targets_live lmap dest ->
    exists d' dest' M, incorporate_reconstruction mul inv e s d src_k dest_k world_transform lmap = Ok d' /\ data_ok d' /\ same_images d d' /\
      sm_map (d_recs d') !! src_k = None /\ has_recon d' dest_k dest' /\
      (forall r, r <> src_k -> r <> dest_k -> sm_map (d_recs d') !! r = sm_map (d_recs d) !! r) /\
      absorbed mul src dest lmap (inv world_transform) M dest' /\
      (forall sv dv, (sv, dv) ∈ M -> sm_map (r_views dest') !! dv = None -> lacks_constraints e s d dest_k dv).
Proof. exact @incorporate_thm. Qed.
Print Assumptions C08_merge_keeps_views_and_tracks.

(** Changing coordinates on the right keeps relative poses. *)
Theorem C08_relative_poses_kept :
  forall (P : Type) (one : P) (mul : P -> P -> P) (inv : P -> P) (src dest dest' : recon P) (lmap : gmap key key) (t : P) (M : list (key * key)),
    group_laws one mul inv -> absorbed mul src dest lmap t M dest' ->
    forall sv1 dv1 w1 w1' sv2 dv2 w2 w2', (sv1, dv1) ∈ M -> (sv2, dv2) ∈ M ->
      has_view src sv1 w1 -> has_view src sv2 w2 -> has_view dest' dv1 w1' -> has_view dest' dv2 w2' ->
      mul (v_pose w1') (inv (v_pose w2')) = mul (v_pose w1) (inv (v_pose w2)).
Proof. exact @merge_relative_poses. Qed.
Print Assumptions C08_relative_poses_kept.

Example C08_two_reconstructions : exists src dest,
  data_ok demo_two_data /\ has_recon demo_two_data 1 src /\ has_recon demo_two_data 0 dest /\
  injective demo_lmap /\ targets_live demo_lmap dest /\ sm_size (r_views src) = 3 /\ sm_size (r_views dest) = 3.
Proof. exact demo_merge_ready. Qed.

(** ** C09: filtering only separates observations *)
Theorem C09_filter_observations :
  forall (P F : Type) (e : env P F) (d : vdata P F) (r : key) (rc : recon P),
    orders_ok (e_ord e) -> data_ok d -> has_recon d r rc ->
    exists d' b, filter_observations e d r = Ok (d', b) /\ data_ok d' /\ only_recon r d d' /\
      if b : bool then (forall k, sm_map (d_frames d') !! k = sm_map (d_frames d) !! k) /\ e_too_few e d' r = false /\
                exists rc', has_recon d' r rc' /\ filtered (fun d l m => filter_verdict e d r l m) d r rc rc'
      else sm_map (d_recs d') !! r = None /\
           exists d1 rc', e_too_few e d1 r = true /\ only_recon r d d1 /\ has_recon d1 r rc' /\ filtered (fun d l m => filter_verdict e d r l m) d r rc rc'.
Proof. exact @filter_observations_thm. Qed.
Print Assumptions C09_filter_observations.

Theorem C09_filter_landmarks :
  forall (P F : Type) (e : env P F) (d : vdata P F) (r : key) (rc : recon P),
    orders_ok (e_ord e) -> data_ok d -> has_recon d r rc ->
    exists d' rc', filter_landmarks e d r = Ok d' /\ data_ok d' /\ only_recon r d d' /\
      (forall k, sm_map (d_frames d') !! k = sm_map (d_frames d) !! k) /\
      has_recon d' r rc' /\ filtered (robust_verdict e r) d r rc rc'.
Proof. exact @filter_landmarks_thm. Qed.
Print Assumptions C09_filter_landmarks.

Theorem C09_split_observation :
  forall (P F : Type) (d : vdata P F) (rc : recon P) (v : key) (f : nat) (l : key),
    recon_ok d rc -> assigned rc v f l ->
    exists rc' b, split_observation rc v f = Ok (rc', b) /\ recon_ok d rc' /\ separated rc rc' /\ alone rc' (v, f) /\
      (forall v' f' l', (v', f') <> (v, f) -> (assigned rc' v' f' l' <-> assigned rc v' f' l')).
Proof. exact @split_observation_thm. Qed.
Print Assumptions C09_split_observation.

Theorem C09_split_landmark :
  forall (P F : Type) (o : orders) (d : vdata P F) (rc : recon P) (l : key) (m : gmap nat nat),
    orders_ok o -> recon_ok d rc -> has_landmark rc l m ->
    exists rc', split_landmark o rc l = Ok rc' /\ recon_ok d rc' /\ separated rc rc' /\ scattered rc rc' l /\
      (forall v' f' l', ~ assigned rc v' f' l -> (assigned rc' v' f' l' <-> assigned rc v' f' l')).
Proof. exact @split_landmark_thm. Qed.
Print Assumptions C09_split_landmark.

Example C09_history : data_ok demo_data /\ recon_ok demo_data demo_rc /\ has_recon demo_data 0 demo_rc /\ orders_ok demo_orders /\ assigned demo_rc 5 1 1 /\ assigned demo_rc 0 1 1.
Proof. exact demo_filter_ready. Qed.

(** ** C10: frame registration terminates *)

(** The windows depend on the frame size and the setting only, they tile the features, and
    registering is trying them one after the other.  The fuel stands for the loop: any amount
    above the number of features gives the same result. *)
Theorem C10_registration_terminates :
  forall (n initial : nat), 0 < initial \/ n = 0 ->
    exists ws, tiles ws 0 n /\ offered_features ws = seq 0 n /\ length ws <= S n /\
      forall (P F : Type) (e : env P F) (s : settings) (d : vdata P F) (r k : key) (views : list key) (fr : frame F),
        has_frame d k fr -> length (f_feats fr) = n -> single_view_initial_features s = initial -> n < e_fuel e ->
        register_frame e s d r k views = try_windows (register_subset e s d r k views) ws [].
Proof. exact registration_windows. Qed.
Print Assumptions C10_registration_terminates.

Example C10_windows : exists ws, tiles ws 0 10 /\ offered_features ws = seq 0 10 /\ ws = [(0, 2); (2, 4); (4, 8); (8, 10)].
Proof. exact windows_example. Qed.

(** With an initial window of no features the loop never ends, whatever the fuel. *)
Theorem C10_empty_window_refuted : exists (s : settings) (d : vdata Z nat) (r k : key) (views : list key) (e : nat -> env Z nat),
  data_ok d /\ (forall fuel, env_ok (e fuel) /\ e_fuel (e fuel) = fuel) /\
  forall fuel, register_frame (e fuel) s d r k views = Fuel.
Proof. exact empty_window_diverges. Qed.
Print Assumptions C10_empty_window_refuted.

(** ** C11: candidate frames *)
Theorem C11_candidates :
  forall (P F : Type) (d : vdata P F) (answers : list key) (k : key) (fr : frame F) (num_similar num_recent threshold : nat),
    data_ok d -> has_frame d k fr -> NoDup answers -> (forall x, x ∈ answers -> x ∈ d_lsh d) ->
    exists recs free, find_frames d answers k num_similar num_recent threshold = Ok (recs, free) /\
      candidates d answers k num_similar num_recent threshold recs free.
Proof. exact @find_thm. Qed.
Print Assumptions C11_candidates.

(** A frame's feed position always is its index in the feed. *)
Theorem C11_feed_positions :
  forall (P F : Type) (one : P) (mul : P -> P -> P) (inv : P -> P) (s : settings) (ops : list (op P F)) (d : vdata P F),
    used_well one mul inv s vdata_init ops -> run one mul inv s ops = Ok d -> feed_positions_exact d.
Proof. exact history_positions. Qed.
Print Assumptions C11_feed_positions.

Example C11_search : exists recs free,
  find_frames demo_data [0; 5; 3] 5 8 2 2 = Ok (recs, free) /\ recs !! 0 = Some [4; 1; 3] /\ free = [].
Proof. exact demo_search. Qed.
