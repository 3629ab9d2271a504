(** Properties C53-C58 of single mapping operations: what is recorded when frames are matched,
    reconstructions are started, views and landmarks are added, removed and merged, frames are
    rejected and poses are optimised.
    Definitions used in the statements come from the model (Sfm.v) and from the
    specifications SfmSpec.v, SfmUse.v and SfmEffects.v; concrete cases are in SfmExamples.v. *)
From Coq Require Import ZArith.
From stdpp Require Import gmap list.
From Verif Require Import Outcome MatchingSpec Sfm SfmSpec SfmUse SfmEffects SfmDemo SfmReg SfmStart SfmTracks SfmReject SfmDedup SfmRounds SfmExamples.
Open Scope nat_scope.

(** ** C53: a frame is registered from its unambiguous matches only *)

(** [answered] says that the pose estimator was asked about exactly the clear matches of the
    first [hi] features which compete with no other one, and that its answer is the result.
    A frame is given up only after all its features were offered. *)
Theorem C53_registered_from_clear_matches :
  forall (P F : Type) (e : env P F) (s : settings) (d : vdata P F) (r k : key) (views : list key) (rc : recon P) (fr : frame F) res,
    env_ok e -> has_recon d r rc -> recon_ok d rc -> has_frame d k fr ->
    (forall v, v ∈ views -> exists w, has_view rc v w) -> 0 < single_view_match_better_by s ->
    register_frame e s d r k views = Ok res ->
    exists hi, hi <= length (f_feats fr) /\ answered e s d rc r k (f_feats fr) views hi res /\ (res = None -> hi = length (f_feats fr)).
Proof. exact @register_frame_answer. Qed.
Print Assumptions C53_registered_from_clear_matches.

Example C53_case : data_ok demo_data /\ has_recon demo_data 0 demo_rc /\
  (forall v, v ∈ [0; 1] -> exists w, has_view demo_rc v w) /\
  exists pose found, register_frame demo_e (demo_settings 10 1) demo_data 0 5 [0; 1] = Ok (Some (pose, found)) /\
    found !! 0 = Some [0] /\ found !! 1 = Some [1] /\ found !! 2 = None.
Proof. exact demo_registered. Qed.

(** ** C54: a new reconstruction records exactly the matches it was started from *)
Theorem C54_new_reconstruction :
  forall (P F : Type) (one : P) (o : orders) (d : vdata P F) (center first second : key) (p1 p2 : P)
    (combined : list (nat * nat * nat)) (firsts seconds : list (nat * nat)) (d' : vdata P F) (r : key),
    orders_ok o -> data_ok d -> center <> first -> center <> second -> first <> second ->
    free_frame d center -> free_frame d first -> free_frame d second ->
    one_to_one (first_matches combined firsts) -> one_to_one (second_matches combined seconds) ->
    add_reconstruction one o d center first second p1 p2 combined firsts seconds = Ok (d', r) ->
    data_ok d' /\ new_reconstruction one d center first second p1 p2 (first_matches combined firsts) (second_matches combined seconds) r d'.
Proof. exact @add_reconstruction_thm. Qed.
Print Assumptions C54_new_reconstruction.

Example C54_start : data_ok six_data /\ free_frame six_data 0 /\ free_frame six_data 1 /\ free_frame six_data 2 /\
  one_to_one (first_matches [(0, 0, 0)] [(1, 1)]) /\ one_to_one (second_matches [(0, 0, 0)] [(2, 2)]) /\
  exists d', add_reconstruction 0%Z demo_orders six_data 0 1 2 1%Z 2%Z [(0, 0, 0)] [(1, 1)] [(2, 2)] = Ok (d', 0).
Proof. exact demo_start_ready. Qed.

(** The automatic initialisation either changes nothing or starts one reconstruction, of the
    given frame and two of the offered ones, from mutual best matches. *)
Theorem C54_initialisation :
  forall (P F : Type) (one : P) (e : env P F) (s : settings) (d : vdata P F) (center : key) (options : list key) (d' : vdata P F),
    env_ok e -> data_ok d -> free_frame d center -> NoDup options -> center ∉ options -> (forall k, k ∈ options -> free_frame d k) ->
    try_init one e s d center options = Ok d' ->
    data_ok d' /\ (d' = d \/ exists first second fc ff fs p1 p2 ms1 ms2, first ∈ options /\ second ∈ options /\ first <> second /\
      has_frame d center fc /\ has_frame d first ff /\ has_frame d second fs /\
      (forall i j, (i, j) ∈ ms1 -> mutual (e_knn e) (f_feats fc) (f_feats ff) (two_view_match_better_by s) i j) /\
      (forall i j, (i, j) ∈ ms2 -> mutual (e_knn e) (f_feats fc) (f_feats fs) (two_view_match_better_by s) i j) /\
      new_reconstruction one d center first second p1 p2 ms1 ms2 (sm_next (d_recs d)) d').
Proof. exact @try_init_thm. Qed.
Print Assumptions C54_initialisation.

Example C54_init : data_ok six_data /\ env_ok demo_e /\ free_frame six_data 0 /\ (forall k, k ∈ [1; 2] -> free_frame six_data k) /\
  exists d', try_init 0%Z demo_e (demo_settings 0 1) six_data 0 [1; 2] = Ok d' /\ d' <> six_data.
Proof. exact demo_init_ready. Qed.

(** ** C55: adding, removing and merging change the tracks as asked and nothing else *)
Theorem C55_add_view :
  forall (P F : Type) (o : orders) (d : vdata P F) (r k : key) (pose : P) (existing : nat -> option (list key)) (rc : recon P) (fr : frame F),
    orders_ok o -> data_ok d -> has_recon d r rc -> has_frame d k fr -> f_view fr = None ->
    good_matches rc (length (f_feats fr)) existing ->
    exists d' v rc', add_view o d r k pose existing = Ok (d', v) /\ data_ok d' /\ only_recon r d d' /\ has_recon d' r rc' /\
      view_inserted rc k pose existing (length (f_feats fr)) v rc'.
Proof. exact @add_view_thm. Qed.
Print Assumptions C55_add_view.

Example C55_add : orders_ok demo_orders /\ data_ok started_data /\ has_recon started_data 0 started_rc /\
  (exists fr, has_frame started_data 3 fr /\ f_view fr = None /\ length (f_feats fr) = 3) /\
  good_matches started_rc 3 demo_existing /\ assigned started_rc 0 1 1 /\ assigned started_rc 2 1 4.
Proof. exact demo_add_ready. Qed.

Theorem C55_remove_view :
  forall (P F : Type) (d : vdata P F) (r v : key) (rc : recon P) (w : view P),
    data_ok d -> has_recon d r rc -> has_view rc v w ->
    exists d' rc', remove_view d r v = Ok d' /\ data_ok d' /\ only_recon r d d' /\ has_recon d' r rc' /\ view_deleted rc v rc'.
Proof. exact @remove_view_effect. Qed.
Print Assumptions C55_remove_view.

Example C55_remove : data_ok started_data /\ has_recon started_data 0 started_rc /\ exists w, has_view started_rc 1 w.
Proof. exact demo_remove_ready. Qed.

Theorem C55_merge_landmarks :
  forall (P F : Type) (o : orders) (d : vdata P F) (r : key) (rc : recon P) (a b : key) (rc' : recon P),
    orders_ok o -> data_ok d -> has_recon d r rc -> rec_merge o rc a b = Ok rc' ->
    recon_ok d rc' /\ tracks_merged rc a b rc'.
Proof. exact @merge_effect. Qed.
Print Assumptions C55_merge_landmarks.

Example C55_merge : exists rc', rec_merge demo_orders started_rc 1 4 = Ok rc'.
Proof. exact demo_merge_lms_ready. Qed.

(** ** C56: a rejected frame leaves no trace *)

(** False: landmarks which were joined for the frame's sake stay joined.  That is all that is
    left, for a rejected frame and for a rejected merge of reconstructions alike. *)
Theorem C56_no_trace_refuted : exists (s : settings) (ops : list (op Z nat)) (x : op Z nat) d d' k rc rc' a b,
  used_well 0%Z Z.add Z.opp s vdata_init (ops ++ [x]) /\ demo_run s ops = Ok d /\ step 0%Z Z.add Z.opp s d x = Ok d' /\
  (exists feats e, x = OpAddFrame e 0 feats) /\ sm_map (d_frames d) !! k = None /\ free_frame d' k /\
  has_recon d 0 rc /\ has_recon d' 0 rc' /\ observation rc a /\ observation rc b /\ ~ same_track rc a b /\ same_track rc' a b.
Proof. exact rejected_leaves_trace. Qed.
Print Assumptions C56_no_trace_refuted.

Theorem C56_rejected_frame_partial :
  forall (P F : Type) (e : env P F) (s : settings) (d : vdata P F) (r k : key) (views : list key) (rc : recon P) (fr : frame F) (d' : vdata P F),
    env_ok e -> data_ok d -> has_recon d r rc -> has_frame d k fr -> f_view fr = None ->
    (forall v, v ∈ views -> exists w, has_view rc v w) ->
    incorporate_frame e s d r k views = Ok (d', false) ->
    (register_frame e s d r k views = Ok None /\ d' = d) \/
    exists pose found rc', register_frame e s d r k views = Ok (Some (pose, found)) /\
      data_ok d' /\ only_inside r d d' /\ has_recon d' r rc' /\ left_behind rc (length (f_feats fr)) (fun f => found !! f) rc'.
Proof. exact (fun P F => @incorporate_rejected P F (fun p _ => p) (fun p => p)). Qed.
Print Assumptions C56_rejected_frame_partial.

Example C56_frame : exists fr d' pose found,
  env_ok shy_e /\ data_ok shy_after /\ has_recon shy_after 0 (get_recon shy_after 0) /\ has_frame shy_after 3 fr /\ f_view fr = None /\
  (forall v, v ∈ [0; 1] -> exists w, has_view (get_recon shy_after 0) v w) /\
  incorporate_frame shy_e (demo_settings 3 1) shy_after 0 3 [0; 1] = Ok (d', false) /\
  register_frame shy_e (demo_settings 3 1) shy_after 0 3 [0; 1] = Ok (Some (pose, found)) /\ found !! 0 = Some [0; 3].
Proof. exact shy_rejected. Qed.

Theorem C56_rejected_merge_partial :
  forall (P F : Type) (pmul : P -> P -> P) (pinv : P -> P) (e : env P F) (s : settings) (d : vdata P F) (src_k sv dest_k : key) (views : list key)
    (src rc : recon P) (w : view P) (fr : frame F) (d' : vdata P F),
    env_ok e -> data_ok d -> src_k <> dest_k -> has_recon d src_k src -> has_view src sv w -> has_recon d dest_k rc -> has_frame d (v_frame w) fr ->
    (forall v, v ∈ views -> exists w, has_view rc v w) ->
    try_merge_reconstructions pmul pinv e s d src_k sv dest_k views = Ok (d', false) ->
    (register_frame e s d dest_k (v_frame w) views = Ok None /\ d' = d) \/
    exists pose found rc', register_frame e s d dest_k (v_frame w) views = Ok (Some (pose, found)) /\
      data_ok d' /\ only_inside dest_k d d' /\ has_recon d' dest_k rc' /\ left_behind rc (length (f_feats fr)) (fun f => found !! f) rc'.
Proof. exact @merge_rejected. Qed.
Print Assumptions C56_rejected_merge_partial.

Example C56_merge : exists src w fr d' pose found,
  env_ok shy_e /\ data_ok demo_two_data /\ has_recon demo_two_data 1 src /\ has_view src 0 w /\ has_recon demo_two_data 0 (get_recon demo_two_data 0) /\
  has_frame demo_two_data (v_frame w) fr /\ (forall v, v ∈ [0; 1] -> exists w, has_view (get_recon demo_two_data 0) v w) /\
  try_merge_reconstructions Z.add Z.opp shy_e (demo_settings 3 1) demo_two_data 1 0 0 [0; 1] = Ok (d', false) /\
  register_frame shy_e (demo_settings 3 1) demo_two_data 0 (v_frame w) [0; 1] = Ok (Some (pose, found)) /\ is_Some (found !! 0).
Proof. exact shy_merge_rejected. Qed.

(** ** C57: merging landmarks which share views gives up the worse observations only *)
Theorem C57_merge_shared_views :
  forall (P F : Type) (e : env P F) (d : vdata P F) (r : key) (rc : recon P) (a b : key) ma mb,
    orders_ok (e_ord e) -> data_ok d -> has_recon d r rc -> has_landmark rc a ma -> has_landmark rc b mb ->
    exists d' res rc' X, merge_landmarks_dedup e d r a b = Ok (d', res) /\ data_ok d' /\ only_inside r d d' /\ has_recon d' r rc' /\
      same_skeleton rc rc' /\ given_up e d r rc a b X /\
      match res with
      | Some l => l = a /\ (exists x, assigned rc x.1 x.2 a /\ x ∉ X) /\ (exists x, assigned rc x.1 x.2 b /\ x ∉ X) /\
          tracks_apart_from rc X (fun x y => same_track rc x y \/ on_pair rc a b x y) rc'
      | None => ((forall x, assigned rc x.1 x.2 a -> x ∈ X) \/ (forall x, assigned rc x.1 x.2 b -> x ∈ X)) /\
          tracks_apart_from rc X (same_track rc) rc'
      end.
Proof. exact @merge_dedup_thm. Qed.
Print Assumptions C57_merge_shared_views.

Example C57_merge : orders_ok (e_ord demo_e) /\ data_ok started_data /\ has_recon started_data 0 started_rc /\
  (exists ma mb, has_landmark started_rc 3 ma /\ has_landmark started_rc 1 mb /\ is_Some (ma !! 1) /\ is_Some (mb !! 1)) /\
  (exists d', merge_landmarks_dedup demo_e started_data 0 3 1 = Ok (d', Some 3)) /\
  (exists d', merge_landmarks_dedup demo_e started_data 0 1 3 = Ok (d', None)).
Proof. exact demo_dedup_ready. Qed.

(** ** C58: pose optimisation moves all views at once, by the constraints *)

(** In every round each view's new pose comes from its old pose and the old poses of the
    views it is constrained with; views without a new pose are dropped, and the
    reconstruction with them when fewer than three would remain. *)
Theorem C58_rounds :
  forall (P F : Type) (pmul : P -> P -> P) (pinv : P -> P) (e : env P F) (s : settings) (d : vdata P F) (r : key) (rc : recon P) (d' : vdata P F) (b : bool),
    orders_ok (e_ord e) -> data_ok d -> has_recon d r rc -> apply_constraints pmul pinv e s d r = Ok (d', b) ->
    data_ok d' /\ only_recon r d d' /\
    if b then exists rc', has_recon d' r rc' /\ rounds pmul pinv e rc (optimization_iterations s) rc rc'
    else sm_map (d_recs d') !! r = None /\ exists m rcm next, m < optimization_iterations s /\ rounds pmul pinv e rc m rc rcm /\
      planned pmul pinv e rc rcm next /\ remaining rcm next < 3.
Proof. exact @apply_rounds. Qed.
Print Assumptions C58_rounds.

Example C58_case : orders_ok (e_ord (demo_env demo_shift)) /\ data_ok demo_data /\ has_recon demo_data 0 demo_rc /\
  (exists d', apply_constraints Z.add Z.opp (demo_env demo_shift) (demo_settings 10 2) demo_data 0 = Ok (d', true) /\ d' <> demo_data) /\
  (exists d', apply_constraints Z.add Z.opp (demo_env (fun _ _ => None)) (demo_settings 10 2) demo_data 0 = Ok (d', false)).
Proof. exact demo_rounds_ready. Qed.
