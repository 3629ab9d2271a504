(** Model of the mapping data structure and its operations: /repo/cv-sfm/src/lib.rs.

    - Slot maps ([DenseSlotMap]) are finite maps with a creation counter: a key is never
      handed out twice (slotmap keys carry a version).  Their iteration order, and that of
      [HashMap]s, is unspecified: it is given by the [orders] oracle of each call.
    - Poses are values of an abstract type [P] with the group operations the code uses.
    - Features of a frame are values of an abstract type [F].
    - Numerical verdicts (robustness, triangulation, consensus, pose estimation) are answers
      of the oracles in [env]; they may depend on the whole current state.
    - A missing key, an out-of-range index, [unreachable!], a failed [assert!] is [Panic]. *)
From stdpp Require Import gmap list.
From Verif Require Import Outcome Matching.

Notation key := nat (only parsing).

(** ** slotmap::DenseSlotMap (external crate) *)
Record smap (A : Type) := SMap { sm_map : gmap key A; sm_next : key }.
Arguments SMap {A} _ _.
Arguments sm_map {A} _.
Arguments sm_next {A} _.

Definition sm_empty {A} : smap A := SMap ∅ 0.
Definition sm_get {A} (s : smap A) (k : key) : option A := sm_map s !! k.
(** assignment through [IndexMut], used only on present keys *)
Definition sm_put {A} (k : key) (x : A) (s : smap A) : smap A := SMap (<[k := x]> (sm_map s)) (sm_next s).
Definition sm_del {A} (k : key) (s : smap A) : smap A := SMap (delete k (sm_map s)) (sm_next s).
(** [insert]: the new map; the key handed out is [sm_next] of the old one. *)
Definition sm_ins {A} (x : A) (s : smap A) : smap A := SMap (<[sm_next s := x]> (sm_map s)) (S (sm_next s)).
Definition sm_size {A} (s : smap A) : nat := size (sm_map s).
Definition sm_keys {A} (s : smap A) : gset key := dom (sm_map s).

(** Iteration orders used during one call: [o_obs l X] is the order in which the observation
    map of landmark [l] yields the view keys [X]. *)
Record orders := Orders {
  o_obs : key -> gset key -> list key;
  o_views : gset key -> list key;
  o_lms : gset key -> list key;
  o_cons : gset key -> list key;
  o_covis : gset key -> list key;
  o_match : gset key -> list key;
  o_recs : gset key -> list key
}.

(** lib.rs 105: [Landmark::observations], a map from view keys to feature indices. *)
Notation landmark := (gmap nat nat) (only parsing).

(** [observations.iter()] of landmark [l]. *)
Definition obs_list (o : orders) (l : key) (m : landmark) : list (key * nat) :=
  omap (fun v => (fun f => (v, f)) <$> m !! v) (o_obs o l (dom m)).

(** lib.rs 3135-3141 [abs_difference] at type usize. *)
Definition abs_diff (x y : nat) : nat := if x <? y then y - x else x - y.

(** lib.rs 54-57 [canonical_view_order]: sort three view keys.  Simplification: keys are
    ordered by creation time; slotmap orders them by slot index and version. *)
Definition sort3 (a b c : key) : key * key * key :=
  let lo := Nat.min a (Nat.min b c) in
  let hi := Nat.max a (Nat.max b c) in
  (lo, a + b + c - lo - hi, hi).

(** All pairs of elements at positions [i < j], in the order of itertools'
    [tuple_combinations]. *)
Fixpoint pairs {A} (l : list A) : list (A * A) :=
  match l with
  | [] => []
  | x :: l' => (pair x <$> l') ++ pairs l'
  end.

Section model.
Context {P F : Type} (pone : P) (pmul : P -> P -> P) (pinv : P -> P).

(** lib.rs 111-118 [View]. *)
Record view := View { v_frame : key; v_pose : P; v_lms : list key }.

(** lib.rs 157-162 [ThreeViewConstraint]. *)
Record constraint3 := Con3 { c_views : key * key * key; c_poses : P * P }.

(** lib.rs 133-140 [Reconstruction]. *)
Record recon := Recon {
  r_views : smap view;
  r_lms : smap landmark;
  r_cons : smap constraint3
}.

(** lib.rs 69-80 [Frame] (the LSH is left to the similarity oracle). *)
Record frame := Frame {
  f_feed : key;
  f_feed_frame : nat;
  f_feats : list F;
  f_view : option (key * key)
}.

(** lib.rs 197-208 [VSlamData]; a feed (lib.rs 123-128) is its list of frames, intrinsics are
    not modelled; [lsh_to_frame] is the list of inserted frames. *)
Record vdata := VData {
  d_feeds : smap (list key);
  d_recs : smap recon;
  d_frames : smap frame;
  d_lsh : list key
}.

(** lib.rs 210-220 [VSlamData::default]. *)
Definition vdata_init : vdata := VData sm_empty sm_empty sm_empty [].

Definition set_views (r : recon) (x : smap view) : recon := Recon x (r_lms r) (r_cons r).
Definition set_lms (r : recon) (x : smap landmark) : recon := Recon (r_views r) x (r_cons r).
Definition set_cons (r : recon) (x : smap constraint3) : recon := Recon (r_views r) (r_lms r) x.
Definition set_v_lms (w : view) (x : list key) : view := View (v_frame w) (v_pose w) x.
Definition set_v_pose (w : view) (x : P) : view := View (v_frame w) x (v_lms w).
Definition set_f_view (f : frame) (x : option (key * key)) : frame :=
  Frame (f_feed f) (f_feed_frame f) (f_feats f) x.
Definition set_feeds (d : vdata) x : vdata := VData x (d_recs d) (d_frames d) (d_lsh d).
Definition set_recs (d : vdata) x : vdata := VData (d_feeds d) x (d_frames d) (d_lsh d).
Definition set_frames (d : vdata) x : vdata := VData (d_feeds d) (d_recs d) x (d_lsh d).

Definition recon_empty : recon := Recon sm_empty sm_empty sm_empty.

(** Run [k] on reconstruction [r] of [d] and store the result back
    ([self.reconstructions[reconstruction]]: panics when missing). *)
Definition with_rec {A} (d : vdata) (r : key) (k : recon -> outcome (recon * A)) : outcome (vdata * A) :=
  let! rc := unwrap (sm_get (d_recs d) r) in
  let! (rc', x) := k rc in
  Ok (set_recs d (sm_put r rc' (d_recs d)), x).

(** [self.frames[frame].view = x]. *)
Definition set_frame_view (d : vdata) (k : key) (x : option (key * key)) : outcome vdata :=
  let! fr := unwrap (sm_get (d_frames d) k) in
  Ok (set_frames d (sm_put k (set_f_view fr x) (d_frames d))).

(** lib.rs 777-782 [VSlam::add_feed]. *)
Definition add_feed (d : vdata) : vdata * key :=
  (set_feeds d (sm_ins [] (d_feeds d)), sm_next (d_feeds d)).

(** lib.rs 670-687 [VSlamData::add_frame]. *)
Definition data_add_frame (d : vdata) (feed : key) (features : list F) : outcome (vdata * key) :=
  let! fs := unwrap (sm_get (d_feeds d) feed) in
  let k := sm_next (d_frames d) in
  let fr := Frame feed (length fs) features None in
  Ok (VData (sm_put feed (fs ++ [k]) (d_feeds d)) (d_recs d) (sm_ins fr (d_frames d)) (d_lsh d ++ [k]), k).

(** lib.rs 487-500 [add_landmark]: the new landmark's key is the old [sm_next]. *)
Definition rec_add_landmark (r : recon) (v : key) (f : nat) : recon :=
  set_lms r (sm_ins {[v := f]} (r_lms r)).

(** lib.rs 710-719: body of the loop in [merge_landmarks]. *)
Definition rec_merge_step (a : key) (r : recon) (vf : key * nat) : outcome recon :=
  let '(v, f) := vf in
  let! w := unwrap (sm_get (r_views r) v) in
  assert_ (f <? length (v_lms w)) (
    let r1 := set_views r (sm_put v (set_v_lms w (<[f := a]> (v_lms w))) (r_views r)) in
    let! m := unwrap (sm_get (r_lms r1) a) in
    assert_ (bool_decide (m !! v = None))
      (Ok (set_lms r1 (sm_put a (<[v := f]> m) (r_lms r1))))).

(** lib.rs 699-721 [merge_landmarks]; returns [a]. *)
Definition rec_merge (o : orders) (r : recon) (a b : key) : outcome recon :=
  let! m := unwrap (sm_get (r_lms r) b) in
  foldM (rec_merge_step a) (obs_list o b m) (set_lms r (sm_del b (r_lms r))).

(** lib.rs 467-469: [landmark_mut(l).observations.insert(view, feature)]. *)
Definition rec_observe (r : recon) (l v : key) (f : nat) : outcome recon :=
  let! m := unwrap (sm_get (r_lms r) l) in
  Ok (set_lms r (sm_put l (<[v := f]> m) (r_lms r))).

(** lib.rs 476: [view_mut(view).landmarks.push(landmark)]. *)
Definition rec_push (r : recon) (v l : key) : outcome recon :=
  let! w := unwrap (sm_get (r_views r) v) in
  Ok (set_views r (sm_put v (set_v_lms w (v_lms w ++ [l])) (r_views r))).

(** lib.rs 449-477: body of the loop in [add_view]. *)
Definition rec_add_feature (o : orders) (v : key) (existing : nat -> option (list key))
    (r : recon) (f : nat) : outcome recon :=
  match existing f with
  | Some [l] => let! r1 := rec_observe r l v f in rec_push r1 v l
  | Some [a; b] =>
      let! r1 := rec_merge o r a b in
      let! r2 := rec_observe r1 a v f in rec_push r2 v a
  | Some _ => Panic
  | None => rec_push (rec_add_landmark r v f) v (sm_next (r_lms r))
  end.

(** lib.rs 432-483 [add_view]. *)
Definition add_view (o : orders) (d : vdata) (r k : key) (pose : P)
    (existing : nat -> option (list key)) : outcome (vdata * key) :=
  let! fr := unwrap (sm_get (d_frames d) k) in
  let! (d1, v) := with_rec d r (fun rc =>
    let v := sm_next (r_views rc) in
    let rc1 := set_views rc (sm_ins (View k pose []) (r_views rc)) in
    let! rc2 := foldM (rec_add_feature o v existing) (seq 0 (length (f_feats fr))) rc1 in
    Ok (rc2, v)) in
  let! d2 := set_frame_view d1 k (Some (r, v)) in
  Ok (d2, v).

(** lib.rs 522-539: body of the loop in [remove_view]. *)
Definition rec_unobserve (v : key) (r : recon) (l : key) : outcome recon :=
  let! m := unwrap (sm_get (r_lms r) l) in
  match size m with
  | 0 => Panic
  | 1 => Ok (set_lms r (sm_del l (r_lms r)))
  | _ => Ok (set_lms r (sm_put l (delete v m) (r_lms r)))
  end.

(** lib.rs 543: does the constraint contain the view? *)
Definition con_has (c : constraint3) (v : key) : bool :=
  let '(a, b, c) := c_views c in (a =? v) || (b =? v) || (c =? v).

(** lib.rs 541-543: [constraints.retain(..)]. *)
Definition cons_without (v : key) (cs : smap constraint3) : smap constraint3 :=
  SMap (filter (fun kc => con_has kc.2 v = false) (sm_map cs)) (sm_next cs).

(** lib.rs 520-545: the part of [remove_view] which works on the reconstruction; also
    returns the frame of the view. *)
Definition rec_remove_view (v : key) (r : recon) : outcome (recon * key) :=
  let! w := unwrap (sm_get (r_views r) v) in
  let r1 := set_views r (sm_put v (set_v_lms w []) (r_views r)) in
  let! r2 := foldM (rec_unobserve v) (v_lms w) r1 in
  let r3 := set_cons r2 (cons_without v (r_cons r2)) in
  Ok (set_views r3 (sm_del v (r_views r3)), v_frame w).

(** lib.rs 517-546 [remove_view]. *)
Definition remove_view (d : vdata) (r v : key) : outcome vdata :=
  let! (d1, k) := with_rec d r (rec_remove_view v) in
  set_frame_view d1 k None.

(** lib.rs 502-515 [apply_bundle_adjust]. *)
Definition rec_set_pose (r : recon) (vp : key * P) : outcome recon :=
  let! w := unwrap (sm_get (r_views r) vp.1) in
  Ok (set_views r (sm_put vp.1 (set_v_pose w vp.2) (r_views r))).

Definition apply_bundle_adjust (d : vdata) (r : key) (updated : list (key * P)) (removed : list key)
    : outcome vdata :=
  let! (d1, _) := with_rec d r (fun rc => let! rc' := foldM rec_set_pose updated rc in Ok (rc', tt)) in
  foldM (fun d v => remove_view d r v) removed d1.

(** lib.rs 552-588 [split_observation]. *)
Definition split_observation (r : recon) (v : key) (f : nat) : outcome (recon * bool) :=
  let! w := unwrap (sm_get (r_views r) v) in
  let! l := unwrap (v_lms w !! f) in
  let! m := unwrap (sm_get (r_lms r) l) in
  if 2 <=? size m then
    assert_ (bool_decide (m !! v = Some f)) (
      let r1 := set_lms r (sm_put l (delete v m) (r_lms r)) in
      let l' := sm_next (r_lms r1) in
      let r2 := rec_add_landmark r1 v f in
      Ok (set_views r2 (sm_put v (set_v_lms w (<[f := l']> (v_lms w))) (r_views r2)), true))
  else Ok (r, false).

(** lib.rs 689-694 [remove_reconstruction]. *)
Definition remove_reconstruction (o : orders) (d : vdata) (r : key) : outcome vdata :=
  let! rc := unwrap (sm_get (d_recs d) r) in
  let! d1 := foldM (fun d v => let! w := unwrap (sm_get (r_views rc) v) in
                              set_frame_view d (v_frame w) None)
                   (o_views o (sm_keys (r_views rc))) d in
  Ok (set_recs d1 (sm_del r (d_recs d1))).

(** lib.rs 276-282 [observation_landmark] inside a reconstruction. *)
Definition obs_landmark (rc : recon) (v : key) (f : nat) : outcome key :=
  let! w := unwrap (sm_get (r_views rc) v) in unwrap (v_lms w !! f).

(** [HashMap] built from an iterator of pairs: later pairs win. *)
Definition collect_map (l : list (nat * key)) : gmap nat key := list_to_map (reverse l).

(** lib.rs 393-398 / 407-412: map from features of the other frame to the landmarks of the
    center view; [ms] lists (center, other) feature pairs. *)
Definition center_landmarks (rc : recon) (cv : key) (ms : list (nat * nat)) : outcome (gmap nat key) :=
  let! l := mapM (fun cf => let! lm := obs_landmark rc cv cf.1 in Ok (cf.2, lm)) ms in
  Ok (collect_map l).

(** lib.rs 377-427 [add_reconstruction]. *)
Definition add_reconstruction (o : orders) (d : vdata) (center first second : key)
    (first_pose second_pose : P) (combined : list (nat * nat * nat))
    (firsts seconds : list (nat * nat)) : outcome (vdata * key) :=
  let r := sm_next (d_recs d) in
  let d0 := set_recs d (sm_ins recon_empty (d_recs d)) in
  let! (d1, cv) := add_view o d0 r center pone (fun _ => None) in
  let! rc1 := unwrap (sm_get (d_recs d1) r) in
  let! fl := center_landmarks rc1 cv (firsts ++ ((fun t => (t.1.1, t.1.2)) <$> combined)) in
  let! (d2, fv) := add_view o d1 r first first_pose (fun f => (fun l => [l]) <$> fl !! f) in
  let! rc2 := unwrap (sm_get (d_recs d2) r) in
  let! sl := center_landmarks rc2 cv (seconds ++ ((fun t => (t.1.1, t.2)) <$> combined)) in
  let! (d3, sv) := add_view o d2 r second second_pose (fun f => (fun l => [l]) <$> sl !! f) in
  let! (d4, _) := with_rec d3 r (fun rc =>
    Ok (set_cons rc (sm_ins (Con3 (sort3 cv fv sv) (first_pose, second_pose)) (r_cons rc)), tt)) in
  Ok (d4, r).

(** ** Candidate frames *)

(** lib.rs 611-621: the recent frames of the feed. *)
Definition recent_frames (fs : list key) (frame : key) (ix num_recent : nat) : list key :=
  snd <$> filter (fun p : nat * key => p.2 <> frame /\ abs_diff ix p.1 < num_recent) (imap pair fs).

(** lib.rs 622-637: keep one answer of the similarity index? *)
Definition similar_keep (d : vdata) (k : key) (fr : frame) (recents : list key) (threshold : nat)
    (found : key) : outcome (list key) :=
  let! ff := unwrap (sm_get (d_frames d) found) in
  let too_close := (f_feed ff =? f_feed fr) && (abs_diff (f_feed_frame fr) (f_feed_frame ff) <? threshold) in
  Ok (if (found =? k) || bool_decide (found ∈ recents) || too_close then [] else [found]).

(** lib.rs 643-652: sort a found frame into its reconstruction or into the free frames. *)
Definition file_frame (d : vdata) (acc : gmap key (list key) * list key) (found : key)
    : outcome (gmap key (list key) * list key) :=
  let! ff := unwrap (sm_get (d_frames d) found) in
  match f_view ff with
  | Some (r, v) => Ok (<[r := default [] (acc.1 !! r) ++ [v]]> acc.1, acc.2)
  | None => Ok (acc.1, acc.2 ++ [found])
  end.

(** lib.rs 597-668 [find_visually_similar_and_recent_frames]; [answers] is what the
    similarity index returned for this frame. *)
Definition find_frames (d : vdata) (answers : list key) (frame : key)
    (num_similar num_recent threshold : nat) : outcome (gmap key (list key) * list key) :=
  let! fr := unwrap (sm_get (d_frames d) frame) in
  let! fs := unwrap (sm_get (d_feeds d) (f_feed fr)) in
  let recents := recent_frames fs frame (f_feed_frame fr) num_recent in
  let! kept := mapM (similar_keep d frame fr recents threshold) answers in
  foldM (file_frame d) (recents ++ take num_similar (mjoin kept)) (∅, []).

(** ** Settings (settings.rs) used by the modelled code *)
Record settings := Settings {
  tracking_similar_frames : nat;
  tracking_recent_frames : nat;
  tracking_similar_frame_recent_threshold : nat;
  tracking_similar_frame_search_num : nat;
  two_view_match_better_by : nat;
  single_view_initial_features : nat;
  single_view_match_better_by : nat;
  optimization_robust_covisibility_minimum_landmarks : nat;
  optimization_maximum_three_view_constraints : nat;
  optimization_minimum_new_constraints : nat;
  optimization_iterations : nat;
  reconstruction_optimization_iterations : nat
}.

(** Outcome of the numerical part of [init_reconstruction] for one pair of options:
    go on with the next pair, give up, or accept with the final poses and the three
    robustness predicates. *)
Inductive three_view_verdict :=
| TVskip
| TVfail
| TVaccept (first_pose second_pose : P) (tri : nat * nat * nat -> bool) (bi1 bi2 : nat * nat -> bool).

(** ** External answers used during one call *)
Record env := Env {
  e_ord : orders;
  (** [lsh_to_frame.knn_values(..)]: frames similar to the given one. *)
  e_similar : vdata -> key -> nat -> list key;
  (** [descriptor_features.knn(..)] *)
  e_knn : list F -> F -> nat -> list (nat * nat);
  (** consensus in [init_two_view] (1386-1428): pose and inlier positions, or rejection. *)
  e_two_view : vdata -> key -> key -> list (nat * nat) -> option (P * list nat);
  (** the numerical part of [init_reconstruction]. *)
  e_three_view : vdata -> key -> (key * (P * list (nat * nat))) -> (key * (P * list (nat * nat))) -> three_view_verdict;
  (** the numerical part of [register_frame_subset] (1580-1773): pose and consistency
      predicate on the filtered matches, or rejection. *)
  e_register : vdata -> key -> key -> list (list key * nat) -> option (P * (list key * nat -> bool));
  (** [triangulate_landmark_robust(..).is_some()] *)
  e_robust : vdata -> key -> key -> bool;
  (** [is_bi_landmark_robust(..)] on the two observations of a landmark (2690-2708). *)
  e_bi_robust : vdata -> key -> key -> bool;
  (** [triangulate_landmark(..)] and the distance test per observation (2714-2723): [None]
      when triangulation fails, otherwise which observations disagree. *)
  e_disagree : vdata -> key -> key -> option (key * nat -> bool);
  (** [final_num_landmarks < minimum_robust_landmarks] (2738-2747). *)
  e_too_few : vdata -> key -> bool;
  (** [optimize_three_view(..)] (1939-2062). *)
  e_optimize3 : vdata -> key -> key * key * key -> list key -> option (P * P);
  (** the order produced by [sort_unstable_by_key] (2484-2486). *)
  e_sort : list (key * key * key * list key) -> list (key * key * key * list key);
  (** the numerical part of [constrain_view] (1906-1935): pose of the view and, per edge,
      (expected transform from the other view, pose of the other view). *)
  e_update : P -> list (P * P) -> option P;
  (** [observation_loss]: is the observation of landmark [b] the worse one? (2847-2852) *)
  e_second_worse : vdata -> key -> key -> nat -> nat -> bool;
  (** [normalize_reconstruction] (2243-2265): rescaling of a pose's translation, [None] when
      the mean distance is not a normal number. *)
  e_rescale : vdata -> key -> key -> option (P -> P);
  e_fuel : nat
}.

(** ** Registration *)

(** Reading the poses and bearings of all observations of a landmark
    ([landmark_pose_bearings] 340-354, [are_observations_robust] 2907-2934): every view, frame
    and feature must exist. *)
Definition feature_exists (d : vdata) (rc : recon) (v : key) (f : nat) : bool :=
  match sm_get (r_views rc) v with
  | Some w => match sm_get (d_frames d) (v_frame w) with
              | Some fr => f <? length (f_feats fr)
              | None => false
              end
  | None => false
  end.
Definition obs_readable (d : vdata) (rc : recon) (m : landmark) : bool :=
  bool_decide (map_Forall (fun v f => feature_exists d rc v f = true) m).

Definition landmark_readable (d : vdata) (rc : recon) (l : key) : bool :=
  match sm_get (r_lms rc) l with Some m => obs_readable d rc m | None => false end.

(** lib.rs 1489-1502: keep the best distance per landmark. *)
Definition dedup_best (raw : list (key * nat)) : gmap key nat :=
  foldl (fun acc ld => match acc !! ld.1 with
                       | Some d0 => if ld.2 <? d0 then <[ld.1 := ld.2]> acc else acc
                       | None => <[ld.1 := ld.2]> acc
                       end) ∅ raw.

(** [sort_unstable_by_key(distance)] on three elements (insertion sort, stable). *)
Fixpoint insert_dist (x : key * nat) (l : list (key * nat)) : list (key * nat) :=
  match l with
  | [] => [x]
  | y :: l' => if x.2 <? y.2 then x :: l else y :: insert_dist x l'
  end.
Definition sort_dist (l : list (key * nat)) : list (key * nat) := foldl (fun acc x => insert_dist x acc) [] l.

(** lib.rs 1518-1527: the three best landmarks. *)
Definition best_step (best : list (key * nat)) (x : key * nat) : list (key * nat) :=
  match best with
  | [b0; b1; b2] => if x.2 <? b2.2 then sort_dist [b0; b1; x] else best
  | _ => best
  end.
Definition best3 (cands : list (key * nat)) : outcome ((key * nat) * (key * nat) * (key * nat)) :=
  match cands with
  | x :: y :: z :: rest =>
      match foldl best_step (sort_dist [x; y; z]) rest with
      | [b0; b1; b2] => Ok (b0, b1, b2)
      | _ => Panic
      end
  | _ => Panic                                          (* next().unwrap() *)
  end.

(** lib.rs 1435-1449 [are_landmarks_sharing_view]. *)
Definition sharing_view (rc : recon) (a b : key) : outcome bool :=
  let! ma := unwrap (sm_get (r_lms rc) a) in
  let! mb := unwrap (sm_get (r_lms rc) b) in
  Ok (negb (bool_decide (dom ma ∩ dom mb = ∅))).

(** lib.rs 1472-1487: candidates from one matched view. *)
Definition view_candidates (e : env) (d : vdata) (rc : recon) (desc : F) (v : key) : outcome (list (key * nat)) :=
  let! w := unwrap (sm_get (r_views rc) v) in
  let! fr := unwrap (sm_get (d_frames d) (v_frame w)) in
  mapM (fun n => let! l := unwrap (v_lms w !! n.1) in Ok (l, n.2)) (e_knn e (f_feats fr) desc 3).

(** lib.rs 1468-1542: match one feature of the new frame. *)
Definition match_feature (e : env) (s : settings) (d : vdata) (rc : recon) (feats : list F)
    (views : list key) (ms : list (list key * nat)) (f : nat) : outcome (list (list key * nat)) :=
  let! desc := unwrap (feats !! f) in
  let! raw := mapM (view_candidates e d rc desc) views in
  let best := dedup_best (mjoin raw) in
  let cands := omap (fun l => (fun x => (l, x)) <$> best !! l) (o_match (e_ord e) (dom best)) in
  let! (b0, b1, b2) := best3 cands in
  if b0.2 + single_view_match_better_by s <=? b1.2 then Ok (ms ++ [([b0.1], f)])
  else if b1.2 + single_view_match_better_by s <=? b2.2 then
    let! sh := sharing_view rc b0.1 b1.1 in
    Ok (if sh : bool then ms else ms ++ [([b0.1; b1.1], f)])
  else Ok ms.

(** lib.rs 1551-1562: drop matches which use a landmark matched more than once. *)
Definition lm_count (ms : list (list key * nat)) (l : key) : nat :=
  length (filter (fun x => x = l) (mjoin (fst <$> ms))).
Definition unique_matches (ms : list (list key * nat)) : list (list key * nat) :=
  filter (fun m => forallb (fun l => lm_count ms l =? 1) m.1 = true) ms.

(** lib.rs 1452-1776 [register_frame_subset]: returns the accumulated matches (an in/out
    parameter) and the registration, if accepted. *)
Definition register_subset (e : env) (s : settings) (d : vdata) (r k : key) (views : list key)
    (lo hi : nat) (ms : list (list key * nat))
    : outcome (list (list key * nat) * option (P * gmap nat (list key))) :=
  let! rc := unwrap (sm_get (d_recs d) r) in
  let! fr := unwrap (sm_get (d_frames d) k) in
  let! ms := foldM (match_feature e s d rc (f_feats fr) views) (seq lo (hi - lo)) ms in
  let um := unique_matches ms in
  (* sorting, triangulation and consistency checks read every observation of every landmark *)
  let! _ := mapM (fun l => let! m := unwrap (sm_get (r_lms rc) l) in
                           assert_ (obs_readable d rc m && negb (size m =? 0)) (Ok tt)) (mjoin (fst <$> um)) in
  match e_register e d r k um with
  | None => Ok (ms, None)
  | Some (pose, ok) =>
      Ok (ms, Some (pose, list_to_map ((fun m => (m.2, m.1)) <$> filter (fun m => ok m = true) um)))
  end.

(** lib.rs 1795-1810: the growing window.  [attempt lo hi acc] offers features [lo..hi]. *)
Fixpoint window_loop {S R} (fuel n : nat) (attempt : nat -> nat -> S -> outcome (S * option R))
    (lo hi : nat) (acc : S) : outcome (option R) :=
  match fuel with
  | 0 => Fuel
  | S fuel' =>
      let! (acc', res) := attempt lo hi acc in
      match res with
      | Some x => Ok (Some x)
      | None => if hi =? n then Ok None
                else window_loop fuel' n attempt hi (Nat.min (hi * 2) n) acc'
      end
  end.

(** lib.rs 1781-1812 [register_frame]. *)
Definition register_frame (e : env) (s : settings) (d : vdata) (r k : key) (views : list key)
    : outcome (option (P * gmap nat (list key))) :=
  let! fr := unwrap (sm_get (d_frames d) k) in
  let n := length (f_feats fr) in
  window_loop (e_fuel e) n (register_subset e s d r k views) 0 (Nat.min (single_view_initial_features s) n) [].

(** ** Constraints *)

(** lib.rs 2535-2556 [view_covisibilities]. *)
Definition covis_step (e : env) (d : vdata) (r : key) (rc : recon) (v : key)
    (acc : gmap key (list key)) (l : key) : outcome (gmap key (list key)) :=
  let! m := unwrap (sm_get (r_lms rc) l) in
  assert_ (obs_readable d rc m) (
    Ok (if e_robust e d r l
        then foldl (fun acc w => if w =? v then acc else <[w := default [] (acc !! w) ++ [l]]> acc)
                   acc (o_obs (e_ord e) l (dom m))
        else acc)).
Definition view_covisibilities (e : env) (d : vdata) (r : key) (rc : recon) (v : key)
    : outcome (gmap key (list key)) :=
  let! w := unwrap (sm_get (r_views rc) v) in
  foldM (covis_step e d r rc v) (v_lms w) ∅.

(** lib.rs 2466-2481: triples with their common landmarks.  [landmark_views[l].contains(b)]
    (2454-2460) says that [l] is listed under [b]. *)
Definition triple_of (cov : gmap key (list key)) (v : key) (ab : key * key) : key * key * key * list key :=
  (sort3 v ab.1 ab.2,
   filter (fun l => l ∈ default [] (cov !! ab.2)) (default [] (cov !! ab.1))).

(** lib.rs 2490-2495: keep a triple if it has a view not visited before; [any] stops at the
    first such view and marks only that one. *)
Definition visit (seen : gset key) (t : key * key * key) : option (gset key) :=
  let '(a, b, c) := t in
  if bool_decide (a ∉ seen) then Some ({[a]} ∪ seen)
  else if bool_decide (b ∉ seen) then Some ({[b]} ∪ seen)
  else if bool_decide (c ∉ seen) then Some ({[c]} ∪ seen)
  else None.
Fixpoint take_new (seen : gset key) (n : nat) (ts : list (key * key * key * list key))
    : list (key * key * key * list key) :=
  match n, ts with
  | 0, _ => []
  | _, [] => []
  | S n', t :: ts' =>
      match visit seen t.1 with
      | Some seen' => t :: take_new seen' n' ts'
      | None => take_new seen n ts'
      end
  end.

(** lib.rs 1979-1990: [optimize_three_view] reads the bearing of each landmark in the three
    views. *)
Definition triple_readable (d : vdata) (rc : recon) (t : key * key * key) (ls : list key) : bool :=
  let '(a, b, c) := t in
  forallb (fun v => match sm_get (r_views rc) v with
    | Some w => match sm_get (d_frames d) (v_frame w) with
      | Some fr => forallb (fun l => match sm_get (r_lms rc) l with
          | Some m => match m !! v with Some f => f <? length (f_feats fr) | None => false end
          | None => false
          end) ls
      | None => false
      end
    | None => false
    end) [a; b; c].

(** lib.rs 2498-2515: [filter_map(optimize_three_view).take(n)]. *)
Fixpoint optimize_triples (e : env) (d : vdata) (r : key) (rc : recon) (n : nat)
    (ts : list (key * key * key * list key)) : outcome (list constraint3) :=
  match n, ts with
  | 0, _ => Ok []
  | _, [] => Ok []
  | S n', t :: ts' =>
      assert_ (triple_readable d rc t.1 t.2)
        match e_optimize3 e d r t.1 t.2 with
        | Some ps => let! rest := optimize_triples e d r rc n' ts' in Ok (Con3 t.1 ps :: rest)
        | None => optimize_triples e d r rc n ts'
        end
  end.

(** lib.rs 2438-2516 [generate_view_constraints]. *)
Definition generate_view_constraints (e : env) (s : settings) (d : vdata) (r v : key)
    : outcome (list constraint3) :=
  let! rc := unwrap (sm_get (d_recs d) r) in
  let! cov := view_covisibilities e d r rc v in
  let minl := optimization_robust_covisibility_minimum_landmarks s in
  let cov := filter (fun kl => minl <= length kl.2) cov in
  let cands := o_covis (e_ord e) (dom cov) in
  let triples := filter (fun t => minl <= length t.2) (triple_of cov v <$> pairs cands) in
  let sorted := e_sort e triples in
  let maxc := optimization_maximum_three_view_constraints s in
  let uniq := take_new ∅ maxc sorted in
  let others := filter (fun t => t.1 ∉ fst <$> uniq) sorted in
  optimize_triples e d r rc maxc (uniq ++ others).

(** lib.rs 2092-2109 [record_view_constraints]. *)
Definition record_view_constraints (e : env) (s : settings) (d : vdata) (r v : key) : outcome (vdata * bool) :=
  let! cs := generate_view_constraints e s d r v in
  with_rec d r (fun rc =>
    if (length cs <? optimization_minimum_new_constraints s) && (length cs + 1 <? sm_size (r_views rc))
    then Ok (rc, false)
    else Ok (set_cons rc (foldl (fun m c => sm_ins c m) (r_cons rc) cs), true)).

(** lib.rs 167-180 [edge_constraints]. *)
Definition edge_constraints (c : constraint3) : list (key * (key * P)) :=
  let '(v0, v1, v2) := c_views c in
  let '(first, second) := c_poses c in
  let f2s := pmul second (pinv first) in
  [(v0, (v2, pinv second)); (v0, (v1, pinv first)); (v1, (v0, first));
   (v1, (v2, pinv f2s)); (v2, (v1, f2s)); (v2, (v0, second))].

(** lib.rs 2519-2532 [flatten_constraints]. *)
Definition flatten_constraints (o : orders) (rc : recon) : gmap key (list (key * P)) :=
  foldl (fun acc ve => <[ve.1 := default [] (acc !! ve.1) ++ [ve.2]]> acc) ∅
    (mjoin (edge_constraints <$> omap (fun k => sm_get (r_cons rc) k) (o_cons o (sm_keys (r_cons rc))))).

(** lib.rs 1892-1936 [constrain_view]. *)
Definition constrain_view (e : env) (rc : recon) (edges : gmap key (list (key * P))) (v : key)
    : outcome (option P) :=
  match edges !! v with
  | None => Ok None
  | Some es =>
      assert_ (negb (length es =? 0)) (
        let! w := unwrap (sm_get (r_views rc) v) in
        let! others := mapM (fun ve : key * P => let! o := unwrap (sm_get (r_views rc) ve.1) in
                                                 Ok (ve.2, v_pose o)) es in
        Ok (e_update e (v_pose w) others))
  end.

(** lib.rs 2382-2414 [compute_momentum_bundle_adjust]: updated and removed views. *)
Definition ba_step (e : env) (rc : recon) (edges : gmap key (list (key * P)))
    (acc : list (key * P) * list key) (v : key) : outcome (list (key * P) * list key) :=
  let! p := constrain_view e rc edges v in
  Ok match p with
     | Some p => (acc.1 ++ [(v, p)], acc.2)
     | None => (acc.1, acc.2 ++ [v])
     end.
Definition compute_bundle_adjust (e : env) (rc : recon) (edges : gmap key (list (key * P)))
    : outcome (option (list (key * P) * list key)) :=
  let! ba := foldM (ba_step e rc edges) (o_views (e_ord e) (sm_keys (r_views rc))) ([], []) in
  Ok (if 3 <=? length ba.1 then Some ba else None).

(** lib.rs 2364-2373: the iterations of [apply_constraints]. *)
Fixpoint constraint_iterations (e : env) (n : nat) (d : vdata) (r : key) (edges : gmap key (list (key * P)))
    : outcome (vdata * bool) :=
  match n with
  | 0 => Ok (d, true)
  | S n' =>
      let! rc := unwrap (sm_get (d_recs d) r) in
      let! ba := compute_bundle_adjust e rc edges in
      match ba with
      | Some (updated, removed) =>
          let! d' := apply_bundle_adjust d r updated removed in
          constraint_iterations e n' d' r edges
      | None =>
          let! d' := remove_reconstruction (e_ord e) d r in Ok (d', false)
      end
  end.

(** lib.rs 2358-2375 [apply_constraints]; the flag says whether [Some] was returned. *)
Definition apply_constraints (e : env) (s : settings) (d : vdata) (r : key) : outcome (vdata * bool) :=
  let! rc := unwrap (sm_get (d_recs d) r) in
  constraint_iterations e (optimization_iterations s) d r (flatten_constraints (e_ord e) rc).

(** ** Filtering *)

(** lib.rs 2559-2568 [split_landmark]. *)
Definition split_landmark (o : orders) (rc : recon) (l : key) : outcome recon :=
  let! m := unwrap (sm_get (r_lms rc) l) in
  match obs_list o l m with
  | [] => Panic                                          (* observations[1..] *)
  | _ :: rest => foldM (fun rc vf => let! (rc', _) := split_observation rc vf.1 vf.2 in Ok rc') rest rc
  end.

(** lib.rs 2679-2735: one landmark of [filter_non_robust_observations]. *)
Definition filter_landmark (e : env) (r : key) (d : vdata) (l : key) : outcome vdata :=
  let! (d', _) := with_rec d r (fun rc =>
    let! m := unwrap (sm_get (r_lms rc) l) in
    let obs := obs_list (e_ord e) l m in
    let! rc' :=
      match length obs with
      | 0 => Panic
      | 1 => Ok rc
      | 2 => assert_ (obs_readable d rc m)
               (if e_bi_robust e d r l then Ok rc else split_landmark (e_ord e) rc l)
      | _ => assert_ (obs_readable d rc m)
               match e_disagree e d r l with
               | Some bad =>
                   foldM (fun rc vf => if bad vf : bool
                            then let! (rc', _) := split_observation rc vf.1 vf.2 in Ok rc'
                            else Ok rc) obs rc
               | None => split_landmark (e_ord e) rc l
               end
      end in
    Ok (rc', tt)) in
  Ok d'.

(** lib.rs 2670-2676, 2738-2744: [is_landmark_robust] of every landmark. *)
Definition all_readable (d : vdata) (rc : recon) : bool :=
  bool_decide (map_Forall (fun _ m => obs_readable d rc m = true) (sm_map (r_lms rc))).

(** lib.rs 2657-2757 [filter_non_robust_observations]; the flag says whether [Some] was
    returned. *)
Definition filter_observations (e : env) (d : vdata) (r : key) : outcome (vdata * bool) :=
  let! rc := unwrap (sm_get (d_recs d) r) in
  assert_ (all_readable d rc) (
  let! d1 := foldM (filter_landmark e r) (o_lms (e_ord e) (sm_keys (r_lms rc))) d in
  let! rc1 := unwrap (sm_get (d_recs d1) r) in
  assert_ (all_readable d1 rc1) (
  if e_too_few e d1 r then let! d2 := remove_reconstruction (e_ord e) d1 r in Ok (d2, false)
  else Ok (d1, true))).

(** lib.rs 2763-2813 [filter_non_robust_landmarks]. *)
Definition filter_landmarks (e : env) (d : vdata) (r : key) : outcome vdata :=
  let! rc := unwrap (sm_get (d_recs d) r) in
  foldM (fun d l =>
    let! (d', _) := with_rec d r (fun rc =>
      let! m := unwrap (sm_get (r_lms rc) l) in
      assert_ (obs_readable d rc m)
        (if e_robust e d r l then Ok (rc, tt)
         else let! rc' := split_landmark (e_ord e) rc l in Ok (rc', tt))) in
    Ok d') (o_lms (e_ord e) (sm_keys (r_lms rc))) d.

(** lib.rs 2818-2872 [merge_landmarks_dedup]. *)
Definition dedup_step (e : env) (d : vdata) (r : key) (acc : recon * bool) (x : key * (nat * nat))
    : outcome (recon * bool) :=
  let '(rc, ok) := acc in
  let '(v, (fa, fb)) := x in
  let d' := set_recs d (sm_put r rc (d_recs d)) in
  let! la := obs_landmark rc v fa in
  let! lb := obs_landmark rc v fb in
  assert_ (landmark_readable d rc la && landmark_readable d rc lb) (
  let! (rc', did) := split_observation rc v (if e_second_worse e d' r v fa fb then fb else fa) in
  Ok (rc', ok && did)).
Definition merge_landmarks_dedup (e : env) (d : vdata) (r a b : key) : outcome (vdata * option key) :=
  with_rec d r (fun rc =>
    let! ma := unwrap (sm_get (r_lms rc) a) in
    let! mb := unwrap (sm_get (r_lms rc) b) in
    let dups := omap (fun vf : key * nat => (fun fb => (vf.1, (vf.2, fb))) <$> mb !! vf.1)
                     (obs_list (e_ord e) a ma) in
    let! (rc1, ok) := foldM (dedup_step e d r) dups (rc, true) in
    if ok : bool then let! rc2 := rec_merge (e_ord e) rc1 a b in Ok (rc2, Some a)
    else Ok (rc1, None)).

(** lib.rs 2343-2355 [optimize_reconstruction]. *)
Fixpoint optimize_iterations (e : env) (s : settings) (n : nat) (d : vdata) (r : key) : outcome (vdata * bool) :=
  match n with
  | 0 => Ok (d, true)
  | S n' =>
      let! (d1, ok) := apply_constraints e s d r in
      if ok : bool then
        let! (d2, ok2) := filter_observations e d1 r in
        if ok2 : bool then optimize_iterations e s n' d2 r else Ok (d2, false)
      else Ok (d1, false)
  end.
Definition optimize_reconstruction (e : env) (s : settings) (d : vdata) (r : key) : outcome (vdata * bool) :=
  optimize_iterations e s (reconstruction_optimization_iterations s) d r.

(** lib.rs 2418-2435 [regenerate_reconstruction]. *)
Definition regenerate_reconstruction (e : env) (s : settings) (d : vdata) (r : key) : outcome (vdata * bool) :=
  let! (d1, ks) := with_rec d r (fun rc =>
    Ok (set_cons rc (SMap ∅ (sm_next (r_cons rc))), o_views (e_ord e) (sm_keys (r_views rc)))) in
  let! d2 := foldM (fun d v => let! (d', _) := record_view_constraints e s d r v in Ok d') ks d1 in
  optimize_reconstruction e s d2 r.

(** lib.rs 2241-2283 [normalize_reconstruction]. *)
Definition normalize_reconstruction (e : env) (d : vdata) (r : key) : outcome vdata :=
  let! (d', _) := with_rec d r (fun rc =>
    match o_views (e_ord e) (sm_keys (r_views rc)) with
    | [] => Panic
    | v0 :: _ =>
        let! w0 := unwrap (sm_get (r_views rc) v0) in
        assert_ (forallb (landmark_readable d rc) (v_lms w0))
        match e_rescale e d r v0 with
        | None => Ok (rc, tt)
        | Some rescale =>
            let t := pinv (v_pose w0) in
            let vs := SMap ((fun w => set_v_pose w (rescale (pmul (v_pose w) t))) <$> sm_map (r_views rc))
                           (sm_next (r_views rc)) in
            let cs := SMap ((fun c => Con3 (c_views c) (rescale (c_poses c).1, rescale (c_poses c).2)) <$> sm_map (r_cons rc))
                           (sm_next (r_cons rc)) in
            Ok (Recon vs (r_lms rc) cs, tt)
        end
    end) in
  Ok d'.

(** ** Incorporating frames and reconstructions *)

(** lib.rs 2067-2087 [incorporate_frame]; the flag says whether [Some] was returned. *)
Definition incorporate_frame (e : env) (s : settings) (d : vdata) (r k : key) (views : list key)
    : outcome (vdata * bool) :=
  let! reg := register_frame e s d r k views in
  match reg with
  | None => Ok (d, false)
  | Some (pose, matches) =>
      let! (d1, v) := add_view (e_ord e) d r k pose (fun f => matches !! f) in
      let! (d2, ok) := record_view_constraints e s d1 r v in
      if ok : bool then Ok (d2, true)
      else let! d3 := remove_view d2 r v in Ok (d3, false)
  end.

(** lib.rs 1852-1877: copy one feature of a source view; the state is the destination
    reconstruction and the landmark map. *)
Definition move_feature (src : recon) (sv dv : key) (acc : recon * gmap key key) (f : nat)
    : outcome (recon * gmap key key) :=
  let '(dest, lmap) := acc in
  let! sl := obs_landmark src sv f in
  match lmap !! sl with
  | Some dl =>
      let! dest1 := rec_observe dest dl dv f in
      let! dest2 := rec_push dest1 dv dl in
      Ok (dest2, lmap)
  | None =>
      let dl := sm_next (r_lms dest) in
      let! dest1 := rec_push (rec_add_landmark dest dv f) dv dl in
      Ok (dest1, <[sl := dl]> lmap)
  end.

(** lib.rs 1830-1878: move one source view.  [src] does not change during the loop (only
    the destination and the frames do; the caller's two keys differ, otherwise the model
    would read a stale source). *)
Definition move_view (src : recon) (src_k dest_k : key) (dest_to_src : P)
    (acc : vdata * gmap key key * list key) (sv : key) : outcome (vdata * gmap key key * list key) :=
  let '(d, lmap, dvs) := acc in
  let! w := unwrap (sm_get (r_views src) sv) in
  let! fr := unwrap (sm_get (d_frames d) (v_frame w)) in
  let pose := pmul (v_pose w) dest_to_src in
  let! (d1, (lmap', dv)) := with_rec d dest_k (fun dest =>
    let dv := sm_next (r_views dest) in
    let dest1 := set_views dest (sm_ins (View (v_frame w) pose []) (r_views dest)) in
    let! (dest2, lmap') := foldM (move_feature src sv dv) (seq 0 (length (f_feats fr))) (dest1, lmap) in
    Ok (dest2, (lmap', dv))) in
  let! d2 := set_frame_view d1 (v_frame w) (Some (dest_k, dv)) in
  Ok (d2, lmap', dvs ++ [dv]).

(** lib.rs 1817-1887 [incorporate_reconstruction]. *)
Definition incorporate_reconstruction (e : env) (s : settings) (d : vdata) (src_k dest_k : key)
    (world_transform : P) (lmap : gmap key key) : outcome vdata :=
  let dest_to_src := pinv world_transform in
  let! src := unwrap (sm_get (d_recs d) src_k) in
  let! (d1, _, dvs) := foldM (move_view src src_k dest_k dest_to_src)
                         (o_views (e_ord e) (sm_keys (r_views src))) (d, lmap, []) in
  let! d2 := foldM (fun d v =>
      let! (d', ok) := record_view_constraints e s d dest_k v in
      if ok : bool then Ok d' else remove_view d' dest_k v) dvs d1 in
  Ok (set_recs d2 (sm_del src_k (d_recs d2))).

(** lib.rs 2116-2193 [try_merge_reconstructions]; the flag says whether [Some] was returned.
    [WorldToWorld::from_camera_poses(a, b)] (cv-core/src/pose.rs 322) is [b^-1 * a]. *)
Definition try_merge_reconstructions (e : env) (s : settings) (d : vdata) (src_k sv dest_k : key)
    (dest_views : list key) : outcome (vdata * bool) :=
  let! src := unwrap (sm_get (d_recs d) src_k) in
  let! w := unwrap (sm_get (r_views src) sv) in
  let k := v_frame w in
  let! reg := register_frame e s d dest_k k dest_views in
  match reg with
  | None => Ok (d, false)
  | Some (dest_pose, matches) =>
      let! (d1, dv) := add_view (e_ord e) d dest_k k dest_pose (fun f => matches !! f) in
      let! (d2, ok) := record_view_constraints e s d1 dest_k dv in
      if negb ok then
        let! d3 := remove_view d2 dest_k dv in
        let! d4 := set_frame_view d3 k (Some (src_k, sv)) in
        Ok (d4, false)
      else
        let! lm := mapM (fun fl => let! sl := unwrap (v_lms w !! fl.1) in
                                   let! dl := unwrap (fl.2 !! 0) in Ok (sl, dl)) (map_to_list matches) in
        let! (d3, _) := with_rec d2 src_k (fun rc => Ok (set_views rc (sm_del sv (r_views rc)), tt)) in
        let! d4 := incorporate_reconstruction e s d3 src_k dest_k
                     (pmul (pinv dest_pose) (v_pose w)) (collect_map lm) in
        Ok (d4, true)
  end.

(** ** Initialisation *)

(** lib.rs 1365-1432 [init_two_view].  Simplification: the shuffle of the matches is part of
    the oracle, whose inlier positions refer to the matches in matching order. *)
Definition init_two_view (e : env) (s : settings) (d : vdata) (a b : key) : outcome (option (P * list (nat * nat))) :=
  let! fa := unwrap (sm_get (d_frames d) a) in
  let! fb := unwrap (sm_get (d_frames d) b) in
  let! ms := symmetric_matching (e_knn e) (f_feats fa) (f_feats fb) (two_view_match_better_by s) in
  match e_two_view e d a b ms with
  | None => Ok None
  | Some (pose, ixs) => let! kept := mapM (fun ix => unwrap (ms !! ix)) ixs in Ok (Some (pose, kept))
  end.

(** lib.rs 992-998: triples of matches. *)
Definition common_matches (firsts seconds : list (nat * nat)) : list (nat * nat * nat) :=
  omap (fun cf : nat * nat => (fun sx => (cf.1, cf.2, sx)) <$> collect_map seconds !! cf.1) firsts.

(** lib.rs 986-1301: try the pairs of options in turn. *)
Fixpoint init_pairs (e : env) (d : vdata) (center : key)
    (ps : list ((key * (P * list (nat * nat))) * (key * (P * list (nat * nat)))))
    : option (key * P * (key * P) * list (nat * nat * nat) * list (nat * nat) * list (nat * nat)) :=
  match ps with
  | [] => None
  | (x, y) :: ps' =>
      match e_three_view e d center x y with
      | TVskip => init_pairs e d center ps'
      | TVfail => None
      | TVaccept p1 p2 tri bi1 bi2 =>
          let '(first, (_, firsts)) := x in
          let '(second, (_, seconds)) := y in
          let m1 := collect_map firsts in
          let m2 := collect_map seconds in
          Some (first, p1, (second, p2),
                filter (fun t => tri t = true) (common_matches firsts seconds),
                filter (fun cf : nat * nat => m2 !! cf.1 = None /\ bi1 cf = true) firsts,
                filter (fun cs : nat * nat => m1 !! cs.1 = None /\ bi2 cs = true) seconds)
      end
  end.

(** lib.rs 977-985: the options for which two-view initialisation succeeds. *)
Definition init_options (e : env) (s : settings) (d : vdata) (center : key) (options : list key)
    : outcome (list (key * (P * list (nat * nat)))) :=
  let! l := mapM (fun o => let! x := init_two_view e s d center o in Ok ((fun x => (o, x)) <$> x)) options in
  Ok (omap id l).

(** lib.rs 814-839 [try_init]. *)
Definition try_init (e : env) (s : settings) (d : vdata) (center : key) (options : list key) : outcome vdata :=
  let! opts := init_options e s d center options in
  match init_pairs e d center (pairs opts) with
  | None => Ok d
  | Some (first, p1, (second, p2), combined, firsts, seconds) =>
      let! (d', _) := add_reconstruction (e_ord e) d center first second p1 p2 combined firsts seconds in
      Ok d'
  end.

(** ** Localisation *)

Definition find_for (e : env) (s : settings) (d : vdata) (k : key) : outcome (gmap key (list key) * list key) :=
  find_frames d (e_similar e d k (tracking_similar_frame_search_num s)) k
    (tracking_similar_frames s) (tracking_recent_frames s) (tracking_similar_frame_recent_threshold s).

(** lib.rs 920-946 [try_localize_and_incorporate] (its result is ignored by the caller). *)
Definition try_localize_and_incorporate (e : env) (s : settings) (d : vdata) (r k : key) : outcome vdata :=
  let! (recs, _) := find_for e s d k in
  match recs !! r with
  | None => Ok d
  | Some views =>
      let! (d1, ok) := incorporate_frame e s d r k views in
      if ok : bool then let! (d2, _) := optimize_reconstruction e s d1 r in Ok d2 else Ok d1
  end.

(** lib.rs 858-892: one reconstruction of the first loop in [try_localize]. *)
Definition localize_step (e : env) (s : settings) (k : key) (d : vdata) (x : key * list key) : outcome vdata :=
  let '(dest, views) := x in
  let! fr := unwrap (sm_get (d_frames d) k) in
  match f_view fr with
  | Some (src, v) =>
      if src =? dest then Ok d
      else
        let! rs := unwrap (sm_get (d_recs d) src) in
        if 3 <=? sm_size (r_views rs) then
          let! rd := unwrap (sm_get (d_recs d) dest) in
          if 3 <=? sm_size (r_views rd) then
            let! (d1, ok) := try_merge_reconstructions e s d src v dest views in
            if ok : bool then let! (d2, _) := optimize_reconstruction e s d1 dest in Ok d2 else Ok d1
          else Ok d
        else Ok d
  | None =>
      let! (d1, ok) := incorporate_frame e s d dest k views in
      if ok : bool then let! (d2, _) := optimize_reconstruction e s d1 dest in Ok d2 else Ok d1
  end.

(** lib.rs 901-913: the second loop of [try_localize], with its early exit. *)
Fixpoint incorporate_free (e : env) (s : settings) (d : vdata) (r : key) (free : list key) : outcome vdata :=
  match free with
  | [] => Ok d
  | k :: free' =>
      let! fr := unwrap (sm_get (d_frames d) k) in
      match f_view fr with
      | Some _ => incorporate_free e s d r free'
      | None =>
          let! d1 := try_localize_and_incorporate e s d r k in
          match sm_get (d_recs d1) r with
          | None => Ok d1
          | Some _ => incorporate_free e s d1 r free'
          end
      end
  end.

(** lib.rs 847-917 [try_localize]. *)
Definition try_localize (e : env) (s : settings) (d : vdata) (k : key)
    (recs : gmap key (list key)) (free : list key) : outcome vdata :=
  let order := omap (fun r => (fun vs => (r, vs)) <$> recs !! r) (o_recs (e_ord e) (dom recs)) in
  let! d1 := foldM (localize_step e s k) order d in
  let! fr := unwrap (sm_get (d_frames d1) k) in
  let! d2 := match f_view fr with None => try_init e s d1 k free | Some _ => Ok d1 end in
  let! fr2 := unwrap (sm_get (d_frames d2) k) in
  match f_view fr2 with
  | Some (r, _) => incorporate_free e s d2 r free
  | None => Ok d2
  end.

(** lib.rs 790-809 [VSlam::add_frame]; [features] is what feature extraction returned. *)
Definition add_frame (e : env) (s : settings) (d : vdata) (feed : key) (features : list F) : outcome (vdata * key) :=
  let! (d1, k) := data_add_frame d feed features in
  let! (recs, free) := find_for e s d1 k in
  let! d2 := try_localize e s d1 k recs free in
  Ok (d2, k).

(** ** Histories of the public API *)
Inductive op :=
| OpAddFeed
| OpAddFrame (e : env) (feed : key) (features : list F)
| OpOptimize (e : env) (r : key)
| OpApplyConstraints (e : env) (r : key)
| OpRegenerate (e : env) (r : key)
| OpFilterObservations (e : env) (r : key)
| OpFilterLandmarks (e : env) (r : key)
| OpNormalize (e : env) (r : key)
| OpMergeDedup (e : env) (r a b : key)
| OpMerge (e : env) (r a b : key)
| OpIncorporate (e : env) (src dest : key) (t : P) (lmap : gmap key key)
| OpAddReconstruction (e : env) (center first second : key) (p1 p2 : P)
    (combined : list (nat * nat * nat)) (firsts seconds : list (nat * nat)).

Definition step (s : settings) (d : vdata) (x : op) : outcome vdata :=
  match x with
  | OpAddFeed => Ok (add_feed d).1
  | OpAddFrame e feed fs => let! (d', _) := add_frame e s d feed fs in Ok d'
  | OpOptimize e r => let! (d', _) := optimize_reconstruction e s d r in Ok d'
  | OpApplyConstraints e r => let! (d', _) := apply_constraints e s d r in Ok d'
  | OpRegenerate e r => let! (d', _) := regenerate_reconstruction e s d r in Ok d'
  | OpFilterObservations e r => let! (d', _) := filter_observations e d r in Ok d'
  | OpFilterLandmarks e r => filter_landmarks e d r
  | OpNormalize e r => normalize_reconstruction e d r
  | OpMergeDedup e r a b => let! (d', _) := merge_landmarks_dedup e d r a b in Ok d'
  | OpMerge e r a b => let! (d', _) := with_rec d r (fun rc => let! rc' := rec_merge (e_ord e) rc a b in Ok (rc', tt)) in Ok d'
  | OpIncorporate e src dest t lmap => incorporate_reconstruction e s d src dest t lmap
  | OpAddReconstruction e c f sx p1 p2 co fi se =>
      let! (d', _) := add_reconstruction (e_ord e) d c f sx p1 p2 co fi se in Ok d'
  end.

(** A history: the operations applied in order to the empty database. *)
Definition run (s : settings) (ops : list op) : outcome vdata := foldM (step s) ops vdata_init.

End model.

Arguments view P : clear implicits.
Arguments constraint3 P : clear implicits.
Arguments recon P : clear implicits.
Arguments frame F : clear implicits.
Arguments vdata P F : clear implicits.
Arguments three_view_verdict P : clear implicits.
Arguments env P F : clear implicits.
Arguments op P F : clear implicits.
