(** Independent specification of what single mapping operations do (C02, C05, C08, C09, C10). *)
From stdpp Require Import gmap list.
From Verif Require Import Outcome Sfm SfmSpec SfmUse.

(** Poses form a group. *)
Record group_laws {P} (one : P) (mul : P -> P -> P) (inv : P -> P) : Prop := {
  gl_assoc : forall a b c, mul a (mul b c) = mul (mul a b) c;
  gl_left : forall a, mul one a = a;
  gl_right : forall a, mul a one = a;
  gl_inv_left : forall a, mul (inv a) a = one;
  gl_inv_right : forall a, mul a (inv a) = one
}.

(** ** The growing window (C10) *)

(** Consecutive windows covering [lo .. n]. *)
Fixpoint tiles (ws : list (nat * nat)) (lo n : nat) : Prop :=
  match ws with
  | [] => lo = n
  | (a, b) :: ws' => a = lo /\ a <= b /\ tiles ws' b n
  end.

(** The features offered_features by windows, in order. *)
Definition offered_features (ws : list (nat * nat)) : list nat := mjoin ((fun w => seq w.1 (w.2 - w.1)) <$> ws).

(** Run the attempts window by window until one succeeds. *)
Fixpoint try_windows {S R} (attempt : nat -> nat -> S -> outcome (S * option R)) (ws : list (nat * nat)) (acc : S) : outcome (option R) :=
  match ws with
  | [] => Ok None
  | (lo, hi) :: ws' => let! (acc', res) := attempt lo hi acc in
                       match res with Some x => Ok (Some x) | None => try_windows attempt ws' acc' end
  end.

Section spec.
Context {P F : Type}.
Implicit Types (rc : recon P) (d : vdata P F) (e : env P F).

(** Feeds, the similarity index and the frames agree, except for the frames' links. *)
Definition same_images d d' : Prop :=
  d_feeds d' = d_feeds d /\ d_lsh d' = d_lsh d /\
  forall k, (fun fr => (f_feed fr, f_feed_frame fr, f_feats fr)) <$> sm_map (d_frames d') !! k =
            (fun fr => (f_feed fr, f_feed_frame fr, f_feats fr)) <$> sm_map (d_frames d) !! k.

(** Only reconstruction [r] may differ. *)
Definition only_recon (r : key) d d' : Prop :=
  same_images d d' /\ forall r', r' <> r -> sm_map (d_recs d') !! r' = sm_map (d_recs d) !! r'.

(** ** Adding, removing and merging (C55) *)

(** The views' frames, poses and numbers of features, and the constraints. *)
Definition view_facts (w : view P) : key * P * nat := (v_frame w, v_pose w, length (v_lms w)).
Definition same_skeleton rc rc' : Prop :=
  (forall v, view_facts <$> sm_map (r_views rc') !! v = view_facts <$> sm_map (r_views rc) !! v) /\
  (forall k c, has_constraint rc' k c <-> has_constraint rc k c).

(** Observations [x] and [y] are on landmarks [a] and [b]. *)
Definition on_pair rc (a b : key) (x y : key * nat) : Prop :=
  (assigned rc x.1 x.2 a /\ assigned rc y.1 y.2 b) \/ (assigned rc x.1 x.2 b /\ assigned rc y.1 y.2 a).

(** Landmarks [a] and [b] have become one track. *)
Record tracks_merged rc (a b : key) rc' : Prop := {
  tm_skeleton : same_skeleton rc rc';
  tm_observations : forall x, observation rc' x <-> observation rc x;
  tm_tracks : forall x y, same_track rc' x y <-> same_track rc x y \/ on_pair rc a b x y
}.

(** View [v] has been added with its [n] features on the landmarks [existing] names. *)
Record view_inserted rc (k : key) (pose : P) (existing : nat -> option (list key)) (n : nat) (v : key) rc' : Prop := {
  vi_fresh : sm_map (r_views rc) !! v = None;
  vi_view : view_facts <$> sm_map (r_views rc') !! v = Some (k, pose, n);
  vi_others : forall v', v' <> v -> view_facts <$> sm_map (r_views rc') !! v' = view_facts <$> sm_map (r_views rc) !! v';
  vi_cons : r_cons rc' = r_cons rc;
  vi_old : forall x y, observation rc x -> observation rc y ->
    (same_track rc' x y <-> same_track rc x y \/ exists f a b, f < n /\ existing f = Some [a; b] /\ on_pair rc a b x y);
  vi_new : forall f y, f < n -> observation rc y ->
    (same_track rc' (v, f) y <-> exists ls l, existing f = Some ls /\ l ∈ ls /\ assigned rc y.1 y.2 l);
  vi_apart : forall f f', same_track rc' (v, f) (v, f') -> f = f'
}.

(** View [v] has been removed; nothing is known or constrained about it any more, all else is
    as it was. *)
Record view_deleted rc (v : key) rc' : Prop := {
  vd_views : forall v' w, has_view rc' v' w <-> has_view rc v' w /\ v' <> v;
  vd_constraints : forall k c, has_constraint rc' k c <-> has_constraint rc k c /\
    let '(x, y, z) := c_views c in v <> x /\ v <> y /\ v <> z
}.

(** ** Giving up a view (C56) *)

(** A view with [n] features matched by [existing] was added and removed again: all that is
    left of it is that landmarks which one feature was matched to are one track now. *)
Record left_behind rc (n : nat) (existing : nat -> option (list key)) rc' : Prop := {
  lb_skeleton : same_skeleton rc rc';
  lb_observations : forall x, observation rc' x <-> observation rc x;
  lb_tracks : forall x y, same_track rc' x y <->
    same_track rc x y \/ exists f a b, f < n /\ existing f = Some [a; b] /\ on_pair rc a b x y
}.

(** The database differs in reconstruction [r] only, frames keep their links. *)
Definition only_inside (r : key) d d' : Prop :=
  d_feeds d' = d_feeds d /\ d_lsh d' = d_lsh d /\ d_frames d' = d_frames d /\
  forall r', r' <> r -> sm_map (d_recs d') !! r' = sm_map (d_recs d) !! r'.

(** ** Merging two landmarks which share views (C57) *)

(** [X] are the observations to be given up: of every view observing both landmarks the one
    the triangulator calls the worse of its two, when asked in a database in which at most
    others have been split off so far. *)
Record given_up e d r rc (a b : key) (X : list (key * nat)) : Prop := {
  gu_only : forall v f, (v, f) ∈ X -> exists fa fb, assigned rc v fa a /\ assigned rc v fb b;
  gu_worse : forall v fa fb, assigned rc v fa a -> assigned rc v fb b ->
    exists dv rcv, only_inside r d dv /\ has_recon dv r rcv /\ recon_ok d rcv /\ separated rc rcv /\ assigned rcv v fa a /\ assigned rcv v fb b /\
      forall f, (v, f) ∈ X <-> f = if e_second_worse e dv r v fa fb then fb else fa
}.

(** Observations [X] are alone; all others are on one track when [R] says so. *)
Definition tracks_apart_from rc (X : list (key * nat)) (R : key * nat -> key * nat -> Prop) rc' : Prop :=
  forall x y, same_track rc' x y <-> (x = y /\ observation rc x) \/ (x ∉ X /\ y ∉ X /\ R x y).

(** ** A new reconstruction (C54) *)

(** The database has one more reconstruction, of the center, first and second frame, in
    which features are on one track exactly as the (center, first) matches [ms1] and the
    (center, second) matches [ms2] say. *)
Record new_reconstruction (one : P) d (center first second : key) (p1 p2 : P) (ms1 ms2 : list (nat * nat)) (r : key) d' : Prop := {
  nr_only : only_recon r d d';
  nr_fresh : sm_map (d_recs d) !! r = None;
  nr_made : exists rc cv fv sv, has_recon d' r rc /\ cv <> fv /\ cv <> sv /\ fv <> sv /\
    (forall v, (exists w, has_view rc v w) <-> v = cv \/ v = fv \/ v = sv) /\
    (forall w, has_view rc cv w -> v_frame w = center /\ v_pose w = one) /\
    (forall w, has_view rc fv w -> v_frame w = first /\ v_pose w = p1) /\
    (forall w, has_view rc sv w -> v_frame w = second /\ v_pose w = p2) /\
    (forall c, (exists k, has_constraint rc k c) <-> c = Con3 (cv, fv, sv) (p1, p2)) /\
    (forall v f f', same_track rc (v, f) (v, f') -> f = f') /\
    (forall c f, observation rc (cv, c) -> observation rc (fv, f) -> (same_track rc (cv, c) (fv, f) <-> (c, f) ∈ ms1)) /\
    (forall c s, observation rc (cv, c) -> observation rc (sv, s) -> (same_track rc (cv, c) (sv, s) <-> (c, s) ∈ ms2)) /\
    (forall f s, observation rc (fv, f) -> observation rc (sv, s) ->
       (same_track rc (fv, f) (sv, s) <-> exists c, observation rc (cv, c) /\ (c, f) ∈ ms1 /\ (c, s) ∈ ms2))
}.

(** ** Constraints recorded for a view (C05) *)

(** The constraints added for view [v]: at most the allowed number, about different view
    triples, each about [v] and two other views which share enough robust landmarks. *)
Record recorded_for e (s : settings) d r rc (v : key) rc' : Prop := {
  rf_added : exists cs : list (constraint3 P),
    (forall c, (exists k, has_constraint rc' k c) <-> (exists k, has_constraint rc k c) \/ c ∈ cs) /\
    (forall k c, has_constraint rc k c -> has_constraint rc' k c) /\
    length cs <= optimization_maximum_three_view_constraints s /\
    NoDup (c_views <$> cs) /\
    forall c, c ∈ cs -> names_live_views rc c /\
      exists x y z ls, c_views c = (x, y, z) /\ (v = x \/ v = y \/ v = z) /\
        NoDup ls /\ optimization_robust_covisibility_minimum_landmarks s <= length ls /\
        (forall l, l ∈ ls -> e_robust e d r l = true /\
           (exists f, assigned rc x f l) /\ (exists f, assigned rc y f l) /\ exists f, assigned rc z f l) /\
        e_optimize3 e d r (x, y, z) ls = Some (c_poses c);
  rf_rest : r_views rc' = r_views rc /\ r_lms rc' = r_lms rc
}.

(** ** Pose-graph optimisation (C58) *)

(** The relative poses which constraint [c] demands of view [v], each with the other view. *)
Definition edges_at (mul : P -> P -> P) (inv : P -> P) (c : constraint3 P) (v : key) : list (key * P) :=
  omap (fun ve => if decide (ve.1 = v) then Some ve.2 else None) (edge_constraints mul inv c).

(** The next pose of view [w] of [rc] when the constraints are those of [rc0]: the update is
    given the view's pose and, for every demand in some order, the demanded relative pose and
    the other view's pose; a view without demands gets none. *)
Definition next_pose mul inv e (rc0 rc : recon P) (v : key) (w : view P) (res : option P) : Prop :=
  exists es others, es ≡ₚ mjoin ((fun kc : key * constraint3 P => edges_at mul inv kc.2 v) <$> map_to_list (sm_map (r_cons rc0))) /\
    Forall2 (fun (demand : key * P) (x : P * P) => x.1 = demand.2 /\ exists u, has_view rc demand.1 u /\ x.2 = v_pose u) es others /\
    res = match es with [] => None | _ => e_update e (v_pose w) others end.

(** All views move at once, views without next pose and their constraints are dropped. *)
Record all_moved rc (next : key -> option P) rc' : Prop := {
  mv_views : forall v w', has_view rc' v w' <-> exists w p, has_view rc v w /\ next v = Some p /\ w' = set_v_pose w p;
  mv_constraints : forall k c, has_constraint rc' k c <-> has_constraint rc k c /\
    let '(x, y, z) := c_views c in is_Some (next x) /\ is_Some (next y) /\ is_Some (next z);
  mv_assigned : forall v f l, assigned rc' v f l <-> assigned rc v f l /\ is_Some (next v)
}.
Definition remaining rc (next : key -> option P) : nat := length (filter (fun v => is_Some (next v)) (elements (dom (sm_map (r_views rc))))).
Definition planned mul inv e rc0 rc (next : key -> option P) : Prop := forall v w, has_view rc v w -> next_pose mul inv e rc0 rc v w (next v).

Fixpoint rounds mul inv e rc0 (n : nat) rc rc' : Prop :=
  match n with
  | 0 => rc' = rc
  | S n => exists next rc1, planned mul inv e rc0 rc next /\ 3 <= remaining rc next /\ all_moved rc next rc1 /\ rounds mul inv e rc0 n rc1 rc'
  end.

(** ** Merging reconstructions (C08) *)

(** Source [src] has become part of [dest], giving [dest']; [M] pairs every source view with
    its copy, [t] is the change of coordinates. *)
Record absorbed (mul : P -> P -> P) (src dest : recon P) (lmap : gmap key key) (t : P) (M : list (key * key)) (dest' : recon P) : Prop := {
  ab_all : M.*1 ≡ₚ elements (dom (sm_map (r_views src)));
  ab_copies : NoDup M.*2 /\ forall dv, dv ∈ M.*2 -> sm_map (r_views dest) !! dv = None;
  ab_views : forall sv dv w, (sv, dv) ∈ M -> has_view src sv w -> forall w', has_view dest' dv w' ->
     v_frame w' = v_frame w /\ v_pose w' = mul (v_pose w) t /\ length (v_lms w') = length (v_lms w);
  ab_old : forall v w, (has_view dest v w <-> has_view dest' v w /\ v ∉ M.*2);
  ab_mapped : forall sv dv f l l', (sv, dv) ∈ M -> (exists w', has_view dest' dv w') -> assigned src sv f l -> lmap !! l = Some l' -> assigned dest' dv f l';
  ab_tracks : forall sv1 dv1 f1 sv2 dv2 f2, (sv1, dv1) ∈ M -> (sv2, dv2) ∈ M ->
     (exists w', has_view dest' dv1 w') -> (exists w', has_view dest' dv2 w') ->
     (same_track dest' (dv1, f1) (dv2, f2) <-> same_track src (sv1, f1) (sv2, f2));
  ab_separate : forall sv dv f l v fv, (sv, dv) ∈ M -> assigned src sv f l -> lmap !! l = None ->
     (exists w, has_view dest v w) -> ~ same_track dest' (dv, f) (v, fv)
}.

(** A view may be dropped: at some point of the merge, too few constraints could be made. *)
Definition lacks_constraints e (s : settings) d (r v : key) : Prop :=
  exists d1 d2, same_images d d1 /\ record_view_constraints e s d1 r v = Ok (d2, false).

(** ** Filtering (C09) *)

(** Every observation of landmark [l] of [rc] is the only one of its landmark in [rc']. *)
Definition scattered rc rc' (l : key) : Prop := forall x, assigned rc x.1 x.2 l -> alone rc' x.

(** What filtering observations does to landmark [l] with observations [m], when the
    triangulator looks at database [d]. *)
Definition filter_verdict e d r (l : key) (m : gmap nat nat) rc rc' : Prop :=
  if size m =? 1 then has_landmark rc' l m
  else if size m =? 2 then (if e_bi_robust e d r l then has_landmark rc' l m else scattered rc rc' l)
  else match e_disagree e d r l with
       | Some bad => (forall v f, m !! v = Some f -> if bad (v, f) then alone rc' (v, f) else assigned rc' v f l)
       | None => scattered rc rc' l
       end.

(** What filtering landmarks does. *)
Definition robust_verdict e r d (l : key) (m : gmap nat nat) rc rc' : Prop :=
  if e_robust e d r l then has_landmark rc' l m else scattered rc rc' l.

(** A filtering pass: landmarks are looked at one after the other, each in a database where
    only splits have happened and it still has its observations. *)
Record filtered (V : vdata P F -> key -> gmap nat nat -> recon P -> recon P -> Prop) d r rc rc' : Prop := {
  fi_ok : recon_ok d rc';
  fi_sep : separated rc rc';
  fi_each : forall l m, has_landmark rc l m -> exists dl rcl, only_recon r d dl /\ has_recon dl r rcl /\ recon_ok dl rcl /\
     separated rc rcl /\ has_landmark rcl l m /\ V dl l m rcl rc'
}.
End spec.
