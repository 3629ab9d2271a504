(** Independent specification of the mapping database (C01, C02, C05, C11): what it means for
    the data to be consistent, in terms of lookups only. *)
From stdpp Require Import gmap list.
From Verif Require Import Sfm.

Section spec.
Context {P F : Type}.
Implicit Types (rc : recon P) (d : vdata P F).

(** View [v] of the reconstruction is [w]; landmark [l] has observations [m]. *)
Definition has_view rc (v : key) (w : view P) : Prop := sm_map (r_views rc) !! v = Some w.
Definition has_landmark rc (l : key) (m : landmark) : Prop := sm_map (r_lms rc) !! l = Some m.
Definition has_constraint rc (k : key) (c : constraint3 P) : Prop := sm_map (r_cons rc) !! k = Some c.

(** Feature [f] of view [v] is assigned landmark [l]. *)
Definition assigned rc (v : key) (f : nat) (l : key) : Prop :=
  exists w, has_view rc v w /\ v_lms w !! f = Some l.

(** Landmark [l] exists and lists feature [f] of view [v]. *)
Definition observes rc (l : key) (v : key) (f : nat) : Prop :=
  exists m, has_landmark rc l m /\ m !! v = Some f.

(** The two indexes mirror each other and no landmark is empty. *)
Definition mirrored rc : Prop := forall v f l, assigned rc v f l <-> observes rc l v f.
Definition no_empty_landmark rc : Prop := forall l m, has_landmark rc l m -> m <> ∅.

(** A constraint names three different views of the reconstruction. *)
Definition names_live_views rc (c : constraint3 P) : Prop :=
  let '(a, b, c) := c_views c in
  a <> b /\ a <> c /\ b <> c /\
  (exists w, has_view rc a w) /\ (exists w, has_view rc b w) /\ (exists w, has_view rc c w).
Definition constraints_live rc : Prop := forall k c, has_constraint rc k c -> names_live_views rc c.

(** Keys handed out so far are below the creation counter. *)
Definition keys_fresh {A} (s : smap A) : Prop := forall k x, sm_map s !! k = Some x -> k < sm_next s.

(** Frame [k] of the database is [fr]; reconstruction [r] of the database is [rc]. *)
Definition has_frame d (k : key) (fr : frame F) : Prop := sm_map (d_frames d) !! k = Some fr.
Definition has_recon d (r : key) rc : Prop := sm_map (d_recs d) !! r = Some rc.
Definition has_feed d (k : key) (fs : list key) : Prop := sm_map (d_feeds d) !! k = Some fs.

(** Every view has one landmark entry per feature of its (existing) frame. *)
Definition one_entry_per_feature d rc : Prop :=
  forall v w, has_view rc v w -> exists fr, has_frame d (v_frame w) fr /\ length (v_lms w) = length (f_feats fr).

(** View [v] of reconstruction [r] was made from frame [k]. *)
Definition is_view_of d (r v k : key) : Prop :=
  exists rc w, has_recon d r rc /\ has_view rc v w /\ v_frame w = k.

(** A frame points to a view exactly when that view exists and is of this frame. *)
Definition frame_links_exact d : Prop :=
  forall k fr, has_frame d k fr -> forall r v, f_view fr = Some (r, v) <-> is_view_of d r v k.

(** A frame's feed and position are where the feed lists it. *)
Definition feed_positions_exact d : Prop :=
  forall fd i k,
    (exists fs, has_feed d fd fs /\ fs !! i = Some k) <->
    (exists fr, has_frame d k fr /\ f_feed fr = fd /\ f_feed_frame fr = i).

(** One reconstruction is consistent. *)
Record recon_ok d rc : Prop := {
  ok_mirrored : mirrored rc;
  ok_no_empty : no_empty_landmark rc;
  ok_entries : one_entry_per_feature d rc;
  ok_constraints : constraints_live rc;
  ok_fresh_views : keys_fresh (r_views rc);
  ok_fresh_lms : keys_fresh (r_lms rc);
  ok_fresh_cons : keys_fresh (r_cons rc)
}.

(** The database is consistent. *)
Record data_ok d : Prop := {
  ok_recons : forall r rc, has_recon d r rc -> recon_ok d rc;
  ok_links : frame_links_exact d;
  ok_positions : feed_positions_exact d;
  ok_lsh : forall k, k ∈ d_lsh d <-> exists fr, has_frame d k fr;
  ok_fresh_recs : keys_fresh (d_recs d);
  ok_fresh_frames : keys_fresh (d_frames d);
  ok_fresh_feeds : keys_fresh (d_feeds d)
}.

(** Two observations belong to the same track. *)
Definition same_track rc (x y : key * nat) : Prop :=
  exists l, assigned rc x.1 x.2 l /\ assigned rc y.1 y.2 l.

(** An observation exists. *)
Definition observation rc (x : key * nat) : Prop := exists l, assigned rc x.1 x.2 l.

(** An observation which is the only one of its landmark. *)
Definition alone rc (x : key * nat) : Prop := forall y, same_track rc x y -> y = x.

(** [rc'] arises from [rc] by splitting tracks only: the same views with the same frames,
    poses and features, the same constraints, the same observations, and observations on one
    landmark were on one landmark before. *)
Record separated rc rc' : Prop := {
  sep_views : forall v, (fun w => (v_frame w, v_pose w, length (v_lms w))) <$> sm_map (r_views rc') !! v =
                        (fun w => (v_frame w, v_pose w, length (v_lms w))) <$> sm_map (r_views rc) !! v;
  sep_constraints : r_cons rc' = r_cons rc;
  sep_observations : forall x, observation rc' x <-> observation rc x;
  sep_tracks : forall x y, same_track rc' x y -> same_track rc x y
}.

(** ** Adding a view (C03, C55) *)

(** [existing] says on which landmarks the [n] features of a new view are to be put: one
    landmark, or two different ones without a common view, which become one; no landmark is
    given to two features. *)
Record good_matches rc (n : nat) (existing : nat -> option (list key)) : Prop := {
  gm_shape : forall f ls, f < n -> existing f = Some ls ->
     (exists l m, ls = [l] /\ has_landmark rc l m) \/
     (exists a b ma mb, ls = [a; b] /\ a <> b /\ has_landmark rc a ma /\ has_landmark rc b mb /\ ma ##ₘ mb);
  gm_disjoint : forall f f' ls ls' l, f < n -> f' < n -> existing f = Some ls -> existing f' = Some ls' ->
     l ∈ ls -> l ∈ ls' -> f = f'
}.

(** ** Candidate frames (C11) *)

(** [k'] is another frame of the same feed, less than [n] positions away from [k]. *)
Definition near d (k k' : key) (n : nat) : Prop :=
  exists fr fr', has_frame d k fr /\ has_frame d k' fr' /\ k' <> k /\ f_feed fr' = f_feed fr /\
    f_feed_frame fr < f_feed_frame fr' + n /\ f_feed_frame fr' < f_feed_frame fr + n.

(** [recs] and [free] are the candidates for frame [k]: all frames near it, then the first
    [num_similar] eligible answers of the similarity index. *)
Record candidates d (answers : list key) (k : key) (num_similar num_recent threshold : nat)
    (recs : gmap key (list key)) (free : list key) : Prop := {
  ca_found : exists recent eligible,
    let found := recent ++ take num_similar eligible in
    (forall k', k' ∈ recent <-> near d k k' num_recent) /\
    eligible `sublist_of` answers /\
    (forall k', k' ∈ eligible <-> k' ∈ answers /\ k' <> k /\ ~ near d k k' num_recent /\ ~ near d k k' threshold) /\
    NoDup found /\ k ∉ found /\
    (forall r v, (exists vs, recs !! r = Some vs /\ v ∈ vs) <->
                 exists k' fr, k' ∈ found /\ has_frame d k' fr /\ f_view fr = Some (r, v)) /\
    (forall k', k' ∈ free <-> k' ∈ found /\ exists fr, has_frame d k' fr /\ f_view fr = None);
  ca_grouped : forall r vs, recs !! r = Some vs -> vs <> [] /\ NoDup vs;
  ca_free : NoDup free
}.

(** ** Matching a new frame with a reconstruction (C53) *)

(** A landmark offered for feature descriptor [desc] at distance [x]: the index of one of the
    views answers, as one of its three nearest, a feature of this landmark. *)
Definition offered (e : env P F) d rc (views : list key) (desc : F) (l : key) (x : nat) : Prop :=
  exists v w fr i, v ∈ views /\ has_view rc v w /\ has_frame d (v_frame w) fr /\ (i, x) ∈ e_knn e (f_feats fr) desc 3 /\ v_lms w !! i = Some l.
Definition best_offer (e : env P F) d rc views desc (l : key) (x : nat) : Prop :=
  offered e d rc views desc l x /\ forall y, offered e d rc views desc l y -> x <= y.

(** A match is either one landmark better than all others by the margin, or two landmarks
    sharing no view, close to each other and both better than all others by the margin. *)
Inductive clear_match (e : env P F) (s : settings) d rc views desc : list key -> Prop :=
| clear_one a x : best_offer e d rc views desc a x ->
    (forall l y, l <> a -> offered e d rc views desc l y -> x + single_view_match_better_by s <= y) ->
    clear_match e s d rc views desc [a]
| clear_two a b x y ma mb : a <> b -> best_offer e d rc views desc a x -> best_offer e d rc views desc b y ->
    x <= y -> y < x + single_view_match_better_by s ->
    (forall l z, l <> a -> l <> b -> offered e d rc views desc l z -> y + single_view_match_better_by s <= z) ->
    has_landmark rc a ma -> has_landmark rc b mb -> ma ##ₘ mb ->
    clear_match e s d rc views desc [a; b].

(** [ms] are the matches of the first [hi] features which may be used: the clear ones for
    which no other of these features has a clear match with one of the landmarks. *)
Record usable_matches (e : env P F) s d rc (feats : list F) views (hi : nat) (ms : list (list key * nat)) : Prop := {
  um_once : NoDup ms.*2;
  um_exact : forall f desc, feats !! f = Some desc -> f < hi -> forall ls, clear_match e s d rc views desc ls ->
    (exists ls', ls' ≡ₚ ls /\ (ls', f) ∈ ms) <->
    ~ exists f' desc' ls' l, f' <> f /\ f' < hi /\ feats !! f' = Some desc' /\ clear_match e s d rc views desc' ls' /\ l ∈ ls /\ l ∈ ls';
  um_clear : forall ls f, (ls, f) ∈ ms -> f < hi /\ exists desc, feats !! f = Some desc /\ clear_match e s d rc views desc ls
}.

(** The answer [res] to registering frame [k] comes from the pose estimator asked about the
    usable matches of the first [hi] features, and from nothing else. *)
Definition answered (e : env P F) s d rc (r k : key) (feats : list F) views (hi : nat) (res : option (P * gmap nat (list key))) : Prop :=
  exists ms, usable_matches e s d rc feats views hi ms /\
    match res with
    | None => e_register e d r k ms = None
    | Some (pose, found) => exists accepts, e_register e d r k ms = Some (pose, accepts) /\
        forall f ls, found !! f = Some ls <-> (ls, f) ∈ ms /\ accepts (ls, f) = true
    end.

(** ** Contracts of the external routines *)

(** Iterating over a map yields each of its keys once. *)
Record orders_ok (o : orders) : Prop := {
  oo_obs : forall l X, o_obs o l X ≡ₚ elements X;
  oo_views : forall X, o_views o X ≡ₚ elements X;
  oo_lms : forall X, o_lms o X ≡ₚ elements X;
  oo_cons : forall X, o_cons o X ≡ₚ elements X;
  oo_covis : forall X, o_covis o X ≡ₚ elements X;
  oo_match : forall X, o_match o X ≡ₚ elements X;
  oo_recs : forall X, o_recs o X ≡ₚ elements X
}.

(** A similarity index returns inserted frames, each at most once; a nearest-neighbour index
    returns positions of stored features, each at most once, as many as asked for while
    there are enough; inliers are positions of the data; sorting permutes. *)
Record env_ok (e : env P F) : Prop := {
  eo_orders : orders_ok (e_ord e);
  eo_similar : forall d k n, NoDup (e_similar e d k n) /\ e_similar e d k n ⊆ d_lsh d;
  eo_knn : forall fs f n, length (e_knn e fs f n) = Nat.min n (length fs) /\
                          NoDup (e_knn e fs f n).*1 /\
                          forall i x, (i, x) ∈ e_knn e fs f n -> i < length fs;
  eo_two_view : forall d a b ms p ixs, e_two_view e d a b ms = Some (p, ixs) ->
                          forall i, i ∈ ixs -> i < length ms;
  eo_sort : forall l, e_sort e l ≡ₚ l
}.
End spec.
