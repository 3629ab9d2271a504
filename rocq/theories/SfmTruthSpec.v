(** Specification vocabulary for C67 and C68: noise-free histories of the mapping code, over the
    reals. *)
From stdpp Require Import gmap list.
From Coq Require Import Reals.
From Verif Require Import Outcome Num Lin LinSpec Core CoreSpec Geom GeomSpec OptimizeSpec MatchingSpec Sfm SfmSpec SfmUse SfmEffects SfmPoseSpec SfmGeom SfmGeomSpec.
Open Scope R_scope.

(** ** Constraints (C67) *)
Section constraints.
Context {F : Type} (bearing_of : F -> rvec3).

(** The bearings under which three views see the landmark. *)
Definition seen_by_three (d : vdata riso F) (rc : recon riso) (x y z l : key) (b : rvec3 * rvec3 * rvec3) : Prop :=
  exists f g h p q r, assigned rc x f l /\ assigned rc y g l /\ assigned rc z h l /\
    observed bearing_of d rc (x, f) p /\ observed bearing_of d rc (y, g) q /\ observed bearing_of d rc (z, h) r /\ b = (p.2, q.2, r.2).

(** Two landmarks are far apart in all three views. *)
Definition far_apart (minimum : R) (a b : rvec3 * rvec3 * rvec3) : Prop :=
  minimum < cosd a.1.1 b.1.1 /\ minimum < cosd a.1.2 b.1.2 /\ minimum < cosd a.2 b.2.

(** The sum of the lengths of two translations. *)
Definition reach (ps : riso * riso) : R := norm (trans ps.1) + norm (trans ps.2).

(** The landmarks [used], at most [maximum] of those offered, are seen most often. *)
Record most_seen (rc : recon riso) (maximum : nat) (ls used : list key) : Prop := {
  ms_once : NoDup used;
  ms_offered : forall l, l ∈ used -> l ∈ ls;
  ms_many : length used = Nat.min maximum (length ls);
  ms_most : forall l l' m m', l ∈ used -> l' ∈ ls -> l' ∉ used -> has_landmark rc l m -> has_landmark rc l' m' -> (size m' <= size m)%nat
}.
(** Pairs of positions in [bs], all of them far apart. *)
Definition far_pairs (minimum : R) (bs : list (rvec3 * rvec3 * rvec3)) (far : list (nat * nat)) : Prop :=
  NoDup far /\ forall i j, (i, j) ∈ far -> (i < j)%nat /\ exists a b, bs !! i = Some a /\ bs !! j = Some b /\ far_apart minimum a b.

(** What is known of the poses [ps] demanded for the views [x], [y], [z] when the landmarks [ls]
    are offered: enough landmarks are offered; those used are seen most often, and enough
    pairs of them are far apart; the demand has the reach of the views' poses, and is met by
    them if all used bearings agree with them. *)
Record demanded (st : gsettings RNum) (d : vdata riso F) (rc : recon riso) (x y z : key) (ls : list key) (ps : riso * riso) : Prop := {
  dm_rigid : rigid ps.1 /\ rigid ps.2;
  dm_offered : (optimization_minimum_landmarks st <= length ls)%nat;
  dm_current : exists wx wy wz used bs far, has_view rc x wx /\ has_view rc y wy /\ has_view rc z wz /\
    let current := (relative (v_pose wy) (v_pose wx), relative (v_pose wz) (v_pose wx)) in
    most_seen rc (optimization_maximum_landmarks st) ls used /\ Forall2 (seen_by_three d rc x y z) used bs /\
    far_pairs (robust_view_bearing_pair_minimum_cosine_distance st) bs far /\ (robust_view_num_robust_bearing_pair st <= length far)%nat /\
    (reach ps = reach current \/ reach ps = 0) /\
    ((forall b, b ∈ bs -> three_agree current b) -> ps = current)
}.
(** Why nothing is demanded: too few landmarks are offered, or too few pairs of those used are
    far apart. *)
Definition refused (st : gsettings RNum) (d : vdata riso F) (rc : recon riso) (x y z : key) (ls : list key) : Prop :=
  (length ls < optimization_minimum_landmarks st)%nat \/
  exists used bs, most_seen rc (optimization_maximum_landmarks st) ls used /\ Forall2 (seen_by_three d rc x y z) used bs /\
    forall far, far_pairs (robust_view_bearing_pair_minimum_cosine_distance st) bs far -> (length far < robust_view_num_robust_bearing_pair st)%nat.
End constraints.

(** ** Noise-free histories (C68) *)
Section truth.
Context {F : Type} (bearing_of : F -> rvec3) (cam : key -> riso) (pt : key -> nat -> rvec3).
Implicit Types (d D : vdata riso F) (rc : recon riso).

(** Frame [k] of [D] was taken by the camera [cam k], and its feature [f] is where the camera sees the
    point [pt k f].  No camera is at a point, all cameras are on one side of each point (at most
    90 degrees away from the cameras which see it), and no point is on the line through two
    cameras which see it. *)
Record true_scene D : Prop := {
  ts_rigid : forall k fr, has_frame D k fr -> rigid (cam k);
  ts_seen : forall k fr f x, has_frame D k fr -> f_feats fr !! f = Some x -> sees (cam k) (pt k f) (bearing_of x);
  ts_side : forall k fr f x j gr, has_frame D k fr -> f_feats fr !! f = Some x -> has_frame D j gr ->
    pt k f <> centre (cam j) /\ 0 <= dot (vsub (pt k f) (centre (cam k))) (vsub (pt k f) (centre (cam j)));
  ts_parallax : forall k fr f x j gr g y, has_frame D k fr -> f_feats fr !! f = Some x -> has_frame D j gr -> f_feats gr !! g = Some y ->
    k <> j -> pt k f = pt j g -> cross (vsub (pt k f) (centre (cam k))) (vsub (pt k f) (centre (cam j))) <> vzero
}.

(** The frames of [d] are among those of [D]. *)
Definition frames_of D d : Prop := forall k fr, has_frame d k fr -> exists fr', has_frame D k fr' /\ f_feats fr' = f_feats fr.

(** The camera [k], as seen from the camera [k0] in a unit of length. *)
Definition seen_from (k0 : key) (unit : R) (k : key) : riso := pose_scale (relative (cam k) (cam k0)) unit.
(** The point [p], as seen from the camera [k0] in a unit of length. *)
Definition place_from (k0 : key) (unit : R) (p : rvec3) : rvec3 := vscale unit (iso_point (cam k0) p).

(** The transformation of coordinates with which a map (coordinates of camera [k1], unit [u1])
    is moved into another one (coordinates of camera [k0], unit [u]): it takes the pose of the
    common frame [k] in the one to its pose in the other. *)
Definition world_of (k k0 k1 : key) (u u1 : R) : riso := iso_mul (iso_inv (seen_from k0 u k)) (seen_from k1 u1 k).

(** Observation [x] (a view and a feature) shows the point [p]. *)
Definition shows rc (x : key * nat) (p : rvec3) : Prop := exists w, has_view rc x.1 w /\ p = pt (v_frame w) x.2.

(** A correct map: the poses of all views are the true ones, up to the coordinate system and the unit of length;
    the observations of a landmark show one point; the constraints hold. *)
Record mapped D rc : Prop := {
  mp_poses : exists k0 unit, (exists fr, has_frame D k0 fr) /\ 0 < unit /\ forall v w, has_view rc v w -> v_pose w = seen_from k0 unit (v_frame w);
  mp_tracks : forall x y p q, same_track rc x y -> shows rc x p -> shows rc y q -> p = q;
  mp_constraints : forall k c, has_constraint rc k c -> holds rc c
}.

(** The external routines answer truthfully: *)
Record truthful D (s : settings) (nearest : rmat3 -> rmat3) (eps : R) (st : gsettings RNum) (G : tools RNum F) (e : env riso F) : Prop := {
  (** the contracts of C63 and C65, *)
  tf_nearest : nearest mid = mid /\ 0 <= eps;
  tf_tools : tools_ok G;
  tf_inliers : forall l p ixs, t_two_view G l = Some (p, ixs) -> NoDup ixs;
  tf_env : env_ok e;
  tf_bearing : t_bearing G = bearing_of;
  tf_triangulate : exact_triangulator (t_triangulate G);
  tf_normal : forall x, t_normal G x = true -> x <> 0;
  tf_settings : 0 < maximum_sine_distance st /\ 0 < maximum_cosine_distance st /\ 0 <= robust_observation_incidence_minimum_cosine_distance st /\ (0 < single_view_match_better_by s)%nat;
  (** the consensus processes, asked about enough of the scene, answer nothing but the true
      pose (for two frames, up to the length of the translation), *)
  tf_two_view : forall k j fk fj order data p ixs, has_frame D k fk -> has_frame D j fj -> k <> j ->
    NoDup order -> (forall a b, (a, b) ∈ order <-> mutual (e_knn e) (f_feats fk) (f_feats fj) (two_view_match_better_by s) a b) ->
    Forall2 (match_seen bearing_of fk fj) order data -> (two_view_minimum_robust_matches st <= length ixs)%nat -> t_two_view G data = Some (p, ixs) ->
    exists unit, 0 < unit /\ p = pose_scale (relative (cam j) (cam k)) unit;
  tf_single_view : forall k0 unit k fr points p ixs, (exists fr0, has_frame D k0 fr0) -> 0 < unit -> has_frame D k fr -> (single_view_minimum_landmarks st <= length points)%nat ->
    (exists fs, NoDup fs /\ Forall2 (fun f (bh : rvec3 * vec4 RNum) => exists x, f_feats fr !! f = Some x /\ bh = (bearing_of x, from_point (place_from k0 unit (pt k f)))) fs points) ->
    t_single_view G points = Some (p, ixs) -> p = seen_from k0 unit k;
  (** and matched features show the same point. *)
  tf_mutual : forall k j fk fj f g, has_frame D k fk -> has_frame D j fj -> k <> j ->
    mutual (e_knn e) (f_feats fk) (f_feats fj) (two_view_match_better_by s) f g -> pt k f = pt j g;
  tf_clear : forall d r rc views k fr f x ls l y p, data_ok d -> frames_of D d -> has_recon d r rc -> mapped D rc -> has_frame d k fr -> f_feats fr !! f = Some x ->
    clear_match e s d rc views x ls -> l ∈ ls -> assigned rc y.1 y.2 l -> shows rc y p -> p = pt k f
}.
Definition faithful D (s : settings) (e : env riso F) : Prop :=
  exists nearest eps st G o similar knn sort fuel, e = geometric (real_trig nearest eps) st G o similar knn sort fuel /\ truthful D s nearest eps st G e.

(** What a new frame is compared with belongs to at most one reconstruction. *)
Definition one_place (s : settings) (e : env riso F) d (k : key) : Prop := forall recs free,
  candidates d (e_similar e d k (tracking_similar_frame_search_num s)) k (tracking_similar_frames s) (tracking_recent_frames s) (tracking_similar_frame_recent_threshold s) recs free ->
  (size recs <= 1)%nat.

(** An operation which does not merge reconstructions and needs no help from the caller. *)
Definition allowed D (s : settings) d (x : op riso F) : Prop :=
  match x with
  | OpAddFeed => True
  | OpAddFrame e feed fs => faithful D s e /\ forall d1 k, data_add_frame d feed fs = Ok (d1, k) -> one_place s e d1 k
  | OpOptimize e _ | OpApplyConstraints e _ | OpRegenerate e _ | OpFilterObservations e _ | OpFilterLandmarks e _ | OpNormalize e _ => faithful D s e
  | OpMergeDedup _ _ _ _ | OpMerge _ _ _ _ | OpIncorporate _ _ _ _ _ | OpAddReconstruction _ _ _ _ _ _ _ _ _ => False
  end.
Fixpoint all_allowed D (s : settings) d (ops : list (op riso F)) : Prop :=
  match ops with
  | [] => True
  | x :: ops' => allowed D s d x /\ forall d', step iso_id iso_mul iso_inv s d x = Ok d' -> all_allowed D s d' ops'
  end.
End truth.
