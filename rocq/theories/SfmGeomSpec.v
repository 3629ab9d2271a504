(** Specification vocabulary for the geometry of the mapping code (C60-C66), over the reals. *)
From stdpp Require Import gmap list.
From Coq Require Import Reals Sorting.Sorted.
From Verif Require Import Num Lin LinSpec Core CoreSpec Geom GeomSpec OptimizeSpec MatchingSpec Sfm SfmSpec SfmEffects SfmPoseSpec SfmGeom.
Open Scope R_scope.

(** One minus the cosine of the angle between two unit vectors. *)
Definition cosd (u v : rvec3) : R := 1 - dot u v.

(** How far the bearing of an observation is from the direction in which its camera sees the
    (homogeneous) point [h]. *)
Definition miss (h : vec4 RNum) (x : riso * rvec3) : R := cosd (bearing (transform x.1 h)) x.2.

(** The epipolar error of two observations: the sine of the angle between one of the rays and the
    plane through the other ray and the two camera centres (the smaller one of the two such
    angles), and 1 for rays in opposite half spaces. *)
Definition pair_error (x y : riso * rvec3) : R :=
  let a := direction x in
  let b := direction y in
  let t := vsub (centre x.1) (centre y.1) in
  if Rlt_dec (dot a b) 0 then 1 else Rabs (dot a (cross b t)) / Rmax (norm (cross a t)) (norm (cross b t)).

(** Exactly [n] things satisfy [Q]. *)
Definition exactly {A} (n : nat) (Q : A -> Prop) : Prop := exists l : list A, NoDup l /\ (forall x, x ∈ l <-> Q x) /\ length l = n.

Section spec.
Context {F : Type} (bearing_of : F -> rvec3).
Implicit Types (rc : recon riso) (d : vdata riso F).

(** Feature [x.2] of view [x.1] is seen by a camera of pose [pb.1] under the bearing [pb.2]. *)
Definition observed d rc (x : key * nat) (pb : riso * rvec3) : Prop :=
  exists w fr f, has_view rc x.1 w /\ has_frame d (v_frame w) fr /\ f_feats fr !! x.2 = Some f /\
    pb = (v_pose w, bearing_of f).

(** [ps] are the observations of landmark [l], in the order in which its map is iterated. *)
Definition listed (o : orders) d rc (l : key) (ps : list (riso * rvec3)) : Prop :=
  exists m, has_landmark rc l m /\ Forall2 (observed d rc) (obs_list o l m) ps.

(** A landmark is robust: enough views observe it, or all there are, and two of them under
    rays which differ by more than [incidence]. *)
Definition robust_landmark (minimum : nat) (incidence : R) d rc (l : key) : Prop :=
  (exists m, has_landmark rc l m /\ (minimum <= size m \/ size (sm_map (r_views rc)) <= size m)%nat) /\
  exists x y px py, x <> y /\ assigned rc x.1 x.2 l /\ assigned rc y.1 y.2 l /\ observed d rc x px /\ observed d rc y py /\
    incidence < cosd (direction px) (direction py).

(** The landmark of two different observations keeps both: if they are its only ones they must
    satisfy the epipolar constraint, otherwise both must agree with the triangulated point. *)
Definition kept_together (tri : list (riso * rvec3) -> option (vec4 RNum)) (o : orders) (max_sine max_cosine : R) d rc (l : key) (x y : key * nat) : Prop :=
  exists px py ps, observed d rc x px /\ observed d rc y py /\ listed o d rc l ps /\
    if (length ps =? 2)%nat then pair_error px py < max_sine
    else exists h, tri ps = Some h /\ miss h px <= max_cosine /\ miss h py <= max_cosine.

(** How badly an observation fits the others of its landmark: [2] without others, one minus the
    cosine of the epipolar error of a pair, otherwise the distance from the triangulated point
    ([2] if there is none). *)
Definition badness (tri : list (riso * rvec3) -> option (vec4 RNum)) (o : orders) d rc (x : key * nat) (v : R) : Prop :=
  exists l px ps, assigned rc x.1 x.2 l /\ observed d rc x px /\ listed o d rc l ps /\
    match ps with
    | [a; b] => v = 1 - sqrt (1 - pair_error a b * pair_error a b)
    | [] | [_] => v = 2
    | _ => match tri ps with Some h => v = miss h px | None => v = 2 end
    end.

(** ** Registration (C64) *)

(** [ps] are the observations of some landmarks, one landmark after the other. *)
Definition listed_all (o : orders) d rc (ls : list key) (ps : list (riso * rvec3)) : Prop :=
  exists pss, Forall2 (listed o d rc) ls pss /\ ps = mjoin pss.

(** Observations are enough for a robust landmark, in a reconstruction of [views] views. *)
Definition robust_observations (minimum views : nat) (incidence : R) (ps : list (riso * rvec3)) : Prop :=
  (minimum <= length ps \/ views <= length ps)%nat /\
  exists i j x y, i <> j /\ ps !! i = Some x /\ ps !! j = Some y /\ incidence < cosd (direction x) (direction y).

(** Feature [m.2] of frame [fr], of bearing [b], is matched with landmarks [m.1], which are robust
    (as one landmark) and triangulated to [h]. *)
Definition triangulated (tri : list (riso * rvec3) -> option (vec4 RNum)) (o : orders) (minimum : nat) (incidence : R) d rc (fr : frame F) (m : list key * nat) (bh : rvec3 * vec4 RNum) : Prop :=
  exists x ps, f_feats fr !! m.2 = Some x /\ listed_all o d rc m.1 ps /\ robust_observations minimum (size (sm_map (r_views rc))) incidence ps /\
    tri ps = Some bh.2 /\ bh.1 = bearing_of x.

(** A new observation [x] fits the others [ps] of a landmark: with one other, by the epipolar
    error; with more, when all are close to the point triangulated from all of them. *)
Definition fits (tri : list (riso * rvec3) -> option (vec4 RNum)) (max_sine max_cosine : R) (x : riso * rvec3) (ps : list (riso * rvec3)) : Prop :=
  match ps with
  | [] => False
  | [y] => pair_error x y < max_sine
  | _ => exists h, tri (ps ++ [x]) = Some h /\ forall y, y ∈ ps ++ [x] -> miss h y < max_cosine
  end.
Definition match_fits (tri : list (riso * rvec3) -> option (vec4 RNum)) (o : orders) (max_sine max_cosine : R) d rc (fr : frame F) (pose : riso) (m : list key * nat) : Prop :=
  exists x ps, f_feats fr !! m.2 = Some x /\ listed_all o d rc m.1 ps /\ fits tri max_sine max_cosine (pose, bearing_of x) ps.
End spec.

(** How many observations some landmarks have. *)
Definition observations_of (rc : recon riso) (ls : list key) (n : nat) : Prop :=
  exists ns, Forall2 (fun l k => exists m, has_landmark rc l m /\ size m = k) ls ns /\ n = foldr Nat.add 0%nat ns.

(** Some usable matches [ms] of the frame are used: the triangulated ones among them, those with
    the most observations first, are handed to the consensus process, which answers [start] with
    [inliers] ([points] are the data).  The frame gets the pose [pose] and keeps exactly the matches which fit with that
    pose; enough of them are left. *)
Record registered {F} (st : gsettings RNum) (G : tools RNum F) (o : orders) (d : vdata riso F) (rc : recon riso) (fr : frame F) (ms : list (list key * nat))
    (pose : riso) (found : gmap nat (list key)) (points : list (rvec3 * vec4 RNum)) (start : riso) (inliers : list nat) : Prop := {
  rg_points : exists good, NoDup good.*2 /\
    (forall m, m ∈ good <-> m ∈ ms /\ exists bh, triangulated (t_bearing G) (t_triangulate G) o (robust_minimum_observations st) (robust_observation_incidence_minimum_cosine_distance st) d rc fr m bh) /\
    Forall2 (triangulated (t_bearing G) (t_triangulate G) o (robust_minimum_observations st) (robust_observation_incidence_minimum_cosine_distance st) d rc fr) good points /\
    forall i j m m' n n', (i < j)%nat -> good !! i = Some m -> good !! j = Some m' -> observations_of rc m.1 n -> observations_of rc m'.1 n' -> (n' <= n)%nat;
  rg_enough : (single_view_minimum_landmarks st <= length points)%nat;
  rg_consensus : t_single_view G points = Some (start, inliers);
  rg_rigid : rigid pose;
  rg_found : forall f ls, found !! f = Some ls <->
    (ls, f) ∈ ms /\ match_fits (t_bearing G) (t_triangulate G) o (maximum_sine_distance st) (maximum_cosine_distance st) d rc fr pose (ls, f);
  rg_left : (single_view_minimum_robust_landmarks st <= size found)%nat;
  rg_robust : exists n, exactly n (fun f => exists ls bh, found !! f = Some ls /\
      triangulated (t_bearing G) (t_triangulate G) o (robust_minimum_observations st) (robust_observation_incidence_minimum_cosine_distance st) d rc fr (ls, f) bh) /\
    (Nat.div (Nat.min (single_view_optimization_num_matches st) (length inliers)) 2 < n)%nat;
  rg_perfect : (forall bh, bh ∈ points -> agrees start bh) -> pose = start
}.

(** ** Histories with the numerical code (C63) *)

(** The sample consensus processes return rigid poses and inliers among the data. *)
Record tools_ok {F} (G : tools RNum F) : Prop := {
  to_two : forall l p ixs, t_two_view G l = Some (p, ixs) -> rigid p /\ forall i, i ∈ ixs -> (i < length l)%nat;
  to_single : forall l p ixs, t_single_view G l = Some (p, ixs) -> rigid p /\ forall i, i ∈ ixs -> (i < length l)%nat;
  to_shuffle : forall call n, t_shuffle G call n ≡ₚ seq 0 n
}.

(** The numerical code is used, with some settings, external routines and iteration orders. *)
Definition numerical {F} (T : trig RNum) (e : env riso F) : Prop :=
  exists st G o similar knn sort fuel, tools_ok G /\ e = geometric T st G o similar knn sort fuel.

(** The environment an operation runs in, and the poses given to it by the caller. *)
Definition uses {F} (x : op riso F) : option (env riso F) :=
  match x with
  | OpAddFeed => None
  | OpAddFrame e _ _ | OpOptimize e _ | OpApplyConstraints e _ | OpRegenerate e _ | OpFilterObservations e _ | OpFilterLandmarks e _
  | OpNormalize e _ | OpMergeDedup e _ _ _ | OpMerge e _ _ _ | OpIncorporate e _ _ _ _ | OpAddReconstruction e _ _ _ _ _ _ _ _ => Some e
  end.
Definition given {F} (x : op riso F) : list riso :=
  match x with
  | OpIncorporate _ _ _ t _ => [t]
  | OpAddReconstruction _ _ _ _ p1 p2 _ _ _ => [p1; p2]
  | _ => []
  end.

(** ** Noise-free scenes (C65) *)

(** Noise-free observations of the point [q]: every camera sees it in the direction observed, and
    neither the rays nor the line from the world origin to the point are more than 90 degrees
    apart. *)
Record exact_rays (q : rvec3) (xs : list (riso * rvec3)) : Prop := {
  er_point : q <> vzero;
  er_sees : forall x, x ∈ xs -> rigid x.1 /\ sees x.1 q x.2 /\ 0 <= dot (direction x) q;
  er_narrow : forall x y, x ∈ xs -> y ∈ xs -> 0 <= dot (direction x) (direction y)
}.
(** The rays are not all parallel, so they determine the point. *)
Definition resolved (xs : list (riso * rvec3)) : Prop := exists x y, x ∈ xs /\ y ∈ xs /\ cross (direction x) (direction y) <> vzero.
(** The triangulator finds the point of noise-free observations. *)
Definition exact_triangulator (tri : list (riso * rvec3) -> option (vec4 RNum)) : Prop :=
  forall q xs, exact_rays q xs -> resolved xs -> tri xs = Some (from_point q).

(** Every landmark of the reconstruction is a point of the scene; only two parallel rays are
    allowed. *)
Definition exact_recon {F} (bearing_of : F -> rvec3) (o : orders) (d : vdata riso F) (rc : recon riso) : Prop :=
  forall l ps, listed bearing_of o d rc l ps -> exists q, exact_rays q ps /\ ((length ps <= 2)%nat \/ resolved ps).

(** The camera at [pose] took the frame, and what it matched are landmarks of one point it sees. *)
Definition exact_match {F} (bearing_of : F -> rvec3) (o : orders) (d : vdata riso F) (rc : recon riso) (fr : frame F) (pose : riso) (m : list key * nat) : Prop :=
  exists x q ps, f_feats fr !! m.2 = Some x /\ listed_all bearing_of o d rc m.1 ps /\ exact_rays q (ps ++ [(pose, bearing_of x)]) /\
    (length ps = 1%nat \/ (2 <= length ps)%nat /\ resolved (ps ++ [(pose, bearing_of x)])).

(** ** Starting a reconstruction (C66) *)

(** The three rays of a match, the centre camera being the origin. *)
Definition three_rays (p1 p2 : riso) (x : rvec3 * rvec3 * rvec3) : list (riso * rvec3) := [(iso_id, x.1.1); (p1, x.1.2); (p2, x.2)].
(** They agree with one point, and two of them differ by more than [incidence]. *)
Definition three_fit (tri : list (riso * rvec3) -> option (vec4 RNum)) (maximum incidence : R) (p1 p2 : riso) (x : rvec3 * rvec3 * rvec3) : Prop :=
  (exists h, tri (three_rays p1 p2 x) = Some h /\ forall y, y ∈ three_rays p1 p2 x -> miss (from_homogeneous h) y < maximum) /\
  exists i j y z, i <> j /\ three_rays p1 p2 x !! i = Some y /\ three_rays p1 p2 x !! j = Some z /\ incidence < cosd (direction y) (direction z).
(** The squared ratio of the distances of the point from the centre, as the first and as the
    second pair of cameras see it. *)
Definition depth_ratio (tri : list (riso * rvec3) -> option (vec4 RNum)) (p1 p2 : riso) (x : rvec3 * rvec3 * rvec3) (r : R) : Prop :=
  exists h k u v, tri [(iso_id, x.1.1); (p1, x.1.2)] = Some h /\ point (from_homogeneous h) = Some u /\
    tri [(iso_id, x.1.1); (p2, x.2)] = Some k /\ point (from_homogeneous k) = Some v /\ r = norm2 u / norm2 v.
(** The middle one of some numbers (the upper one of two). *)
Definition middle (l : list R) (m : R) : Prop := exists l', l' ≡ₚ l /\ StronglySorted Rle l' /\ l' !! Nat.div (length l) 2 = Some m.

Section start.
Context {F : Type} (bearing_of : F -> rvec3).
Definition match_seen (fa fb : frame F) (m : nat * nat) (ab : rvec3 * rvec3) : Prop :=
  exists x y, f_feats fa !! m.1 = Some x /\ f_feats fb !! m.2 = Some y /\ ab = (bearing_of x, bearing_of y).
Definition triple_seen (fc ff fs : frame F) (t : nat * nat * nat) (x : rvec3 * rvec3 * rvec3) : Prop :=
  exists a b c, f_feats fc !! t.1.1 = Some a /\ f_feats ff !! t.1.2 = Some b /\ f_feats fs !! t.2 = Some c /\ x = (bearing_of a, bearing_of b, bearing_of c).
End start.
(** A feature of the centre frame matched in both other frames. *)
Definition common (ms1 ms2 : list (nat * nat)) (t : nat * nat * nat) : Prop := (t.1.1, t.1.2) ∈ ms1 /\ (t.1.1, t.2) ∈ ms2.

(** The consensus process sees the mutual best matches of two frames and answers [pose]; its
    inliers are kept. *)
Record pair_started {F} (st : gsettings RNum) (G : tools RNum F) (knn : list F -> F -> nat -> list (nat * nat)) (margin : nat) (fa fb : frame F) (pose : riso) (kept : list (nat * nat)) : Prop := {
  pa_data : exists order data inliers, NoDup order /\ (forall i j, (i, j) ∈ order <-> mutual knn (f_feats fa) (f_feats fb) margin i j) /\
    Forall2 (match_seen (t_bearing G) fa fb) order data /\ t_two_view G data = Some (pose, inliers) /\
    Forall2 (fun i m => order !! i = Some m) inliers kept;
  pa_enough : (two_view_minimum_robust_matches st <= length kept)%nat
}.

Section three.
Context {F : Type} (st : gsettings RNum) (G : tools RNum F) (fc ff fs : frame F) (ms1 ms2 : list (nat * nat)).
Definition triple_fits (maximum incidence : R) (p1 p2 : riso) (t : nat * nat * nat) : Prop :=
  common ms1 ms2 t /\ exists x, triple_seen (t_bearing G) fc ff fs t x /\ three_fit (t_triangulate G) maximum incidence p1 p2 x.
(** Matches far apart in all three frames. *)
Definition triples_apart (t t' : nat * nat * nat) : Prop := exists x y, triple_seen (t_bearing G) fc ff fs t x /\ triple_seen (t_bearing G) fc ff fs t' y /\
  let far u v := robust_view_bearing_pair_minimum_cosine_distance st < cosd u v in far x.1.1 y.1.1 /\ far x.1.2 y.1.2 /\ far x.2 y.2.
(** What is known of the poses [p1] and [p2] the first and the second frame get, when the pairs
    gave the poses [q1] and [q2] and the second one is scaled by [scale]. *)
Record three_started (q1 q2 : riso) (scale : R) (p1 p2 : riso) : Prop := {
  th_rigid : rigid p1 /\ rigid p2;
  th_scale : 0 <= scale /\ exists ts ratios, NoDup ts /\
    (forall t, t ∈ ts <-> triple_fits 1 (robust_observation_incidence_minimum_cosine_distance st) q1 q2 t /\
       exists x r, triple_seen (t_bearing G) fc ff fs t x /\ depth_ratio (t_triangulate G) q1 q2 x r /\ t_normal G r = true) /\
    Forall2 (fun t r => exists x, triple_seen (t_bearing G) fc ff fs t x /\ depth_ratio (t_triangulate G) q1 q2 x r) ts ratios /\
    (three_view_minimum_relative_scales st <= length ratios)%nat /\ middle ratios (scale * scale);
  th_apart : exists tt, NoDup tt /\ (robust_view_num_robust_bearing_pair st <= length tt)%nat /\ forall t t', (t, t') ∈ tt -> t <> t' /\ (t', t) ∉ tt /\ triples_apart t t' /\
    triple_fits 1 (robust_observation_incidence_minimum_cosine_distance st) q1 (pose_scale q2 scale) t /\ triple_fits 1 (robust_observation_incidence_minimum_cosine_distance st) q1 (pose_scale q2 scale) t';
  th_robust : exists k n, exactly k (triple_fits 1 (robust_observation_incidence_minimum_cosine_distance st) q1 (pose_scale q2 scale)) /\
    exactly n (triple_fits (maximum_cosine_distance st) (robust_observation_incidence_minimum_cosine_distance st) p1 p2) /\
    (let used := Nat.min (three_view_optimization_landmarks st) k in 32 <= used /\ Nat.div used 2 < n /\ three_view_minimum_robust_matches st <= n)%nat;
  th_perfect : (forall t x, common ms1 ms2 t -> triple_seen (t_bearing G) fc ff fs t x -> three_agree (q1, pose_scale q2 scale) x) -> p1 = q1 /\ p2 = pose_scale q2 scale
}.
(** Which matches of the centre frame with the first (second) frame are kept: one which extends
    to a match in all three frames must fit there, another one must satisfy the epipolar
    constraint. *)
Definition kept_first (p1 p2 : riso) (m : nat * nat) : Prop := m ∈ ms1 /\
  ((exists z, triple_fits (maximum_cosine_distance st) 0 p1 p2 (m.1, m.2, z)) \/
   (forall z, (m.1, z) ∉ ms2) /\ exists ab, match_seen (t_bearing G) fc ff m ab /\ pair_error (iso_id, ab.1) (p1, ab.2) < maximum_sine_distance st).
Definition kept_second (p1 p2 : riso) (m : nat * nat) : Prop := m ∈ ms2 /\
  ((exists z, triple_fits (maximum_cosine_distance st) 0 p1 p2 (m.1, z, m.2)) \/
   (forall z, (m.1, z) ∉ ms1) /\ exists ab, match_seen (t_bearing G) fc fs m ab /\ pair_error (iso_id, ab.1) (p2, ab.2) < maximum_sine_distance st).
End three.

(** A noise-free scene for the start: a frame [k] was taken by the camera [cam k] (relative to the
    one of the centre frame), what it shares with the centre frame are bearings of points off the
    line through the two cameras, and the consensus process finds the camera up to the length of its translation. *)
Record exact_pair_scene {F} (st : gsettings RNum) (G : tools RNum F) (knn : list F -> F -> nat -> list (nat * nat)) (margin : nat) (fc fk : frame F) (cam : riso) : Prop := {
  ep_rigid : rigid cam;
  ep_matches : forall i j ab, mutual knn (f_feats fc) (f_feats fk) margin i j -> match_seen (t_bearing G) fc fk (i, j) ab ->
    (exists q, exact_rays q [(iso_id, ab.1); (cam, ab.2)]) /\ resolved [(iso_id, ab.1); (cam, ab.2)];
  ep_consensus : forall order data, NoDup order -> (forall i j, (i, j) ∈ order <-> mutual knn (f_feats fc) (f_feats fk) margin i j) -> Forall2 (match_seen (t_bearing G) fc fk) order data ->
    (two_view_minimum_robust_matches st <= length data)%nat -> exists lambda, 0 < lambda /\ t_two_view G data = Some (pose_scale cam lambda, seq 0 (length data))
}.
(** Features matched in all three frames belong to one point. *)
Definition exact_triples {F} (G : tools RNum F) (knn : list F -> F -> nat -> list (nat * nat)) (margin : nat) (fc ff fs : frame F) (c1 c2 : riso) : Prop :=
  forall i j k x, mutual knn (f_feats fc) (f_feats ff) margin i j -> mutual knn (f_feats fc) (f_feats fs) margin i k -> triple_seen (t_bearing G) fc ff fs (i, j, k) x ->
    exists q, exact_rays q (three_rays c1 c2 x).
(** Enough is shared to start with: by two frames, *)
Definition enough_pair {F} (st : gsettings RNum) (knn : list F -> F -> nat -> list (nat * nat)) (margin : nat) (fc fk : frame F) : Prop :=
  exists n, exactly n (fun m : nat * nat => mutual knn (f_feats fc) (f_feats fk) margin m.1 m.2) /\ (two_view_minimum_robust_matches st <= n)%nat.
(** and by three: enough features are matched in all of them, all seen under wide enough angles
    and (among any 32) enough of them far apart, and enough of them can be used to compare the
    lengths of the translations the consensus process answers. *)
Definition in_three {F} (knn : list F -> F -> nat -> list (nat * nat)) (margin : nat) (fc ff fs : frame F) (t : nat * nat * nat) : Prop :=
  mutual knn (f_feats fc) (f_feats ff) margin t.1.1 t.1.2 /\ mutual knn (f_feats fc) (f_feats fs) margin t.1.1 t.2.
Record enough_triples {F} (st : gsettings RNum) (G : tools RNum F) (knn : list F -> F -> nat -> list (nat * nat)) (margin : nat) (fc ff fs : frame F) (c1 c2 : riso) : Prop := {
  en_count : exists n, exactly n (in_three knn margin fc ff fs) /\ (32 <= n /\ three_view_minimum_robust_matches st <= n)%nat;
  en_wide : forall t x, in_three knn margin fc ff fs t -> triple_seen (t_bearing G) fc ff fs t x ->
    exists i j y z, i <> j /\ three_rays c1 c2 x !! i = Some y /\ three_rays c1 c2 x !! j = Some z /\ robust_observation_incidence_minimum_cosine_distance st < cosd (direction y) (direction z);
  en_apart : forall sel, NoDup sel -> (forall t, t ∈ sel -> in_three knn margin fc ff fs t) -> (32 <= length sel)%nat ->
    exists tt, NoDup tt /\ (robust_view_num_robust_bearing_pair st <= length tt)%nat /\ forall t t', (t, t') ∈ tt -> t ∈ sel /\ t' ∈ sel /\ t <> t' /\ (t', t) ∉ tt /\ triples_apart st G fc ff fs t t';
  en_scales : forall q1 q2 k1 k2, pair_started st G knn margin fc ff q1 k1 -> pair_started st G knn margin fc fs q2 k2 ->
    exists m, exactly m (fun t => triple_fits G fc ff fs k1 k2 1 (robust_observation_incidence_minimum_cosine_distance st) q1 q2 t /\
        exists x r, triple_seen (t_bearing G) fc ff fs t x /\ depth_ratio (t_triangulate G) q1 q2 x r /\ t_normal G r = true) /\
      (0 < m /\ three_view_minimum_relative_scales st <= m)%nat
}.
