(** The numerical verdicts of the mapping code (cv-sfm/src/lib.rs), which Sfm.v leaves open: which
    landmarks are robust, which observations agree, when two, three and single views are
    accepted.  At the end they are put together to an [env] of Sfm.v.

    Every function here is only asked about views, frames and features which exist: Sfm.v checks
    that first ([obs_readable]); for others the value is arbitrary. *)
From stdpp Require Import gmap list.
From Coq Require Import ZArith.
From Verif Require Import Outcome Num Lin Core Geom Optimize Matching Sfm SfmPose.

Open Scope nat_scope.

Section geometry.
Context {N : Num} (T : trig N) {F : Type}.

(** settings.rs 7-262: the settings the numerical code uses. *)
Record gsettings := GSettings {
  maximum_cosine_distance : N;
  maximum_sine_distance : N;
  robust_view_bearing_pair_minimum_cosine_distance : N;
  robust_view_num_robust_bearing_pair : nat;
  minimum_robust_landmarks : nat;
  robust_minimum_observations : nat;
  robust_observation_incidence_minimum_cosine_distance : N;
  single_view_optimization_num_matches : nat;
  single_view_filter_loop_iterations : nat;
  single_view_patience : nat;
  single_view_optimization_rate : N;
  single_view_minimum_landmarks : nat;
  single_view_minimum_robust_landmarks : nat;
  two_view_minimum_robust_matches : nat;
  three_view_patience : nat;
  three_view_minimum_relative_scales : nat;
  three_view_filter_loop_iterations : nat;
  three_view_optimization_landmarks : nat;
  three_view_minimum_robust_matches : nat;
  optimization_minimum_landmarks : nat;
  optimization_maximum_landmarks : nat;
  constraint_patience : nat;
  graph_optimization_rate : N
}.

(** What is not modelled: the bearing of a feature (cv-pinhole), the triangulator, the two sample
    consensus processes (inlier positions), the arc sine, [f64::is_normal], and random
    permutations of [0 .. n-1], which may differ from call to call (the first argument names the
    call). *)
Record tools := Tools {
  t_bearing : F -> vec3 N;
  t_triangulate : list (observation N) -> option (vec4 N);
  t_two_view : list (vec3 N * vec3 N) -> option (iso N * list nat);
  t_single_view : list (vec3 N * vec4 N) -> option (iso N * list nat);
  t_asin : N -> N;
  t_normal : N -> bool;
  t_shuffle : list key -> nat -> list nat
}.
Context (st : gsettings) (G : tools).
Notation vdata := (vdata (iso N) F).
Notation recon := (recon (iso N)).

(** [shuffle] *)
Definition shuffled {A} (call : list key) (l : list A) : list A := omap (fun i => l !! i) (t_shuffle G call (length l)).

(** Stable sorting by a number of observations, most first ([cmp::Reverse]). *)
Fixpoint insert_most {A} (count : A -> nat) (x : A) (l : list A) : list A :=
  match l with
  | [] => [x]
  | y :: l' => if count y <=? count x then x :: l else y :: insert_most count x l'
  end.
Definition sort_most {A} (count : A -> nat) (l : list A) : list A := foldr (insert_most count) [] l.

(** Sorting by [FloatOrd]. *)
Fixpoint insert_float (x : N) (l : list N) : list N :=
  match l with
  | [] => [x]
  | y :: l' => if float_ord_ltb y x then y :: insert_float x l' else x :: l
  end.
Definition sort_float (l : list N) : list N := foldr insert_float [] l.

(** ** Reading observations *)

(** lib.rs 87-89 [Frame::bearing]. *)
Definition frame_bearing (fr : frame F) (f : nat) : option (vec3 N) := t_bearing G <$> f_feats fr !! f.
(** lib.rs 235-237, 293-300 [observation_bearing]. *)
Definition observation_bearing (d : vdata) (rc : recon) (v : key) (f : nat) : option (vec3 N) :=
  match sm_get (r_views rc) v with
  | None => None
  | Some w => match sm_get (d_frames d) (v_frame w) with
              | None => None
              | Some fr => frame_bearing fr f
              end
  end.
(** lib.rs 340-354 [landmark_pose_bearings], for any observations. *)
Definition pose_bearing (d : vdata) (rc : recon) (x : key * nat) : option (observation N) :=
  match sm_get (r_views rc) x.1, observation_bearing d rc x.1 x.2 with
  | Some w, Some b => Some (v_pose w, b)
  | _, _ => None
  end.
Definition pose_bearings (d : vdata) (rc : recon) (l : list (key * nat)) : list (observation N) := omap (pose_bearing d rc) l.
(** lib.rs 328-337 [landmark_observations]. *)
Definition landmark_observations (o : orders) (rc : recon) (l : key) : list (key * nat) :=
  match sm_get (r_lms rc) l with Some m => obs_list o l m | None => [] end.
Definition landmarks_observations (o : orders) (rc : recon) (ls : list key) : list (key * nat) :=
  mjoin (landmark_observations o rc <$> ls).

(** ** Robustness *)

(** The distance [1 - a.b] between unit vectors used throughout. *)
Definition cosine_distance (a b : vec3 N) : N := (one - dot a b)%num.

(** lib.rs 2895-2905 [is_bi_observation_angularly_robust]. *)
Definition incident (minimum : N) (a b : vec3 N) : bool := (minimum <? cosine_distance a b)%num.

(** lib.rs 2917-2921: the bearing of an observation turned into the world. *)
Definition world_ray (x : observation N) : vec3 N := turn (iso_inv x.1) x.2.

(** lib.rs 2907-2934 [are_observations_robust]. *)
Definition observations_robust (d : vdata) (rc : recon) (l : list (key * nat)) : bool :=
  (Nat.min (robust_minimum_observations st) (sm_size (r_views rc)) <=? length l) &&
  existsb (fun ab => incident (robust_observation_incidence_minimum_cosine_distance st) ab.1 ab.2)
    (pairs (world_ray <$> pose_bearings d rc l)).

(** lib.rs 2940-2954, 2978-2990 [is_merged_landmark_robust] for two landmarks,
    [is_landmark_robust] for one. *)
Definition landmarks_robust (o : orders) (d : vdata) (rc : recon) (ls : list key) : bool :=
  observations_robust d rc (landmarks_observations o rc ls).

(** lib.rs 2960-2975, 2993-3004 [triangulate_merged_landmark_robust],
    [triangulate_landmark_robust]. *)
Definition triangulate_robust (o : orders) (d : vdata) (rc : recon) (ls : list key) : option (vec4 N) :=
  if landmarks_robust o d rc ls then t_triangulate G (pose_bearings d rc (landmarks_observations o rc ls)) else None.

(** lib.rs 2874-2893 [triangulate_landmark]. *)
Definition triangulate_landmark (o : orders) (d : vdata) (rc : recon) (l : key) : option (vec4 N) :=
  if 2 <=? length (landmark_observations o rc l) then t_triangulate G (pose_bearings d rc (landmark_observations o rc l)) else None.

(** The distance of an observation from a triangulated point, [1 - bearing(point).bearing]. *)
Definition point_distance (p : vec4 N) (x : observation N) : N := cosine_distance (bearing (transform x.1 p)) x.2.

(** lib.rs 1304-1317 [is_bi_landmark_robust]. *)
Definition bi_loss (pose : iso N) (a b : vec3 N) : N := epipolar_loss (trans pose) (turn pose a) b.
Definition bi_robust (pose : iso N) (a b : vec3 N) : bool := (bi_loss pose a b <? maximum_sine_distance st)%num.

(** lib.rs 1320-1360 [is_tri_landmark_robust]. *)
Definition tri_robust (first second : iso N) (maximum minimum : N) (x : three_bearings) : bool :=
  let '(c, f, s) := x in
  match to_camera (t_triangulate G) c [(first, f); (second, s)] with
  | None => false
  | Some p =>
      let f_in_c := turn (iso_inv first) f in
      let s_in_c := turn (iso_inv second) s in
      ((cosine_distance (bearing p) c <? maximum)%num && (point_distance p (first, f) <? maximum)%num &&
       (point_distance p (second, s) <? maximum)%num) &&
      (incident minimum c f_in_c || incident minimum c s_in_c || incident minimum f_in_c s_in_c)
  end.

(** lib.rs 2622-2655 [is_observation_consistent]; without other observations it is
    [unreachable!]. *)
Definition consistent (pose : iso N) (b : vec3 N) (others : list (observation N)) : bool :=
  match others with
  | [] => false
  | [(q, c)] => bi_robust (iso_mul q (iso_inv pose)) b c
  | _ =>
      match t_triangulate G (others ++ [(pose, b)]) with
      | None => false
      | Some p => forallb (fun x => (point_distance p x <? maximum_cosine_distance st)%num) (others ++ [(pose, b)])
      end
  end.

(** lib.rs 2570-2619 [observation_loss]. *)
Definition observation_loss (o : orders) (d : vdata) (rc : recon) (v : key) (f : nat) : N :=
  let two := (one + one)%num in
  match obs_landmark rc v f with
  | Ok l =>
      match landmark_observations o rc l with
      | [] | [_] => two
      | [x; y] =>
          match pose_bearing d rc x, pose_bearing d rc y with
          | Some (p, a), Some (q, b) => (one - t_cos T (t_asin G (bi_loss (iso_mul q (iso_inv p)) a b)))%num
          | _, _ => two
          end
      | _ =>
          match triangulate_landmark o d rc l, pose_bearing d rc (v, f) with
          | Some p, Some x => point_distance p x
          | _, _ => two
          end
      end
  | _ => two
  end.

(** lib.rs 1974-1990, 1090-1098 and 2011-2021: pairs of landmarks far apart in every view. *)
Definition apart (a b : three_bearings) : bool :=
  let far x y := (robust_view_bearing_pair_minimum_cosine_distance st <? cosine_distance x y)%num in
  far a.1.1 b.1.1 && far a.1.2 b.1.2 && far a.2 b.2.
Definition robust_pairs (l : list three_bearings) : nat := length (filter (fun ab => apart ab.1 ab.2 = true) (pairs l)).

(** ** Constraints *)

(** lib.rs 1939-2062 [optimize_three_view].  Shuffling followed by an unstable sort is a shuffle
    followed by a stable one. *)
Definition landmark_bearing (d : vdata) (rc : recon) (l v : key) : option (vec3 N) :=
  match sm_get (r_lms rc) l with
  | None => None
  | Some m => match m !! v with None => None | Some f => observation_bearing d rc v f end
  end.
Definition landmark_bearings (d : vdata) (rc : recon) (t : key * key * key) (l : key) : option three_bearings :=
  match landmark_bearing d rc l t.1.1, landmark_bearing d rc l t.1.2, landmark_bearing d rc l t.2 with
  | Some a, Some b, Some c => Some (a, b, c)
  | _, _, _ => None
  end.
Definition observation_count (rc : recon) (l : key) : nat := match sm_get (r_lms rc) l with Some m => size m | None => 0 end.
Definition both_lengths (ps : iso N * iso N) : N := (norm (trans ps.1) + norm (trans ps.2))%num.
Definition opti_matches (d : vdata) (rc : recon) (t : key * key * key) (ls : list key) : list three_bearings :=
  take (optimization_maximum_landmarks st)
    (omap (landmark_bearings d rc t) (sort_most (observation_count rc) (shuffled [t.1.1; t.1.2; t.2] ls))).
Definition relative_poses (rc : recon) (t : key * key * key) : option (iso N * iso N) :=
  match sm_get (r_views rc) t.1.1, sm_get (r_views rc) t.1.2, sm_get (r_views rc) t.2 with
  | Some a, Some b, Some c =>
      Some (iso_mul (v_pose b) (iso_inv (v_pose a)), iso_mul (v_pose c) (iso_inv (v_pose a)))
  | _, _, _ => None
  end.
Definition optimize_three_view (d : vdata) (rc : recon) (t : key * key * key) (ls : list key) : option (iso N * iso N) :=
  if length ls <? optimization_minimum_landmarks st then None
  else
    match relative_poses rc t with
    | None => None
    | Some ps =>
        let ms := opti_matches d rc t ls in
        if robust_pairs ms <? robust_view_num_robust_bearing_pair st then None
        else
          let ps' := three_view_adaptive T ps (constraint_patience st) ms in
          let scale := (both_lengths ps / both_lengths ps')%num in
          Some (pose_scale ps'.1 scale, pose_scale ps'.2 scale)
    end.

(** ** Two-view initialisation *)

(** lib.rs 1379-1428: the consensus works on the shuffled matches; positions are translated back
    to matching order. *)
Definition match_bearings (fa fb : frame F) (m : nat * nat) : option (vec3 N * vec3 N) :=
  match frame_bearing fa m.1, frame_bearing fb m.2 with
  | Some a, Some b => Some (a, b)
  | _, _ => None
  end.
Definition two_view (d : vdata) (a b : key) (ms : list (nat * nat)) : option (iso N * list nat) :=
  match sm_get (d_frames d) a, sm_get (d_frames d) b with
  | Some fa, Some fb =>
      let order := shuffled [a; b] (seq 0 (length ms)) in
      match t_two_view G (omap (match_bearings fa fb) (omap (fun i => ms !! i) order)) with
      | None => None
      | Some (pose, inliers) =>
          let kept := omap (fun i => order !! i) inliers in
          if length kept <? two_view_minimum_robust_matches st then None else Some (pose, kept)
      end
  | _, _ => None
  end.

(** ** Three-view initialisation *)

(** lib.rs 1002-1037: the squared ratio of the distances of a point from the centre, by the first
    and by the second pair. *)
Definition relative_scale (first second : iso N) (x : three_bearings) : option N :=
  if tri_robust first second one (robust_observation_incidence_minimum_cosine_distance st) x then
    let '(c, f, s) := x in
    match relative (t_triangulate G) first c f with
    | None => None
    | Some fp =>
      match point fp with
      | None => None
      | Some fp =>
        match relative (t_triangulate G) second c s with
        | None => None
        | Some sp =>
          match point sp with
          | None => None
          | Some sp => let ratio := (norm2 fp / norm2 sp)%num in if t_normal G ratio then Some ratio else None
          end
        end
      end
    end
  else None.

(** The robust ones of some matches, at most so many (lib.rs 1063-1083, 1139-1161). *)
Definition three_selection (poses : iso N * iso N) (maximum : N) (l : list three_bearings) : list three_bearings :=
  take (three_view_optimization_landmarks st)
    (filter (fun x => tri_robust poses.1 poses.2 maximum (robust_observation_incidence_minimum_cosine_distance st) x = true) l).

(** lib.rs 1113-1162: the filter loop, with the checks and the optimisation after it
    (1164-1193).  [rate] is 0.001. *)
Definition three_rate : N := (one / ofZ 1000)%num.
Definition three_optimize (poses : iso N * iso N) (used : list three_bearings) : iso N * iso N :=
  three_view_l2 T poses three_rate (three_view_patience st) used.
Fixpoint three_loop (n minimum : nat) (l : list three_bearings) (poses : iso N * iso N) (used : list three_bearings)
    : option (iso N * iso N) :=
  if (length used <? 32) || (length used <=? minimum) then None
  else
    let poses' := three_optimize poses used in
    match n with
    | 0 => Some poses'
    | S n' => three_loop n' minimum l poses' (three_selection poses' (maximum_cosine_distance st) l)
    end.

(** lib.rs 986-1301: one pair of options.  [continue] is [TVskip], [return None] is [TVfail]. *)
Definition three_bearings_of (fc ff fs : frame F) (m : nat * nat * nat) : option three_bearings :=
  match frame_bearing fc m.1.1, frame_bearing ff m.1.2, frame_bearing fs m.2 with
  | Some c, Some f, Some s => Some (c, f, s)
  | _, _, _ => None
  end.
Definition three_accept (fc ff fs : frame F) (poses : iso N * iso N) : three_view_verdict (iso N) :=
  TVaccept poses.1 poses.2
    (fun m => match three_bearings_of fc ff fs m with
              | Some x => tri_robust poses.1 poses.2 (maximum_cosine_distance st) zero x
              | None => false
              end)
    (fun m => match match_bearings fc ff m with Some (c, f) => bi_robust poses.1 c f | None => false end)
    (fun m => match match_bearings fc fs m with Some (c, s) => bi_robust poses.2 c s | None => false end).
Definition three_view (d : vdata) (center : key) (x y : key * (iso N * list (nat * nat))) : three_view_verdict (iso N) :=
  let '(first, (first_pose, firsts)) := x in
  let '(second, (second_pose, seconds)) := y in
  match sm_get (d_frames d) center, sm_get (d_frames d) first, sm_get (d_frames d) second with
  | Some fc, Some ff, Some fs =>
      let common := shuffled [center; first; second] (common_matches firsts seconds) in
      let l := omap (three_bearings_of fc ff fs) common in
      let scales := omap (relative_scale first_pose second_pose) l in
      if length scales <? three_view_minimum_relative_scales st then TVskip
      else
        match sort_float scales !! Nat.div (length scales) 2 with
        | None => TVskip                                                (* index out of bounds, if no scale is required *)
        | Some median =>
            let poses := (first_pose, pose_scale second_pose (sqrt_ median)) in
            let used := three_selection poses one l in
            if robust_pairs used <? robust_view_num_robust_bearing_pair st then TVfail
            else
              let minimum := Nat.div (length used) 2 in
              match three_loop (three_view_filter_loop_iterations st) minimum l poses used with
              | None => TVskip
              | Some poses' =>
                  let robust := length (filter (fun x => tri_robust poses'.1 poses'.2 (maximum_cosine_distance st)
                                          (robust_observation_incidence_minimum_cosine_distance st) x = true) l) in
                  if (robust <=? minimum) || (robust <? three_view_minimum_robust_matches st) then TVskip
                  else three_accept fc ff fs poses'
              end
        end
  | _, _, _ => TVskip
  end.

(** ** Registration *)

(** lib.rs 1580-1604, 1650-1676: the feature with its robust landmark. *)
Definition match_point (o : orders) (d : vdata) (rc : recon) (fr : frame F) (m : list key * nat) : option (vec3 N * vec4 N) :=
  match frame_bearing fr m.2, triangulate_robust o d rc m.1 with
  | Some b, Some p => Some (b, p)
  | _, _ => None
  end.
Definition match_consistent (o : orders) (d : vdata) (rc : recon) (fr : frame F) (pose : iso N) (m : list key * nat) : bool :=
  match frame_bearing fr m.2 with
  | Some b => consistent pose b (pose_bearings d rc (landmarks_observations o rc m.1))
  | None => false
  end.
Definition consistent_points (o : orders) (d : vdata) (rc : recon) (fr : frame F) (ms : list (list key * nat)) (pose : iso N)
    : list (vec3 N * vec4 N) :=
  take (single_view_optimization_num_matches st)
    (omap (match_point o d rc fr) (filter (fun m => match_consistent o d rc fr pose m = true) ms)).

(** lib.rs 1640-1695: the filter loop, the check and the optimisation after it. *)
Definition single_optimize (pose : iso N) (used : list (vec3 N * vec4 N)) : iso N :=
  single_view_l2 T pose (single_view_optimization_rate st) (single_view_patience st) used.
Fixpoint single_loop (again : iso N -> list (vec3 N * vec4 N)) (n minimum : nat) (pose : iso N) (used : list (vec3 N * vec4 N))
    : option (iso N) :=
  if length used <=? minimum then None
  else
    let pose' := single_optimize pose used in
    match n with
    | 0 => Some pose'
    | S n' => single_loop again n' minimum pose' (again pose')
    end.

(** lib.rs 1563-1776: the part of [register_frame_subset] after the unambiguous matches [ms] are
    found. *)
Definition register (o : orders) (d : vdata) (rc : recon) (fr : frame F) (ms : list (list key * nat))
    : option (iso N * (list key * nat -> bool)) :=
  let ms := sort_most (fun m : list key * nat => foldr Nat.add 0 (observation_count rc <$> m.1)) ms in
  let points := omap (match_point o d rc fr) ms in
  if length points <? single_view_minimum_landmarks st then None
  else
    match t_single_view G points with
    | None => None
    | Some (pose, inliers) =>
        let used := take (single_view_optimization_num_matches st) (omap (fun i => points !! i) inliers) in
        let minimum := Nat.div (length used) 2 in
        match single_loop (consistent_points o d rc fr ms) (single_view_filter_loop_iterations st) minimum pose used with
        | None => None
        | Some pose' =>
            let good := filter (fun m => match_consistent o d rc fr pose' m = true) ms in
            let robust := length (omap (match_point o d rc fr) good) in
            if robust <=? minimum then None
            else if length good <? single_view_minimum_robust_landmarks st then None
            else Some (pose', match_consistent o d rc fr pose')
        end
    end.

(** ** The whole environment of the mapping code *)
Definition on_recon {A} (d : vdata) (r : key) (default : A) (k : recon -> A) : A :=
  match sm_get (d_recs d) r with Some rc => k rc | None => default end.

(** lib.rs 2688-2711: the two observations of a landmark agree. *)
Definition pair_agrees (o : orders) (d : vdata) (rc : recon) (l : key) : bool :=
  match pose_bearings d rc (landmark_observations o rc l) with
  | [(p, a); (q, b)] => bi_robust (iso_mul q (iso_inv p)) a b
  | _ => false
  end.
(** lib.rs 2713-2726: which observations are too far from the triangulated point. *)
Definition outliers (o : orders) (d : vdata) (rc : recon) (l : key) : option (key * nat -> bool) :=
  match triangulate_landmark o d rc l with
  | None => None
  | Some p => Some (fun x => match pose_bearing d rc x with
                             | Some y => (maximum_cosine_distance st <? point_distance p y)%num
                             | None => false
                             end)
  end.
(** lib.rs 2738-2747. *)
Definition robust_landmark_count (o : orders) (d : vdata) (rc : recon) : nat :=
  length (filter (fun l => landmarks_robust o d rc [l] = true) (elements (sm_keys (r_lms rc)))).
(** lib.rs 2838-2850: [max_by_key] takes the last one among equals. *)
Definition second_worse (o : orders) (d : vdata) (rc : recon) (v : key) (fa fb : nat) : bool :=
  negb (float_ord_ltb (observation_loss o d rc v fb) (observation_loss o d rc v fa)).

Definition geometric (o : orders) (similar : vdata -> key -> nat -> list key) (knn : list F -> F -> nat -> list (nat * nat))
    (sort : list (key * key * key * list key) -> list (key * key * key * list key)) (fuel : nat) : env (iso N) F := {|
  e_ord := o;
  e_similar := similar;
  e_knn := knn;
  e_two_view := two_view;
  e_three_view := three_view;
  e_register := fun d r k ms =>
    on_recon d r None (fun rc => match sm_get (d_frames d) k with Some fr => register o d rc fr ms | None => None end);
  e_robust := fun d r l => on_recon d r false (fun rc => match triangulate_robust o d rc [l] with Some _ => true | None => false end);
  e_bi_robust := fun d r l => on_recon d r false (fun rc => pair_agrees o d rc l);
  e_disagree := fun d r l => on_recon d r None (fun rc => outliers o d rc l);
  e_too_few := fun d r => on_recon d r false (fun rc => robust_landmark_count o d rc <? minimum_robust_landmarks st);
  e_optimize3 := fun d r t ls => on_recon d r None (fun rc => optimize_three_view d rc t ls);
  e_sort := sort;
  e_update := pose_update T (graph_optimization_rate st);
  e_second_worse := fun d r v fa fb => on_recon d r false (fun rc => second_worse o d rc v fa fb);
  e_rescale := fun d r v => on_recon d r None (fun rc =>
    match sm_get (r_views rc) v with
    | Some w => rescale_by (t_normal G) (fun l => triangulate_robust o d rc [l]) w
    | None => None
    end);
  e_fuel := fuel
|}.
End geometry.
Arguments gsettings : clear implicits.
Arguments tools : clear implicits.
