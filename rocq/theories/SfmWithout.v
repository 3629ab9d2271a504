(** Judging a landmark without one of its views, and the debugging check of the two indexes
    (cv-sfm/src/lib.rs 356-374, 3002-3045, 3054-3098). *)
From stdpp Require Import gmap list.
From Verif Require Import Outcome Num Lin Core Geom Sfm SfmPose SfmGeom.
Open Scope nat_scope.

Section model.
Context {N : Num} {F : Type} (st : gsettings N) (G : tools N F).
Implicit Types (o : orders) (d : vdata (iso N) F) (rc : recon (iso N)) (l v : key).

(** lib.rs 364-366, 3010-3012: the observations in other views, in the order of the hash map. *)
Definition observations_without o rc l v : list (key * nat) := filter (fun x : key * nat => x.1 <> v) (landmark_observations o rc l).

(** lib.rs 3003-3026 [is_landmark_robust_without_view]. *)
Definition robust_without o d rc l v : bool :=
  existsb (fun ab => incident (robust_observation_incidence_minimum_cosine_distance st) ab.1 ab.2)
    (pairs (world_ray <$> pose_bearings G d rc (observations_without o rc l v))).

(** lib.rs 3029-3044 [triangulate_landmark_robust_without_view]. *)
Definition triangulate_without o d rc l v : option (vec4 N) :=
  if robust_without o d rc l v then t_triangulate G (pose_bearings G d rc (observations_without o rc l v)) else None.
End model.

(** What [sanity_check] logs as an error: a view, a feature, the landmark it is assigned, and, if
    there is such a landmark, the feature of this view the landmark lists instead. *)
Inductive report :=
| NoLandmark (v : key) (f : nat) (l : key)
| NotListed (v : key) (f : nat) (l : key) (found : option nat).

(** lib.rs 3060-3098 [sanity_check].  Simplification: the errors are collected, not logged; the
    views are taken in an arbitrary but fixed order. *)
Definition check_feature {P} (rc : recon P) (v : key) (f : nat) (l : key) : list report :=
  match sm_get (r_lms rc) l with
  | None => [NoLandmark v f l]
  | Some m => if bool_decide (m !! v = Some f) then [] else [NotListed v f l (m !! v)]
  end.
Definition sanity_check {P} (rc : recon P) : list report :=
  mjoin ((fun vw : key * view P => mjoin (imap (check_feature rc vw.1) (v_lms vw.2))) <$> map_to_list (sm_map (r_views rc))).
