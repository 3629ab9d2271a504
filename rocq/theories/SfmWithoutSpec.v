(** Specification for C82 and C83: a landmark seen without one view, and the reports of the
    debugging check. *)
From stdpp Require Import gmap list.
From Coq Require Import Reals.
From Verif Require Import Num Lin LinSpec Core Geom GeomSpec Sfm SfmSpec SfmPose SfmPoseSpec SfmGeom SfmGeomSpec SfmWithout.
Open Scope nat_scope.

Section spec.
Context {F : Type} (bearing_of : F -> rvec3).
Implicit Types (rc : recon riso) (d : vdata riso F).

(** Two views other than [v] see landmark [l] under rays which differ by more than [incidence]. *)
Definition wide_without (incidence : R) d rc (l v : key) : Prop :=
  exists x y px py, x <> y /\ x.1 <> v /\ y.1 <> v /\ assigned rc x.1 x.2 l /\ assigned rc y.1 y.2 l /\
    observed bearing_of d rc x px /\ observed bearing_of d rc y py /\ (incidence < cosd (direction px) (direction py))%R.

(** [ps] are the observations of landmark [l] in views other than [v], in the order of its map. *)
Definition listed_without (o : orders) d rc (l v : key) (ps : list (riso * rvec3)) : Prop :=
  exists m, has_landmark rc l m /\ Forall2 (observed bearing_of d rc) (filter (fun x : key * nat => x.1 <> v) (obs_list o l m)) ps.

(** Landmark [l] is robust (C60) when view [v] is ignored: enough other views observe it, or all
    other views, and two of them under different rays. *)
Definition robust_ignoring (minimum : nat) (incidence : R) d rc (l v : key) : Prop :=
  (exists m, has_landmark rc l m /\ (minimum <= size (delete v m) \/ size (delete v (sm_map (r_views rc))) <= size (delete v m))) /\
  wide_without incidence d rc l v.
End spec.

(** Two reconstructions which differ at most in view [v]. *)
Definition same_but {P} (v : key) (rc rc' : recon P) : Prop :=
  r_lms rc' = r_lms rc /\ forall u, u <> v -> sm_map (r_views rc') !! u = sm_map (r_views rc) !! u.

(** A report is true. *)
Definition justified {P} (rc : recon P) (x : report) : Prop :=
  match x with
  | NoLandmark v f l => assigned rc v f l /\ ~ exists m, has_landmark rc l m
  | NotListed v f l found => assigned rc v f l /\ exists m, has_landmark rc l m /\ m !! v = found /\ found <> Some f
  end.
