(** The mapping code over isometries: the pose update of one view and the rescaling of a
    reconstruction (cv-sfm/src/lib.rs). *)
From stdpp Require Import gmap list.
From Coq Require Import ZArith.
From Verif Require Import Outcome Num Lin Core Sfm.

Section pose.
Context {N : Num}.

(** lib.rs 1906-1935, the numerical part of [constrain_view]: [world_to_view] is the pose of
    the view, each edge has the expected transform from the other view and the pose of the
    other view; [scale] is the rate. *)
Definition pose_update (T : trig N) (scale : N) (world_to_view : iso N) (edges : list (iso N * iso N)) : option (iso N) :=
  let view_to_world := iso_inv world_to_view in
  let net := se3_scale (se3_sum (map (fun ex => pose_se3 T (iso_mul (iso_mul ex.1 ex.2) view_to_world)) edges)) scale in
  if forallb isfin (se3_to_vec net) then Some (iso_mul (pose_from_se3 T net) world_to_view) else None.

(** The running mean of the [average] crate; 0 when there is nothing. *)
Definition running_mean (l : list N) : N :=
  (fold_left (fun acc x => let n := (acc.2 + 1)%Z in ((acc.1 + (x - acc.1) / ofZ n)%num, n)) l (zero, 0%Z)).1.

(** lib.rs 2251-2258: the mean distance of the robust landmarks of the first view.
    [triangulate] is [triangulate_landmark_robust], an oracle. *)
Definition view_distances (triangulate : key -> option (vec4 N)) (w : view (iso N)) : list N :=
  omap (fun l => match triangulate l with
                 | Some p => match point (transform (v_pose w) p) with Some q => Some (norm q) | None => None end
                 | None => None
                 end) (v_lms w).
Definition mean_distance (triangulate : key -> option (vec4 N)) (w : view (iso N)) : N :=
  running_mean (view_distances triangulate w).

(** lib.rs 2260-2265, 2272, 2279: the rescaling of translations, nothing unless the mean is a
    normal number ([normal] is [f64::is_normal]). *)
Definition rescale_by (normal : N -> bool) (triangulate : key -> option (vec4 N)) (w : view (iso N)) : option (iso N -> iso N) :=
  let m := mean_distance triangulate w in
  if normal m then Some (fun p => pose_scale p (one / m)%num) else None.
End pose.
