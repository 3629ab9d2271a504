(** Model of cv-pinhole: camera intrinsics, distortion, camera specifications, reprojection
    errors (lib.rs) and essential matrices (essential.rs).  [Vector2]/[Point2] is [vec2];
    [KeyPoint] is a [vec2]; a bearing ([UnitVector3]) is a [vec3]. *)
From Coq Require Import ZArith List Bool.
From Verif Require Import Num Lin Core.
Import ListNotations.
Open Scope num_scope.

Record vec2 (N : Num) : Type := V2 { px : N; py : N }.
Arguments V2 {N}. Arguments px {N}. Arguments py {N}.

Section pinhole.
Context {N : Num}.

Definition norm2_2 (v : vec2 N) : N := px v * px v + py v * py v.
Definition norm_2 (v : vec2 N) : N := sqrt_ (norm2_2 v).
Definition sub_2 (u v : vec2 N) : vec2 N := V2 (px u - px v) (py u - py v).
(** [v.xy() / v.z]. *)
Definition dehomogenize (v : vec3 N) : vec2 N := V2 (vx v / vz v) (vy v / vz v).
(** [Point2::to_homogeneous]. *)
Definition homogeneous2 (v : vec2 N) : vec3 N := V3 (px v) (py v) one.

(** lib.rs 32-36 [CameraIntrinsics]. *)
Record intrinsics : Type := Intrinsics { focals : vec2 N; principal_point : vec2 N; skew : N }.

(** lib.rs 43-49 [identity] and 52-75: the setters. *)
Definition intrinsics_id : intrinsics := Intrinsics (V2 one one) (V2 zero zero) zero.
Definition set_focals (k : intrinsics) (f : vec2 N) : intrinsics := Intrinsics f (principal_point k) (skew k).
Definition set_focal (k : intrinsics) (f : N) : intrinsics := Intrinsics (V2 f f) (principal_point k) (skew k).
Definition set_principal_point (k : intrinsics) (p : vec2 N) : intrinsics := Intrinsics (focals k) p (skew k).
Definition set_skew (k : intrinsics) (s : N) : intrinsics := Intrinsics (focals k) (principal_point k) s.

(** lib.rs 78-84 [matrix]. *)
Definition intrinsic_matrix (k : intrinsics) : mat3 N :=
  M3 (V3 (px (focals k)) (skew k) (px (principal_point k)))
     (V3 zero (py (focals k)) (py (principal_point k)))
     (V3 zero zero one).

(** lib.rs 112-114 and 195-197: from pixels to the plane at depth one. *)
Definition to_plane (k : intrinsics) (p : vec2 N) : vec2 N :=
  let centered := sub_2 p (principal_point k) in
  let y := py centered / py (focals k) in
  V2 ((px centered - skew k * y) / px (focals k)) y.
(** lib.rs 137-140 and 233-238: back. *)
Definition from_plane (k : intrinsics) (v : vec2 N) : vec2 N :=
  let y := py v * py (focals k) in
  let x := px v * px (focals k) + skew k * py v in
  V2 (x + px (principal_point k)) (y + py (principal_point k)).

(** lib.rs 108-116 and 134-141. *)
Definition calibrate (k : intrinsics) (p : vec2 N) : vec3 N := normalize (homogeneous2 (to_plane k p)).
Definition uncalibrate (k : intrinsics) (b : vec3 N) : option (vec2 N) :=
  if signneg (vz b) then None else Some (from_plane k (dehomogenize b)).

(** lib.rs 191-202: the distortion is removed by a division. *)
Definition calibrate_k1 (k : intrinsics) (k1 : N) (p : vec2 N) : vec3 N :=
  let distorted := to_plane k p in
  let r2 := norm2_2 distorted in
  normalize (homogeneous2 (V2 (px distorted / (one + k1 * r2)) (py distorted / (one + k1 * r2)))).
(** lib.rs 224-239: the distortion is put back by solving a quadratic equation. *)
Definition uncalibrate_k1 (k : intrinsics) (k1 : N) (b : vec3 N) : option (vec2 N) :=
  if signneg (vz b) then None else
  let u := dehomogenize b in
  let u2 := norm2_2 u in
  let four := ofZ 4 in
  let r2_mul_k1 := - (two * k1 * u2 + sqrt_ (one - four * k1 * u2) - one) / (two * k1 * u2) in
  Some (from_plane k (V2 (px u * (one + r2_mul_k1)) (py u * (one + r2_mul_k1)))).

(** lib.rs 250-253 [CameraSpecification]; pixel counts are [usize]. *)
Record specification : Type := Specification { pixels : Z * Z; pixel_dimensions : vec2 N }.
(** lib.rs 257-265 [from_sensor], 268-274 [from_sensor_square]. *)
Definition from_sensor (pixels : Z * Z) (sensor : vec2 N) : specification :=
  Specification pixels (V2 (px sensor / ofZ (fst pixels)) (py sensor / ofZ (snd pixels))).
Definition from_sensor_square (pixels : Z * Z) (sensor_width : N) : specification :=
  let w := sensor_width / ofZ (fst pixels) in Specification pixels (V2 w w).
(** lib.rs 279-283 [intrinsics_centered]. *)
Definition intrinsics_centered (s : specification) (focal : N) : intrinsics :=
  let c p := p / two - half in
  set_principal_point (set_focal intrinsics_id focal) (V2 (c (px (pixel_dimensions s))) (c (py (pixel_dimensions s)))).

(** lib.rs 314-338 [pose_reprojection_error]; the triangulator is an oracle. *)
Definition pose_reprojection_error (triangulate : iso N -> vec3 N -> vec3 N -> option (vec4 N))
    (p : iso N) (a b : vec3 N) : option (vec2 N * vec2 N) :=
  let a_norm := dehomogenize a in
  let b_norm := dehomogenize b in
  match triangulate p a b with
  | None => None
  | Some point_a =>
      let bearing_a := bearing point_a in
      if signneg (vz bearing_a) then None else
      let reproject_a := dehomogenize bearing_a in
      let bearing_b := bearing (transform p point_a) in
      if signneg (vz bearing_b) then None else
      let reproject_b := dehomogenize bearing_b in
      Some (sub_2 a_norm reproject_a, sub_2 b_norm reproject_b)
  end.
(** lib.rs 365-372 [average_pose_reprojection_error]. *)
Definition average_pose_reprojection_error triangulate (p : iso N) (a b : vec3 N) : option N :=
  match pose_reprojection_error triangulate p a b with
  | None => None
  | Some (ea, eb) => Some ((zero + norm_2 ea + norm_2 eb) * half)
  end.

(** ** essential.rs *)

(** A singular value decomposition [(U, S, V^T)]; nalgebra's [try_svd] (ordered) is an oracle
    which may fail to converge. *)
Definition svd : Type := (mat3 N * vec3 N * mat3 N)%type.

(** essential.rs 260-264 [From<CameraToCamera>]. *)
Definition essential_of (p : iso N) : mat3 N := mmul (cross_matrix (trans p)) (rot p).

(** essential.rs 266-276 [residual]. *)
Definition essential_residual (e : mat3 N) (a b : vec3 N) : N :=
  let normalized p := vdiv p (vz p) in
  let row v := V3 (dot v (col1 e)) (dot v (col2 e)) (dot v (col3 e)) in
  abs_ (dot (row (normalized b)) (normalized a)).

(** essential.rs 64-78 [recondition]. *)
Definition recondition (try_svd : mat3 N -> option svd) (e : mat3 N) : option (mat3 N) :=
  match try_svd e with
  | None => None
  | Some (u, s, vt) =>
      let m := (vx s + vy s) / two in
      Some (mmul (mmul u (mdiag (V3 m m zero))) vt)
  end.

Definition w_matrix : mat3 N := M3 (V3 zero (- one) zero) (V3 one zero zero) (V3 zero zero one).
Definition negate_col3 (m : mat3 N) : mat3 N :=
  let f r := V3 (vx r) (vy r) (vz r * - one) in M3 (f (row1 m)) (f (row2 m)) (f (row3 m)).
Definition negate_row3 (m : mat3 N) : mat3 N :=
  M3 (row1 m) (row2 m) (vscale (- one) (row3 m)).

(** essential.rs 114-160 [possible_rotations_unscaled_translation]. *)
Definition possible_rotations_unscaled_translation (try_svd : mat3 N -> option svd) (e : mat3 N) :
    option (mat3 N * mat3 N * vec3 N) :=
  match try_svd e with
  | None => None
  | Some (u, _, vt) =>
      let u := if det u <? zero then negate_col3 u else u in
      let vt := if det vt <? zero then negate_row3 vt else vt in
      Some (mmul (mmul u w_matrix) vt, mmul (mmul u (mtrans w_matrix)) vt, col3 u)
  end.

(** essential.rs 184-191 [possible_rotations]. *)
Definition possible_rotations try_svd (e : mat3 N) : option (list (mat3 N)) :=
  match possible_rotations_unscaled_translation try_svd e with
  | None => None
  | Some (ra, rb, _) => Some [ra; rb]
  end.
(** essential.rs 217-231 [possible_unscaled_poses]. *)
Definition possible_unscaled_poses try_svd (e : mat3 N) : option (list (iso N)) :=
  match possible_rotations_unscaled_translation try_svd e with
  | None => None
  | Some (ra, rb, t) => Some [Iso ra t; Iso rb t; Iso ra (vneg t); Iso rb (vneg t)]
  end.
(** essential.rs 237-249 [possible_unscaled_poses_bearing]. *)
Definition possible_unscaled_poses_bearing try_svd (e : mat3 N) : option (list (iso N)) :=
  match possible_rotations_unscaled_translation try_svd e with
  | None => None
  | Some (ra, rb, t) => Some [Iso ra t; Iso rb t]
  end.
End pinhole.
Arguments intrinsics : clear implicits.
Arguments specification : clear implicits.
Arguments svd : clear implicits.
