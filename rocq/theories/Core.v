(** Model of cv-core: homogeneous points (point.rs), poses (pose.rs), so(3) and se(3) (so3.rs).
    The newtypes [CameraPoint], [WorldPoint] are 4-vectors; [WorldToCamera], [CameraToWorld],
    [CameraToCamera], [WorldToWorld] are isometries: the types only prevent mixing them up.
    [UnitVector3] is a 3-vector. *)
From Coq Require Import ZArith List Bool.
From Verif Require Import Num Lin.
Import ListNotations.
Open Scope num_scope.

Section core.
Context {N : Num}.

(** ** point.rs *)

(** point.rs 20-25 [Projective::from_homogeneous]. *)
Definition from_homogeneous (p : vec4 N) : vec4 N :=
  let p := if signneg (hw p) then hneg p else p in
  hdiv p (norm (xyz p)).

(** point.rs 37-39 [Projective::point] (nalgebra: none iff the last coordinate is zero). *)
Definition point (p : vec4 N) : option (vec3 N) :=
  if hw p =? zero then None else Some (vdiv (xyz p) (hw p)).

(** point.rs 42-44 [Projective::from_point]. *)
Definition from_point (p : vec3 N) : vec4 N := from_homogeneous (of_point p).

(** point.rs 47-49 [Projective::bearing]. *)
Definition bearing (p : vec4 N) : vec3 N := xyz p.

(** ** pose.rs *)

(** pose.rs 37-41 [Pose::scale]. *)
Definition pose_scale (p : iso N) (s : N) : iso N := Iso (rot p) (vscale s (trans p)).

(** pose.rs 131-133 [pose_output]. *)
Definition pose_output (p : iso N) (x : vec4 N) : vec4 N := hmvec (iso_homogeneous p) x.

(** pose.rs 136-140 [pose_rotated_output]. *)
Definition pose_rotated_output (p : iso N) (x : vec4 N) : vec4 N * vec4 N :=
  (hmvec (mat_homogeneous (rot p)) x, hmvec (iso_homogeneous p) x).

(** pose.rs 125-127 [Pose::transform]. *)
Definition transform (p : iso N) (x : vec4 N) : vec4 N := from_homogeneous (pose_output p x).

(** so3.rs 243-245 [Skew3::jacobian_self]. *)
Definition skew_jacobian_self (y : vec3 N) : mat3 N := cross_matrix y.

(** pose.rs 143-145 [pose_jacobian_input]. *)
Definition pose_jacobian_input (p : iso N) : mat4 N := iso_homogeneous p.

(** pose.rs 148-174 [pose_jacobian_self]: the six columns of the 4x6 matrix are the rows put
    together in the code. *)
Definition pose_jacobian_self (p : iso N) (rotated output : vec4 N) : list (vec4 N) :=
  let translation := trans_homogeneous (trans p) in
  let s h := V4 (hx h * hw output) (hy h * hw output) (hz h * hw output) (hw h * hw output) in
  let dp_dt := M4 (s (hrow1 hid)) (s (hrow2 hid)) (s (hrow3 hid)) (s (hrow4 hid)) in
  let dp_ds := hmmul translation (mat_homogeneous (skew_jacobian_self (xyz rotated))) in
  [hrow1 dp_dt; hrow2 dp_dt; hrow3 dp_dt; hrow1 dp_ds; hrow2 dp_ds; hrow3 dp_ds].

(** pose.rs 75-87 [Pose::transform_jacobians]. *)
Definition transform_jacobians (p : iso N) (x : vec4 N) : vec4 N * mat4 N * list (vec4 N) :=
  let (rotated, output) := pose_rotated_output p x in
  (from_homogeneous output, pose_jacobian_input p, pose_jacobian_self p rotated output).

(** pose.rs 95-102 [Pose::transform_jacobian_input]. *)
Definition transform_jacobian_input (p : iso N) (x : vec4 N) : vec4 N * mat4 N :=
  (from_homogeneous (pose_output p x), pose_jacobian_input p).

(** pose.rs 110-117 [Pose::transform_jacobian_self]. *)
Definition transform_jacobian_self (p : iso N) (x : vec4 N) : vec4 N * list (vec4 N) :=
  let (rotated, output) := pose_rotated_output p x in
  (from_homogeneous output, pose_jacobian_self p rotated output).

(** pose.rs 196-201 [WorldToCamera::residual]. *)
Definition world_residual (p : iso N) (b : vec3 N) (world : vec4 N) : N :=
  one - dot b (bearing (transform p world)).

(** pose.rs 253-270: one term [pose - b b^T pose] of the least squares problem, as its four
    columns, and [term^T term]. *)
Definition term_columns (p : iso N) (b : vec3 N) : vec3 N * vec3 N * vec3 N * vec3 N :=
  let col c := vsub c (mvec (outer b b) c) in
  (col (col1 (rot p)), col (col2 (rot p)), col (col3 (rot p)), col (trans p)).
Definition gram (t : vec3 N * vec3 N * vec3 N * vec3 N) : mat4 N :=
  let '(a, b, c, d) := t in
  let r x := V4 (dot x a) (dot x b) (dot x c) (dot x d) in
  M4 (r a) (r b) (r c) (r d).
Definition design (l : list (iso N * vec3 N)) : mat4 N :=
  fold_left (fun m pb => hmadd m (gram (term_columns (fst pb) (snd pb)))) l hmzero.

(** An eigenvalue with its eigenvector.  nalgebra's [try_symmetric_eigen] is an oracle which
    returns the four of them in some order, or nothing when it does not converge. *)
Definition eigenpair : Type := (N * vec4 N)%type.
Definition smallest (l : list eigenpair) : option (vec4 N) :=
  match l with [] => None | e :: l' => Some (snd (min_abs_by fst e l')) end.

(** pose.rs 250-296 [CameraToCamera::residual]. *)
Definition camera_residual (eigen : mat4 N -> option (list eigenpair)) (p : iso N) (a b : vec3 N) : N :=
  match eigen (design [(iso_id, a); (p, b)]) with
  | None => two
  | Some l =>
      match smallest l with
      | None => two
      | Some v =>
          let x := from_homogeneous v in
          if h_finite x then half * (one - dot a (bearing x) + one - dot b (bearing (transform p x))) else two
      end
  end.

(** pose.rs 322-324 [WorldToWorld::from_camera_poses]. *)
Definition from_camera_poses (a b : iso N) : iso N := iso_mul (iso_inv b) a.

(** ** so3.rs *)

(** so3.rs 15-19 [Se3TangentSpace]. *)
Record se3 : Type := Se3 { se_t : vec3 N; se_r : vec3 N }.

(** so3.rs 23-34 [new]. *)
Definition se3_new (t r : vec3 N) : se3 :=
  Se3 (if v_any_nan t then vzero else t) (if v_any_nan r then vzero else r).

(** so3.rs 37-42 [identity], 47-52 [inverse]. *)
Definition se3_id : se3 := Se3 vzero vzero.
Definition se3_inverse (x : se3) : se3 := Se3 (vneg (se_t x)) (vneg (se_r x)).

(** so3.rs 78-98 [scale], [scale_translation], [scale_rotation]. *)
Definition se3_scale (x : se3) (s : N) : se3 := Se3 (vscale s (se_t x)) (vscale s (se_r x)).
Definition se3_scale_translation (x : se3) (s : N) : se3 := Se3 (vscale s (se_t x)) (se_r x).
Definition se3_scale_rotation (x : se3) (s : N) : se3 := Se3 (se_t x) (vscale s (se_r x)).

(** so3.rs 101-118 [to_vec], [from_vec]: six numbers, translation first. *)
Definition se3_to_vec (x : se3) : list N :=
  [vx (se_t x); vy (se_t x); vz (se_t x); vx (se_r x); vy (se_r x); vz (se_r x)].
Definition se3_from_vec (a b c d e f : N) : se3 := Se3 (V3 a b c) (V3 d e f).

(** so3.rs 123-125 [l1]. *)
Definition se3_l1 (x : se3) : se3 := se3_new (normalize (se_t x)) (normalize (se_r x)).

(** so3.rs 128-151 [Add], [AddAssign] and [Sum]. *)
Definition se3_add (x y : se3) : se3 := Se3 (vadd (se_t x) (se_t y)) (vadd (se_r x) (se_r y)).
Definition se3_sum (l : list se3) : se3 := fold_left se3_add l se3_id.

(** so3.rs 178-180 [Skew3::vee], 184-186 [hat], 190-203 [hat2], 207-209 [bracket]. *)
Definition vee (m : mat3 N) : vec3 N := V3 (vy (row3 m)) (vz (row1 m)) (vx (row2 m)).
Definition hat (w : vec3 N) : mat3 N := cross_matrix w.
Definition hat2 (w : vec3 N) : mat3 N :=
  let w11 := vx w * vx w in let w12 := vx w * vy w in let w13 := vx w * vz w in
  let w22 := vy w * vy w in let w23 := vy w * vz w in let w33 := vz w * vz w in
  M3 (V3 (- w22 - w33) w12 w13) (V3 w12 (- w11 - w33) w23) (V3 w13 w23 (- w11 - w22)).
Definition bracket (a b : vec3 N) : vec3 N := vee (msub (mmul (hat a) (hat b)) (mmul (hat b) (hat a))).

(** Library functions used on angles: sine, cosine, arc cosine, and nalgebra's
    [Rotation3::from_matrix] (the nearest rotation). [eps] is [f64::epsilon()]. *)
Record trig : Type := Trig {
  t_sin : N -> N; t_cos : N -> N; t_acos : N -> N; t_nearest : mat3 N -> mat3 N; t_eps : N }.
Context (T : trig).

(** so3.rs 171-173 [rotation_small] and 249-261: the exponential map. *)
Definition rotation_small (w : vec3 N) : mat3 N := t_nearest T (madd mid (hat w)).
Definition so3_exp (w : vec3 N) : mat3 N :=
  let theta2 := norm2 w in
  if theta2 <=? t_eps T then rotation_small w
  else let theta := sqrt_ theta2 in axis_angle (vdiv w theta) (t_sin T theta) (t_cos T theta).

(** nalgebra [Rotation3::scaled_axis]: the axis from the skew part (none below epsilon), the
    angle from the trace. *)
Definition scaled_axis (m : mat3 N) : vec3 N :=
  let a := V3 (vy (row3 m) - vz (row2 m)) (vz (row1 m) - vx (row3 m)) (vx (row2 m) - vy (row1 m)) in
  let n := norm a in
  if t_eps T <? n then vscale (t_acos T ((trace m - one) / two)) (vdiv a n) else vzero.

(** so3.rs 264-276: the logarithm, with NaN replaced by zero. *)
Definition so3_log (m : mat3 N) : vec3 N :=
  let w := scaled_axis m in if v_any_nan w then vzero else w.

(** nalgebra [Rotation3::from_scaled_axis]: identity for the zero vector. *)
Definition from_scaled_axis (w : vec3 N) : mat3 N :=
  let n := norm w in
  if n =? zero then mid else axis_angle (vdiv w n) (t_sin T n) (t_cos T n).

(** so3.rs 57-60 [isometry], 69-73 [rotations]. *)
Definition se3_isometry (x : se3) : iso N :=
  let r := from_scaled_axis (se_r x) in Iso r (mvec r (se_t x)).
Definition se3_rotations (x : se3) : mat3 N * mat3 N := (from_scaled_axis (se_t x), from_scaled_axis (se_r x)).

(** so3.rs 226-230 [Skew3::jacobian_input]. *)
Definition skew_jacobian_input (w : vec3 N) : mat4 N := mat_homogeneous (so3_exp w).

(** pose.rs 54-66 [Pose::se3] and [Pose::from_se3]: six numbers, translation first. *)
Definition pose_se3 (p : iso N) : se3 := Se3 (trans p) (so3_log (rot p)).
Definition pose_from_se3 (x : se3) : iso N := Iso (so3_exp (se_r x)) (se_t x).
End core.
Arguments se3 : clear implicits.
Arguments trig : clear implicits.
Arguments eigenpair : clear implicits.
