(** Model of cv-geom (epipolar.rs, triangulation.rs) and of the triangulation traits of
    cv-core (triangulation.rs). *)
From Coq Require Import ZArith List Bool.
From Verif Require Import Num Lin Core.
Import ListNotations.
Open Scope num_scope.

Section geom.
Context {N : Num}.

(** [f64::is_sign_positive]. *)
Definition positive (x : N) : bool := negb (signneg x).

(** A bearing in the frame an isometry leads to: [isometry * unit_vector] only turns. *)
Definition turn (p : iso N) (b : vec3 N) : vec3 N := mvec (rot p) b.

(** ** epipolar.rs *)

(** epipolar.rs 17-38, triangulation.rs 493-514 (with the normalised translation): the less
    perpendicular of the two bearings is moved into the epipolar plane of the other. *)
Definition correct_l1 (t a b : vec3 N) : vec3 N * vec3 N :=
  let cross_a := cross a t in
  let cross_a_norm := norm cross_a in
  let na := vdiv cross_a cross_a_norm in
  let cross_b := cross b t in
  let cross_b_norm := norm cross_b in
  let nb := vdiv cross_b cross_b_norm in
  if cross_a_norm <? cross_b_norm
  then (normalize (vsub a (vscale (dot a nb) nb)), b)
  else (a, normalize (vsub b (vscale (dot b na) na))).

(** epipolar.rs 40-51, triangulation.rs 516-528 and 592-604: the intersection of the ray [a] from
    the origin with the ray [b] from [t], with the finiteness and cheirality filters. *)
Definition intersect (t a b : vec3 N) : option (vec4 N) :=
  let z := cross a b in
  let w := norm2 z / dot z (cross t b) in
  let p := from_homogeneous (V4 (vx a) (vy a) (vz a) w) in
  if h_finite p then
    if positive (dot (bearing p) a) && positive (dot (bearing p) b) then Some p else None
  else None.

(** epipolar.rs 9-53 [two_view_same_space_triangulate_sine_l1]. *)
Definition same_space_triangulate (t a b : vec3 N) : option (vec3 N) :=
  let (a, b) := correct_l1 t a b in
  match intersect t a b with Some p => point p | None => None end.

(** epipolar.rs 56-71 [two_view_rotation_gradient]. *)
Definition rotation_gradient (t a b : vec3 N) : vec3 N :=
  cross (normalize (cross b t)) (normalize (cross a t)).

(** epipolar.rs 121-125 and 131-135: the part of a vector across a bearing. *)
Definition across (p b : vec3 N) : vec3 N := vsub p (vscale (dot p b) b).

(** epipolar.rs 85-166 [three_view_gradients]. *)
Definition three_view_gradients (c f ftoc s stoc : vec3 N) : se3 N * se3 N :=
  let stof := vsub stoc ftoc in
  let rot_cf := rotation_gradient ftoc c f in
  let rot_cs := rotation_gradient stoc c s in
  let rot_fs := rotation_gradient stof f s in
  let rot_sf := vneg rot_fs in
  let first_rotation := vadd (vscale (lit 2 3) rot_cf) (vscale (lit 1 3) rot_sf) in
  let second_rotation := vadd (vscale (lit 2 3) rot_cs) (vscale (lit 1 3) rot_fs) in
  let trans_f :=
    match same_space_triangulate (vneg stoc) c s with
    | Some p => across (vsub p ftoc) f
    | None => vzero
    end in
  let trans_s :=
    match same_space_triangulate (vneg ftoc) c f with
    | Some p => across (vsub p stoc) s
    | None => vzero
    end in
  let trans_c :=
    match same_space_triangulate (vneg stof) f s with
    | Some p => let p := vadd p ftoc in vsub (vscale (dot p c) c) p
    | None => vzero
    end in
  let first_translation := vadd (vscale (lit 2 3) trans_f) (vscale (lit 1 3) trans_c) in
  let second_translation := vadd (vscale (lit 2 3) trans_s) (vscale (lit 1 3) trans_c) in
  (se3_new first_translation first_rotation, se3_new second_translation second_rotation).

(** epipolar.rs 174-179 [point_gradient]. *)
Definition point_gradient (t b : vec3 N) : vec3 N := vsub t (vscale (dot t b) b).

(** epipolar.rs 188-193 [world_pose_gradient]. *)
Definition world_pose_gradient (t b : vec3 N) : se3 N :=
  let projected := vscale (dot t b) b in
  se3_new (vsub projected t) (cross (normalize t) b).

(** epipolar.rs 197-233 [loss]. *)
Definition epipolar_loss (t a b : vec3 N) : N :=
  let cross_a := cross a t in
  let cross_a_norm_squared := norm2 cross_a in
  let cross_b := cross b t in
  let cross_b_norm_squared := norm2 cross_b in
  let residual :=
    if cross_a_norm_squared <? cross_b_norm_squared
    then abs_ (dot a (vscale (one / sqrt_ cross_b_norm_squared) cross_b))
    else abs_ (dot b (vscale (one / sqrt_ cross_a_norm_squared) cross_a)) in
  if isnan residual || signneg (dot a b) then one else residual.

(** ** triangulation.rs *)

(** An observation: the pose from world to camera and the bearing in the camera. *)
Definition observation : Type := (iso N * vec3 N)%type.

(** [FloatOrd(a) < FloatOrd(b)]: the total order of floats, NaN last (negative NaN is not
    tracked). *)
Definition float_ord_ltb (a b : N) : bool :=
  if isnan b then negb (isnan a)
  else (a <? b) || ((a =? b) && signneg a && negb (signneg b)).
Fixpoint min_float_by {X : Type} (key : X -> N) (best : X) (l : list X) : X :=
  match l with
  | [] => best
  | x :: l' => min_float_by key (if float_ord_ltb (key x) (key best) then x else best) l'
  end.

(** triangulation.rs 117-128 and 429-440: the filters of the triangulators from many views. *)
Definition checked (l : list observation) (p : vec4 N) : option (vec4 N) :=
  if h_finite p then
    if forallb (fun o : observation => positive (dot (turn (iso_inv (fst o)) (snd o)) (bearing p))) l
    then Some p else None
  else None.

(** triangulation.rs 82-130 [LinearEigenTriangulator].  [eigen] is [try_symmetric_eigen] with the
    triangulator's tolerance and iteration limit. *)
Definition linear_eigen (eigen : mat4 N -> option (list (eigenpair N))) (l : list observation) : option (vec4 N) :=
  if Nat.ltb (length l) 2 then None
  else
    match eigen (design l) with
    | None | Some [] => None
    | Some (e :: es) => checked l (from_homogeneous (snd (min_float_by fst e es)))
    end.

(** triangulation.rs 248-272: the loop of [SineL1Triangulator]. *)
Fixpoint sine_l1_refine (l : list observation) (scale eps2 : N) (n : nat) (p : vec3 N) : vec3 N :=
  match n with
  | O => p
  | S n =>
      let delta := vscale scale (fold_left (fun (acc : vec3 N) (o : observation) =>
        let pose := iso_inv (fst o) in
        vadd acc (point_gradient (vsub (trans pose) p) (turn pose (snd o)))) l vzero) in
      let p := vadd p delta in
      if norm2 delta / norm2 p <? eps2 then p else sine_l1_refine l scale eps2 n p
  end.

(** triangulation.rs 228-276 [SineL1Triangulator]. *)
Definition sine_l1 (eigen : mat4 N -> option (list (eigenpair N))) (epsilon rate : N) (max_iterations : nat)
    (l : list observation) : option (vec4 N) :=
  match linear_eigen eigen l with
  | None => None
  | Some p =>
      match point p with
      | None => Some p
      | Some q => Some (from_point (sine_l1_refine l (rate / ofZ (Z.of_nat (length l))) (epsilon * epsilon) max_iterations q))
      end
  end.

(** triangulation.rs 329-342: the design matrix of [RelativeDltTriangulator]. *)
Definition dlt_design (p : iso N) (a b : vec3 N) : mat4 N :=
  let P := iso_homogeneous p in
  let comb s u r v := V4 (s * hx u - r * hx v) (s * hy u - r * hy v) (s * hz u - r * hz v) (s * hw u - r * hw v) in
  M4 (V4 (- vz a) zero (vx a) zero) (V4 zero (- vz a) (vy a) zero)
     (comb (vx b) (hrow3 P) (vz b) (hrow1 P)) (comb (vy b) (hrow3 P) (vz b) (hrow2 P)).

(** triangulation.rs 322-363 [RelativeDltTriangulator].  [svd] is [try_svd]: the rows of the
    matrix [v_t], singular values in descending order. *)
Definition relative_dlt (svd : mat4 N -> option (mat4 N)) (p : iso N) (a b : vec3 N) : option (vec4 N) :=
  match svd (dlt_design p a b) with
  | None => None
  | Some vt =>
      let x := from_homogeneous (hrow4 vt) in
      if h_finite x then
        if positive (dot (bearing x) a) && positive (dot (bearing x) (turn (iso_inv p) b)) then Some x else None
      else None
  end.

(** triangulation.rs 392-442 [MeanMeanTriangulator]. *)
Definition mean_mean (l : list observation) : option (vec4 N) :=
  let total := ofZ (Z.of_nat (length l)) in
  let '(sum_center, sum_bearings) := fold_left (fun (acc : vec3 N * vec3 N) (o : observation) =>
    let pose := iso_inv (fst o) in (vadd (fst acc) (trans pose), vadd (snd acc) (turn pose (snd o)))) l (vzero, vzero) in
  let average_center := vdiv sum_center total in
  let average_bearing := normalize sum_bearings in
  let distance := fold_left (fun (acc : N) (o : observation) =>
    let pose := iso_inv (fst o) in
    let b := turn pose (snd o) in
    let tr := vsub average_center (trans pose) in
    let q := cross average_bearing b in
    acc + dot (vscale (one / norm2 q) q) (cross b tr)) l zero / total in
  let w := one / distance in
  let d := vadd average_bearing (vscale w average_center) in
  checked l (from_homogeneous (V4 (vx d) (vy d) (vz d) w)).

(** triangulation.rs 472-530 [AngularL1Triangulator]. *)
Definition angular_l1 (original : iso N) (a b : vec3 N) : option (vec4 N) :=
  let p := iso_inv original in
  let '(a, b) := (b, a) in
  let a := turn p a in
  let t := trans p in
  let (a, b) := correct_l1 (normalize t) a b in
  intersect t b a.

(** triangulation.rs 558-606 [AngularLInfinityTriangulator]. *)
Definition angular_linf (original : iso N) (a b : vec3 N) : option (vec4 N) :=
  let p := iso_inv original in
  let '(a, b) := (b, a) in
  let a := turn p a in
  let t := trans p in
  let t' := normalize t in
  let na := cross (vadd a b) t' in
  let nb := cross (vsub a b) t' in
  let n := if norm2 nb <? norm2 na then vdiv na (sqrt_ (norm2 na)) else vdiv nb (sqrt_ (norm2 nb)) in
  let a' := normalize (vsub a (vscale (dot a n) n)) in
  let b' := normalize (vsub b (vscale (dot b n) n)) in
  intersect t b' a'.

(** cv-core triangulation.rs 20-36 [triangulate_observations_to_camera] and 57-66
    [triangulate_relative], for any triangulator from many views. *)
Definition to_camera (tri : list observation -> option (vec4 N)) (a : vec3 N) (l : list observation) : option (vec4 N) :=
  option_map from_homogeneous (tri ((iso_id, a) :: l)).
Definition relative (tri : list observation -> option (vec4 N)) (p : iso N) (a b : vec3 N) : option (vec4 N) :=
  to_camera tri a [(p, b)].
End geom.
Arguments observation : clear implicits.
