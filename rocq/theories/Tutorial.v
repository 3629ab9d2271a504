(** Model of the programs of the tutorial (tutorial-code/chapter3.. to chapter5..) and of kpdraw (kpdraw/src/lib.rs).  They
    draw with imageproc, which is not modelled: what is returned is the picture before drawing and the list of the lines and
    crosses asked for, in order.  Loading, saving and showing pictures is not modelled either; a picture is its
    [to_rgba8()], and the features are what [extract] returned (see Frame.v). *)
From stdpp Require Import list.
From Coq Require Import ZArith.
From Verif Require Import Num Outcome Lin Diffuse Pinhole Akaze Frame Matching.

(** ** Matching *)
Section matching.
Context {D : Type} (knn : list D -> D -> nat -> list (nat * nat)).
(** chapter4 main.rs 97-104 (chapter5 160-167): the closure of [matching]; the answers are pairs of index and distance. *)
Definition tutorial_match_one (b : list D) (d : D) : outcome (option nat) :=
  match knn b d 2 with
  | (i0, d0) :: (_, d1) :: _ => Ok (if decide (d0 + 24 < d1) then Some i0 else None)
  | _ => Panic                                  (* knn[0] / knn[1] out of bounds *)
  end.
(** chapter4 main.rs 91-106 (chapter5 154-169) [matching]. *)
Definition tutorial_matching (a b : list D) : outcome (list (option nat)) := mapM (tutorial_match_one b) a.
(** chapter4 main.rs 120-137 (chapter5 183-200) [symmetric_matching]; the last part is the one in cv-sfm, word for word. *)
Definition tutorial_symmetric_matching (a b : list D) : outcome (list (nat * nat)) :=
  let! fwd := tutorial_matching a b in
  let! rev := tutorial_matching b a in
  keep_symmetric rev 0 fwd.
End matching.

(** ** The canvas *)
Notation rgba := (Z * Z * Z * Z)%type.
Notation picture := (buffer rgba).
(** [ImageBuffer::from_pixel], [put_pixel] of the image crate; the latter panics outside the image. *)
Definition from_pixel (w h : nat) (c : rgba) : picture := Buffer w h (fun _ _ => c).
Definition put_pixel (p : picture) (x y : nat) (c : rgba) : outcome picture :=
  if decide (x < b_width p /\ y < b_height p)
  then Ok (Buffer (b_width p) (b_height p) (fun x' y' => if decide (x' = x /\ y' = y) then c else b_at p x' y'))
  else Panic.
(** chapter4 main.rs 37-42 (chapter5 97-102): the closure [render_image_onto_canvas_x_offset]. *)
Definition render (canvas image : picture) (x_offset : nat) : outcome picture :=
  foldM (fun c xy => put_pixel c (fst xy + x_offset) (snd xy) (b_at image (fst xy) (snd xy)))
    (list_prod (seq 0 (b_width image)) (seq 0 (b_height image))) canvas.
(** chapter4 main.rs 30-46 (chapter5 90-106).  Sizes are unbounded here and [u32] there. *)
Definition side_by_side (a b : picture) : outcome picture :=
  let canvas := from_pixel (b_width a + b_width b) (Nat.max (b_height a) (b_height b)) (0, 0, 0, 255)%Z in
  let! canvas := render canvas a 0 in
  render canvas b (b_width a).

(** ** Drawing *)
Section drawing.
Context (P : widths).
Notation f32 := (single P).
Notation f64 := (double P).
(** The casts of floats to integers, before they saturate. *)
Variables (trunc32 : f32 -> Z) (trunc64 : f64 -> Z).
(** [x as i32]; and an addition of two of these, which panics when it overflows (in a release build it wraps). *)
Definition as_i32 (x : Z) : Z := Z.max (- 2147483648) (Z.min 2147483647 x).
Definition add_i32 (x y : Z) : outcome Z := if decide (-2147483648 <= x + y <= 2147483647)%Z then Ok (x + y)%Z else Panic.
(** [as u8]. *)
Definition as_u8 (x : Z) : Z := Z.max 0 (Z.min 255 x).
(** A line: its ends and its colour. *)
Record segment : Type := Segment { s_from : Z * Z; s_to : Z * Z; s_color : rgba }.
(** [Srgb::from_color] of the hue (in radians) at full saturation and value, in the palette crate. *)
Variable hue : f64 -> f64 * f64 * f64.
(** chapter4 main.rs 50-53, 61-66 (chapter5 110-113, 125-130). *)
Definition wheel_color (ix : nat) : rgba :=
  let '(r, g, b) := hue (ofZ (Z.of_nat ix) * lit 1 10)%num in
  let channel c := as_u8 (trunc64 (c * ofZ 255)%num) in (channel r, channel g, channel b, 255%Z).
(** chapter4 main.rs 56-57: [point_to_i32_tup]; chapter5 116-117. *)
Definition point_tup32 (x y : f32) (off : nat) : outcome (Z * Z) :=
  let! px := add_i32 (as_i32 (trunc32 x)) (Z.of_nat off) in Ok (px, as_i32 (trunc32 y)).
Definition point_tup64 (p : vec2 f64) (off : nat) : outcome (Z * Z) :=
  let! x := add_i32 (as_i32 (trunc64 (px p))) (Z.of_nat off) in Ok (x, as_i32 (trunc64 (py p))).
(** What [extract] returns. *)
Notation features D := (list (keypoint f32) * list D)%type.

(** chapter4 main.rs 48-70: the line of a match. *)
Definition match_line (width_a : nat) (kps_a kps_b : list (keypoint f32)) (ix : nat) (m : nat * nat) : outcome segment :=
  let! ka := unwrap (kps_a !! m.1) in
  let! kb := unwrap (kps_b !! m.2) in
  let! s := point_tup32 (kp_x ka) (kp_y ka) 0 in
  let! t := point_tup32 (kp_x kb) (kp_y kb) width_a in
  Ok (Segment s t (wheel_color ix)).
(** [iter().enumerate()]. *)
Definition enumerated {X Y} (f : nat -> X -> outcome Y) (l : list X) : outcome (list Y) := mapM (fun ix => f ix.1 ix.2) (zip (seq 0 (length l)) l).
(** chapter4 main.rs 14-73: the picture and the lines on it. *)
Definition chapter4 {D : Type} (knn : list D -> D -> nat -> list (nat * nat)) (image_a image_b : picture) (a b : features D) : outcome (picture * list segment) :=
  let! matches := tutorial_symmetric_matching knn a.2 b.2 in
  let! canvas := side_by_side image_a image_b in
  let! segments := enumerated (match_line (b_width image_a) a.1 b.1) matches in
  Ok (canvas, segments).

(** chapter5 main.rs 36-41: the camera. *)
Definition kitti_intrinsics : intrinsics f64 :=
  set_principal_point (set_focals intrinsics_id (V2 (lit 9842439 10000) (lit 9808141 10000))) (V2 (lit 690 1) (lit 2331966 10000)).
Definition kitti_k1 : f64 := (- lit 3728755 10000000)%num.
(** akaze/src/lib.rs 95-99 [image_point]. *)
Definition image_point (kp : keypoint f32) : vec2 f64 := V2 (widen P (kp_x kp)) (widen P (kp_y kp)).
(** chapter5 main.rs 56-64: the bearings of a match. *)
Definition feature_match (kps_a kps_b : list (keypoint f32)) (m : nat * nat) : outcome (vec3 f64 * vec3 f64) :=
  let! ka := unwrap (kps_a !! m.1) in
  let! kb := unwrap (kps_b !! m.2) in
  Ok (calibrate_k1 kitti_intrinsics kitti_k1 (image_point ka), calibrate_k1 kitti_intrinsics kitti_k1 (image_point kb)).
(** chapter5 main.rs 109-133: the line of a match that was kept. *)
Definition bearing_line (width_a : nat) (ix : nat) (m : vec3 f64 * vec3 f64) : outcome segment :=
  let! pa := unwrap (uncalibrate_k1 kitti_intrinsics kitti_k1 m.1) in
  let! s := point_tup64 pa 0 in
  let! pb := unwrap (uncalibrate_k1 kitti_intrinsics kitti_k1 m.2) in
  let! t := point_tup64 pb width_a in
  Ok (Segment s t (wheel_color ix)).
(** [Arrsac::model_inliers] with the eight-point estimator: an oracle. *)
Variable consensus : list (vec3 f64 * vec3 f64) -> option (iso f64 * list nat).
(** chapter5 main.rs 22-133: what it prints (forward, right, down), the picture and the lines on it. *)
Definition chapter5 {D : Type} (knn : list D -> D -> nat -> list (nat * nat)) (image_a image_b : picture) (a b : features D) :
    outcome ((f64 * f64 * f64) * picture * list segment) :=
  let! matches := tutorial_symmetric_matching knn a.2 b.2 in
  let! bearings := mapM (feature_match a.1 b.1) matches in
  let! (pose, inliers) := unwrap (consensus bearings) in
  let translation := vneg (trans pose) in
  let! kept := mapM (fun i => unwrap (bearings !! i)) inliers in
  let! canvas := side_by_side image_a image_b in
  let! segments := enumerated (bearing_line (b_width image_a)) kept in
  Ok ((vz translation, vx translation, vy translation), canvas, segments).

(** chapter3 main.rs 28-36 and kpdraw/src/lib.rs 8-11: the crosses on the picture, at these points. *)
Definition crosses (kps : list (keypoint f32)) : list (Z * Z) := map (fun kp => (as_i32 (trunc32 (kp_x kp)), as_i32 (trunc32 (kp_y kp)))) kps.
End drawing.
