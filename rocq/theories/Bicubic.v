(** Model of cv-sfm/src/bicubic.rs and cv-sfm/src/export.rs. *)
From Coq Require Import List ZArith Bool Reals SpecFloat.
From Verif Require Import Num Lin.
Import ListNotations.

(** The casts between a float type and unsigned integers which the code uses: [floor], [as u32]
    (truncating, saturating, NaN to 0) and [u32 as f32]. *)
Record casts (N : Num) : Type := Casts { c_floor : N -> N; c_to_u32 : N -> Z; c_of_u32 : Z -> N }.
Arguments c_floor {_} _ _.
Arguments c_to_u32 {_} _ _.
Arguments c_of_u32 {_} _ _.
Definition saturate (hi z : Z) : Z := Z.max 0 (Z.min hi z).
Definition u32_max : Z := (2 ^ 32 - 1)%Z.
Definition Rcasts : casts RNum :=
  Casts RNum (fun x : R => IZR (Int_part x)) (fun x : R => saturate u32_max (Int_part x)) IZR.
(** The integer part of a float, rounded down. *)
Definition sf_floor_Z (x : spec_float) : Z :=
  match x with
  | S754_finite s m e =>
      let v := if s then Z.neg m else Z.pos m in
      match e with Z0 => v | Zpos p => Z.mul v (Z.pow_pos 2 p) | Zneg p => Z.div v (Z.pow_pos 2 p) end
  | _ => Z0
  end.
Definition F32casts : casts F32 :=
  Casts F32
    (fun x : spec_float => match x with S754_finite _ _ (Zneg _) => sf_ofZ 24 128 (sf_floor_Z x) | _ => x end)
    (fun x : spec_float =>
      match x with
      | S754_infinity false => u32_max
      | S754_infinity true | S754_nan | S754_zero _ => 0%Z
      | S754_finite _ _ _ => saturate u32_max (sf_floor_Z x)   (* negative numbers saturate, so rounding down is enough *)
      end)
    (sf_ofZ 24 128).

Section bicubic.
Context {N : Num} (K : casts N) {C : Type} (to_float : C -> N) (clamp : N -> C).
Open Scope num_scope.

(** bicubic.rs 13-31 [blend_cubic], for one channel; the function treats every channel alike. *)
Definition blend_cubic (px0 px1 px2 px3 : C) (x : N) : C :=
  let p0 := to_float px0 in let p1 := to_float px1 in let p2 := to_float px2 in let p3 := to_float px3 in
  clamp (p1 + half * x * (p2 - p0 + x * (ofZ 2 * p0 - ofZ 5 * p1 + ofZ 4 * p2 - p3 + x * (ofZ 3 * (p1 - p2) + p3 - p0)))).

(** An image, one channel of it: its size and its pixels.  Pixels are read without a bounds check
    (bicubic.rs 53-58, unsafe): [None] is a read outside the image, that is undefined behaviour. *)
Record image : Type := Image { i_width : Z; i_height : Z; i_pixel : Z -> Z -> C }.
Definition unsafe_get (im : image) (x y : Z) : option C :=
  if (0 <=? x)%Z && (x <? i_width im)%Z && (0 <=? y)%Z && (y <? i_height im)%Z then Some (i_pixel im x y) else None.
Inductive sample : Type := Colour (c : C) | Outside | Overrun.

(** bicubic.rs 51-63: one row; [None] when a read is outside. *)
Definition blend_row (im : image) (left row : Z) (weight : N) : option C :=
  match unsafe_get im left row, unsafe_get im (left + 1) row, unsafe_get im (left + 2) row, unsafe_get im (left + 3) row with
  | Some p0, Some p1, Some p2, Some p3 => Some (blend_cubic p0 p1 p2 p3 weight)
  | _, _, _, _ => None
  end.
(** bicubic.rs 50-64: the loop over the rows; [col] has four entries, writing to another one panics. *)
Fixpoint blend_rows (im : image) (left top row : Z) (weight : N) (rows : nat) (col : list C) : option (option (list C)) :=
  match rows with
  | O => Some (Some col)
  | S rows =>
      match blend_row im left row weight with
      | None => None
      | Some c =>
          let k := Z.to_nat (row - top) in
          if Nat.ltb k 4 then blend_rows im left top (row + 1) weight rows (firstn k col ++ c :: skipn (S k) col)
          else Some None
      end
  end.

(** bicubic.rs 33-68 [interpolate_bicubic].  [Outside] is undefined behaviour, [Overrun] a panic. *)
Definition interpolate_bicubic (im : image) (x y : N) (default : C) : sample :=
  let left := c_floor K x - one in
  let right := left + ofZ 4 in
  let top := c_floor K y - one in
  let bottom := top + ofZ 4 in
  let x_weight := x - (left + one) in
  let y_weight := y - (top + one) in
  if (left <? zero) || (c_of_u32 K (i_width im) <=? right) || (top <? zero) || (c_of_u32 K (i_height im) <=? bottom)
  then Colour default
  else
    let t := c_to_u32 K top in
    match blend_rows im (c_to_u32 K left) t t x_weight (Z.to_nat (c_to_u32 K bottom - t)) [default; default; default; default] with
    | None => Outside
    | Some None => Overrun
    | Some (Some col) =>
        match col with
        | [c0; c1; c2; c3] => Colour (blend_cubic c0 c1 c2 c3 y_weight)
        | _ => Overrun   (* never reached: the array keeps its length *)
        end
    end.
End bicubic.
Arguments image : clear implicits.
Arguments sample : clear implicits.
Arguments Image {C}.
Arguments i_width {C}.
Arguments i_height {C}.
Arguments i_pixel {C}.
Arguments Colour {C}.
Arguments Outside {C}.
Arguments Overrun {C}.

(** Eight-bit channels: [cast] and imageproc's [Clamp<f32> for u8], which truncates. *)
Definition u8_to_float {N : Num} (c : Z) : N := ofZ c.
Definition u8_clamp {N : Num} (K : casts N) (v : N) : Z :=
  if ltb v (ofZ 255) then if ltb zero v then c_to_u32 K v else 0%Z else 255%Z.

(** ** export.rs *)
Section export.
Context {N : Num}.

(** export.rs 13-18 [ExportCamera]. *)
Record export_camera : Type := ExportCamera {
  optical_center : vec3 N; up_direction : vec3 N; forward_direction : vec3 N; focal_length : N }.
Definition colour : Type := (Z * Z * Z)%type.
(** export.rs 11. *)
Definition camera_colour : colour := (255, 0, 255)%Z.
Definition vertex : Type := (vec3 N * colour)%type.
Definition face : Type := (nat * nat * nat)%type.

(** The lists the file is written from.  [add_vertex] and [add_triangle] (export.rs 65-87) append to
    them; [add_vertex] returns the position.  Indices are written as [i32]; the model keeps the
    natural number. *)
Definition add_vertex (vs : list vertex) (v : vertex) : list vertex * nat := (vs ++ [v], length vs).

(** export.rs 98-107: the corner of the image plane. *)
Definition corner (c : export_camera) (up right : Z) : vec3 N :=
  let right_direction := cross (forward_direction c) (up_direction c) in
  vadd (vadd (vadd (optical_center c) (vscale (focal_length c) (forward_direction c)))
    (vscale (focal_length c) (vscale (ofZ up) (up_direction c)))) (vscale (focal_length c) (vscale (ofZ right) right_direction)).

(** export.rs 89-116: one camera. *)
Definition add_camera (camera_faces : bool) (st : list vertex * list face) (c : export_camera) : list vertex * list face :=
  let '(vs, fs) := st in
  let (vs, center_point) := add_vertex vs (optical_center c, camera_colour) in
  let (vs, up_right) := add_vertex vs (corner c 1 1, camera_colour) in
  let (vs, up_left) := add_vertex vs (corner c 1 (-1), camera_colour) in
  let (vs, down_left) := add_vertex vs (corner c (-1) (-1), camera_colour) in
  let (vs, down_right) := add_vertex vs (corner c (-1) 1, camera_colour) in
  (vs, if camera_faces then fs ++ [(center_point, down_right, up_right)] ++ [(center_point, up_right, up_left)] ++
         [(center_point, up_left, down_left)] ++ [(center_point, down_left, down_right)] else fs).

(** export.rs 20-133 [export]: the two lists of elements; the face element is written only with
    [camera_faces].  Writing the text of the file is not modelled. *)
Record ply : Type := Ply { vertices : list vertex; faces : option (list face) }.
Definition export (points : list vertex) (cameras : list export_camera) (camera_faces : bool) : ply :=
  let '(vs, fs) := fold_left (add_camera camera_faces) cameras ([], []) in
  let vs := fold_left (fun vs v => fst (add_vertex vs v)) points vs in
  Ply vs (if camera_faces then Some fs else None).

(** lib.rs 2323-2330 (in [export_reconstruction]): the camera of a view, with the pose and the mean distance of
    its landmarks. *)
Definition camera_of_view (pose : iso N) (mean_distance : N) : export_camera :=
  let c2w := iso_inv pose in
  {| optical_center := iso_point c2w vzero;
     up_direction := mvec (rot c2w) (vneg (V3 zero one zero));
     forward_direction := mvec (rot c2w) (V3 zero zero one);
     focal_length := mul mean_distance (lit 1 100) |}.
End export.
Arguments export_camera : clear implicits.
Arguments vertex : clear implicits.
Arguments ply : clear implicits.
