(** Specification vocabulary for C13 and C14. *)
From Coq Require Import Reals ZArith List.
From Verif Require Import Num Lin LinSpec Bicubic.
Import ListNotations.
Open Scope R_scope.

(** The whole number at or below [x]. *)
Definition floor_of (x : R) (z : Z) : Prop := IZR z <= x < IZR z + 1.
(** The four columns (or rows) around [x] exist in an image with [n] of them. *)
Definition window_inside (z n : Z) : Prop := (0 <= z - 1 /\ z + 2 < n)%Z.
(** The window the function accepts: one column less than there is. *)
Definition window_accepted (z n : Z) : Prop := (0 <= z - 1 /\ z + 3 < n)%Z.
(** The dimensions are [u32]. *)
Definition u32_image {C} (im : image C) : Prop := (0 <= i_width im <= u32_max /\ 0 <= i_height im <= u32_max)%Z.

(** The blend of the sixteen pixels around column [z] and row [r]. *)
Definition row_value {N : Num} {C} (to_float : C -> N) (clamp : N -> C) (im : image C) (z r : Z) (w : N) : C :=
  blend_cubic to_float clamp (i_pixel im (z - 1) r) (i_pixel im z r) (i_pixel im (z + 1) r) (i_pixel im (z + 2) r) w.
Definition window_value {N : Num} {C} (to_float : C -> N) (clamp : N -> C) (im : image C) (z r : Z) (wx wy : N) : C :=
  blend_cubic to_float clamp (row_value to_float clamp im z (r - 1) wx) (row_value to_float clamp im z r wx)
    (row_value to_float clamp im z (r + 1) wx) (row_value to_float clamp im z (r + 2) wx) wy.

(** The cubic through the two middle samples whose slopes there are those of the chords of the neighbours
    (Catmull and Rom). *)
Definition cubic (a b c d t : R) : R := a + b * t + c * t ^ 2 + d * t ^ 3.
Definition cubic_slope (b c d t : R) : R := b + 2 * c * t + 3 * d * t ^ 2.
Definition catmull_rom (p0 p1 p2 p3 : R) (f : R -> R) : Prop :=
  exists a b c d, (forall t, f t = cubic a b c d t) /\ f 0 = p1 /\ f 1 = p2 /\
    cubic_slope b c d 0 = (p2 - p0) / 2 /\ cubic_slope b c d 1 = (p3 - p1) / 2.

(** The pixels of the image survive the conversion to a float and back. *)
Definition exact_channels {C} (to_float : C -> R) (clamp : R -> C) (im : image C) : Prop :=
  forall i j, (0 <= i < i_width im)%Z -> (0 <= j < i_height im)%Z -> clamp (to_float (i_pixel im i j)) = i_pixel im i j.
Definition u8 (c : Z) : Prop := (0 <= c <= 255)%Z.

(** The five vertices of a camera and its four triangles. *)
Definition camera_vertices {N} (c : export_camera N) : list (vertex N) :=
  [(optical_center c, camera_colour); (corner c 1 1, camera_colour); (corner c 1 (-1), camera_colour);
   (corner c (-1) (-1), camera_colour); (corner c (-1) 1, camera_colour)].
Definition camera_triangles (i : nat) : list face :=
  [(5 * i, 5 * i + 4, 5 * i + 1); (5 * i, 5 * i + 1, 5 * i + 2);
   (5 * i, 5 * i + 2, 5 * i + 3); (5 * i, 5 * i + 3, 5 * i + 4)]%nat.
(** The point at an index of a file. *)
Definition point_at {N} (f : ply N) (i : nat) : option (vec3 N) := option_map fst (nth_error (vertices f) i).
