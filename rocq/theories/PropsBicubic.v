(** C13 and C14: colour sampling (cv-sfm/src/bicubic.rs) and the PLY export (cv-sfm/src/export.rs). *)
From Coq Require Import Reals ZArith List SpecFloat.
From Verif Require Import Num Lin LinSpec Bicubic BicubicSpec BicubicFacts BicubicProps FloatFacts BicubicFloat.
Import ListNotations.
Open Scope R_scope.

(** ** C13.  [floor_of x z] says that [z] is the whole number at or below [x]; [window_accepted] and [window_value] are in
    BicubicSpec.v.  Pixels have one channel; the function treats channels alike. *)
(** With exact arithmetic no coordinates read outside the image and no write is out of range. *)
Theorem C13_total :
  forall C (to_float : C -> R) (clamp : R -> C) (im : image C) (x y : R) (default : C), u32_image im ->
    exists c, interpolate_bicubic Rcasts (to_float : C -> RNum) clamp im x y default = Colour c.
Proof. exact @interpolate_total. Qed.
Print Assumptions C13_total.
(** What is returned.  Missing from the full property: the default is also returned when the window touches the last column or row, see [C13_last_window_refuted]. *)
Theorem C13_value_partial :
  forall C (to_float : C -> R) (clamp : R -> C) (im : image C) (x y : R) (z r : Z) (default : C), u32_image im -> floor_of x z -> floor_of y r ->
    (window_accepted z (i_width im) /\ window_accepted r (i_height im) ->
      interpolate_bicubic Rcasts (to_float : C -> RNum) clamp im x y default = Colour (window_value (to_float : C -> RNum) clamp im z r (x - IZR z) (y - IZR r))) /\
    (~ (window_accepted z (i_width im) /\ window_accepted r (i_height im)) ->
      interpolate_bicubic Rcasts (to_float : C -> RNum) clamp im x y default = Colour default).
Proof. exact @interpolate_spec. Qed.
Print Assumptions C13_value_partial.
(** The window is inside the image and the default is returned all the same. *)
Theorem C13_last_window_refuted :
  exists (im : image Z) (x y : R) (z r : Z), u32_image im /\ floor_of x z /\ floor_of y r /\
    window_inside z (i_width im) /\ window_inside r (i_height im) /\ (forall i j, i_pixel im i j <> 0%Z) /\
    interpolate_bicubic Rcasts (u8_to_float : Z -> RNum) (u8_clamp Rcasts) im x y 0%Z = Colour 0%Z.
Proof. exact last_window_rejected. Qed.
Print Assumptions C13_last_window_refuted.
Theorem C13_stored_pixel :
  forall C (to_float : C -> R) (clamp : R -> C) (im : image C) (i j : Z) (default : C), u32_image im -> exact_channels to_float clamp im ->
    window_accepted i (i_width im) -> window_accepted j (i_height im) ->
    interpolate_bicubic Rcasts (to_float : C -> RNum) clamp im (IZR i) (IZR j) default = Colour (i_pixel im i j).
Proof. exact @interpolate_pixel. Qed.
Print Assumptions C13_stored_pixel.
Theorem C13_stored_pixel_u8 :
  forall (im : image Z) (i j : Z) (default : Z), u32_image im ->
    (forall i j, (0 <= i < i_width im)%Z -> (0 <= j < i_height im)%Z -> u8 (i_pixel im i j)) ->
    window_accepted i (i_width im) -> window_accepted j (i_height im) ->
    interpolate_bicubic Rcasts (u8_to_float : Z -> RNum) (u8_clamp Rcasts) im (IZR i) (IZR j) default = Colour (i_pixel im i j).
Proof. exact stored_u8. Qed.
Print Assumptions C13_stored_pixel_u8.
Theorem C13_constant_u8 :
  forall (im : image Z) (x y : R) (z r k default : Z), u32_image im -> u8 k ->
    (forall i j, (0 <= i < i_width im)%Z -> (0 <= j < i_height im)%Z -> i_pixel im i j = k) -> floor_of x z -> floor_of y r ->
    window_accepted z (i_width im) -> window_accepted r (i_height im) ->
    interpolate_bicubic Rcasts (u8_to_float : Z -> RNum) (u8_clamp Rcasts) im x y default = Colour k.
Proof. exact constant_u8. Qed.
Print Assumptions C13_constant_u8.
(** The blend of four samples is the one cubic with the chord slopes at the middle samples. *)
Theorem C13_catmull_rom :
  forall p0 p1 p2 p3 : R, catmull_rom p0 p1 p2 p3 (@blend_cubic RNum R (fun v => v) (fun v => v) p0 p1 p2 p3) /\
    forall f, catmull_rom p0 p1 p2 p3 f -> forall t, f t = @blend_cubic RNum R (fun v => v) (fun v => v) p0 p1 p2 p3 t.
Proof. exact (fun p0 p1 p2 p3 => conj (rblend_catmull_rom p0 p1 p2 p3) (fun f H => catmull_rom_unique p0 p1 p2 p3 f _ H (rblend_catmull_rom p0 p1 p2 p3))). Qed.
Print Assumptions C13_catmull_rom.
(** Affine images of real channels are exact.  Missing: eight-bit channels, see the next two theorems. *)
Theorem C13_affine_partial :
  forall (im : image R) (x y a b c : R) (z r : Z) (default : R), u32_image im -> floor_of x z -> floor_of y r ->
    window_accepted z (i_width im) -> window_accepted r (i_height im) ->
    (forall i j, (0 <= i < i_width im)%Z -> (0 <= j < i_height im)%Z -> i_pixel im i j = a + b * IZR i + c * IZR j) ->
    @interpolate_bicubic RNum Rcasts R (fun v => v) (fun v => v) im x y default = Colour (a + b * x + c * y).
Proof. exact interpolate_affine. Qed.
Print Assumptions C13_affine_partial.
(** With eight-bit channels every blend truncates; the error stays below 17/8. *)
Theorem C13_affine_u8_error :
  forall (im : image Z) (x y a b c : R) (z r : Z) (default : Z), u32_image im -> floor_of x z -> floor_of y r ->
    window_accepted z (i_width im) -> window_accepted r (i_height im) ->
    (forall i j, (0 <= i < i_width im)%Z -> (0 <= j < i_height im)%Z -> u8 (i_pixel im i j) /\ IZR (i_pixel im i j) = a + b * IZR i + c * IZR j) ->
    exists k, interpolate_bicubic Rcasts (u8_to_float : Z -> RNum) (u8_clamp Rcasts) im x y default = Colour k /\ u8 k /\
      a + b * x + c * y - 17 / 8 < IZR k <= a + b * x + c * y + 1 / 8.
Proof. exact u8_affine_error. Qed.
Print Assumptions C13_affine_u8_error.
(** The colour of an affine image is the whole number 3 and 2 is returned. *)
Theorem C13_affine_u8_refuted :
  exists (im : image Z) (x y a b c : R) (z r : Z), u32_image im /\ floor_of x z /\ floor_of y r /\
    window_accepted z (i_width im) /\ window_accepted r (i_height im) /\
    (forall i j, (0 <= i < i_width im)%Z -> (0 <= j < i_height im)%Z -> u8 (i_pixel im i j) /\ IZR (i_pixel im i j) = a + b * IZR i + c * IZR j) /\
    a + b * x + c * y = 3 /\ interpolate_bicubic Rcasts (u8_to_float : Z -> RNum) (u8_clamp Rcasts) im x y 0%Z = Colour 2%Z.
Proof. exact u8_affine_wrong. Qed.
Print Assumptions C13_affine_u8_refuted.

(** The same function in 32-bit floats; [represents 24 128 x a] says that the float [x] is finite with the value [a]. *)
(** For every image and all float coordinates, infinite ones included, the unchecked reads stay inside the image, unless a coordinate is NaN. *)
Theorem C13_f32_memory_safe :
  forall C (to_float : C -> F32) (clamp : F32 -> C) (im : image C) (x y : F32) (default : C), u32_image im ->
    sf_valid 24 128 x -> sf_valid 24 128 y -> isnan x = false -> isnan y = false ->
    interpolate_bicubic F32casts to_float clamp im x y default <> Outside.
Proof. exact @f32_memory_safe. Qed.
Print Assumptions C13_f32_memory_safe.
(** A NaN coordinate passes the tests; in an image of fewer than four columns the read is undefined behaviour. *)
Theorem C13_f32_nan_refuted :
  exists (im : image Z) (x y : F32), u32_image im /\
    interpolate_bicubic F32casts (u8_to_float : Z -> F32) (u8_clamp F32casts) im x y 0%Z = Outside.
Proof. exact f32_nan_outside. Qed.
Print Assumptions C13_f32_nan_refuted.
(** In images of at most 2^24 rows and columns the window and the weights are exact. *)
Theorem C13_f32_value :
  forall C (to_float : C -> F32) (clamp : F32 -> C) (im : image C) (x y : F32) (a b : R) (z r : Z) (default : C),
    (0 <= i_width im <= 2 ^ 24)%Z -> (0 <= i_height im <= 2 ^ 24)%Z ->
    represents 24 128 x a -> represents 24 128 y b -> floor_of a z -> floor_of b r ->
    (window_accepted z (i_width im) /\ window_accepted r (i_height im) ->
      exists wx wy, represents 24 128 wx (a - IZR z) /\ represents 24 128 wy (b - IZR r) /\
        interpolate_bicubic F32casts to_float clamp im x y default = Colour (window_value to_float clamp im z r (wx : F32) (wy : F32))) /\
    (~ (window_accepted z (i_width im) /\ window_accepted r (i_height im)) -> interpolate_bicubic F32casts to_float clamp im x y default = Colour default).
Proof. exact @f32_value. Qed.
Print Assumptions C13_f32_value.
Theorem C13_f32_stored_pixel :
  forall (im : image Z) (i j default : Z), (0 <= i_width im <= 2 ^ 24)%Z -> (0 <= i_height im <= 2 ^ 24)%Z ->
    (forall i j, (0 <= i < i_width im)%Z -> (0 <= j < i_height im)%Z -> u8 (i_pixel im i j)) ->
    window_accepted i (i_width im) -> window_accepted j (i_height im) ->
    interpolate_bicubic F32casts (u8_to_float : Z -> F32) (u8_clamp F32casts) im (ofZ i) (ofZ j) default = Colour (i_pixel im i j).
Proof. exact f32_stored_pixel. Qed.
Print Assumptions C13_f32_stored_pixel.
(** With more than 2^26 rows the end of the window is rounded up and the function panics. *)
Theorem C13_f32_huge_refuted :
  exists (im : image Z) (x y : F32), u32_image im /\ isnan x = false /\ isnan y = false /\
    interpolate_bicubic F32casts (u8_to_float : Z -> F32) (u8_clamp F32casts) im x y 0%Z = Overrun.
Proof. exact f32_overrun. Qed.
Print Assumptions C13_f32_huge_refuted.
Example C13_case : u32_image ramp /\ (forall i j, (0 <= i < 6)%Z -> (0 <= j < 6)%Z -> u8 (i_pixel ramp i j)) /\ floor_of (3 / 2) 1 /\ window_accepted 1 (i_width ramp) /\ window_accepted 1 (i_height ramp).
Proof. split; [unfold u32_image, u32_max; cbn; Lia.lia|]. split; [exact ramp_u8|]. split; [unfold floor_of; Lra.lra|]. split; unfold window_accepted; cbn; Lia.lia. Qed.

(** ** C14 *)
(** The whole content of the file. *)
Theorem C14_file :
  forall N (points : list (vertex N)) (cameras : list (export_camera N)) (camera_faces : bool),
    export points cameras camera_faces =
      Ply (flat_map camera_vertices cameras ++ points) (if camera_faces then Some (flat_map camera_triangles (seq 0 (length cameras))) else None).
Proof. exact @export_value. Qed.
Print Assumptions C14_file.
Theorem C14_counts :
  forall N (points : list (vertex N)) (cameras : list (export_camera N)) (camera_faces : bool),
    length (vertices (export points cameras camera_faces)) = (5 * length cameras + length points)%nat /\
    (forall fs, faces (export points cameras camera_faces) = Some fs -> length fs = (4 * length cameras)%nat) /\
    (faces (export points cameras camera_faces) = None <-> camera_faces = false).
Proof. exact @export_counts. Qed.
Print Assumptions C14_counts.
(** Every face has three different vertices, all of one camera and all in the file. *)
Theorem C14_faces :
  forall N (points : list (vertex N)) (cameras : list (export_camera N)) (camera_faces : bool) fs x y z,
    faces (export points cameras camera_faces) = Some fs -> In (x, y, z) fs ->
    x <> y /\ y <> z /\ x <> z /\ exists i, (i < length cameras)%nat /\
      forall j, In j [x; y; z] -> (5 * i <= j < 5 * i + 5)%nat /\ (j < length (vertices (export points cameras camera_faces)))%nat.
Proof. exact @export_indices. Qed.
Print Assumptions C14_faces.
(** Where the vertices of a camera and the points are. *)
Theorem C14_vertices :
  forall N (points : list (vertex N)) (cameras : list (export_camera N)) (camera_faces : bool),
    (forall i c k, nth_error cameras i = Some c -> (k < 5)%nat ->
      nth_error (vertices (export points cameras camera_faces)) (5 * i + k) = nth_error (camera_vertices c) k) /\
    (forall i, nth_error (vertices (export points cameras camera_faces)) (5 * length cameras + i) = nth_error points i).
Proof. exact (fun N ps cs b => conj (fun i c k E K => @export_camera_points N ps cs b i c E k K) (@export_points N ps cs b)). Qed.
Print Assumptions C14_vertices.
(** The pyramid drawn for a view, seen by that view: its tip is the camera centre, and its base is the square at one hundredth of the mean landmark distance in front of it, the first vertices above (the y axis points down) and to the right. *)
Theorem C14_pyramid :
  forall (pose : riso) (mean_distance : R), rigid pose ->
    iso_point pose (optical_center (camera_of_view pose mean_distance)) = vzero /\
    forall up right : Z, iso_point pose (corner (camera_of_view pose mean_distance) up right) =
      V3 (IZR right * (mean_distance / 100)) (- (IZR up * (mean_distance / 100))) (mean_distance / 100).
Proof. exact (fun p m H => conj (view_centre p m H) (fun u r => view_corner p m u r H)). Qed.
Print Assumptions C14_pyramid.
Example C14_case : exists fs, faces (export [] [ExportCamera (vzero : vec3 RNum) vzero vzero 1; ExportCamera vzero vzero vzero 2] true) = Some fs /\ In (5, 9, 6)%nat fs.
Proof. eexists. split; [reflexivity|]. cbn. tauto. Qed.
