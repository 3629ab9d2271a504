(** Model of what turns an image into the features of a frame: [from_dynamic] (akaze/src/image.rs), [Akaze::new] and
    [extract] (akaze/src/lib.rs) and [kps_descriptors] (cv-sfm/src/lib.rs).  The image crate is not modelled: an image is
    what its [grayscale()] and its [to_rgb8()] return. *)
From Coq Require Import List ZArith.
From Verif Require Import Num Outcome Lin Gray Diffuse Akaze Bicubic Pinhole.
Import ListNotations.

(** [image::ImageBuffer]: only pixels inside are asked for. *)
Record buffer (T : Type) : Type := Buffer { b_width : nat; b_height : nat; b_at : nat -> nat -> T }.
Arguments Buffer {_} _ _ _.
Arguments b_width {_} _.
Arguments b_height {_} _.
Arguments b_at {_} _ _ _.
(** The variants of [DynamicImage] that [from_dynamic] distinguishes; [Unexpected] stands for the others. *)
Inductive grayscale (F : Num) : Type :=
| Luma8 (b : buffer Z) | Luma16 (b : buffer Z)
| LumaA8 (b : buffer (Z * Z)) | LumaA16 (b : buffer (Z * Z))
| Rgb32F (b : buffer (F * F * F)) | Rgba32F (b : buffer (F * F * F * F))
| Unexpected.
Arguments Luma8 {_} _. Arguments Luma16 {_} _. Arguments LumaA8 {_} _. Arguments LumaA16 {_} _.
Arguments Rgb32F {_} _. Arguments Rgba32F {_} _. Arguments Unexpected {_}.

Section load.
Context {F : Num}.
(** [Pixel::to_luma] of the image crate. *)
Variables (rgb_luma : F * F * F -> F) (rgba_luma : F * F * F * F -> F).
Definition converted {T} (f : T -> F) (b : buffer T) : gray F := of_fn (b_width b) (b_height b) (fun x y => f (b_at b x y)).
(** image.rs 45-109 [GrayFloatImage::from_dynamic], after [grayscale()]. *)
Definition from_dynamic (image : grayscale F) : outcome (gray F) :=
  match image with
  | Luma8 b => Ok (converted (fun p => ofZ p / ofZ 255)%num b)
  | Luma16 b => Ok (converted (fun p => ofZ p / ofZ 65535)%num b)
  | LumaA8 b => Ok (converted (fun p => ofZ (fst p) / ofZ 255)%num b)
  | LumaA16 b => Ok (converted (fun p => ofZ (fst p) / ofZ 65535)%num b)
  | Rgb32F b => Ok (converted rgb_luma b)
  | Rgba32F b => Ok (converted rgba_luma b)
  | Unexpected => Panic
  end.
End load.

(** cv-sfm/src/lib.rs [Feature]: a bearing, a response and a colour. *)
Record feature (P : widths) : Type := Feature { f_bearing : vec3 (double P); f_response : single P; f_color : Z * Z * Z }.
Arguments Feature {_} _ _ _.
Arguments f_bearing {_} _.
Arguments f_response {_} _.
Arguments f_color {_} _.

Section frame.
Context (P : widths) (M32 : math (single P)) (M64 : math (double P)) (A : angles (single P)) (K : casts (single P)).
Notation f32 := (single P).
Notation f64 := (double P).
Context (exp2 : f64 -> f64) (fed : f64 -> outcome (list f64)).
Variables (rgb_luma : f32 * f32 * f32 -> f32) (rgba_luma : f32 * f32 * f32 * f32 -> f32).
(** [FloatOrd] and [sort_unstable_by_key], as in Akaze.v; the routine sorts lists of any type. *)
Variables (float_ord : f32 -> f32 -> bool) (sort : forall T : Type, (T -> T -> bool) -> list T -> list T).

(** akaze/src/lib.rs 144-185: [Akaze::new] and [default], with the given number of features. *)
Definition akaze_new (maximum : nat) (threshold : f64) : settings f64 :=
  Settings maximum 4 4 (lit 16 10) (lit 7 10) 300 (lit 15 10) threshold 3 10.
(** akaze/src/lib.rs 295-298 [extract]. *)
Definition extract_image (options : settings f64) (image : grayscale f32) : outcome (list (keypoint f32) * list (list N)) :=
  let! g := from_dynamic rgb_luma rgba_luma image in extract P M32 M64 A exp2 fed options float_ord (sort (keypoint f32)) g.

(** One channel of an RGB image. *)
Definition channel (rgb : image (Z * Z * Z)) (f : Z * Z * Z -> Z) : image Z := Image (i_width rgb) (i_height rgb) (fun x y => f (i_pixel rgb x y)).
(** cv-sfm/src/lib.rs 2208-2216: the colour at a keypoint, black by default.  A read outside the image, undefined behaviour,
    counts as a panic. *)
Definition sampled (s : sample Z) : outcome Z := match s with Colour c => Ok c | Outside | Overrun => Panic end.
Definition color_at (rgb : image (Z * Z * Z)) (kp : keypoint f32) : outcome (Z * Z * Z) :=
  let one f := sampled (interpolate_bicubic K u8_to_float (u8_clamp K) (channel rgb f) (kp_x kp) (kp_y kp) 0%Z) in
  let! r := one (fun p => fst (fst p)) in let! g := one (fun p => snd (fst p)) in let! b := one snd in Ok (r, g, b).
(** cv-sfm/src/lib.rs 2219-2232; akaze/src/lib.rs 95-99 [image_point]. *)
Definition feature_of (k : intrinsics f64) (k1 : f64) (x : keypoint f32 * list N * (Z * Z * Z)) : list N * feature P :=
  let '(kp, d, c) := x in (d, Feature (calibrate_k1 k k1 (V2 (widen P (kp_x kp)) (widen P (kp_y kp)))) (kp_response kp) c).
(** cv-sfm/src/lib.rs 2195-2236 [kps_descriptors]; the image is given by [grayscale()] and [to_rgb8()]. *)
Definition kps_descriptors (tracking_features : nat) (akaze_threshold : f64) (k : intrinsics f64) (k1 : f64) (gray_image : grayscale f32) (rgb : image (Z * Z * Z)) : outcome (list (list N * feature P)) :=
  let! (kps, ds) := extract_image (akaze_new tracking_features akaze_threshold) gray_image in
  let! colors := mapM (color_at rgb) kps in
  Ok (sort _ (fun a b => float_ord (f_response (snd b)) (f_response (snd a))) (map (feature_of k k1) (combine (combine kps ds) colors))).
End frame.
