(** Specifications for Frame.v. *)
From Coq Require Import Reals ZArith SpecFloat.
From Flocq Require Import Core BinarySingleNaN.
From Verif Require Import Num Lin Gray GraySpec Diffuse Akaze Bicubic Pinhole Frame.
Open Scope R_scope.

(** The value of a finite float. *)
Notation value := (SF2R radix2).
(** What a grey level becomes. *)
Definition faithful (m : Z) (w h : nat) (level : nat -> nat -> Z) (g : gray F32) : Prop :=
  sized w h g /\ forall x y, (x < w)%nat -> (y < h)%nat ->
    isfin (pixel g x y) = true /\ 0 <= value (pixel g x y) <= 1 /\ Rabs (value (pixel g x y) - IZR (level x y) / IZR m) <= / 2 ^ 24 /\
    (level x y = 0%Z -> value (pixel g x y) = 0) /\ (level x y = m -> value (pixel g x y) = 1) /\
    forall x' y', (x' < w)%nat -> (y' < h)%nat -> (level x y < level x' y')%Z -> value (pixel g x y) < value (pixel g x' y').
(** The same buffer with other pixels. *)
Definition mapped {T U} (f : T -> U) (b : buffer T) : buffer U := Buffer (b_width b) (b_height b) (fun x y => f (b_at b x y)).
(** The sides of an image that can be loaded. *)
Definition sides {F} (image : grayscale F) : option (nat * nat) :=
  match image with
  | Luma8 b | Luma16 b => Some (b_width b, b_height b)
  | LumaA8 b | LumaA16 b => Some (b_width b, b_height b)
  | Rgb32F b => Some (b_width b, b_height b)
  | Rgba32F b => Some (b_width b, b_height b)
  | Unexpected => None
  end.
(** [f] is what the keypoint [kp] becomes: seen in the direction the camera model gives to its pixel, as strong, and coloured
    by bicubic interpolation of the picture at its pixel (black where the interpolation has no colour). *)
Definition seen_as {P : widths} (K : casts (single P)) (k : intrinsics (double P)) (k1 : double P) (rgb : image (Z * Z * Z)) (kp : keypoint (single P)) (f : feature P) : Prop :=
  let coloured p c := interpolate_bicubic K u8_to_float (u8_clamp K) (Image (i_width rgb) (i_height rgb) (fun x y => p (i_pixel rgb x y))) (kp_x kp) (kp_y kp) 0%Z = Colour c in
  f_bearing f = calibrate_k1 k k1 (V2 (widen P (kp_x kp)) (widen P (kp_y kp))) /\ f_response f = kp_response kp /\
  coloured (fun p => fst (fst p)) (fst (fst (f_color f))) /\ coloured (fun p => snd (fst p)) (snd (fst (f_color f))) /\ coloured snd (snd (f_color f)).
