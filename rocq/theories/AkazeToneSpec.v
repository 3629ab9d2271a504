(** Specification vocabulary for changes of brightness and contrast. *)
From Coq Require Import List Arith Reals.
From Verif Require Import Num Outcome Gray GraySpec Diffuse Akaze AkazeSpec.
Import ListNotations.
Open Scope R_scope.

(** Every pixel value [v] of [g] is [a * v + c] in [g']. *)
Definition retoned (a c : R) (g g' : gray RNum) : Prop :=
  image_of (N := RNum) (g_width g) (g_height g) (fun x y => a * pixel g x y + c) g'.
(** The same settings with the detector threshold [t] times as high. *)
Definition with_threshold (t : R) (o : rsettings) : rsettings :=
  Settings (F := RNum) (maximum_features o) (num_sublevels o) (max_octave_evolution o) (base_scale_offset o) (contrast_percentile o)
    (contrast_factor_num_bins o) (derivative_factor o) (t * detector_threshold o) (descriptor_channels o) (descriptor_pattern_size o).
(** The same keypoint with a response [t] times as strong. *)
Definition with_response (t : R) (kp : rkeypoint) : rkeypoint :=
  KeyPoint (F := RNum) (kp_x kp) (kp_y kp) (t * kp_response kp) (kp_size kp) (kp_octave kp) (kp_class kp) (kp_angle kp).
(** What becomes of the result. *)
Definition stronger (t : R) (r : outcome (list rkeypoint * list (list BinNums.N))) : outcome (list rkeypoint * list (list BinNums.N)) :=
  match r with Ok (kps, descriptors) => Ok (map (with_response t) kps, descriptors) | Panic => Panic | Fuel => Fuel end.

(** The angle of a vector does not depend on its length. *)
Definition directional (A : angles RNum) : Prop := forall t x y, 0 < t -> a_atan2 A (t * y) (t * x) = a_atan2 A y x.
(** An order of responses that does not depend on their unit. *)
Definition unitless (float_ord : R -> R -> bool) : Prop := forall t x y, 0 < t -> float_ord (t * x) (t * y) = float_ord x y.
(** A sorting routine that looks at its elements only by comparing them. *)
Definition compares {K} (sort : (K -> K -> bool) -> list K -> list K) : Prop :=
  forall le le' (f : K -> K) l, (forall a b, In a l -> In b l -> le' (f a) (f b) = le a b) -> sort le' (map f l) = map f (sort le l).

(** Angles over the reals: the angle of (x, y) from the first axis in (-pi, pi], 0 for the zero vector. *)
Definition Ratan2 (y x : R) : R :=
  if Rlt_dec 0 x then atan (y / x)
  else if Rlt_dec x 0 then (if Rle_dec 0 y then atan (y / x) + PI else atan (y / x) - PI)
  else if Rlt_dec 0 y then PI / 2 else if Rlt_dec y 0 then - PI / 2 else 0.
Definition Rangles : angles RNum := Angles RNum Ratan2 (fun x m => x - m * IZR (Int_part (x / m))) cos sin.
