(** Filters, blur, diffusion and halving in binary32 (C17, C18, C19, C25). *)
From Coq Require Import List Arith ZArith Reals SpecFloat.
From Verif Require Import Num Outcome Gray GraySpec Diffuse DiffuseSpec FloatGraySpec FloatGray FloatBlur FloatBlurCase FloatStep FloatStepProps FloatHalf.
Import ListNotations.
Open Scope R_scope.

(** In binary32 the filters compute the correlation up to rounding: for [a] the largest pixel and [K] the sum of the absolute
    weights, a result is off by less than one part in [2 ^ 25] of [K a] for each weight. *)
Theorem C17_float_horizontal :
  forall w h a (g : gray F32) (kernel : list F32), finite_image w h a g -> (length kernel mod 2 = 1)%nat -> INR (length kernel) <= 65536 ->
    Forall finite_single kernel -> kernel_norm kernel * a <= 2 ^ 126 -> (0 < w)%nat ->
    exists out, horizontal_filter g kernel = Ok out /\ sized w h out /\
      (forall x y, (x < w)%nat -> (y < h)%nat -> finite_single (pixel out x y) /\
        Rabs (value (pixel out x y) - correlate_row (real_kernel kernel) (real_image g) x y) <= filter_error (length kernel) (kernel_norm kernel * a)) /\
      ((forall i, 0 <= nth i (real_kernel kernel) 0) -> (forall x y, (x < w)%nat -> (y < h)%nat -> 0 <= value (pixel g x y)) ->
        forall x y, (x < w)%nat -> (y < h)%nat -> 0 <= value (pixel out x y)).
Proof. exact horizontal_near. Qed.
Print Assumptions C17_float_horizontal.

Theorem C17_float_vertical :
  forall w h a (g : gray F32) (kernel : list F32), finite_image w h a g -> (length kernel mod 2 = 1)%nat -> INR (length kernel) <= 65536 ->
    Forall finite_single kernel -> kernel_norm kernel * a <= 2 ^ 126 -> (0 < h)%nat ->
    exists out, vertical_filter g kernel = Ok out /\ sized w h out /\
      (forall x y, (x < w)%nat -> (y < h)%nat -> finite_single (pixel out x y) /\
        Rabs (value (pixel out x y) - correlate_column (real_kernel kernel) (real_image g) x y) <= filter_error (length kernel) (kernel_norm kernel * a)) /\
      ((forall i, 0 <= nth i (real_kernel kernel) 0) -> (forall x y, (x < w)%nat -> (y < h)%nat -> 0 <= value (pixel g x y)) ->
        forall x y, (x < w)%nat -> (y < h)%nat -> 0 <= value (pixel out x y)).
Proof. exact vertical_near. Qed.
Print Assumptions C17_float_vertical.

Theorem C17_float_separable :
  forall w h a (g : gray F32) (hk vk : list F32), finite_image w h a g -> (0 < w)%nat -> (0 < h)%nat ->
    (length hk mod 2 = 1)%nat -> (length vk mod 2 = 1)%nat -> INR (length hk) <= 65536 -> INR (length vk) <= 65536 ->
    Forall finite_single hk -> Forall finite_single vk ->
    let first := filter_error (length hk) (kernel_norm hk * a) in let a' := kernel_norm hk * a + first in
    kernel_norm hk * a <= 2 ^ 126 -> kernel_norm vk * a' <= 2 ^ 126 ->
    exists out, separable_filter g hk vk = Ok out /\ sized w h out /\ forall x y, (x < w)%nat -> (y < h)%nat -> finite_single (pixel out x y) /\
      Rabs (value (pixel out x y) - correlate (real_kernel hk) (real_kernel vk) (real_image g) x y)
        <= filter_error (length vk) (kernel_norm vk * a') + kernel_norm vk * first.
Proof. exact separable_near. Qed.
Print Assumptions C17_float_separable.

Example C17_float_case : exists (g : gray F32) (kernel : list F32), finite_image 3 2 6 g /\ length kernel = 3%nat /\ Forall finite_single kernel /\
  kernel_norm kernel = 6 /\ nth 0 (real_kernel kernel) 0 = -1 /\ pixel g 0 0 <> pixel g 1 1.
Proof. exact filter_float_case. Qed.

(** A blur in binary32 gives finite pixels and leaves the range of the image by rounding errors only, whatever the accuracy of
    the exponential function; nonnegative images stay nonnegative. *)
Theorem C18_float_range :
  forall (M : math F32) (r : F32) w h (g : gray F32) lo hi a, plausible M -> finite_single r -> / 2 ^ 20 <= value r <= 2 ^ 10 ->
    (0 < w)%nat -> (0 < h)%nat -> finite_between w h lo hi g -> - a <= lo -> hi <= a -> a <= 2 ^ 100 ->
    exists out, gaussian_blur M g r = Ok out /\ finite_between w h (lo - blur_error (value r) a) (hi + blur_error (value r) a) out /\
      (0 <= lo -> forall x y, (x < w)%nat -> (y < h)%nat -> 0 <= value (pixel out x y)).
Proof. exact blur_float. Qed.
Print Assumptions C18_float_range.

Theorem C18_float_constant :
  forall (M : math F32) (r : F32) w h (g : gray F32) c, plausible M -> finite_single r -> / 2 ^ 20 <= value r <= 2 ^ 10 ->
    (0 < w)%nat -> (0 < h)%nat -> finite_between w h c c g -> Rabs c <= 2 ^ 100 ->
    exists out, gaussian_blur M g r = Ok out /\ sized w h out /\ forall x y, (x < w)%nat -> (y < h)%nat ->
      finite_single (pixel out x y) /\ Rabs (value (pixel out x y) - c) <= blur_error (value r) (Rabs c).
Proof. exact blur_float_constant. Qed.
Print Assumptions C18_float_constant.

Example C18_float_case : exists (M : math F32) (r : F32) (g : gray F32), plausible M /\ finite_single r /\ / 2 ^ 20 <= value r <= 2 ^ 10 /\
  finite_between 2 1 0 1 g /\ pixel g 0 0 <> pixel g 1 0.
Proof. exact blur_float_case. Qed.

(** The constant is not kept exactly: blurring an image of ones with the radius 1/4 gives values below one. *)
Theorem C18_float_constant_refuted :
  exists (M : math F32) (r : F32) (g out : gray F32), plausible M /\ finite_single r /\ / 2 ^ 20 <= value r <= 2 ^ 10 /\ finite_between 1 1 1 1 g /\
    gaussian_blur M g r = Ok out /\ value (pixel out 0 0) = 1 - 4 / 2 ^ 24.
Proof. exact blur_not_constant. Qed.
Print Assumptions C18_float_constant_refuted.

(** One diffusion step in binary32: finite, near the exact one, within the range and of the brightness of the image up to
    rounding, and constant images stay as they are, exactly. *)
Theorem C19_float_step :
  forall w h (Lt Lflow : gray F32) (step : F32) a, (0 < w)%nat -> (0 < h)%nat -> finite_image w h a Lt -> finite_between w h 0 1 Lflow -> a <= 2 ^ 90 ->
    finite_single step -> 0 <= value step <= 2 ^ 20 ->
    exists out, calculate_step Lt Lflow step = Ok out /\ sized w h out /\ forall x y, (x < w)%nat -> (y < h)%nat -> finite_single (pixel out x y) /\
      Rabs (value (pixel out x y) - diffused (real_image Lt) (real_image Lflow) (value step) x y) <= step_error (value step) a.
Proof. exact step_float. Qed.
Print Assumptions C19_float_step.

Theorem C19_float_maximum_principle :
  forall w h (Lt Lflow : gray F32) (step : F32) a, (0 < w)%nat -> (0 < h)%nat -> finite_image w h a Lt -> finite_between w h 0 1 Lflow -> a <= 2 ^ 90 ->
    finite_single step -> 0 <= value step <= 2 ^ 20 -> forall lo hi, value step <= 1 / 4 -> finite_between w h lo hi Lt ->
    exists out, calculate_step Lt Lflow step = Ok out /\ finite_between w h (lo - step_error (value step) a) (hi + step_error (value step) a) out.
Proof. exact step_float_within. Qed.
Print Assumptions C19_float_maximum_principle.

Theorem C19_float_brightness :
  forall w h (Lt Lflow : gray F32) (step : F32) a, (0 < w)%nat -> (0 < h)%nat -> finite_image w h a Lt -> finite_between w h 0 1 Lflow -> a <= 2 ^ 90 ->
    finite_single step -> 0 <= value step <= 2 ^ 20 ->
    exists out, calculate_step Lt Lflow step = Ok out /\ sized w h out /\
      Rabs (total (real_image out) - total (real_image Lt)) <= INR w * INR h * step_error (value step) a.
Proof. exact step_float_total. Qed.
Print Assumptions C19_float_brightness.

Theorem C19_float_constant :
  forall w h (Lt Lflow : gray F32) (step : F32) c, (0 < w)%nat -> (0 < h)%nat -> finite_between w h c c Lt -> Rabs c <= 2 ^ 90 -> finite_between w h 0 1 Lflow ->
    finite_single step -> 0 <= value step <= 2 ^ 20 -> exists out, calculate_step Lt Lflow step = Ok out /\ finite_between w h c c out.
Proof. exact step_float_constant. Qed.
Print Assumptions C19_float_constant.

Example C19_float_case : exists (Lt Lflow : gray F32) (step : F32), finite_image 2 2 4 Lt /\ finite_between 2 2 0 1 Lflow /\ finite_single step /\ value step = 1 / 4 /\
  pixel Lt 0 0 <> pixel Lt 1 1 /\ pixel Lflow 0 0 <> pixel Lflow 1 1.
Proof. exact step_float_case. Qed.

(** Halving in binary32 keeps the range exactly, so constants too: the mean of four floats is not below the least and not above the
    largest of them. *)
Theorem C25_float_range :
  forall w h (g : gray F32) a lo hi, (2 <= w)%nat -> (2 <= h)%nat -> finite_image w h a g -> a <= 2 ^ 120 -> finite_between w h lo hi g ->
    exists out, half_size g = Ok out /\ finite_between (w / 2) (h / 2) lo hi out.
Proof. exact half_float_range. Qed.
Print Assumptions C25_float_range.

Theorem C25_float_half_size :
  forall w h (g : gray F32) a, (2 <= w)%nat -> (2 <= h)%nat -> finite_image w h a g -> a <= 2 ^ 120 ->
    exists out, half_size g = Ok out /\ sized (w / 2) (h / 2) out /\ forall x y, (x < w / 2)%nat -> (y < h / 2)%nat -> finite_single (pixel out x y) /\
      Rabs (value (pixel out x y) - half_value w h (pixel (real_image g)) x y) <= 5 / 2 ^ 24 * a + 5 / 2 ^ 150.
Proof. exact half_float_error. Qed.
Print Assumptions C25_float_half_size.

Example C25_float_case : exists g : gray F32, finite_image 3 2 6 g /\ finite_between 3 2 1 6 g /\ pixel g 0 0 <> pixel g 2 1.
Proof. exact half_float_case. Qed.
