(** C17, C18, C25, C46: the image filters (akaze/src/image.rs, derivatives.rs). *)
From Coq Require Import Reals List Arith Lia Lra.
From Verif Require Import Num Outcome LinSpec Gray GraySpec GrayFacts GrayReal GrayProps.
Import ListNotations.
Open Scope R_scope.


Theorem C17_horizontal :
  forall w h (g : gray RNum) (kernel : list R), sized w h g -> (length kernel mod 2 = 1)%nat -> (0 < w)%nat ->
    exists out, horizontal_filter (N := RNum) g kernel = Ok out /\ image_of w h (correlate_row kernel g) out.
Proof. exact (fun w h g kernel S => horizontal_correlates w h g S kernel). Qed.
Print Assumptions C17_horizontal.

Theorem C17_vertical :
  forall w h (g : gray RNum) (kernel : list R), sized w h g -> (length kernel mod 2 = 1)%nat -> (0 < h)%nat ->
    exists out, vertical_filter (N := RNum) g kernel = Ok out /\ image_of w h (correlate_column kernel g) out.
Proof. exact (fun w h g kernel S => vertical_correlates w h g S kernel). Qed.
Print Assumptions C17_vertical.

Theorem C17_separable :
  forall w h (g : gray RNum) (hk vk : list R), sized w h g -> (0 < w)%nat -> (0 < h)%nat ->
    (length hk mod 2 = 1)%nat -> (length vk mod 2 = 1)%nat ->
    exists out, separable_filter (N := RNum) g hk vk = Ok out /\ image_of w h (correlate hk vk g) out.
Proof. exact separable_correlates. Qed.
Print Assumptions C17_separable.

Theorem C17_even_kernel_panics :
  forall (g : gray RNum) (kernel : list R), (length kernel mod 2 <> 1)%nat ->
    horizontal_filter (N := RNum) g kernel = Panic /\ vertical_filter (N := RNum) g kernel = Panic.
Proof. exact even_kernel_panics. Qed.
Print Assumptions C17_even_kernel_panics.

(** With floats a pixel beyond the reach of the kernel can matter: the lanes added to fill a vector are multiplied by zero, and zero times infinity is not zero. *)

Theorem C17_reach_refuted :
  exists (g : gray F32) (kernel : list F32) out, sized 2 1 g /\ length kernel = 1%nat /\ horizontal_filter g kernel = Ok out /\
    isnan (pixel g 0 0) = false /\ isnan (nth 0 kernel zero) = false /\ isnan (pixel out 0 0) = true.
Proof. exact filter_reach_refuted. Qed.
Print Assumptions C17_reach_refuted.

Example C17_example : exists (g : gray RNum) (kernel : list R) out, sized 3 2 g /\ length kernel = 3%nat /\
    horizontal_filter (N := RNum) g kernel = Ok out /\ pixel out 0 1 = 1 * 4 + 2 * 4 + 3 * 5 /\ pixel out 2 0 = 1 * 2 + 2 * 3 + 3 * 3.
Proof. exists (of_rows (N := RNum) [[1; 2; 3]; [4; 5; 6]]), [1; 2; 3]. destruct (C17_horizontal 3 2 (of_rows (N := RNum) [[1; 2; 3]; [4; 5; 6]]) [1; 2; 3]) as (out & E & _ & P); [repeat split|reflexivity|lia|].
  exists out. split; [repeat split|]. split; [reflexivity|]. split; [exact E|]. rewrite !P by lia. split; cbv - [Rplus Rmult IZR]; ring. Qed.

Theorem C18_blur_is_gaussian :
  forall w h (g : gray RNum) (r : R), sized w h g -> (0 < w)%nat -> (0 < h)%nat -> 0 < r ->
    exists out k, gaussian_blur (N := RNum) Rmath g r = Ok out /\ image_of w h (correlate k k g) out /\
      exists n, (1 <= n)%nat /\ 2 * r <= INR n < 2 * r + 1 /\ length k = (2 * n + 1)%nat /\
        forall i, (i < 2 * n + 1)%nat -> nth i k 0 = gauss_weight r n i.
Proof. exact blur_spec. Qed.
Print Assumptions C18_blur_is_gaussian.

Theorem C18_range :
  forall w h (g : gray RNum) (r : R), sized w h g -> (0 < w)%nat -> (0 < h)%nat -> 0 < r -> forall lo hi, within lo hi g ->
    exists out, gaussian_blur (N := RNum) Rmath g r = Ok out /\ sized w h out /\ within lo hi out.
Proof. exact blur_within. Qed.
Print Assumptions C18_range.

Theorem C18_constant :
  forall w h c (g : gray RNum) (r : R), (0 < w)%nat -> (0 < h)%nat -> 0 < r -> constant_image w h c g ->
    exists out, gaussian_blur (N := RNum) Rmath g r = Ok out /\ constant_image w h c out.
Proof. exact blur_constant. Qed.
Print Assumptions C18_constant.

Theorem C18_mirror :
  forall w h (g : gray RNum) (r : R), sized w h g -> (0 < w)%nat -> (0 < h)%nat -> 0 < r -> forall g', mirrored g g' ->
    exists out out', gaussian_blur (N := RNum) Rmath g r = Ok out /\ gaussian_blur (N := RNum) Rmath g' r = Ok out' /\ mirrored out out'.
Proof. exact blur_mirror. Qed.
Print Assumptions C18_mirror.

Theorem C18_flip :
  forall w h (g : gray RNum) (r : R), sized w h g -> (0 < w)%nat -> (0 < h)%nat -> 0 < r -> forall g', flipped g g' ->
    exists out out', gaussian_blur (N := RNum) Rmath g r = Ok out /\ gaussian_blur (N := RNum) Rmath g' r = Ok out' /\ flipped out out'.
Proof. exact blur_flip. Qed.
Print Assumptions C18_flip.

Theorem C18_nonpositive_radius_panics :
  forall (g : gray RNum) (r : R), r <= 0 -> gaussian_blur (N := RNum) Rmath g r = Panic.
Proof. exact blur_nonpositive. Qed.
Print Assumptions C18_nonpositive_radius_panics.

Example C18_example : exists (g g' : gray RNum), sized 3 2 g /\ within 1 6 g /\ mirrored g g' /\ ~ mirrored g g.
Proof. exists (of_rows (N := RNum) [[1; 2; 3]; [4; 5; 6]]), (of_rows (N := RNum) [[3; 2; 1]; [6; 5; 4]]). split; [repeat split|]. split.
  - intros x y Hx Hy. cbn in Hx, Hy. destruct x as [|[|[|x]]], y as [|[|y]]; try lia; cbv - [Rle IZR]; lra.
  - split; [split; [repeat split|]; intros x y Hx Hy; cbn in Hx, Hy; destruct x as [|[|[|x]]], y as [|[|y]]; try lia; reflexivity|].
    intros [_ H]. specialize (H 0%nat 0%nat ltac:(cbn; lia) ltac:(cbn; lia)). cbv - [IZR] in H. lra. Qed.

Theorem C25_half_size :
  forall w h (g : gray RNum), sized w h g -> (2 <= w)%nat -> (2 <= h)%nat ->
    exists out, half_size (N := RNum) g = Ok out /\ image_of (w / 2) (h / 2) (half_value w h (pixel g)) out.
Proof. exact half_size_image. Qed.
Print Assumptions C25_half_size.

Theorem C25_range :
  forall w h (g : gray RNum) lo hi, sized w h g -> (2 <= w)%nat -> (2 <= h)%nat -> within lo hi g ->
    exists out, half_size (N := RNum) g = Ok out /\ sized (w / 2) (h / 2) out /\ within lo hi out.
Proof. exact half_within. Qed.
Print Assumptions C25_range.

Theorem C25_constant :
  forall w h c (g : gray RNum), (2 <= w)%nat -> (2 <= h)%nat -> constant_image w h c g ->
    exists out, half_size (N := RNum) g = Ok out /\ constant_image (w / 2) (h / 2) c out.
Proof. exact half_constant. Qed.
Print Assumptions C25_constant.

(** There are four times as many pixels, so the means are equal. *)

Theorem C25_mean :
  forall w h (g : gray RNum), sized (2 * w) (2 * h) g -> (1 <= w)%nat -> (1 <= h)%nat ->
    exists out, half_size (N := RNum) g = Ok out /\ sized w h out /\ total g = 4 * total out.
Proof. exact half_total. Qed.
Print Assumptions C25_mean.

(** For odd sizes the mean is not kept: eight ones and a zero in the corner become a zero. *)

Theorem C25_odd_sizes_ignore_pixels :
  exists g : gray RNum, sized 3 3 g /\ within 0 1 g /\ total g = 8 /\
    exists out, half_size (N := RNum) g = Ok out /\ constant_image 1 1 0 out.
Proof. exact half_odd_loses. Qed.
Print Assumptions C25_odd_sizes_ignore_pixels.

Theorem C25_thin_panics :
  forall w h (g : gray RNum), sized w h g -> w = 1%nat \/ h = 1%nat -> half_size (N := RNum) g = Panic.
Proof. exact half_size_small. Qed.
Print Assumptions C25_thin_panics.

Example C25_example : exists (g : gray RNum) out, sized 4 2 g /\ half_size (N := RNum) g = Ok out /\ pixel out 0 0 = 3 /\ pixel out 1 0 = 13 / 2.
Proof. destruct (C25_half_size 4 2 (of_rows (N := RNum) [[1; 2; 5; 6]; [4; 5; 7; 8]])) as (out & E & _ & P); [repeat split|lia|lia|].
  exists (of_rows (N := RNum) [[1; 2; 5; 6]; [4; 5; 7; 8]]), out. split; [repeat split|]. split; [exact E|]. rewrite !P by (cbn; lia). split; cbv - [Rplus Rmult Rminus Rdiv IZR Ropp Rinv]; field. Qed.

Theorem C46_scharr :
  forall w h (g : gray RNum) s, sized w h g -> (0 < w)%nat -> (0 < h)%nat -> (1 <= s)%nat ->
    exists gx gy, scharr_horizontal (N := RNum) g s = Ok gx /\ scharr_vertical (N := RNum) g s = Ok gy /\
      image_of w h (scharr_x g s) gx /\ image_of w h (scharr_y g s) gy.
Proof. exact scharr_image. Qed.
Print Assumptions C46_scharr.

Theorem C46_simple_scharr :
  forall g : gray RNum, simple_scharr_horizontal (N := RNum) g = scharr_horizontal (N := RNum) g 1 /\
    simple_scharr_vertical (N := RNum) g = scharr_vertical (N := RNum) g 1.
Proof. exact simple_is_unit. Qed.
Print Assumptions C46_simple_scharr.

Theorem C46_constant :
  forall w h c (g : gray RNum) s, constant_image w h c g -> (0 < w)%nat -> (0 < h)%nat -> (1 <= s)%nat ->
    exists gx gy, scharr_horizontal (N := RNum) g s = Ok gx /\ scharr_vertical (N := RNum) g s = Ok gy /\
      constant_image w h 0 gx /\ constant_image w h 0 gy.
Proof. exact scharr_constant. Qed.
Print Assumptions C46_constant.

(** The kernels of size 1 are not normalised: their gain is 32. *)

Theorem C46_ramp :
  forall w h a b c (g : gray RNum) s, ramp w h a b c g -> (0 < w)%nat -> (0 < h)%nat -> (1 <= s)%nat ->
    exists gx gy, scharr_horizontal (N := RNum) g s = Ok gx /\ scharr_vertical (N := RNum) g s = Ok gy /\ sized w h gx /\ sized w h gy /\
      (forall x y, (s <= x)%nat -> (x + s < w)%nat -> (y < h)%nat -> pixel gx x y = (if (s =? 1)%nat then 32 else 1) * b) /\
      (forall x y, (x < w)%nat -> (s <= y)%nat -> (y + s < h)%nat -> pixel gy x y = (if (s =? 1)%nat then 32 else 1) * c).
Proof. exact scharr_ramp. Qed.
Print Assumptions C46_ramp.

Theorem C46_size_zero_panics :
  forall g : gray RNum, scharr_horizontal (N := RNum) g 0 = Panic /\ scharr_vertical (N := RNum) g 0 = Panic.
Proof. exact scharr_zero. Qed.
Print Assumptions C46_size_zero_panics.

Example C46_example : exists (g gx : gray RNum), ramp 5 4 1 2 3 g /\ scharr_horizontal (N := RNum) g 2 = Ok gx /\ pixel gx 2 1 = 2.
Proof. assert (R : ramp 5 4 1 2 3 (of_fn (N := RNum) 5 4 (fun x y => 1 + 2 * INR x + 3 * INR y))) by apply of_fn_image.
  destruct (C46_ramp 5 4 1 2 3 _ 2 R) as (gx & gy & E & _ & _ & _ & P & _); [lia|lia|lia|]. exists (of_fn (N := RNum) 5 4 (fun x y => 1 + 2 * INR x + 3 * INR y)), gx. split; [exact R|]. split; [exact E|]. rewrite P by lia. cbn [Nat.eqb]. lra. Qed.
