(** C19, C20, C21: diffusion (akaze/src/nonlinear_diffusion.rs, contrast_factor.rs). *)
From Coq Require Import Reals List Arith Lia Lra.
From Flocq Require Import Core BinarySingleNaN.
From Verif Require Import Num Outcome FloatFacts FloatUp LinSpec Gray GraySpec GrayFacts GrayReal GrayProps Diffuse DiffuseSpec DiffuseFacts DiffuseProps.
Import ListNotations.
Open Scope R_scope.


Theorem C19_step :
  forall w h (Lt Lflow : gray RNum) (s : R), sized w h Lt -> sized w h Lflow -> (0 < w)%nat -> (0 < h)%nat ->
    exists out, calculate_step (N := RNum) Lt Lflow s = Ok out /\ image_of w h (diffused Lt Lflow s) out.
Proof. exact step_image. Qed.
Print Assumptions C19_step.

Theorem C19_brightness :
  forall w h (Lt Lflow : gray RNum) (s : R), sized w h Lt -> sized w h Lflow -> (0 < w)%nat -> (0 < h)%nat ->
    exists out, calculate_step (N := RNum) Lt Lflow s = Ok out /\ sized w h out /\ total out = total Lt.
Proof. exact step_total. Qed.
Print Assumptions C19_brightness.

Theorem C19_maximum_principle :
  forall w h (Lt Lflow : gray RNum) (s lo hi : R), sized w h Lt -> sized w h Lflow -> (0 < w)%nat -> (0 < h)%nat ->
    0 <= s <= 1 / 4 -> within 0 1 Lflow -> within lo hi Lt ->
    exists out, calculate_step (N := RNum) Lt Lflow s = Ok out /\ sized w h out /\ within lo hi out.
Proof. exact step_within. Qed.
Print Assumptions C19_maximum_principle.

Theorem C19_constant :
  forall w h c (Lt Lflow : gray RNum) (s : R), constant_image w h c Lt -> sized w h Lflow -> (0 < w)%nat -> (0 < h)%nat ->
    exists out, calculate_step (N := RNum) Lt Lflow s = Ok out /\ constant_image w h c out.
Proof. exact step_constant. Qed.
Print Assumptions C19_constant.

(** The bound on the step is sharp; most steps of a FED cycle are above it. *)

Theorem C19_quarter_is_the_limit :
  forall s : R, 1 / 4 < s -> exists Lt Lflow out : gray RNum, sized 3 3 Lt /\ sized 3 3 Lflow /\ within 0 1 Lflow /\ within 0 1 Lt /\
    calculate_step (N := RNum) Lt Lflow s = Ok out /\ pixel out 1 1 < 0.
Proof. exact step_overshoots. Qed.
Print Assumptions C19_quarter_is_the_limit.

Theorem C19_empty_panics :
  forall (Lt Lflow : gray RNum) (s : R), g_width Lt = 0%nat \/ g_height Lt = 0%nat -> calculate_step (N := RNum) Lt Lflow s = Panic.
Proof. exact step_empty. Qed.
Print Assumptions C19_empty_panics.

Example C19_example : exists Lt Lflow out : gray RNum, sized 2 2 Lt /\ sized 2 2 Lflow /\ within 0 1 Lflow /\
    calculate_step (N := RNum) Lt Lflow (1 / 4) = Ok out /\ pixel out 0 0 = 1 + 1 / 4 * (3 / 4 * 1 + 1 / 2 * 2).
Proof. set (Lt := of_rows (N := RNum) [[1; 2]; [3; 5]]). set (Lf := of_rows (N := RNum) [[1; 1 / 2]; [0; 1]]).
  destruct (C19_step 2 2 Lt Lf (1 / 4)) as (out & E & _ & P); [repeat split|repeat split|lia|lia|]. exists Lt, Lf, out. split; [repeat split|]. split; [repeat split|]. split.
  - intros x y Hx Hy. cbn in Hx, Hy. destruct x as [|[|x]], y as [|[|y]]; try lia; cbv - [Rle IZR Rdiv]; lra.
  - split; [exact E|]. rewrite P by lia. cbv - [Rplus Rmult Rminus Rdiv IZR Ropp Rinv]. field. Qed.

Theorem C20_conductivity :
  forall w h (Lx Ly : gray RNum) (k : R), sized w h Lx -> sized w h Ly -> k <> 0 ->
    exists out, pm_g2 Rwidths Lx Ly k = Ok out /\ image_of w h (fun x y => conductivity k (pixel Lx x y) (pixel Ly x y)) out.
Proof. exact pm_g2_image. Qed.
Print Assumptions C20_conductivity.

(** Missing: the contrast factor 0, for which the claim is false, see [C20_fraction_refuted]. *)

Theorem C20_fraction_partial :
  forall k lx ly, k <> 0 -> 0 < conductivity k lx ly <= 1.
Proof. exact conductivity_range. Qed.
Print Assumptions C20_fraction_partial.

Theorem C20_flat :
  forall k, k <> 0 -> conductivity k 0 0 = 1.
Proof. exact conductivity_flat. Qed.
Print Assumptions C20_flat.

Theorem C20_decreasing :
  forall k a b c d, k <> 0 -> a * a + b * b < c * c + d * d -> conductivity k c d < conductivity k a b.
Proof. exact conductivity_decreasing. Qed.
Print Assumptions C20_decreasing.

(** The same in binary32 and binary64, where the quotient may round to 0: no conductivity is NaN as long as the
    contrast factor is neither tiny nor huge.  [SF2R radix2] is the value of a finite float. *)

Theorem C20_float_partial :
  forall w h (Lx Ly : gray F32) (k : F64), sized w h Lx -> sized w h Ly ->
    (forall x y, (x < w)%nat -> (y < h)%nat -> sf_valid 24 128 (pixel Lx x y) /\ isfin (pixel Lx x y) = true /\ sf_valid 24 128 (pixel Ly x y) /\ isfin (pixel Ly x y) = true) ->
    sf_valid 53 1024 k -> isfin k = true -> / 2 ^ 63 <= Rabs (SF2R radix2 k) <= 2 ^ 63 ->
    exists out, pm_g2 Fwidths Lx Ly k = Ok out /\ sized w h out /\
      forall x y, (x < w)%nat -> (y < h)%nat -> isfin (pixel out x y) = true /\ 0 <= SF2R radix2 (pixel out x y) <= 1 /\
        (SF2R radix2 (pixel Lx x y) = 0 -> SF2R radix2 (pixel Ly x y) = 0 -> SF2R radix2 (pixel out x y) = 1) /\
        forall x' y', (x' < w)%nat -> (y' < h)%nat ->
          Rabs (SF2R radix2 (pixel Lx x y)) <= Rabs (SF2R radix2 (pixel Lx x' y')) -> Rabs (SF2R radix2 (pixel Ly x y)) <= Rabs (SF2R radix2 (pixel Ly x' y')) ->
          SF2R radix2 (pixel out x' y') <= SF2R radix2 (pixel out x y).
Proof. exact conductivity_float. Qed.
Print Assumptions C20_float_partial.

Example C20_float_case : exists (Lx Ly : gray F32) (k : F64), sized 2 1 Lx /\ sized 2 1 Ly /\
  (forall x y, (x < 2)%nat -> (y < 1)%nat -> sf_valid 24 128 (pixel Lx x y) /\ isfin (pixel Lx x y) = true /\ sf_valid 24 128 (pixel Ly x y) /\ isfin (pixel Ly x y) = true) /\
  sf_valid 53 1024 k /\ isfin k = true /\ / 2 ^ 63 <= Rabs (SF2R radix2 k) <= 2 ^ 63 /\ pixel Lx 0 0 = zero /\ pixel Lx 1 0 <> pixel Lx 0 0.
Proof. exact conductivity_float_case. Qed.

(** Without any gradient the estimator returns 0, and every conductivity is NaN. *)

Theorem C20_fraction_refuted :
  exists Lx Ly : gray F32, sized 3 3 Lx /\ sized 3 3 Ly /\ forall (pi : F64) (exp : F64 -> F64),
    exists k out, contrast_of Fwidths (sf_math 53 1024 pi exp) Lx Ly (lit 7 10) 300 = Ok k /\
      pm_g2 Fwidths Lx Ly k = Ok out /\ forallb isnan (g_data out) = true /\ length (g_data out) = 9%nat.
Proof. exact (ex_intro _ no_gradient (ex_intro _ no_gradient (conj (conj eq_refl (conj eq_refl eq_refl)) (conj (conj eq_refl (conj eq_refl eq_refl)) conductivity_nan_refuted)))). Qed.
Print Assumptions C20_fraction_refuted.

(** Every constant image has the contrast factor 0. *)

Theorem C20_flat_image_contrast :
  forall w h c (g : gray RNum) (percentile scale : R) (bins : nat), constant_image w h c g -> (3 <= w)%nat -> (3 <= h)%nat ->
    (0 < bins)%nat -> 0 <= percentile -> 0 < scale -> compute_contrast_factor Rwidths Rmath Rmath g percentile scale bins = Ok 0.
Proof. exact contrast_flat. Qed.
Print Assumptions C20_flat_image_contrast.

Example C20_example : exists (Lx Ly out : gray RNum), sized 2 1 Lx /\ sized 2 1 Ly /\ pm_g2 Rwidths Lx Ly 2 = Ok out /\ pixel out 0 0 = 1 /\ pixel out 1 0 = 4 / 29.
Proof. set (Lx := of_rows (N := RNum) [[0; 3]]). set (Ly := of_rows (N := RNum) [[0; 4]]). destruct (C20_conductivity 2 1 Lx Ly 2) as (out & E & _ & P); [repeat split|repeat split|lra|].
  exists Lx, Ly, out. split; [repeat split|]. split; [repeat split|]. split; [exact E|]. rewrite !P by lia. split; cbv - [Rplus Rmult Rminus Rdiv IZR Ropp Rinv]; field. Qed.

Theorem C21_percentile :
  forall w h (Lx Ly : gray RNum) (percentile : R) (bins : nat), sized w h Lx -> sized w h Ly -> (3 <= w)%nat -> (3 <= h)%nat ->
    (0 < bins)%nat -> 0 <= percentile <= 1 ->
    exists top k, largest_gradient Lx Ly top /\ (k <= bins)%nat /\ contrast_of Rwidths Rmath Lx Ly percentile bins = Ok (top * INR k / INR bins) /\
      let wanted := Z.to_nat (Int_part (INR (length (edges Lx Ly)) * percentile)) in
      (wanted <= count_below Lx Ly top bins k)%nat /\ (k = 0%nat \/ (count_below Lx Ly top bins (k - 1) < wanted)%nat).
Proof. exact contrast_percentile. Qed.
Print Assumptions C21_percentile.

Theorem C21_whole :
  forall w h (g : gray RNum) (percentile scale : R) (bins : nat), sized w h g -> (3 <= w)%nat -> (3 <= h)%nat -> (0 < bins)%nat ->
    0 <= percentile <= 1 -> 0 < scale ->
    exists smooth Lx Ly top k, gaussian_blur (N := RNum) Rmath g scale = Ok smooth /\
      image_of w h (scharr_x smooth 1) Lx /\ image_of w h (scharr_y smooth 1) Ly /\
      largest_gradient Lx Ly top /\ (k <= bins)%nat /\
      compute_contrast_factor Rwidths Rmath Rmath g percentile scale bins = Ok (top * INR k / INR bins) /\
      let wanted := Z.to_nat (Int_part (INR (length (edges Lx Ly)) * percentile)) in
      (wanted <= count_below Lx Ly top bins k)%nat /\ (k = 0%nat \/ (count_below Lx Ly top bins (k - 1) < wanted)%nat).
Proof. exact contrast_factor_spec. Qed.
Print Assumptions C21_whole.

(** The fallback can be reached only with a percentile above 1. *)

Theorem C21_any_percentile :
  forall w h (Lx Ly : gray RNum) (percentile : R) (bins : nat), sized w h Lx -> sized w h Ly -> (3 <= w)%nat -> (3 <= h)%nat ->
    (0 < bins)%nat -> 0 <= percentile ->
    let wanted := Z.to_nat (Int_part (INR (length (edges Lx Ly)) * percentile)) in
    exists top k, largest_gradient Lx Ly top /\ (k <= bins)%nat /\
      (k = 0%nat \/ (count_below Lx Ly top bins (k - 1) < wanted)%nat) /\
      ((wanted <= count_below Lx Ly top bins k)%nat /\ contrast_of Rwidths Rmath Lx Ly percentile bins = Ok (top * INR k / INR bins) \/
       (count_below Lx Ly top bins k < wanted)%nat /\ k = bins /\ contrast_of Rwidths Rmath Lx Ly percentile bins = Ok (3 / 100)).
Proof. exact contrast_spec. Qed.
Print Assumptions C21_any_percentile.

Theorem C21_thin_panics :
  forall w h (Lx Ly : gray RNum) (percentile : R) (bins : nat), sized w h Lx -> (1 <= w)%nat -> (1 <= h)%nat -> (w <= 2 \/ h <= 2)%nat ->
    contrast_of Rwidths Rmath Lx Ly percentile bins = Panic.
Proof. exact contrast_small. Qed.
Print Assumptions C21_thin_panics.

Example C21_example : exists Lx Ly : gray RNum, sized 3 3 Lx /\ sized 3 3 Ly /\ edges Lx Ly = [(1, 1)%nat] /\ largest_gradient Lx Ly 5.
Proof. assert (G : sqrt (3 * 3 + 4 * 4) = 5) by (replace (3 * 3 + 4 * 4) with (5 * 5) by ring; apply sqrt_square; lra).
  exists (of_rows (N := RNum) [[0; 0; 0]; [0; 3; 0]; [0; 0; 0]]), (of_rows (N := RNum) [[0; 0; 0]; [0; 4; 0]; [0; 0; 9]]). split; [repeat split|]. split; [repeat split|]. split.
  - unfold edges. cbn [g_width g_height of_rows length hd inner Nat.sub seq flat_map map app filter]. unfold gradient. cbn [fst snd].
    change (pixel (of_rows (N := RNum) [[0; 0; 0]; [0; 3; 0]; [0; 0; 0]]) 1 1) with 3. change (pixel (of_rows (N := RNum) [[0; 0; 0]; [0; 4; 0]; [0; 0; 9]]) 1 1) with 4. rewrite G.
    unfold Reqb. destruct (Req_EM_T 5 0); [lra|reflexivity].
  - split; [exists (1, 1)%nat; split; [now left|exact G]|]. intros p [<-|[]]. apply Req_le. exact G. Qed.
