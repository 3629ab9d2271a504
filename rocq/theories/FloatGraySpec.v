(** Specifications for filters in binary32. *)
From Coq Require Import Reals ZArith SpecFloat List.
From Flocq Require Import Core BinarySingleNaN.
From Verif Require Import Num Gray GraySpec.
Import ListNotations.
Open Scope R_scope.

(** The value of a finite float. *)
Notation value := (SF2R radix2).
(** A finite binary32 number. *)
Definition finite_single (x : F32) : Prop := valid_binary 24 128 x = true /\ isfin x = true.
(** An image of finite pixels, none of them beyond [a] in absolute value. *)
Definition finite_image (w h : nat) (a : R) (g : gray F32) : Prop :=
  sized w h g /\ forall x y, (x < w)%nat -> (y < h)%nat -> finite_single (pixel g x y) /\ Rabs (value (pixel g x y)) <= a.
(** An image of finite pixels between [lo] and [hi]. *)
Definition finite_between (w h : nat) (lo hi : R) (g : gray F32) : Prop :=
  sized w h g /\ forall x y, (x < w)%nat -> (y < h)%nat -> finite_single (pixel g x y) /\ lo <= value (pixel g x y) <= hi.
(** The image of the values of the pixels. *)
Definition real_image (g : gray F32) : gray RNum := Gray (N := RNum) (g_width g) (g_height g) (map value (g_data g)).
Definition real_kernel (kernel : list F32) : list R := map value kernel.
(** The sum of the absolute values of a kernel. *)
Definition kernel_norm (kernel : list F32) : R := rsum (length kernel) (fun i => Rabs (nth i (real_kernel kernel) 0)).
(** What rounding can add up to for a kernel of [n] entries. *)
Definition filter_error (n : nat) (scale : R) : R := (INR n + 20) / 2 ^ 25 * scale + (INR n + 20) / 2 ^ 148.
(** What is asked of the constant pi and of the exponential function of the platform: only what keeps the weights of a blur
    fractions, no accuracy.  Rounding up to an integer is exact. *)
Definition plausible (M : math F32) : Prop :=
  finite_single (m_pi M) /\ 3 <= value (m_pi M) <= 4 /\
  (forall x, finite_single x -> value x <= 0 -> finite_single (m_exp M x) /\ 0 <= value (m_exp M x) <= 1 /\ (value x = 0 -> / 2 <= value (m_exp M x))) /\
  forall x, finite_single x -> 0 <= value x <= 65536 -> value x <= IZR (m_trunc M (m_ceil M x)) < value x + 1.
(** How far a blur of the given radius can leave the range of an image of values up to [a]. *)
Definition blur_error (radius a : R) : R := (4 * radius + 24) / 2 ^ 20 * a + (4 * radius + 24) / 2 ^ 140.
(** How far rounding can take one diffusion step of size [t] from the exact one, for an image of values up to [a]. *)
Definition step_error (t a : R) : R := 10 / 2 ^ 24 * (1 + 8 * t) * a + 50 / 2 ^ 150 * (1 + t) * (1 + a).
