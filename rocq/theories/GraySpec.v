(** Specification vocabulary for float images. *)
From Coq Require Import List Arith ZArith Reals Bool.
From Verif Require Import Num LinSpec Outcome Gray.
Import ListNotations.
Open Scope R_scope.

(** An image of [w] by [h] pixels: its buffer holds exactly that many values. *)
Definition sized {N : Num} (w h : nat) (g : gray N) : Prop :=
  g_width g = w /\ g_height g = h /\ length (g_data g) = (w * h)%nat.

(** f 0 + f 1 + ... + f (n - 1). *)
Fixpoint rsum (n : nat) (f : nat -> R) : R := match n with O => 0 | S n => rsum n f + f n end.

(** The pixel at any coordinates, the border pixel being repeated beyond the border. *)
Definition clamped (n : nat) (i : Z) : nat := Z.to_nat (Z.max 0 (Z.min (Z.of_nat n - 1) i)).
Definition extended {N : Num} (g : gray N) (x y : Z) : N := pixel g (clamped (g_width g) x) (clamped (g_height g) y).

(** The offset of entry [i] of a kernel from its middle. *)
Definition offset {A} (kernel : list A) (i : nat) : Z := (Z.of_nat i - Z.of_nat (length kernel / 2))%Z.

(** Correlation with a row of weights, with a column of weights, and with their product. *)
Definition correlate_row (kernel : list R) (g : gray RNum) (x y : nat) : R :=
  rsum (length kernel) (fun i => nth i kernel 0 * extended g (Z.of_nat x + offset kernel i) (Z.of_nat y)).
Definition correlate_column (kernel : list R) (g : gray RNum) (x y : nat) : R :=
  rsum (length kernel) (fun i => nth i kernel 0 * extended g (Z.of_nat x) (Z.of_nat y + offset kernel i)).
Definition correlate (hk vk : list R) (g : gray RNum) (x y : nat) : R :=
  rsum (length vk) (fun j => rsum (length hk) (fun i =>
    nth i hk 0 * nth j vk 0 * extended g (Z.of_nat x + offset hk i) (Z.of_nat y + offset vk j))).

(** [out] is the image of the same size with the given pixel values. *)
Definition image_of {N : Num} (w h : nat) (f : nat -> nat -> N) (out : gray N) : Prop :=
  sized w h out /\ forall x y, (x < w)%nat -> (y < h)%nat -> pixel out x y = f x y.

(** Values of all pixels. *)
Definition constant_image (w h : nat) (c : R) (g : gray RNum) : Prop := image_of w h (fun _ _ => c) g.
Definition within (lo hi : R) (g : gray RNum) : Prop :=
  forall x y, (x < g_width g)%nat -> (y < g_height g)%nat -> lo <= pixel g x y <= hi.
Definition mirrored (g g' : gray RNum) : Prop :=
  image_of (g_width g) (g_height g) (fun x y => pixel g (g_width g - 1 - x) y) g'.
Definition flipped (g g' : gray RNum) : Prop :=
  image_of (g_width g) (g_height g) (fun x y => pixel g x (g_height g - 1 - y)) g'.
(** Sum of all pixels. *)
Definition total (g : gray RNum) : R := rsum (g_height g) (fun y => rsum (g_width g) (fun x => pixel g x y)).

(** Rounding functions over the reals. *)
Definition Rceil (x : R) : Z := (- Int_part (- x))%Z.
Definition Rround (x : R) : Z := if Rle_dec 0 x then Int_part (x + 1 / 2) else (- Int_part (- x + 1 / 2))%Z.
Definition Rtrunc (x : R) : Z := if Rle_dec 0 x then Int_part x else (- Int_part (- x))%Z.
Definition Rmath : math RNum :=
  Math RNum PI exp (fun x : R => IZR (Rceil x)) (fun x : R => IZR (Int_part x)) (fun x : R => IZR (Rround x)) Rtrunc.

(** A float image with the given rows (for examples). *)
Definition of_rows {N : Num} (rows : list (list N)) : gray N :=
  Gray (length (hd [] rows)) (length rows) (concat rows).

(** The weight of a Gaussian of standard deviation [r] at the distance [z], not normalised, and the normalised
    weights at distances up to [n] on both sides. *)
Definition bell (r : R) (z : Z) : R := exp (- (IZR z * IZR z) / (2 * (r * r))).
Definition gauss_weight (r : R) (n i : nat) : R :=
  bell r (Z.of_nat i - Z.of_nat n) / rsum (2 * n + 1) (fun j => bell r (Z.of_nat j - Z.of_nat n)).

(** The value [half_size] gives to the pixel (x, y) for an image of [w] by [h] pixels. *)
Definition half_value (w h : nat) (p : nat -> nat -> R) (x y : nat) : R :=
  let right := Nat.odd w && Nat.eqb x (w / 2 - 1) in
  let bottom := Nat.odd h && Nat.eqb y (h / 2 - 1) in
  match right, bottom with
  | false, false => (p (2 * x)%nat (2 * y)%nat + p (2 * x + 1)%nat (2 * y)%nat + p (2 * x)%nat (2 * y + 1)%nat + p (2 * x + 1)%nat (2 * y + 1)%nat) / 4
  | false, true => (p (2 * x)%nat (h - 1)%nat + p (2 * x + 1)%nat (h - 1)%nat) / 2
  | true, false => (p (w - 1)%nat (2 * y)%nat + p (w - 1)%nat (2 * y + 1)%nat) / 2
  | true, true => p (w - 1)%nat (h - 1)%nat
  end.

(** Differences at distance [s] across a pixel, and the Scharr average of three of them. *)
Definition across (g : gray RNum) (s : nat) (x y : Z) : R := extended g (x + Z.of_nat s) y - extended g (x - Z.of_nat s) y.
Definition down (g : gray RNum) (s : nat) (x y : Z) : R := extended g x (y + Z.of_nat s) - extended g x (y - Z.of_nat s).
(** The factor the code uses; the kernel of size 1 is not normalised. *)
Definition scharr_gain (s : nat) : R := if Nat.eqb s 1 then 1 else 1 / (32 * INR s).
Definition scharr_x (g : gray RNum) (s : nat) (x y : nat) : R :=
  scharr_gain s * (3 * across g s (Z.of_nat x) (Z.of_nat y - Z.of_nat s) + 10 * across g s (Z.of_nat x) (Z.of_nat y)
    + 3 * across g s (Z.of_nat x) (Z.of_nat y + Z.of_nat s)).
Definition scharr_y (g : gray RNum) (s : nat) (x y : nat) : R :=
  scharr_gain s * (3 * down g s (Z.of_nat x - Z.of_nat s) (Z.of_nat y) + 10 * down g s (Z.of_nat x) (Z.of_nat y)
    + 3 * down g s (Z.of_nat x + Z.of_nat s) (Z.of_nat y)).
(** A linear ramp. *)
Definition ramp (w h : nat) (a b c : R) (g : gray RNum) : Prop := image_of w h (fun x y => a + b * INR x + c * INR y) g.
