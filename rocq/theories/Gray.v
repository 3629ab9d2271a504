(** Model of akaze/src/image.rs and akaze/src/derivatives.rs: float images, filters, halving. *)
From Coq Require Import List Arith Bool BinInt.
From Verif Require Import Num Outcome.
Import ListNotations.
Open Scope nat_scope.

(** Functions of a float type beyond the arithmetic: [PI], [exp], [ceil], [floor], [round] (half away from
    zero) and the truncation done by a cast [as usize], [as isize], [as u32] (NaN gives 0; the saturation at
    the upper end of the integer type is not modelled). *)
Record math (N : Num) : Type := Math {
  m_pi : N; m_exp : N -> N; m_ceil : N -> N; m_floor : N -> N; m_round : N -> N; m_trunc : N -> Z }.
Arguments m_pi {_} _.
Arguments m_exp {_} _ _.
Arguments m_ceil {_} _ _.
Arguments m_floor {_} _ _.
Arguments m_round {_} _ _.
Arguments m_trunc {_} _ _.
(** A cast [as usize]: negative values saturate at 0. *)
Definition to_usize {N : Num} (M : math N) (x : N) : nat := Z.to_nat (m_trunc M x).

(** ** Slices *)
Section slices.
Context {A : Type}.
(** Rust [slice::chunks(n)], [chunks_exact(n)] and [windows(n)], for [n] > 0. *)
Definition piece (l : list A) (start n : nat) : list A := firstn n (skipn start l).
Definition chunks (n : nat) (l : list A) : list (list A) :=
  map (fun i => piece l (i * n) n) (seq 0 ((length l + n - 1) / n)).
Definition chunks_exact (n : nat) (l : list A) : list (list A) :=
  map (fun i => piece l (i * n) n) (seq 0 (length l / n)).
Definition windows (n : nat) (l : list A) : list (list A) :=
  map (fun i => piece l i n) (seq 0 (length l + 1 - n)).
(** [buffer[i] = v] with its bounds check. *)
Definition write (buffer : list A) (i : nat) (v : A) : outcome (list A) :=
  if i <? length buffer then Ok (firstn i buffer ++ v :: skipn (S i) buffer) else Panic.
(** [buffer[i]]. *)
Definition read (buffer : list A) (i : nat) : outcome A := unwrap (nth_error buffer i).
(** [(start..stop).step_by(n)] for [n] > 0. *)
Definition steps (stop n : nat) : list nat := map (fun i => i * n) (seq 0 ((stop + n - 1) / n)).
End slices.

(** image.rs 9, 35-36: [GrayFloatImage], a width, a height and the pixels in row-major order. *)
Record gray (N : Num) : Type := Gray { g_width : nat; g_height : nat; g_data : list N }.
Arguments Gray {_} _ _ _.
Arguments g_width {_} _.
Arguments g_height {_} _.
Arguments g_data {_} _.

Section image.
Context {N : Num}.
Open Scope nat_scope.
Open Scope num_scope.

(** [ImageBuffer::from_raw(..).unwrap()]. *)
Definition from_raw (w h : nat) (data : list N) : outcome (gray N) :=
  if (w * h <=? length data)%nat then Ok (Gray w h data) else Panic.
(** [ImageBuffer::from_fn] and the element-wise loops of [ndarray::azip!]: the image whose pixel (x, y) is [f x y]. *)
Definition of_fn (w h : nat) (f : nat -> nat -> N) : gray N :=
  Gray w h (flat_map (fun y => map (fun x => f x y) (seq 0 w)) (seq 0 h)).
(** An element of an image known to be inside (element-wise loops over slices, which check the shapes first). *)
Definition pixel (g : gray N) (x y : nat) : N := nth (y * g_width g + x)%nat (g_data g) zero.
(** image.rs 137-143 [GrayFloatImage::new]. *)
Definition new_image (w h : nat) : gray N := of_fn w h (fun _ _ => zero).
(** image.rs 145-147 [get]; [get_pixel] of the image crate panics outside the image. *)
Definition get (g : gray N) (x y : nat) : outcome N :=
  if (x <? g_width g)%nat && (y <? g_height g)%nat then read (g_data g) (y * g_width g + x)%nat else Panic.

(** image.rs 153-197 [half_size].  A slice [-1..] of an axis of length 0 panics; this happens when a side is 1
    (line 168: the last row of no rows; line 178: the last column of no columns).  The four summands of a
    window are added from left to right, top to bottom. *)
Definition half_size (g : gray N) : outcome (gray N) :=
  let width := (g_width g / 2)%nat in
  let height := (g_height g / 2)%nat in
  (* lines 159-164 *)
  let half := of_fn width height (fun x y =>
    (pixel g (2 * x)%nat (2 * y)%nat + pixel g (2 * x + 1)%nat (2 * y)%nat + pixel g (2 * x)%nat (2 * y + 1)%nat + pixel g (2 * x + 1)%nat (2 * y + 1)%nat) * lit 1 4) in
  let odd_height := negb (height * 2 =? g_height g)%nat in
  let odd_width := negb (width * 2 =? g_width g)%nat in
  (* lines 167-174 *)
  let! half :=
    if odd_height then
      if (height =? 0)%nat then Panic
      else Ok (of_fn width height (fun x y =>
        if (y =? height - 1)%nat then (pixel g (2 * x)%nat (g_height g - 1)%nat + pixel g (2 * x + 1)%nat (g_height g - 1)%nat) * lit 1 2
        else pixel half x y))
    else Ok half in
  (* lines 177-184 *)
  let! half :=
    if odd_width then
      if (width =? 0)%nat then Panic
      else Ok (of_fn width height (fun x y =>
        if (x =? width - 1)%nat then (pixel g (g_width g - 1)%nat (2 * y)%nat + pixel g (g_width g - 1)%nat (2 * y + 1)%nat) * lit 1 2
        else pixel half x y))
    else Ok half in
  (* lines 187-195 *)
  let half :=
    if odd_width && odd_height then
      of_fn width height (fun x y =>
        if (x =? width - 1)%nat && (y =? height - 1)%nat then pixel g (g_width g - 1)%nat (g_height g - 1)%nat else pixel half x y)
    else half in
  Ok half.

(** ** Filters *)
(** [wide::f32x4]: [mul_add] lane by lane (its rounding, fused or not, is not fixed by the crate; here the
    product is rounded) and [reduce_add] (here from left to right). *)
Definition lanes : Type := (N * N * N * N)%type.
Definition lanes_of (chunk : list N) : lanes :=
  (nth 0 chunk zero, nth 1 chunk zero, nth 2 chunk zero, nth 3 chunk zero).
Definition mul_add (a b acc : lanes) : lanes :=
  let '(a0, a1, a2, a3) := a in let '(b0, b1, b2, b3) := b in let '(c0, c1, c2, c3) := acc in
  (a0 * b0 + c0, a1 * b1 + c1, a2 * b2 + c2, a3 * b3 + c3).
Definition reduce_add (a : lanes) : N := let '(a0, a1, a2, a3) := a in a0 + a1 + a2 + a3.
(** image.rs 210-222, 256-268: the kernel in groups of four, padded with 0. *)
Definition simd_kernel (kernel : list N) : list lanes := map lanes_of (chunks 4 kernel).
(** image.rs 223, 269: [4 * (kernel_size + 3) / 4]. *)
Definition simd_size (kernel : list N) : nat := (4 * (length kernel + 3) / 4)%nat.
Definition simd_extra (kernel : list N) : nat := (simd_size kernel - length kernel)%nat.
(** image.rs 239-244, 310-315: one window against the kernel. *)
Definition apply_kernel (kernel window : list N) : N :=
  reduce_add (fold_left (fun acc '(a, b) => mul_add a b acc)
    (combine (map lanes_of (chunks_exact 4 window)) (simd_kernel kernel)) (zero, zero, zero, zero)).

(** image.rs 229-246: one row.  The scratch buffer is overwritten completely for every row, so it is built
    here; outputs for which no window is left keep their initial 0. *)
Definition filter_row (kernel row : list N) : outcome (list N) :=
  let half := (length kernel / 2)%nat in
  let! first := read row 0 in
  let! last := read row (length row - 1)%nat in
  let scratch := repeat first half ++ row ++ repeat last half ++ repeat zero (simd_extra kernel) in
  let values := map (apply_kernel kernel) (windows (simd_size kernel) scratch) in
  Ok (firstn (length row) (values ++ repeat zero (length row))).
(** image.rs 200-248 [horizontal_filter].  [chunks_exact(0)] panics; so does the debug assertion. *)
Definition horizontal_filter (g : gray N) (kernel : list N) : outcome (gray N) :=
  let width := g_width g in
  assert_ (length kernel mod 2 =? 1)%nat
  (assert_ (negb (width =? 0)%nat)
  (let! rows := mapM (filter_row kernel) (firstn (g_height g) (chunks_exact width (g_data g))) in
   from_raw width (g_height g) (concat rows ++ repeat zero (width * g_height g - length (concat rows))%nat))).

(** image.rs 273-274: columns handled at once. *)
Definition scratch_width : nat := 16.
Section vertical.
Variables (width height : nat) (image kernel : list N).
Let half := (length kernel / 2)%nat.
Let extra := simd_extra kernel.
(** image.rs 275. *)
Definition scratch_height : nat := (height + half * 2 + extra)%nat.
(** image.rs 282-296: the paddings of the column [x]. *)
Definition pad_column (x_s : nat) (scratch : list N) (x : nat) : outcome (list N) :=
  let start := ((x - x_s) * scratch_height)%nat in
  let! scratch := foldM (fun s i => let! v := read image x in write s (start + i)%nat v) (seq 0 half) scratch in
  let stop := (start + half + height)%nat in
  if (height =? 0)%nat then Panic   (* [height - 1] *)
  else
    let last_row := ((height - 1) * width)%nat in
    let! scratch := foldM (fun s i => let! v := read image (last_row + x)%nat in write s (stop + i)%nat v) (seq 0 half) scratch in
    foldM (fun s i => write s (stop + half + i)%nat zero) (seq 0 extra) scratch.
(** image.rs 298-304: the pixels of row [y] in the columns of the tile. *)
Definition fill_row (x_s : nat) (columns : list nat) (scratch : list N) (y : nat) : outcome (list N) :=
  foldM (fun s x => let! v := read image (y * width + x)%nat in write s ((x - x_s) * scratch_height + y + half)%nat v) columns scratch.
(** image.rs 307-321: the kernel applied to the column [dx] of the tile; [indexed] is [enumerate]. *)
Definition filter_column (x_s : nat) (output : list N) (dx : nat) (column : list N) : outcome (list N) :=
  let ws := windows (simd_size kernel) column in
  foldM (fun out '(y, w) => write out (y * width + (x_s + dx))%nat (apply_kernel kernel w)) (combine (seq 0 (length ws)) ws) output.
(** image.rs 279-322: one tile of columns; the scratch buffer and the output are carried along. *)
Definition filter_tile (state : list N * list N) (x_s : nat) : outcome (list N * list N) :=
  let '(scratch, output) := state in
  let x_e := Nat.min (x_s + scratch_width)%nat width in
  let columns := seq x_s (x_e - x_s)%nat in
  let! scratch := foldM (pad_column x_s) columns scratch in
  let! scratch := foldM (fill_row x_s columns) (seq 0 height) scratch in
  let cols := firstn (x_e - x_s)%nat (chunks scratch_height scratch) in
  let! output := foldM (fun out '(dx, col) => filter_column x_s out dx col) (combine (seq 0 (length cols)) cols) output in
  Ok (scratch, output).
End vertical.
(** image.rs 250-324 [vertical_filter]. *)
Definition vertical_filter (g : gray N) (kernel : list N) : outcome (gray N) :=
  let width := g_width g in
  let height := g_height g in
  assert_ (length kernel mod 2 =? 1)%nat
  (let! (_, output) := foldM (filter_tile width height (g_data g) kernel) (steps width scratch_width)
     (repeat zero (scratch_width * scratch_height height kernel)%nat, repeat zero (width * height)%nat) in
   from_raw width height output).
(** image.rs 326-333 [separable_filter]. *)
Definition separable_filter (g : gray N) (h_kernel v_kernel : list N) : outcome (gray N) :=
  let! h := horizontal_filter g h_kernel in vertical_filter h v_kernel.

(** ** Gaussian blur *)
Section gauss.
Context (M : math N).
(** image.rs 342-344 [gaussian]. *)
Definition gaussian (x r : N) : N := one / (sqrt_ (two * m_pi M) * r) * m_exp M (- (x * x) / (two * (r * r))).
(** image.rs 353-367 [gaussian_kernel]: index [i] of the kernel belongs to the offset [i - half_width]; the sum
    starts at 0 and takes the values from left to right. *)
Definition gaussian_kernel (r : N) (kernel_size : nat) : outcome (list N) :=
  assert_ (kernel_size mod 2 =? 1)%nat
  (let half_width := Z.of_nat (kernel_size / 2)%nat in
   let values := map (fun i => gaussian (ofZ (Z.of_nat i - half_width)%Z) r) (seq 0 kernel_size) in
   let sum := fold_left add values zero in
   Ok (map (fun v => v / sum) values)).
(** image.rs 376-382 [gaussian_blur]. *)
Definition gaussian_blur (g : gray N) (r : N) : outcome (gray N) :=
  assert_ (zero <? r)
  (let kernel_radius := to_usize M (m_ceil M (two * r)) in
   let! kernel := gaussian_kernel r (kernel_radius * 2 + 1)%nat in
   separable_filter g kernel kernel).
End gauss.

(** ** Derivatives (derivatives.rs) *)
(** derivatives.rs 3-6, 8-11. *)
Definition simple_scharr_horizontal (g : gray N) : outcome (gray N) :=
  separable_filter g [- one; zero; one] [ofZ 3; ofZ 10; ofZ 3].
Definition simple_scharr_vertical (g : gray N) : outcome (gray N) :=
  separable_filter g [ofZ 3; ofZ 10; ofZ 3] [- one; zero; one].
(** derivatives.rs 57-79 [computer_scharr_kernel], order [Main].  [sigma_size - 1] underflows for 0. *)
Definition scharr_main (sigma_size : nat) : outcome (list N) :=
  if (sigma_size =? 0)%nat then Panic
  else
    let ksize := (3 + 2 * (sigma_size - 1))%nat in
    let! k := write (repeat zero ksize) 0 (- one) in
    write k (ksize - 1)%nat one.
(** derivatives.rs 57-79, order [Off].  The code computes [norm] in [f64] and casts it to [f32]: one rounding
    less than here. *)
Definition scharr_off (sigma_size : nat) : outcome (list N) :=
  if (sigma_size =? 0)%nat then Panic
  else
    let w := lit 10 3 in
    let norm := one / (two * ofZ (Z.of_nat sigma_size) * (w + two)) in
    let middle := norm * w in
    let ksize := (3 + 2 * (sigma_size - 1))%nat in
    let! k := write (repeat zero ksize) 0 norm in
    let! k := write k (ksize / 2)%nat middle in
    write k (ksize - 1)%nat norm.
(** derivatives.rs 23-30. *)
Definition scharr_horizontal (g : gray N) (sigma_size : nat) : outcome (gray N) :=
  if (sigma_size =? 1)%nat then simple_scharr_horizontal g
  else
    let! main := scharr_main sigma_size in
    let! off := scharr_off sigma_size in
    separable_filter g main off.
(** derivatives.rs 42-49. *)
Definition scharr_vertical (g : gray N) (sigma_size : nat) : outcome (gray N) :=
  if (sigma_size =? 1)%nat then simple_scharr_vertical g
  else
    let! main := scharr_main sigma_size in
    let! off := scharr_off sigma_size in
    separable_filter g off main.
End image.
