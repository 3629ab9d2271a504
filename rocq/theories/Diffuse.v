(** Model of akaze/src/nonlinear_diffusion.rs and akaze/src/contrast_factor.rs. *)
From Coq Require Import List Arith Bool BinInt SpecFloat.
From Verif Require Import Num LinSpec Outcome Gray GraySpec.
Import ListNotations.
Open Scope nat_scope.
Open Scope num_scope.

(** The two float types the code mixes, [f32] and [f64], with the casts between them. *)
Record widths : Type := Widths { single : Num; double : Num; narrow : double -> single; widen : single -> double }.
Definition Rwidths : widths := Widths RNum RNum (fun x => x) (fun x => x).
Definition sf_convert (prec emax : Z) (x : spec_float) : spec_float :=
  match x with S754_finite s m e => binary_normalize prec emax (if s then Zneg m else Zpos m) e s | _ => x end.
Definition Fwidths : widths := Widths F32 F64 (sf_convert 24 128) (sf_convert 53 1024).

(** nonlinear_diffusion.rs 14-58 [calculate_step]: the image [Lt] after one step with the conductivities
    [Lflow].  [dim - 1] underflows for an empty image; the element-wise loops check the shapes. *)
Section step.
Context {N : Num}.
Variables (Lt Lflow : gray N) (step_size : N).
(** Lines 28, 40: the flow between two neighbours. *)
Definition flow (a b ca cb : N) : N := lit 1 2 * step_size * (ca + cb) * (b - a).
Definition horizontal_flow (x y : nat) : N := flow (pixel Lt x y) (pixel Lt (x + 1)%nat y) (pixel Lflow x y) (pixel Lflow (x + 1)%nat y).
Definition vertical_flow (x y : nat) : N := flow (pixel Lt x y) (pixel Lt x (y + 1)%nat) (pixel Lflow x y) (pixel Lflow x (y + 1)%nat).
Definition calculate_step : outcome (gray N) :=
  let w := g_width Lt in
  let h := g_height Lt in
  assert_ (negb (w =? 0)%nat && negb (h =? 0)%nat && (g_width Lflow =? w)%nat && (g_height Lflow =? h)%nat)
  (let left := of_fn w h (fun x y => if (x <? w - 1)%nat then pixel Lt x y + horizontal_flow x y else pixel Lt x y) in
   let right := of_fn w h (fun x y => if (1 <=? x)%nat then pixel left x y - horizontal_flow (x - 1)%nat y else pixel left x y) in
   let up := of_fn w h (fun x y => if (y <? h - 1)%nat then pixel right x y + vertical_flow x y else pixel right x y) in
   let down := of_fn w h (fun x y => if (1 <=? y)%nat then pixel up x y - vertical_flow x (y - 1)%nat else pixel up x y) in
   Ok down).
End step.

Section akaze.
Context (P : widths).
Notation f32 := (single P).
Notation f64 := (double P).

(** nonlinear_diffusion.rs 69-83 [pm_g2]. *)
Definition pm_g2 (Lx Ly : gray f32) (k : f64) : outcome (gray f32) :=
  assert_ ((g_width Lx =? g_width Ly)%nat && (g_height Lx =? g_height Ly)%nat)
  (let inverse_k := narrow P (one / (k * k)) in
   Ok (of_fn (g_width Lx) (g_height Lx) (fun x y =>
     one / (one + inverse_k * (pixel Lx x y * pixel Lx x y + pixel Ly x y * pixel Ly x y))))).

(** ** contrast_factor.rs *)
Context (M32 : math f32) (M64 : math f64).
(** [float_ord::FloatOrd]: NaN is the largest value (the order of the two zeros is not modelled).
    [Iterator::max] returns the last of equal maxima. *)
Definition float_leb {N : Num} (a b : N) : bool := if isnan b then true else if isnan a then false else a <=? b.
Fixpoint float_max {N : Num} (best : N) (l : list N) : N :=
  match l with [] => best | x :: l => float_max (if float_leb best x then x else best) l end.
(** contrast_factor.rs 29-30, 37-38: [(1..h - 1) x (1..w - 1)]; the subtraction underflows for 0. *)
Definition interior (w h : nat) : outcome (list (nat * nat)) :=
  if (w =? 0)%nat && negb (h <=? 2)%nat || (h =? 0)%nat then Panic
  else Ok (flat_map (fun y => map (fun x => (x, y)) (seq 1 (w - 2)%nat)) (seq 1 (h - 2)%nat)).
(** contrast_factor.rs 31, 39: the squared gradient. *)
Definition gradient2 (Lx Ly : gray f32) (p : nat * nat) : f64 :=
  let lx := pixel Lx (fst p) (snd p) in
  let ly := pixel Ly (fst p) (snd p) in
  widen P (lx * lx) + widen P (ly * ly).
(** contrast_factor.rs 39-47: one pixel of the histogram loop. *)
Definition count_gradient (num_bins : nat) (hmax : f64) (Lx Ly : gray f32) (state : list nat * f64) (p : nat * nat) : outcome (list nat * f64) :=
  let '(histogram, num_points) := state in
  let modg := sqrt_ (gradient2 Lx Ly p) in
  if negb (modg =? zero) then
    let bin := to_usize M64 (m_floor M64 (ofZ (Z.of_nat num_bins) * (modg / hmax))) in
    let! bin := if (bin =? num_bins)%nat then (if (bin =? 0)%nat then Panic else Ok (bin - 1)%nat) else Ok bin in
    let! old := read histogram bin in
    let! histogram := write histogram bin (old + 1)%nat in
    Ok (histogram, num_points + one)
  else Ok state.
(** contrast_factor.rs 51-56: [while num_elements < threshold && k < num_bins]; the remaining bins are [rest]. *)
Fixpoint scan_bins (threshold : nat) (rest : list nat) (k num_elements : nat) : nat * nat :=
  match rest with
  | [] => (k, num_elements)
  | n :: rest => if (num_elements <? threshold)%nat then scan_bins threshold rest (k + 1)%nat (num_elements + n)%nat else (k, num_elements)
  end.
(** contrast_factor.rs 23-63, after the derivatives have been computed.  The images have equal sizes. *)
Definition contrast_of (Lx Ly : gray f32) (percentile : f64) (num_bins : nat) : outcome f64 :=
  let! pixels := interior (g_width Lx) (g_height Lx) in
  match pixels with
  | [] => Panic   (* [max().unwrap()] of nothing *)
  | p :: rest =>
      let hmax := sqrt_ (float_max (gradient2 Lx Ly p) (map (gradient2 Lx Ly) rest)) in
      let! (histogram, num_points) := foldM (count_gradient num_bins hmax Lx Ly) pixels (repeat 0%nat num_bins, zero) in
      let threshold := to_usize M64 (num_points * percentile) in
      let '(k, num_elements) := scan_bins threshold histogram 0 0 in
      if (threshold <=? num_elements)%nat then Ok (hmax * ofZ (Z.of_nat k) / ofZ (Z.of_nat num_bins)) else Ok (lit 3 100)
  end.
(** contrast_factor.rs 16-64 [compute_contrast_factor]. *)
Definition compute_contrast_factor (image : gray f32) (percentile gradient_histogram_scale : f64) (num_bins : nat) : outcome f64 :=
  let! gaussian := gaussian_blur M32 image (narrow P gradient_histogram_scale) in
  let! Lx := simple_scharr_horizontal gaussian in
  let! Ly := simple_scharr_vertical gaussian in
  contrast_of Lx Ly percentile num_bins.
End akaze.

(** The rounding functions of a binary format; [exp] and [PI] are given. *)
Section sf_math.
Variables (prec emax : Z) (pi : spec_float) (exp : spec_float -> spec_float).
Open Scope Z_scope.
(** A finite number as [numerator / denominator]. *)
Definition sf_fraction (x : spec_float) : Z * Z :=
  match x with
  | S754_finite s m e =>
      let v := if s then Zneg m else Zpos m in
      match e with Z0 => (v, 1) | Zpos p => (Z.mul v (Z.pow_pos 2 p), 1) | Zneg p => (v, Z.pow_pos 2 p) end
  | _ => (0, 1)
  end.
Definition sf_integral (f : Z -> Z -> Z) (x : spec_float) : spec_float :=
  match x with S754_finite _ _ (Zneg _) => let '(n, d) := sf_fraction x in binary_normalize prec emax (f n d) 0 (sf_signneg x) | _ => x end.
Definition sf_math : math (ieee prec emax) :=
  Math (ieee prec emax) pi exp
    (sf_integral (fun n d => Z.opp (Z.div (Z.opp n) d))) (sf_integral (fun n d => Z.div n d))
    (sf_integral (fun n d => Z.mul (Z.sgn n) (Z.div (Z.add (Z.mul 2 (Z.abs n)) d) (Z.mul 2 d))))
    (fun x => let '(n, d) := sf_fraction x in Z.quot n d).
End sf_math.
