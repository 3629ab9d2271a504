(** Specification vocabulary for the keypoint pipeline. *)
From Coq Require Import List Arith ZArith Reals Bool Sorted Permutation.
From Verif Require Import Num LinSpec Outcome Gray GraySpec Diffuse DiffuseSpec Akaze Fed.
Import ListNotations.
Open Scope R_scope.

Notation rlevel := (level Rwidths).
Notation rkeypoint := (keypoint RNum).
Notation rsettings := (settings RNum).

(** ** The schedule *)
(** The code run with exact reals. *)
Definition Rexp2 (x : R) : R := Rpower 2 x.
Definition rallocate (fed : R -> outcome (list R)) (o : rsettings) := allocate_evolutions Rwidths Rmath Rexp2 fed o.
(** The steps the code asks for, with the modelled FED routine. *)
Definition fed_quarter (checks : bool) (fuel : nat) (t : R) : outcome (list R) := fed_tau_by_process_time checks fuel t 1 (1 / 4) true.

(** The pairs of octave and sublevel a [w] by [h] image is given. *)
Definition has_level (o : rsettings) (w h oct sub : nat) : Prop :=
  (oct < max_octave_evolution o)%nat /\ (40 * 2 ^ oct <= w)%nat /\ (40 * 2 ^ oct <= h)%nat /\
  ((80 * 2 ^ oct <= w)%nat /\ (80 * 2 ^ oct <= h)%nat /\ (sub < num_sublevels o)%nat \/
   ((w < 80 * 2 ^ oct)%nat \/ (h < 80 * 2 ^ oct)%nat) /\ sub = 0%nat).
(** The scale of a level. *)
Definition scale_of (o : rsettings) (oct sub : nat) : R := base_scale_offset o * Rpower 2 (INR oct + INR sub / INR (num_sublevels o)).
Definition increasing {A} (f : A -> R) (l : list A) : Prop :=
  forall i j a b, (i < j)%nat -> nth_error l i = Some a -> nth_error l j = Some b -> f a < f b.
(** Levels follow each other by the steps of [fed]. *)
Definition linked (fed : R -> outcome (list R)) (l : list rlevel) : Prop :=
  forall i a b, nth_error l i = Some a -> nth_error l (S i) = Some b -> fed (etime b - etime a) = Ok (tau_steps b).
(** A side halved [n] times, as [half_size] does. *)
Definition halved (n side : nat) : nat := Nat.iter n (fun s => (s / 2)%nat) side.

(** The default settings (lib.rs 169-185), [usize::MAX] being 2^64 - 1. *)
Definition default_settings (maximum : nat) : rsettings := Settings (F := RNum) maximum 4 4 (16 / 10) (7 / 10) 300 (15 / 10) (1 / 1000) 3 10.
(** The smallest difference of the evolution times of two levels. *)
Definition first_gap (o : rsettings) : R := base_scale_offset o * base_scale_offset o / 2 * (Rpower 2 (2 / INR (num_sublevels o)) - 1).
(** Settings whose levels are too close. *)
Definition tiny_settings : rsettings := Settings (F := RNum) 1 1 2 (1 / 3) (7 / 10) 300 (15 / 10) (1 / 1000) 3 10.

(** ** The scale space *)
Definition rspace (o : rsettings) := create_scale_space Rwidths Rmath Rmath o.
Definition rresponse (o : rsettings) := detector_response Rwidths Rmath o.
(** The two levels have the same place in the schedule. *)
Definition same_place (e e' : rlevel) : Prop :=
  etime e' = etime e /\ esigma e' = esigma e /\ octave e' = octave e /\ sublevel e' = sublevel e /\ tau_steps e' = tau_steps e.
(** The sizes of an octave of a [w] by [h] image. *)
Definition octave_sized (w h : nat) (oct : nat) (g : gray RNum) : Prop := sized (halved oct w) (halved oct h) g.
(** The images of a level have the size of its octave. *)
Definition built (w h : nat) (e : rlevel) : Prop := octave_sized w h (octave e) (Lt e) /\ octave_sized w h (octave e) (Lsmooth e).
(** What becomes of the brightness from one level to the next. *)
Definition keeps_brightness (a b : rlevel) : Prop :=
  octave b = octave a /\ total (Lt b) = total (Lt a) \/
  octave b = S (octave a) /\ exists half, half_size (N := RNum) (Lt a) = Ok half /\ total (Lt b) = total half.
(** Level [b] comes from level [a] by nonlinear diffusion with the contrast factor [k]: the image of [a], halved when a
    new octave starts, is smoothed, the gradient of the smoothed image gives the conductivities, and the steps of [b] are
    taken with these from the image that was smoothed. [start] is that image. *)
Definition evolves (k : R) (a b : rlevel) (start : gray RNum) : Prop :=
  (octave b = octave a /\ start = Lt a \/
   octave b = S (octave a) /\ image_of (g_width (Lt a) / 2) (g_height (Lt a) / 2) (half_value (g_width (Lt a)) (g_height (Lt a)) (pixel (Lt a))) start) /\
  gaussian_blur (N := RNum) Rmath start 1 = Ok (Lsmooth b) /\
  image_of (g_width start) (g_height start) (scharr_x (Lsmooth b) 1) (Lx b) /\ image_of (g_width start) (g_height start) (scharr_y (Lsmooth b) 1) (Ly b) /\
  (k <> 0 -> image_of (g_width start) (g_height start) (fun x y => conductivity k (pixel (Lx b) x y) (pixel (Ly b) x y)) (Lflow b)) /\
  diffuses (Lflow b) (tau_steps b) start (Lt b).
(** The integer scale of the derivatives of a level: the nearest integer, halves rounded up. *)
Definition integer_scale (o : rsettings) (e : rlevel) (s : nat) : Prop :=
  INR s - 1 / 2 <= esigma e * derivative_factor o / 2 ^ octave e < INR s + 1 / 2.
(** The derivatives and the response of a level of size [w] by [h], from its smoothed image. *)
Definition hessian_response (w h s : nat) (e : rlevel) : Prop :=
  image_of w h (scharr_x (Lsmooth e) s) (Lx e) /\ image_of w h (scharr_y (Lsmooth e) s) (Ly e) /\
  image_of w h (scharr_x (Lx e) s) (Lxx e) /\ image_of w h (scharr_y (Ly e) s) (Lyy e) /\ image_of w h (scharr_y (Lx e) s) (Lxy e) /\
  image_of w h (fun x y => (pixel (Lxx e) x y * pixel (Lyy e) x y - pixel (Lxy e) x y * pixel (Lxy e) x y) * INR s ^ 4) (Ldet e).

(** ** Detection *)
Definition rextrema (o : rsettings) := find_extrema Rwidths Rmath o.
(** A pixel above the threshold and strictly above its eight neighbours, all of which exist. *)
Definition strict_maximum (threshold : R) (g : gray RNum) (x y : nat) : Prop :=
  ((1 <= x)%nat /\ (x + 1 < g_width g)%nat /\ (1 <= y)%nat /\ (y + 1 < g_height g)%nat) /\ threshold < pixel g x y /\
  forall X Y, (x - 1 <= X <= x + 1)%nat -> (y - 1 <= Y <= y + 1)%nat -> (X, Y) <> (x, y) -> pixel g X Y < pixel g x y.
(** The pixel is farther from the borders than [reach]. *)
Definition clear_of_border (reach : R) (g : gray RNum) (x y : nat) : Prop :=
  reach + 1 / 2 <= INR x < INR (g_width g) - 3 / 2 - reach /\ reach + 1 / 2 <= INR y < INR (g_height g) - 3 / 2 - reach.
(** What detection looks for: pixel (x, y) of level number [class]. *)
Definition maximum_of (o : rsettings) (levels : list rlevel) (class : nat) (e : rlevel) (x y : nat) : Prop :=
  nth_error levels class = Some e /\ strict_maximum (detector_threshold o) (Ldet e) x y /\
  exists s, integer_scale o e s /\ clear_of_border (10 * sqrt 2 * INR s) (Ldet e) x y.
(** The keypoint for it: pixel centres of the octave in the coordinates of the image, whose pixel centres are the integers. *)
Definition centre (oct x : nat) : R := (INR x + 1 / 2) * 2 ^ oct - 1 / 2.
Definition keypoint_at (o : rsettings) (class : nat) (e : rlevel) (x y : nat) : rkeypoint :=
  KeyPoint (F := RNum) (centre (octave e) x) (centre (octave e) y) (Rabs (pixel (Ldet e) x y)) (esigma e * derivative_factor o) (octave e) class 0.
(** The squared distance of two keypoints, and of the corner of a pixel from a keypoint. *)
Definition distance2 (a b : rkeypoint) : R := (kp_x a - kp_x b) ^ 2 + (kp_y a - kp_y b) ^ 2.
Definition corner_distance2 (e : rlevel) (x y : nat) (b : rkeypoint) : R := (INR x * 2 ^ octave e - kp_x b) ^ 2 + (INR y * 2 ^ octave e - kp_y b) ^ 2.
(** Maximum [d] rivals maximum [c]: it is at least as strong, on the same or a neighbouring level, and near. *)
Definition rivals (o : rsettings) (cc : nat) (ec : rlevel) (cx cy : nat) (dc : nat) (ed : rlevel) (dx dy : nat) : Prop :=
  let c := keypoint_at o cc ec cx cy in let d := keypoint_at o dc ed dx dy in
  kp_response c <= kp_response d /\
  ((cc = dc \/ cc = S dc) /\ corner_distance2 ec cx cy d <= kp_size c ^ 2 \/
   (dc = cc \/ dc = S cc) /\ corner_distance2 ed dx dy c <= kp_size d ^ 2 \/
   dc = S cc /\ distance2 c d <= kp_size c ^ 2).
(** A level whose images have the size of its response. *)
Definition well_sized (e : rlevel) : Prop :=
  (2 <= g_width (Ldet e))%nat /\ (2 <= g_height (Ldet e))%nat /\ sized (g_width (Ldet e)) (g_height (Ldet e)) (Ldet e).

(** ** Refinement *)
(** Differences of the response around a pixel. *)
Definition slope_x (g : gray RNum) (x y : nat) : R := (pixel g (x + 1) y - pixel g (x - 1) y) / 2.
Definition slope_y (g : gray RNum) (x y : nat) : R := (pixel g x (y + 1) - pixel g x (y - 1)) / 2.
Definition curve_xx (g : gray RNum) (x y : nat) : R := pixel g (x + 1) y + pixel g (x - 1) y - 2 * pixel g x y.
Definition curve_yy (g : gray RNum) (x y : nat) : R := pixel g x (y + 1) + pixel g x (y - 1) - 2 * pixel g x y.
Definition curve_xy (g : gray RNum) (x y : nat) : R :=
  (pixel g (x + 1) (y + 1) + pixel g (x - 1) (y - 1) - pixel g (x + 1) (y - 1) - pixel g (x - 1) (y + 1)) / 4.
Definition curvature (g : gray RNum) (x y : nat) : R := curve_xx g x y * curve_yy g x y - curve_xy g x y * curve_xy g x y.
(** (dx, dy) is where the quadratic with these slopes and curvatures is stationary. *)
Definition stationary (g : gray RNum) (x y : nat) (dx dy : R) : Prop :=
  slope_x g x y + curve_xx g x y * dx + curve_xy g x y * dy = 0 /\ slope_y g x y + curve_xy g x y * dx + curve_yy g x y * dy = 0.
(** The keypoint moved by (dx, dy) pixels of its level, with the diameter as its size. *)
Definition moved_by (kp : rkeypoint) (dx dy angle : R) : rkeypoint :=
  KeyPoint (F := RNum) (kp_x kp + dx * 2 ^ kp_octave kp) (kp_y kp + dy * 2 ^ kp_octave kp) (kp_response kp) (2 * kp_size kp) (kp_octave kp) (kp_class kp) angle.
(** The weighted gradients around a point of a level at spacing [s]. *)
Notation sample := (R * R * R)%type.
Definition direction (A : angles RNum) (x y : R) : R := a_rem A (a_atan2 A y x + 2 * PI) (2 * PI).
Definition gradient_sample (A : angles RNum) (e : rlevel) (xf yf : R) (s : nat) (ij : Z * Z) : sample :=
  let X := Z.to_nat (Rround (xf + IZR (fst ij) * INR s)) in
  let Y := Z.to_nat (Rround (yf + IZR (snd ij) * INR s)) in
  let weight := IZR (nth (Z.abs_nat (fst ij)) (nth (Z.abs_nat (snd ij)) gauss25 []) 0%Z) / 100000000 in
  let rx := weight * pixel (Lx e) X Y in let ry := weight * pixel (Ly e) X Y in
  (rx, ry, direction A rx ry).
(** The sum of the gradients whose direction lies in the 60 degrees after [a]. *)
Definition in_arc (a ang : R) : Prop := (a < ang < a + PI / 3 /\ a + PI / 3 <= 2 * PI) \/ (2 * PI < a + PI / 3 /\ (a < ang < 2 * PI \/ 0 < ang < a + PI / 3 - 2 * PI)).
Inductive arc_sum (a : R) : list sample -> R -> R -> Prop :=
  | arc_none : arc_sum a [] 0 0
  | arc_in rx ry ang l sx sy : in_arc a ang -> arc_sum a l sx sy -> arc_sum a ((rx, ry, ang) :: l) (rx + sx) (ry + sy)
  | arc_out rx ry ang l sx sy : ~ in_arc a ang -> arc_sum a l sx sy -> arc_sum a ((rx, ry, ang) :: l) sx sy.
(** The angle is the direction of the first strongest such sum over arcs starting at multiples of 0.15, or 0 without gradients. *)
Definition main_direction (A : angles RNum) (samples : list sample) (angle : R) : Prop :=
  (exists k sx sy, INR k * (15 / 100) < 2 * PI /\ arc_sum (INR k * (15 / 100)) samples sx sy /\ 0 < sx * sx + sy * sy /\ angle = direction A sx sy /\
    (forall k' sx' sy', INR k' * (15 / 100) < 2 * PI -> arc_sum (INR k' * (15 / 100)) samples sx' sy' -> sx' * sx' + sy' * sy' <= sx * sx + sy * sy) /\
    (forall k' sx' sy', (k' < k)%nat -> arc_sum (INR k' * (15 / 100)) samples sx' sy' -> sx' * sx' + sy' * sy' < sx * sx + sy * sy)) \/
  ((forall k sx sy, INR k * (15 / 100) < 2 * PI -> arc_sum (INR k * (15 / 100)) samples sx sy -> sx = 0 /\ sy = 0) /\ angle = 0).
(** The images read around a keypoint have the size of the response. *)
Definition gradient_sized (e : rlevel) : Prop := sized (g_width (Ldet e)) (g_height (Ldet e)) (Lx e) /\ sized (g_width (Ldet e)) (g_height (Ldet e)) (Ly e).

(** ** The whole pipeline *)
(** Settings the pipeline works with: the default ones are. *)
Definition usable (o : rsettings) : Prop :=
  (0 < num_sublevels o)%nat /\ (0 < max_octave_evolution o)%nat /\ 0 < base_scale_offset o /\ 0 <= contrast_percentile o <= 1 /\ (0 < contrast_factor_num_bins o)%nat /\
  1 / 2 <= base_scale_offset o * derivative_factor o /\ (descriptor_channels o <= 3)%nat /\ (0 < descriptor_pattern_size o)%nat.
(** All images of a level have the size of its octave. *)
Definition fully_sized (w h : nat) (e : rlevel) : Prop :=
  octave_sized w h (octave e) (Lt e) /\ octave_sized w h (octave e) (Lsmooth e) /\ octave_sized w h (octave e) (Lx e) /\ octave_sized w h (octave e) (Ly e) /\ octave_sized w h (octave e) (Ldet e).
(** The keys for which [f] gives a value, in order, and these values. *)
Inductive kept {K D} (f : K -> option D -> Prop) : list K -> list K -> list D -> Prop :=
  | kept_nil : kept f [] [] []
  | kept_some k d l ks ds : f k (Some d) -> kept f l ks ds -> kept f (k :: l) (k :: ks) (d :: ds)
  | kept_none k l ks ds : f k None -> kept f l ks ds -> kept f (k :: l) ks ds.

(** A routine that sorts by every total order. *)
Definition sorts {K} (sort : (K -> K -> bool) -> list K -> list K) : Prop := forall le l, Permutation l (sort le l) /\
  ((forall a b, le a b = true \/ le b a = true) -> (forall a b c, le a b = true -> le b c = true -> le a c = true) -> StronglySorted (fun a b => le a b = true) (sort le l)).
