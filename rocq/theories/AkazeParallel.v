(** The model of feature extraction with the feature [rayon] (the [#[cfg(feature = "rayon")]] parts of
    akaze/src/lib.rs 193-339, akaze/src/detector_response.rs, akaze/src/scale_space_extrema.rs 297-362 and
    akaze/src/descriptors.rs 16-45), as a parallel program: the cells of its memory are the levels of the scale space.

    Every access to an image of a level is one atomic step; the reads of all levels by one keypoint's closure are taken
    together, as nothing is written while these closures run. *)
From stdpp Require Import list.
From Coq Require Import ZArith.
From Verif Require Import Outcome Num Gray Diffuse Akaze Parallel.

Section parallel.
Context (P : widths) (M32 : math (single P)) (M64 : math (double P)) (A : angles (single P)).
Notation f32 := (single P).
Notation f64 := (double P).
Context (exp2 : f64 -> f64) (fed : f64 -> outcome (list f64)).
Context (options : settings f64).
Notation level := (level P).
Notation prog := (prog level).

(** Assignments to the images of a level. *)
Definition set_Lt (x : gray f32) (e : level) : level :=
  Level (etime e) (esigma e) (octave e) (sublevel e) (tau_steps e) x (Lsmooth e) (Lx e) (Ly e) (Lxx e) (Lyy e) (Lxy e) (Lflow e) (Ldet e).
Definition set_Lsmooth (x : gray f32) (e : level) : level :=
  Level (etime e) (esigma e) (octave e) (sublevel e) (tau_steps e) (Lt e) x (Lx e) (Ly e) (Lxx e) (Lyy e) (Lxy e) (Lflow e) (Ldet e).
Definition set_Lx (x : gray f32) (e : level) : level :=
  Level (etime e) (esigma e) (octave e) (sublevel e) (tau_steps e) (Lt e) (Lsmooth e) x (Ly e) (Lxx e) (Lyy e) (Lxy e) (Lflow e) (Ldet e).
Definition set_Ly (x : gray f32) (e : level) : level :=
  Level (etime e) (esigma e) (octave e) (sublevel e) (tau_steps e) (Lt e) (Lsmooth e) (Lx e) x (Lxx e) (Lyy e) (Lxy e) (Lflow e) (Ldet e).
Definition set_Lxx (x : gray f32) (e : level) : level :=
  Level (etime e) (esigma e) (octave e) (sublevel e) (tau_steps e) (Lt e) (Lsmooth e) (Lx e) (Ly e) x (Lyy e) (Lxy e) (Lflow e) (Ldet e).
Definition set_Lyy (x : gray f32) (e : level) : level :=
  Level (etime e) (esigma e) (octave e) (sublevel e) (tau_steps e) (Lt e) (Lsmooth e) (Lx e) (Ly e) (Lxx e) x (Lxy e) (Lflow e) (Ldet e).
Definition set_Lxy (x : gray f32) (e : level) : level :=
  Level (etime e) (esigma e) (octave e) (sublevel e) (tau_steps e) (Lt e) (Lsmooth e) (Lx e) (Ly e) (Lxx e) (Lyy e) x (Lflow e) (Ldet e).
Definition set_Lflow (x : gray f32) (e : level) : level :=
  Level (etime e) (esigma e) (octave e) (sublevel e) (tau_steps e) (Lt e) (Lsmooth e) (Lx e) (Ly e) (Lxx e) (Lyy e) (Lxy e) x (Ldet e).
Definition set_Ldet (x : gray f32) (e : level) : level :=
  Level (etime e) (esigma e) (octave e) (sublevel e) (tau_steps e) (Lt e) (Lsmooth e) (Lx e) (Ly e) (Lxx e) (Lyy e) (Lxy e) (Lflow e) x.

(** A value computed from level [i]. *)
Definition from_level {X : Type} (i : nat) (f : level -> outcome X) : prog X := then_ (peek i) (fun e => Done (f e)).
(** An image of level [i] computed from level [i]. *)
Definition update (i : nat) (f : level -> outcome (gray f32)) (set : gray f32 -> level -> level) : prog unit :=
  then_ (from_level i f) (fun x => poke i (set x)).

(** ** lib.rs 193-258 [create_nonlinear_scale_space] *)
(** Lines 219-256: level [i] with the contrast factor of the level before. *)
Definition par_level (contrast : f64) (i : nat) : prog f64 :=
  then_ (peek i) (fun e =>
  then_ (peek (i - 1)) (fun previous =>
  then_ (if (octave previous <? octave e)%nat then then_ (Done (half_size (Lt previous))) (fun half => then_ (poke i (set_Lt half)) (fun _ => Done (Ok (contrast * lit 3 4)%num)))
         else then_ (poke i (set_Lt (Lt previous))) (fun _ => Done (Ok contrast))) (fun contrast =>
  then_ (update i (fun e => gaussian_blur M32 (Lt e) one) set_Lsmooth) (fun _ =>
  then_ (join (from_level i (fun e => simple_scharr_horizontal (Lsmooth e))) (from_level i (fun e => simple_scharr_vertical (Lsmooth e)))) (fun xy =>
  then_ (poke i (set_Lx xy.1)) (fun _ =>
  then_ (poke i (set_Ly xy.2)) (fun _ =>
  then_ (update i (fun e => pm_g2 P (Lx e) (Ly e) contrast) set_Lflow) (fun _ =>
  then_ (peek i) (fun e =>
  then_ (loop (tau_steps e) (fun _ tau => update i (fun e => calculate_step (Lt e) (Lflow e) (narrow P tau)) set_Lt) tt) (fun _ =>
  Done (Ok contrast))))))))))).
Definition par_scale_space (count : nat) (image : gray f32) : prog unit :=
  then_ (Done (gaussian_blur M32 image (narrow P (base_scale_offset options)))) (fun lt =>
  then_ (poke 0 (set_Lt lt)) (fun _ =>
  then_ (update 0 (fun e => Ok (Lt e)) set_Lsmooth) (fun _ =>
  then_ (Done (compute_contrast_factor P M32 M64 image (contrast_percentile options) one (contrast_factor_num_bins options))) (fun contrast =>
  then_ (loop (seq 1 (count - 1)) par_level contrast) (fun _ =>
  Done (Ok tt)))))).

(** ** detector_response.rs *)
(** Lines 9-15, 69-83. *)
Definition par_derivatives (i : nat) : prog unit :=
  then_ (from_level i (fun e => Ok (to_usize M64 (derivative_sigma P M64 options e)))) (fun sigma_size =>
  then_ (join (from_level i (fun e => scharr_horizontal (Lsmooth e) sigma_size)) (from_level i (fun e => scharr_vertical (Lsmooth e) sigma_size))) (fun xy =>
  then_ (poke i (set_Lx xy.1)) (fun _ =>
  then_ (poke i (set_Ly xy.2)) (fun _ =>
  then_ (join (from_level i (fun e => scharr_horizontal (Lx e) sigma_size))
          (join (from_level i (fun e => scharr_vertical (Ly e) sigma_size)) (from_level i (fun e => scharr_vertical (Lx e) sigma_size)))) (fun xyz =>
  then_ (poke i (set_Lxx xyz.1)) (fun _ =>
  then_ (poke i (set_Lyy xyz.2.1)) (fun _ =>
  poke i (set_Lxy xyz.2.2)))))))).
(** Lines 35-48: the image is made first, and filled then. *)
Definition par_determinant (i : nat) : prog unit :=
  then_ (from_level i (fun e => let s := derivative_sigma P M64 options e in Ok (narrow P (s * s * (s * s))%num))) (fun quat =>
  then_ (update i (fun e => Ok (new_image (g_width (Lxx e)) (g_height (Lxx e)))) set_Ldet) (fun _ =>
  update i (fun e =>
    let lxx := Lxx e in let lyy := Lyy e in let lxy := Lxy e in
    assert_ ((g_width lyy =? g_width lxx)%nat && (g_height lyy =? g_height lxx)%nat && (g_width lxy =? g_width lxx)%nat && (g_height lxy =? g_height lxx)%nat)
    (Ok (of_fn (g_width lxx) (g_height lxx) (fun x y => (pixel lxx x y * pixel lyy x y - pixel lxy x y * pixel lxy x y) * quat)%num))) set_Ldet)).
(** Lines 8-24 and 33-57. *)
Definition par_response (sh1 sh2 : shape) (count : nat) : prog unit :=
  then_ (for_each sh1 0 count par_derivatives) (fun _ => for_each sh2 0 count par_determinant).

(** scale_space_extrema.rs 153-157, 297-362. *)
Definition par_keypoints (sh : shape) : prog (list (keypoint f32)) :=
  then_ (look (find_extrema P M32 options)) (fun found =>
  filter_map sh found (fun kp => look (fun evolutions => refine_keypoint P M32 A evolutions kp))).
(** descriptors.rs 16-45. *)
Definition par_descriptors (sh : shape) (kps : list (keypoint f32)) : prog (list (keypoint f32) * list (list N)) :=
  then_ (filter_map sh kps (fun kp => look (fun evolutions => let! d := mldb_descriptor P M32 A options evolutions kp in Ok (option_map (fun d => (kp, d)) d)))) (fun pairs =>
  Done (Ok (List.split pairs))).

(** ** lib.rs 309-339 [extract_from_gray_float_image] *)
(** The four parallel iterators are divided according to [sh1], ..., [sh4]. *)
Definition par_extract (sh1 sh2 sh3 sh4 : shape) (float_ord : f32 -> f32 -> bool) (sort : (keypoint f32 -> keypoint f32 -> bool) -> list (keypoint f32) -> list (keypoint f32)) (image : gray f32)
    : prog (list (keypoint f32) * list (list N)) :=
  then_ (Act (fun _ => let! evolutions := allocate_evolutions P M64 exp2 fed options (g_width image) (g_height image) in Ok (evolutions, length evolutions)) (fun count => Done (Ok count))) (fun count =>
  then_ (par_scale_space count image) (fun _ =>
  then_ (par_response sh1 sh2 count) (fun _ =>
  then_ (par_keypoints sh3) (fun kps =>
  par_descriptors sh4 (firstn (maximum_features options) (sort (fun a b => float_ord (kp_response b) (kp_response a)) kps)))))).
End parallel.
