(** Model of the akaze crate beyond filters and diffusion: evolution.rs, lib.rs, detector_response.rs,
    scale_space_extrema.rs, descriptors.rs.  The feature [rayon] only runs independent closures in parallel
    and collects their results in order; it is not distinguished. *)
From Coq Require Import List Arith Bool BinInt BinNat.
From Verif Require Import Num Outcome Gray Diffuse.
Import ListNotations.
Open Scope nat_scope.

(** lib.rs 109-142 [Akaze].  [initial_contrast] is never read and left out. *)
Record settings (F : Num) : Type := Settings {
  maximum_features : nat; num_sublevels : nat; max_octave_evolution : nat; base_scale_offset : F;
  contrast_percentile : F; contrast_factor_num_bins : nat; derivative_factor : F; detector_threshold : F;
  descriptor_channels : nat; descriptor_pattern_size : nat }.
Arguments Settings {_} _ _ _ _ _ _ _ _ _ _.
Arguments maximum_features {_} _.
Arguments num_sublevels {_} _.
Arguments max_octave_evolution {_} _.
Arguments base_scale_offset {_} _.
Arguments contrast_percentile {_} _.
Arguments contrast_factor_num_bins {_} _.
Arguments derivative_factor {_} _.
Arguments detector_threshold {_} _.
Arguments descriptor_channels {_} _.
Arguments descriptor_pattern_size {_} _.

(** lib.rs 71-93 [KeyPoint]. *)
Record keypoint (F : Num) : Type := KeyPoint {
  kp_x : F; kp_y : F; kp_response : F; kp_size : F; kp_octave : nat; kp_class : nat; kp_angle : F }.
Arguments KeyPoint {_} _ _ _ _ _ _ _.
Arguments kp_x {_} _.
Arguments kp_y {_} _.
Arguments kp_response {_} _.
Arguments kp_size {_} _.
Arguments kp_octave {_} _.
Arguments kp_class {_} _.
Arguments kp_angle {_} _.

(** Angles: [atan2], [rem_euclid], [cos], [sin]. *)
Record angles (F : Num) : Type := Angles { a_atan2 : F -> F -> F; a_rem : F -> F -> F; a_cos : F -> F; a_sin : F -> F }.
Arguments a_atan2 {_} _ _ _.
Arguments a_rem {_} _ _ _.
Arguments a_cos {_} _ _.
Arguments a_sin {_} _ _.

Section akaze.
Context (P : widths) (M32 : math (single P)) (M64 : math (double P)) (A : angles (single P)).
Notation f32 := (single P).
Notation f64 := (double P).
(** [powf(2.0, x)] of [f64], and [fed_tau_by_process_time(t, 1, 0.25, true)] (modelled in Fed.v). *)
Context (exp2 : f64 -> f64) (fed : f64 -> outcome (list f64)).
Context (options : settings f64).
Open Scope num_scope.

Definition of_nat {F : Num} (n : nat) : F := ofZ (Z.of_nat n).
(** [2.0.powi(n)], [powf(2.0, n as f32)] and [(1 << n) as f32] for an octave [n]: powers of two are exact. *)
Definition ratio_of {F : Num} (octave : nat) : F := ofZ (Z.pow 2 (Z.of_nat octave)).

(** ** evolution.rs *)
(** Lines 6-37 [EvolutionStep].  The field [sigma_size] is never read and left out. *)
Record level : Type := Level {
  etime : f64; esigma : f64; octave : nat; sublevel : nat; tau_steps : list f64;
  Lt : gray f32; Lsmooth : gray f32; Lx : gray f32; Ly : gray f32;
  Lxx : gray f32; Lyy : gray f32; Lxy : gray f32; Lflow : gray f32; Ldet : gray f32 }.
(** evolution.rs 46-70 [EvolutionStep::new]. *)
Definition new_level (o s : nat) : level :=
  let esigma := base_scale_offset options * exp2 (of_nat s / of_nat (num_sublevels options) + of_nat o) in
  let etime := lit 1 2 * (esigma * esigma) in
  let e := new_image 0 0 in
  Level etime esigma o s [] e e e e e e e e e.
(** evolution.rs 83-85: [(f64::from(side) * 2.0f64.powi(-octave)) as u32]. *)
Definition level_side (side o : nat) : nat := to_usize M64 (of_nat side * (one / ratio_of o)).
(** evolution.rs 82-105: the levels of one octave. *)
Definition octave_levels (width height o : nat) : list level :=
  let smallest_dim := Nat.min (level_side width o) (level_side height o) in
  if (smallest_dim <? 40)%nat then []
  else map (new_level o) (seq 0 (if (smallest_dim <? 80)%nat then 1%nat else num_sublevels options)).
(** evolution.rs 114-124: the steps leading to each level from the one before. *)
Fixpoint set_steps (previous : level) (rest : list level) : outcome (list level) :=
  match rest with
  | [] => Ok []
  | e :: rest =>
      let! steps := fed (etime e - etime previous) in
      let! done := set_steps e rest in
      Ok (Level (etime e) (esigma e) (octave e) (sublevel e) steps (Lt e) (Lsmooth e) (Lx e) (Ly e) (Lxx e) (Lyy e) (Lxy e) (Lflow e) (Ldet e) :: done)
  end.
(** evolution.rs 80-126 [allocate_evolutions]. *)
Definition allocate_evolutions (width height : nat) : outcome (list level) :=
  match flat_map (octave_levels width height) (seq 0 (max_octave_evolution options)) with
  | [] => Ok []
  | first :: rest => let! rest := set_steps first rest in Ok (first :: rest)
  end.

(** ** lib.rs 193-258 [create_nonlinear_scale_space] *)
(** Lines 219-256: one level from the one before, with the contrast factor of the level before. *)
Definition next_level (contrast : f64) (previous e : level) : outcome (level * f64) :=
  let! (lt, contrast) :=
    if (octave previous <? octave e)%nat then let! half := half_size (Lt previous) in Ok (half, contrast * lit 3 4)
    else Ok (Lt previous, contrast) in
  let! smooth := gaussian_blur M32 lt one in
  let! lx := simple_scharr_horizontal smooth in
  let! ly := simple_scharr_vertical smooth in
  let! lflow := pm_g2 P lx ly contrast in
  let! lt := foldM (fun image step => calculate_step image lflow (narrow P step)) (tau_steps e) lt in
  Ok (Level (etime e) (esigma e) (octave e) (sublevel e) (tau_steps e) lt smooth lx ly (Lxx e) (Lyy e) (Lxy e) lflow (Ldet e), contrast).
Fixpoint next_levels (contrast : f64) (previous : level) (rest : list level) : outcome (list level) :=
  match rest with
  | [] => Ok []
  | e :: rest =>
      let! (e, contrast) := next_level contrast previous e in
      let! done := next_levels contrast e rest in
      Ok (e :: done)
  end.
Definition create_scale_space (evolutions : list level) (image : gray f32) : outcome (list level) :=
  match evolutions with
  | [] => Panic   (* [evolutions[0]] *)
  | e :: rest =>
      let! lt := gaussian_blur M32 image (narrow P (base_scale_offset options)) in
      let! contrast := compute_contrast_factor P M32 M64 image (contrast_percentile options) one (contrast_factor_num_bins options) in
      let first := Level (etime e) (esigma e) (octave e) (sublevel e) (tau_steps e) lt lt (Lx e) (Ly e) (Lxx e) (Lyy e) (Lxy e) (Lflow e) (Ldet e) in
      let! rest := next_levels contrast first rest in
      Ok (first :: rest)
  end.

(** ** detector_response.rs *)
(** Lines 13, 37. *)
Definition derivative_sigma (e : level) : f64 := m_round M64 (esigma e * derivative_factor options / ratio_of (octave e)).
(** Lines 9-15, 60-85 and 35-48: derivatives and response of one level. *)
Definition level_response (e : level) : outcome level :=
  let sigma_size := to_usize M64 (derivative_sigma e) in
  let! lx := scharr_horizontal (Lsmooth e) sigma_size in
  let! ly := scharr_vertical (Lsmooth e) sigma_size in
  let! lxx := scharr_horizontal lx sigma_size in
  let! lyy := scharr_vertical ly sigma_size in
  let! lxy := scharr_vertical lx sigma_size in
  let s := derivative_sigma e in
  let quat := narrow P (s * s * (s * s)) in
  assert_ ((g_width lyy =? g_width lxx)%nat && (g_height lyy =? g_height lxx)%nat && (g_width lxy =? g_width lxx)%nat && (g_height lxy =? g_height lxx)%nat)
  (let ldet := of_fn (g_width lxx) (g_height lxx) (fun x y => (pixel lxx x y * pixel lyy x y - pixel lxy x y * pixel lxy x y) * quat) in
   Ok (Level (etime e) (esigma e) (octave e) (sublevel e) (tau_steps e) (Lt e) (Lsmooth e) lx ly lxx lyy lxy (Lflow e) ldet)).
(** detector_response.rs 33-57 [detector_response]. *)
Definition detector_response (evolutions : list level) : outcome (list level) := mapM level_response evolutions.

(** ** scale_space_extrema.rs *)
(** Lines 16, 61-70. *)
Definition smax : f32 := ofZ 10 * sqrt_ (ofZ 2).
Definition level_size (e : level) : f32 := narrow P (esigma e * derivative_factor options).
Definition level_sigma (e : level) : f32 := m_round M32 (level_size e / ratio_of (octave e)).
(** Lines 35-59: is position [i] of the row-major image a strict maximum above the threshold?  The nine
    iterators read the positions around [i]. *)
Definition is_maximum (g : gray f32) (i : nat) : outcome bool :=
  let w := g_width g in
  let x := (i mod w)%nat in
  let at_ k := read (g_data g) k in
  let! nw := at_ (i - (w + 1))%nat in
  let! n := at_ (i - w)%nat in
  let! ne := at_ (i - w + 1)%nat in
  let! we := at_ (i - 1)%nat in
  let! c := at_ i in
  let! ea := at_ (i + 1)%nat in
  let! sw := at_ (i + w - 1)%nat in
  let! s := at_ (i + w)%nat in
  let! se := at_ (i + w + 1)%nat in
  Ok (negb (x =? 0)%nat && negb (x =? w - 1)%nat && (narrow P (detector_threshold options) <? c) &&
      (nw <? c) && (n <? c) && (ne <? c) && (we <? c) && (ea <? c) && (sw <? c) && (s <? c) && (se <? c)).
(** Lines 61-68: the candidate at pixel (x, y), in the pixel coordinates of its level. *)
Definition candidate (e_id : nat) (e : level) (x y : nat) : keypoint f32 :=
  KeyPoint (of_nat x) (of_nat y) (abs_ (pixel (Ldet e) x y)) (level_size e) (octave e) e_id zero.
(** Lines 76-83: is the cached keypoint on the same or the previous level, and near? *)
Definition near_cached (ratio : f32) (kp prev : keypoint f32) : bool :=
  ((kp_class kp =? kp_class prev)%nat || (negb (kp_class kp =? 0)%nat && (kp_class kp - 1 =? kp_class prev)%nat)) &&
  (let dx := kp_x kp * ratio - kp_x prev in
   let dy := kp_y kp * ratio - kp_y prev in
   dx * dx + dy * dy <=? kp_size kp * kp_size kp).
(** Lines 75-93: the first near one and its position. *)
Fixpoint first_near (ratio : f32) (kp : keypoint f32) (k : nat) (cache : list (keypoint f32)) : option (nat * keypoint f32) :=
  match cache with
  | [] => None
  | prev :: cache => if near_cached ratio kp prev then Some (k, prev) else first_near ratio kp (k + 1)%nat cache
  end.
(** Lines 97-104: is the keypoint too near to the border? *)
Definition is_out (e : level) (kp : keypoint f32) : bool :=
  let reach := smax * level_sigma e in
  let left_x := m_round M32 (kp_x kp - reach) - one in
  let right_x := m_round M32 (kp_x kp + reach) + one in
  let up_y := m_round M32 (kp_y kp - reach) - one in
  let down_y := m_round M32 (kp_y kp + reach) + one in
  (left_x <? zero) || (of_nat (g_width (Ldet e)) <=? right_x) || (up_y <? zero) || (of_nat (g_height (Ldet e)) <=? down_y).
(** Lines 106-109, 337-340: from the coordinates of a level to those of the image. *)
Definition to_image (ratio x : f32) : f32 := x * ratio + lit 1 2 * (ratio - one).
(** Lines 61-116: add a candidate to the cache, or not. *)
Definition consider (e : level) (cache : list (keypoint f32)) (kp : keypoint f32) : outcome (list (keypoint f32)) :=
  let ratio := ratio_of (octave e) in
  let placed := KeyPoint (to_image ratio (kp_x kp)) (to_image ratio (kp_y kp)) (kp_response kp) (kp_size kp) (kp_octave kp) (kp_class kp) (kp_angle kp) in
  match first_near ratio kp 0 cache with
  | None => Ok (if is_out e kp then cache else cache ++ [placed])
  | Some (k, prev) =>
      if kp_response prev <? kp_response kp then (if is_out e kp then Ok cache else write cache k placed) else Ok cache
  end.
(** Lines 35-117: one pixel. *)
Definition scan_pixel (e_id : nat) (e : level) (cache : list (keypoint f32)) (i : nat) : outcome (list (keypoint f32)) :=
  let! maximum := is_maximum (Ldet e) i in
  if maximum then consider e cache (candidate e_id e (i mod g_width (Ldet e)) (i / g_width (Ldet e)))
  else Ok cache.
(** Lines 17-119: one level.  [len() - w - 1] underflows for images of at most one row: with overflow checks
    this panics; without, the range is huge and the exhausted iterators panic (or [i % 0] does). *)
Definition scan_level (cache : list (keypoint f32)) (entry : nat * level) : outcome (list (keypoint f32)) :=
  let '(e_id, e) := entry in
  let w := g_width (Ldet e) in
  let len := length (g_data (Ldet e)) in
  if (len <? w + 1)%nat then Panic
  else foldM (scan_pixel e_id e) (seq (w + 1) (len - w - 1 - (w + 1))) cache.
(** Lines 125-136: does a later keypoint of the next level suppress this one? *)
Definition suppressed (kp later : keypoint f32) : bool :=
  (kp_class kp + 1 =? kp_class later)%nat &&
  (let dx := kp_x kp - kp_x later in
   let dy := kp_y kp - kp_y later in
   (dx * dx + dy * dy <=? kp_size kp * kp_size kp) && (kp_response kp <=? kp_response later)).
(** Lines 121-140. *)
Fixpoint filter_upper (cache : list (keypoint f32)) : list (keypoint f32) :=
  match cache with
  | [] => []
  | kp :: later => if existsb (suppressed kp) later then filter_upper later else kp :: filter_upper later
  end.
(** Lines 14-143 [find_scale_space_extrema]. *)
Definition find_extrema (evolutions : list level) : outcome (list (keypoint f32)) :=
  let! cache := foldM scan_level (combine (seq 0 (length evolutions)) evolutions) [] in
  Ok (filter_upper cache).

(** Lines 162-226: the weights GAUSS25, in units of 10^-8. *)
Definition gauss25 : list (list Z) :=
  [[2546481; 2350698; 1849125; 1239505; 708017; 344629; 142946];
   [2350698; 2169968; 1706957; 1144208; 653582; 318132; 131956];
   [1849125; 1706957; 1342740; 900066; 514126; 250252; 103800];
   [1239505; 1144208; 900066; 603332; 344629; 167749; 69579];
   [708017; 653582; 514126; 344629; 196855; 95820; 39744];
   [344629; 318132; 250252; 167749; 95820; 46640; 19346];
   [142946; 131956; 103800; 69579; 39744; 19346; 8024]]%Z.
(** Lines 233, 250: the weight of the sample (i, j); the table [id] gives the absolute value. *)
Definition gauss_weight (i j : Z) : f32 := lit (nth (Z.abs_nat i) (nth (Z.abs_nat j) gauss25 []) 0%Z) 100000000.
(** Lines 245-247: the 109 samples, row by row. *)
Definition disc : list (Z * Z) :=
  filter (fun '(i, j) => Z.ltb (i * i + j * j) 36)
    (flat_map (fun j => map (fun i => (Z.of_nat i - 6, Z.of_nat j - 6)%Z) (seq 0 13)) (seq 0 13)).
(** Line 242. *)
Definition fast_atan2 (y x : f32) : f32 := a_rem A (a_atan2 A y x + ofZ 2 * m_pi M32) (ofZ 2 * m_pi M32).
(** Lines 248-253: one sample: weighted derivatives and their angle. *)
Definition sample_gradient (e : level) (xf yf s : f32) (offset : Z * Z) : outcome (f32 * f32 * f32) :=
  let '(i, j) := offset in
  let iy := to_usize M32 (m_round M32 (yf + ofZ j * s)) in
  let ix := to_usize M32 (m_round M32 (xf + ofZ i * s)) in
  let! lx := get (Lx e) ix iy in
  let! ly := get (Ly e) ix iy in
  let rx := gauss_weight i j * lx in
  let ry := gauss_weight i j * ly in
  Ok (rx, ry, fast_atan2 ry rx).
(** Lines 264-268. *)
Definition window_end (ang1 : f32) : f32 :=
  if ofZ 2 * m_pi M32 <? ang1 + m_pi M32 / ofZ 3 then ang1 - ofZ 5 * m_pi M32 / ofZ 3 else ang1 + m_pi M32 / ofZ 3.
(** Lines 271-272. *)
Definition in_window (ang1 ang2 ang : f32) : bool :=
  ((ang1 <? ang2) && (ang1 <? ang) && (ang <? ang2)) ||
  ((ang2 <? ang1) && (((zero <? ang) && (ang <? ang2)) || ((ang1 <? ang) && (ang <? ofZ 2 * m_pi M32)))).
(** Lines 262-277: the sum of the samples in a window. *)
Definition window_sum (samples : list (f32 * f32 * f32)) (ang1 : f32) : f32 * f32 :=
  fold_left (fun '(sx, sy) '(rx, ry, ang) => if in_window ang1 (window_end ang1) ang then (sx + rx, sy + ry) else (sx, sy)) samples (zero, zero).
(** Lines 259-287: the window slides in steps of 0.15. *)
Fixpoint slide (fuel : nat) (samples : list (f32 * f32 * f32)) (ang1 best angle : f32) : outcome f32 :=
  match fuel with
  | O => Fuel
  | S fuel =>
      if ang1 <? ofZ 2 * m_pi M32 then
        let '(sx, sy) := window_sum samples ang1 in
        let val := sx * sx + sy * sy in
        if best <? val then slide fuel samples (ang1 + lit 15 100) val (fast_atan2 sy sx)
        else slide fuel samples (ang1 + lit 15 100) best angle
      else Ok angle
  end.
(** Lines 229-288 [compute_main_orientation].  The loop makes about 42 turns. *)
Definition slide_fuel : nat := 64.
Definition main_orientation (e : level) (kp : keypoint f32) : outcome f32 :=
  let ratio := ratio_of (octave e) in
  let s := m_round M32 (lit 1 2 * kp_size kp / ratio) in
  let! samples := mapM (sample_gradient e (kp_x kp / ratio) (kp_y kp / ratio) s) disc in
  slide slide_fuel samples zero zero (kp_angle kp).
(** Lines 302-347: refine one keypoint, or drop it. *)
Definition refine_keypoint (evolutions : list level) (kp : keypoint f32) : outcome (option (keypoint f32)) :=
  let ratio := ratio_of (kp_octave kp) in
  let x := to_usize M32 (m_round M32 (kp_x kp / ratio)) in
  let y := to_usize M32 (m_round M32 (kp_y kp / ratio)) in
  let! e := read evolutions (kp_class kp) in
  let d := Ldet e in
  let! x_i := get d x y in
  let! x_p := get d (x + 1)%nat y in
  assert_ (1 <=? x)%nat
  (let! x_m := get d (x - 1)%nat y in
   let! y_p := get d x (y + 1)%nat in
   assert_ (1 <=? y)%nat
   (let! y_m := get d x (y - 1)%nat in
    let! x_p_y_p := get d (x + 1)%nat (y + 1)%nat in
    let! x_p_y_m := get d (x + 1)%nat (y - 1)%nat in
    let! x_m_y_p := get d (x - 1)%nat (y + 1)%nat in
    let! x_m_y_m := get d (x - 1)%nat (y - 1)%nat in
    let d_x := lit 1 2 * (x_p - x_m) in
    let d_y := lit 1 2 * (y_p - y_m) in
    let d_xx := x_p + x_m - ofZ 2 * x_i in
    let d_yy := y_p + y_m - ofZ 2 * x_i in
    let d_xy := lit 1 4 * (x_p_y_p + x_m_y_m) - lit 1 4 * (x_p_y_m + x_m_y_p) in
    let inv_det_a := one / (d_xx * d_yy - d_xy * d_xy) in
    let dst_0 := - d_x * (inv_det_a * d_yy) + - d_y * (inv_det_a * - d_xy) in
    let dst_1 := - d_x * (inv_det_a * - d_xy) + - d_y * (inv_det_a * d_xx) in
    if (abs_ dst_0 <=? one) && (abs_ dst_1 <=? one) then
      let power := ratio_of (octave e) in
      assert_ (kp_angle kp =? zero)
      (let moved := KeyPoint (to_image power (of_nat x + dst_0)) (to_image power (of_nat y + dst_1)) (kp_response kp)
         (kp_size kp * ofZ 2) (kp_octave kp) (kp_class kp) (kp_angle kp) in
       let! angle := main_orientation e moved in
       Ok (Some (KeyPoint (kp_x moved) (kp_y moved) (kp_response moved) (kp_size moved) (kp_octave moved) (kp_class moved) angle)))
    else Ok None)).
(** [filter_map]. *)
Definition keep_some {X} (l : list (option X)) : list X := flat_map (fun o => match o with Some x => [x] | None => [] end) l.
(** Lines 297-362 [do_subpixel_refinement] and 153-157 [detect_keypoints]. *)
Definition detect_keypoints (evolutions : list level) : outcome (list (keypoint f32)) :=
  let! found := find_extrema evolutions in
  let! refined := mapM (refine_keypoint evolutions) found in
  Ok (keep_some refined).

(** ** descriptors.rs *)
(** [(-(p as i32)..(p as i32)).step_by(n)] for [n] > 0. *)
Definition grid (p n : nat) : list Z := map (fun k => (Z.of_nat k - Z.of_nat p)%Z) (steps (2 * p) n).
(** [i..(i + n)]. *)
Definition run (i : Z) (n : nat) : list Z := map (fun k => (i + Z.of_nat k)%Z) (seq 0 n).
(** Lines 125-157: one sample added to the sums.  [None]: the function has returned an error. *)
Definition add_sample (e : level) (xf yf co si scale : f32) (sums : option (f32 * f32 * f32)) (kl : Z * Z) : outcome (option (f32 * f32 * f32)) :=
  match sums with
  | None => Ok None
  | Some (di, dx, dy) =>
      let k : f32 := ofZ (fst kl) in
      let l : f32 := ofZ (snd kl) in
      let sample_y := yf + (l * co * scale + k * si * scale) in
      let sample_x := xf + (- l * si * scale + k * co * scale) in
      let y1 := m_trunc M32 (m_round M32 sample_y) in
      let x1 := m_trunc M32 (m_round M32 sample_x) in
      if (Z.leb 0 x1 && Z.ltb x1 (Z.of_nat (g_width (Lt e)))) && (Z.leb 0 y1 && Z.ltb y1 (Z.of_nat (g_height (Lt e)))) then
        let! ri := get (Lt e) (Z.to_nat x1) (Z.to_nat y1) in
        if (1 <? descriptor_channels options)%nat then
          let! rx := get (Lx e) (Z.to_nat x1) (Z.to_nat y1) in
          let! ry := get (Ly e) (Z.to_nat x1) (Z.to_nat y1) in
          if (descriptor_channels options =? 2)%nat then Ok (Some (di + ri, dx + sqrt_ (rx * rx + ry * ry), dy))
          else Ok (Some (di + ri, dx + (- rx * si + ry * co), dy + (rx * co + ry * si)))
        else Ok (Some (di + ri, dx, dy))
      else Ok None
  end.
(** Lines 119-173: one cell; the state is the value buffer and the write position. *)
Definition fill_cell (e : level) (xf yf co si scale : f32) (sample_step : nat) (state : option (list f32 * nat)) (ij : Z * Z)
    : outcome (option (list f32 * nat)) :=
  match state with
  | None => Ok None
  | Some (values, valuepos) =>
      let cells := list_prod (run (fst ij) sample_step) (run (snd ij) sample_step) in
      let! sums := foldM (add_sample e xf yf co si scale) cells (Some (zero, zero, zero)) in
      match sums with
      | None => Ok None
      | Some (di, dx, dy) =>
          let nsamples : f32 := of_nat (length cells) in
          let! values := write values valuepos (di / nsamples) in
          let! values := if (1 <? descriptor_channels options)%nat then write values (valuepos + 1)%nat (dx / nsamples) else Ok values in
          let! values := if (2 <? descriptor_channels options)%nat then write values (valuepos + 2)%nat (dy / nsamples) else Ok values in
          Ok (Some (values, (valuepos + descriptor_channels options)%nat))
      end
  end.
(** Lines 102-177 [mldb_fill_values].  [step_by(0)] panics; [evolutions[level]] is read only when there is a sample. *)
Definition fill_values (evolutions : list level) (class : nat) (xf yf co si scale : f32) (values : list f32) (sample_step : nat)
    : outcome (option (list f32)) :=
  assert_ (negb (sample_step =? 0)%nat)
  (let positions := grid (descriptor_pattern_size options) sample_step in
   match positions with
   | [] => Ok (Some values)
   | _ =>
     let! e := read evolutions class in
     let! state := foldM (fill_cell e xf yf co si scale sample_step) (list_prod positions positions) (Some (values, 0%nat)) in
     Ok (option_map fst state)
   end).
(** Lines 192-198: one comparison; [|=] of a bit. *)
Definition compare_pair (values : list f32) (state : list N * nat) (ab : nat * nat) : outcome (list N * nat) :=
  let '(bytes, dpos) := state in
  let! ival := read values (fst ab) in
  let! jval := read values (snd ab) in
  let res := if jval <? ival then 1%N else 0%N in
  let! old := read bytes (dpos / 8)%nat in
  let! bytes := write bytes (dpos / 8)%nat (N.lor old (N.shiftl res (N.of_nat (dpos mod 8)))) in
  Ok (bytes, (dpos + 1)%nat).
(** Lines 188-201: the pairs of positions in the order of the loops. *)
Definition pairs (channels count : nat) : list (nat * nat) :=
  flat_map (fun pos => flat_map (fun i => map (fun j => (channels * i + pos, channels * j + pos)%nat) (seq (i + 1) (count - (i + 1)))) (seq 0 count)) (seq 0 channels).
(** Lines 181-202 [mldb_binary_comparisons].  [values[nr_channels * i + pos]] is also read for the last [i], which has no partner;
    that position is smaller than the second one of other pairs, except for [count] = 1, which does not occur. *)
Definition binary_comparisons (values : list f32) (count : nat) (state : list N * nat) : outcome (list N * nat) :=
  foldM (compare_pair values) (pairs (descriptor_channels options) count) state.
(** Lines 64, 74-96: one level of the descriptor. *)
Definition size_mult (lvl : nat) : f32 := match lvl with O => one | S O => ofZ 2 / ofZ 3 | _ => ofZ 1 / ofZ 2 end.
Definition sample_size (lvl : nat) : nat := to_usize M32 (m_ceil M32 (of_nat (descriptor_pattern_size options) * size_mult lvl)).
Definition descriptor_level (evolutions : list level) (class : nat) (xf yf co si scale : f32)
    (state : option (list f32 * (list N * nat))) (lvl : nat) : outcome (option (list f32 * (list N * nat))) :=
  match state with
  | None => Ok None
  | Some (values, out) =>
      let! values := fill_values evolutions class xf yf co si scale values (sample_size lvl) in
      match values with
      | None => Ok None
      | Some values => let! out := binary_comparisons values ((lvl + 2) * (lvl + 2))%nat out in Ok (Some (values, out))
      end
  end.
(** Lines 55-98 [get_mldb_descriptor]: 64 bytes, or [None] for an error. *)
Definition mldb_descriptor (evolutions : list level) (kp : keypoint f32) : outcome (option (list N)) :=
  let ratio := ratio_of (kp_octave kp) in
  let scale := m_round M32 (lit 1 2 * kp_size kp / ratio) in
  let! state := foldM (descriptor_level evolutions (kp_class kp) (kp_x kp / ratio) (kp_y kp / ratio) (a_cos A (kp_angle kp)) (a_sin A (kp_angle kp)) scale)
    [0; 1; 2]%nat (Some (repeat zero 48, (repeat 0%N 64, 0%nat))) in
  Ok (option_map (fun s => fst (snd s)) state).
(** Lines 16-45 [extract_descriptors]. *)
Definition extract_descriptors (evolutions : list level) (kps : list (keypoint f32)) : outcome (list (keypoint f32) * list (list N)) :=
  let! pairs := mapM (fun kp => let! d := mldb_descriptor evolutions kp in Ok (option_map (fun d => (kp, d)) d)) kps in
  Ok (split (keep_some pairs)).

(** ** lib.rs 309-339 [extract_from_gray_float_image] *)
(** Line 326: [sort_unstable_by_key(|kp| Reverse(FloatOrd(kp.response)))]. [sort] sorts by the order it is given,
    [float_ord] is the order [<=] of [FloatOrd]; [Reverse] swaps the arguments. *)
Definition extract (float_ord : f32 -> f32 -> bool) (sort : (keypoint f32 -> keypoint f32 -> bool) -> list (keypoint f32) -> list (keypoint f32)) (image : gray f32) : outcome (list (keypoint f32) * list (list N)) :=
  let! evolutions := allocate_evolutions (g_width image) (g_height image) in
  let! evolutions := create_scale_space evolutions image in
  let! evolutions := detector_response evolutions in
  let! kps := detect_keypoints evolutions in
  extract_descriptors evolutions (firstn (maximum_features options) (sort (fun a b => float_ord (kp_response b) (kp_response a)) kps)).
End akaze.
Arguments Level {_} _ _ _ _ _ _ _ _ _ _ _ _ _ _.
Arguments etime {_} _.
Arguments esigma {_} _.
Arguments octave {_} _.
Arguments sublevel {_} _.
Arguments tau_steps {_} _.
Arguments Lt {_} _.
Arguments Lsmooth {_} _.
Arguments Lx {_} _.
Arguments Ly {_} _.
Arguments Lxx {_} _.
Arguments Lyy {_} _.
Arguments Lxy {_} _.
Arguments Lflow {_} _.
Arguments Ldet {_} _.
