(** C22, C23, C24, C26, C46, C51, C52: the keypoint pipeline (akaze/src/lib.rs, evolution.rs, detector_response.rs, scale_space_extrema.rs, descriptors.rs). *)
From Coq Require Import Reals List Arith Lia Lra ZArith NArith Sorted Permutation.
From Verif Require Import Num Outcome LinSpec Gray GraySpec GrayFacts Diffuse DiffuseSpec Fed Akaze AkazeSpec AkazeSchedule AkazeSpace AkazeDetect AkazeRefine AkazeBits AkazeDescribe AkazeWhole AkazeDemo FedSpec FedDiffuse AkazeEvolve AkazeWindow AkazeInside.
Import ListNotations.
Open Scope R_scope.


Theorem C26_schedule :
  forall (fed : R -> outcome (list R)) (o : rsettings) w h, (0 < num_sublevels o)%nat -> 0 < base_scale_offset o ->
    forall l, rallocate fed o w h = Ok l ->
    (forall oct sub, has_level o w h oct sub <-> exists e : rlevel, In e l /\ octave e = oct /\ sublevel e = sub) /\
    (forall e : rlevel, In e l -> esigma e = scale_of o (octave e) (sublevel e) /\ etime e = esigma e * esigma e / 2) /\
    increasing (fun e : rlevel => esigma e) l /\ increasing (fun e : rlevel => etime e) l /\ linked fed l.
Proof. exact schedule. Qed.
Print Assumptions C26_schedule.

(** The size the schedule assumes for an octave is the size repeated halving gives. *)

Theorem C26_assumed_size :
  forall side oct, level_side Rwidths Rmath side oct = halved oct side /\ halved oct side = (side / 2 ^ oct)%nat.
Proof. exact (fun side oct => conj (eq_trans (level_side_div side oct) (eq_sym (halved_div oct side))) (halved_div oct side)). Qed.
Print Assumptions C26_assumed_size.

(** The scale space has the scheduled levels, with images of these sizes. *)

Theorem C26_scale_space_sizes :
  forall (o : rsettings) w h (image : gray RNum) (fed : R -> outcome (list R)) l, usable o -> (40 <= w)%nat -> (40 <= h)%nat -> sized w h image -> rallocate fed o w h = Ok l ->
    exists l', rspace o l image = Ok l' /\ Forall2 same_place l l' /\ (forall e, In e l' -> built w h e).
Proof. exact (fun o w h image fed l U Hw Hh SI AL => match space_ready o w h image fed l U Hw Hh SI AL with ex_intro _ l' (conj E (conj F (conj B _))) => ex_intro _ l' (conj E (conj F B)) end). Qed.
Print Assumptions C26_scale_space_sizes.

Theorem C26_terminates :
  forall checks (o : rsettings) w h, (0 < num_sublevels o)%nat -> 0 < base_scale_offset o -> 1 / 5 <= first_gap o ->
    exists fuel0, forall fuel, (fuel0 <= fuel)%nat -> exists l, rallocate (fed_quarter checks fuel) o w h = Ok l.
Proof. exact allocate_total. Qed.
Print Assumptions C26_terminates.

Theorem C26_default_terminates :
  forall checks maximum w h, exists fuel0, forall fuel, (fuel0 <= fuel)%nat ->
    exists l, rallocate (fed_quarter checks fuel) (default_settings maximum) w h = Ok l.
Proof. exact default_total. Qed.
Print Assumptions C26_default_terminates.

(** A positive base scale is not enough: with levels too close a cycle of one step is asked for, and its reordering panics or never ends. *)

Theorem C26_small_base_refuted :
  exists o : rsettings, (0 < num_sublevels o)%nat /\ 0 < base_scale_offset o /\
    forall fuel, rallocate (fed_quarter true (S fuel)) o 80 80 = Panic /\ rallocate (fed_quarter false fuel) o 80 80 = Fuel.
Proof. exact tiny_refuted. Qed.
Print Assumptions C26_small_base_refuted.

Example C26_example : exists l, rallocate (fun t => Ok [t]) (default_settings 7) 200 100 = Ok l /\ l <> [] /\ has_level (default_settings 7) 200 100 0 3 /\ has_level (default_settings 7) 200 100 1 0 /\ ~ has_level (default_settings 7) 200 100 1 1.
Proof. destruct (allocate_some (fun t => Ok [t]) (default_settings 7) 200 100) as (l & E); [eauto|]. exists l. split; [exact E|]. split; [|unfold has_level; cbn; lia].
  apply (levels_nonempty (fun t => Ok [t]) (default_settings 7) 200 100 l ltac:(cbn; lia) ltac:(cbn; lra) E). cbn; lia. Qed.

(** The response is the determinant of the Hessian of the smoothed image times the fourth power of the integer scale. *)

Theorem C46_response :
  forall (o : rsettings) w h (e : rlevel), sized w h (Lsmooth e) -> (0 < w)%nat -> (0 < h)%nat -> 1 / 2 <= esigma e * derivative_factor o / 2 ^ octave e ->
    exists e1 s, level_response Rwidths Rmath o e = Ok e1 /\ same_place e e1 /\ Lt e1 = Lt e /\ Lsmooth e1 = Lsmooth e /\ (1 <= s)%nat /\ integer_scale o e s /\ hessian_response w h s e1.
Proof. exact response_ok. Qed.
Print Assumptions C46_response.

Theorem C46_responses :
  forall (o : rsettings) w h (image : gray RNum) (fed : R -> outcome (list R)) l, usable o -> (40 <= w)%nat -> (40 <= h)%nat -> sized w h image -> rallocate fed o w h = Ok l ->
    forall l1, rspace o l image = Ok l1 -> exists l2, rresponse o l1 = Ok l2 /\ Forall2 (fun e e' : rlevel => same_place e e' /\ Lt e' = Lt e /\ Lsmooth e' = Lsmooth e /\
      exists s, (1 <= s)%nat /\ integer_scale o e s /\ hessian_response (halved (octave e) w) (halved (octave e) h) s e') l1 l2.
Proof. exact response_ready. Qed.
Print Assumptions C46_responses.

Example C46_response_example : exists (o : rsettings) (e : rlevel), sized 60 60 (Lsmooth e) /\ 1 / 2 <= esigma e * derivative_factor o / 2 ^ octave e.
Proof. exists demo_settings, spot_level. split; [exact flat_sized|exact spot_half]. Qed.

Theorem C51_brightness :
  forall (o : rsettings) w h (image : gray RNum) (fed : R -> outcome (list R)) l, usable o -> (40 <= w)%nat -> (40 <= h)%nat -> sized w h image -> rallocate fed o w h = Ok l ->
    exists l', rspace o l image = Ok l' /\ (exists e rest, l' = e :: rest /\ gaussian_blur (N := RNum) Rmath image (base_scale_offset o) = Ok (Lt e)) /\
      forall i a b, nth_error l' i = Some a -> nth_error l' (S i) = Some b -> keeps_brightness a b.
Proof. exact (fun o w h image fed l U Hw Hh SI AL => match space_ready o w h image fed l U Hw Hh SI AL with ex_intro _ l' (conj E (conj _ (conj _ K))) => ex_intro _ l' (conj E K) end). Qed.
Print Assumptions C51_brightness.

Example C51_example : usable (default_settings 7) /\ sized 60 60 flat.
Proof. split; [exact (default_usable 7)|exact flat_sized]. Qed.

(** Every level after the first is diffused from the level before, with the conductivities the code documents and the contrast factor of its octave. *)

Theorem C52_levels :
  forall (o : rsettings) w h (image : gray RNum) (fed : R -> outcome (list R)) l l1 k0, usable o -> (40 <= w)%nat -> (40 <= h)%nat -> sized w h image -> rallocate fed o w h = Ok l -> rspace o l image = Ok l1 ->
    compute_contrast_factor Rwidths Rmath Rmath image (contrast_percentile o) 1 (contrast_factor_num_bins o) = Ok k0 ->
    forall i a b, nth_error l1 i = Some a -> nth_error l1 (S i) = Some b -> exists start, octave_sized w h (octave b) start /\ evolves (k0 * (3 / 4) ^ octave b) a b start.
Proof. exact levels_evolve. Qed.
Print Assumptions C52_levels.

(** The steps of a whole cycle, in any order the reordering gives, never increase the spread of the values, although most of them are beyond the stability limit. *)

Theorem C52_cycle :
  forall checks fuel T M tau_max reordering steps w h (Lt Lflow : gray RNum), 0 < T -> (0 < M)%Z -> 0 < tau_max <= 1 / 4 ->
    fed_tau_by_process_time checks fuel T M tau_max reordering = Ok steps -> T / IZR M <= max_cycle_time tau_max (INR (length steps)) ->
    sized w h Lt -> sized w h Lflow -> (0 < w)%nat -> (0 < h)%nat -> within 0 1 Lflow ->
    exists out, foldM (fun g s => calculate_step (N := RNum) g Lflow s) steps Lt = Ok out /\ sized w h out /\ total out = total Lt /\ forall v, spread v out <= spread v Lt.
Proof. exact fed_cycle_contracts. Qed.
Print Assumptions C52_cycle.

(** A single long step does increase it. *)

Theorem C52_single_step_refuted :
  exists (Lt Lflow out : gray RNum) s, sized 2 1 Lt /\ sized 2 1 Lflow /\ within 0 1 Lflow /\ 0 < s /\ calculate_step (N := RNum) Lt Lflow s = Ok out /\ total Lt = 0 /\ spread 0 Lt < spread 0 out.
Proof. exact one_step_spreads. Qed.
Print Assumptions C52_single_step_refuted.

(** With the default settings, along the whole scale space. *)

Theorem C52_default_contracts :
  forall m w h (image : gray RNum) checks fuel l l1 k0, (40 <= w)%nat -> (40 <= h)%nat -> sized w h image ->
    rallocate (fed_quarter checks fuel) (default_settings m) w h = Ok l -> rspace (default_settings m) l image = Ok l1 ->
    compute_contrast_factor Rwidths Rmath Rmath image (contrast_percentile (default_settings m)) 1 (contrast_factor_num_bins (default_settings m)) = Ok k0 -> k0 <> 0 ->
    forall i j a b, (i <= j)%nat -> nth_error l1 i = Some a -> nth_error l1 j = Some b -> forall v, spread v (Lt b) <= spread v (Lt a).
Proof. exact space_contracts. Qed.
Print Assumptions C52_default_contracts.

Example C52_example : exists image k0, sized 60 60 image /\ compute_contrast_factor Rwidths Rmath Rmath image (contrast_percentile (default_settings 7)) 1 (contrast_factor_num_bins (default_settings 7)) = Ok k0 /\ k0 <> 0 /\
    exists checks fuel l l1, rallocate (fed_quarter checks fuel) (default_settings 7) 60 60 = Ok l /\ rspace (default_settings 7) l image = Ok l1.
Proof. destruct (slope_contrast 7) as (k0 & E & N). exists slope, k0. split; [apply slope_image|]. split; [exact E|]. split; [exact N|].
  destruct (C26_default_terminates true 7 60 60) as (f & F). destruct (F f (le_n f)) as (l & A). destruct (C26_scale_space_sizes (default_settings 7) 60 60 slope _ l (default_usable 7) ltac:(lia) ltac:(lia) (proj1 slope_image) A) as (l1 & B & _). exists true, f, l, l1. auto. Qed.

Theorem C24_sound :
  forall (o : rsettings) (levels : list rlevel), (forall e, In e levels -> well_sized e) -> (forall e, In e levels -> exists s, integer_scale o e s /\ (1 <= s)%nat) ->
    forall kps, rextrema o levels = Ok kps -> NoDup kps /\ forall kp, In kp kps -> exists class e x y, maximum_of o levels class e x y /\ kp = keypoint_at o class e x y.
Proof. exact extrema_sound. Qed.
Print Assumptions C24_sound.

(** A maximum away from the border without a rival is reported. *)

Theorem C24_complete :
  forall (o : rsettings) (levels : list rlevel), (forall e, In e levels -> well_sized e) -> (forall e, In e levels -> exists s, integer_scale o e s /\ (1 <= s)%nat) ->
    forall kps class e x y, rextrema o levels = Ok kps -> maximum_of o levels class e x y ->
    (forall class' e' x' y', maximum_of o levels class' e' x' y' -> (class', (x', y')) <> (class, (x, y)) -> ~ rivals o class e x y class' e' x' y') ->
    In (keypoint_at o class e x y) kps.
Proof. exact extrema_complete. Qed.
Print Assumptions C24_complete.

(** Nothing is reported only when there is no maximum away from the border; in particular detection returns. *)

Theorem C24_none :
  forall (o : rsettings) (levels : list rlevel), (forall e, In e levels -> well_sized e) -> (forall e, In e levels -> exists s, integer_scale o e s /\ (1 <= s)%nat) ->
    (rextrema o levels = Ok [] <-> forall class e x y, ~ maximum_of o levels class e x y).
Proof. exact extrema_none. Qed.
Print Assumptions C24_none.

Theorem C24_returns :
  forall (o : rsettings) (levels : list rlevel), (forall e, In e levels -> well_sized e) -> exists kps, rextrema o levels = Ok kps.
Proof. exact (fun o levels WS => ex_intro _ _ (extrema_fold o levels WS)). Qed.
Print Assumptions C24_returns.

(** No access is out of range; the keypoint moves by at most one pixel of its level, to the stationary point of the fitted quadratic, or is dropped; its angle is the main direction of the gradients around it. *)

Theorem C24_refinement :
  forall (o : rsettings) (A : angles RNum) (levels : list rlevel) class (e : rlevel) x y, well_sized e -> gradient_sized e ->
    1 / 2 <= esigma e * derivative_factor o / 2 ^ octave e -> maximum_of o levels class e x y -> forall kp, kp = keypoint_at o class e x y ->
    exists r dx dy, refine_keypoint Rwidths Rmath A levels kp = Ok r /\ (curvature (Ldet e) x y <> 0 -> stationary (Ldet e) x y dx dy) /\
      (if Rle_dec (Rmax (Rabs dx) (Rabs dy)) 1 then
         exists s angle, integer_scale o e s /\ r = Some (moved_by kp dx dy angle) /\
           main_direction A (map (gradient_sample A e (INR x + dx + 1 / 2 - / (2 * 2 ^ octave e)) (INR y + dy + 1 / 2 - / (2 * 2 ^ octave e)) s) disc) angle
       else r = None).
Proof. exact refine_spec. Qed.
Print Assumptions C24_refinement.

(** The gradients are taken at the points less than six steps away, each once, with the weights of a Gaussian of standard deviation 2.5 steps, to eight decimals (three units of the last). *)

Theorem C24_window :
  (forall i j : Z, In (i, j) disc <-> (i * i + j * j < 36)%Z) /\ NoDup disc /\
  forall i j : Z, (Z.abs i <= 6)%Z -> (Z.abs j <= 6)%Z ->
    Rabs (gauss_weight Rwidths i j - exp (- IZR (i * i + j * j) / (25 / 2)) / (25 / 2 * PI)) <= 3 / 100000000.
Proof. exact (conj disc_in (conj disc_nodup weight_bell)). Qed.
Print Assumptions C24_window.

Theorem C24_detected :
  forall (o : rsettings) (A : angles RNum) (levels : list rlevel),
    (forall e, In e levels -> well_sized e /\ gradient_sized e /\ 1 / 2 <= esigma e * derivative_factor o / 2 ^ octave e /\ exists s, integer_scale o e s /\ (1 <= s)%nat) ->
    exists kps, detect_keypoints Rwidths Rmath A o levels = Ok kps /\ forall kp, In kp kps -> exists class e x y dx dy angle, maximum_of o levels class e x y /\ Rabs dx <= 1 /\ Rabs dy <= 1 /\
      (curvature (Ldet e) x y <> 0 -> stationary (Ldet e) x y dx dy) /\ kp = moved_by (keypoint_at o class e x y) dx dy angle.
Proof. exact detect_total. Qed.
Print Assumptions C24_detected.

(** The keypoints that extraction returns lie in the image, at least 13 pixels from its border. *)

Theorem C24_inside :
  forall (o : rsettings) (A : angles RNum) w h image (fed : R -> outcome (list R)) float_ord sort kps ds, usable o -> (40 <= w)%nat -> (40 <= h)%nat -> sized w h image -> sorts sort ->
    extract Rwidths Rmath Rmath A Rexp2 fed o float_ord sort image = Ok (kps, ds) ->
    forall kp, In kp kps -> 13 <= kp_x kp <= INR w - 14 /\ 13 <= kp_y kp <= INR h - 14.
Proof. exact extract_inside. Qed.
Print Assumptions C24_inside.

(** The levels the pipeline builds meet the premises above. *)

Theorem C24_pipeline :
  forall (o : rsettings) w h (image : gray RNum) (fed : R -> outcome (list R)) l, usable o -> (40 <= w)%nat -> (40 <= h)%nat -> sized w h image -> rallocate fed o w h = Ok l ->
    forall l1 l2, rspace o l image = Ok l1 -> rresponse o l1 = Ok l2 ->
    forall e, In e l2 -> well_sized e /\ gradient_sized e /\ 1 / 2 <= esigma e * derivative_factor o / 2 ^ octave e /\ exists s, integer_scale o e s /\ (1 <= s)%nat.
Proof. exact (fun o w h image fed l U Hw Hh SI AL l1 l2 E1 E2 => ready_detect o w h l2 (levels_ready o w h image fed l U Hw Hh SI AL l1 l2 E1 E2)). Qed.
Print Assumptions C24_pipeline.

(** With the default settings [s] is at least 2, so that levels narrower than 59 pixels give no keypoints. *)

Theorem C24_room :
  forall (o : rsettings) levels class (e : rlevel) x y, maximum_of o levels class e x y ->
    exists s, integer_scale o e s /\ 20 * sqrt 2 * INR s + 2 < INR (g_width (Ldet e)) /\ 20 * sqrt 2 * INR s + 2 < INR (g_height (Ldet e)).
Proof. exact maximum_room. Qed.
Print Assumptions C24_room.

Example C24_example : forall kps, rextrema demo_settings [spot_level] = Ok kps -> kps = [keypoint_at demo_settings 0 spot_level 29 29].
Proof. exact spot_found. Qed.

Example C24_example_refined : well_sized spot_level /\ gradient_sized spot_level /\ 1 / 2 <= esigma spot_level * derivative_factor demo_settings / 2 ^ octave spot_level /\
  maximum_of demo_settings [spot_level] 0 spot_level 29 29 /\ curvature (Ldet spot_level) 29 29 <> 0 /\ stationary (Ldet spot_level) 29 29 0 0.
Proof. split; [apply spot_well; now left|]. split; [exact spot_gradients|]. split; [exact spot_half|]. split; [exact spot_maximum|]. destruct spot_curvature as [-> S]. split; [lra|exact S]. Qed.

(** For any arithmetic: nothing panics, a descriptor is given exactly when the whole pattern lies in the image, and its bits are the comparisons of the cells. *)

Theorem C23_descriptor :
  forall (P : widths) (M32 : math (single P)) (A : angles (single P)) (o : settings (double P)) levels (kp : keypoint (single P)) e, nth_error levels (kp_class kp) = Some e ->
    sized (g_width (Lt e)) (g_height (Lt e)) (Lt e) /\ sized (g_width (Lt e)) (g_height (Lt e)) (Lx e) /\ sized (g_width (Lt e)) (g_height (Lt e)) (Ly e) ->
    (descriptor_channels o <= 3)%nat -> (0 < descriptor_pattern_size o)%nat ->
    (forall lvl, (lvl <= 2)%nat -> (0 < sample_size P M32 o lvl)%nat /\ (length (corners P o (sample_size P M32 o lvl)) <= lvl + 2)%nat) ->
    let ratio := ratio_of (kp_octave kp) in
    let q := Pattern (P := P) (div (kp_x kp) ratio) (div (kp_y kp) ratio) (a_cos A (kp_angle kp)) (a_sin A (kp_angle kp)) (m_round M32 (div (mul (lit 1 2) (kp_size kp)) ratio)) in
    exists r, mldb_descriptor P M32 A o levels kp = Ok r /\
      (r <> None <-> forall lvl, (lvl <= 2)%nat -> pattern_inside P M32 o e q (sample_size P M32 o lvl)) /\
      forall bytes, r = Some bytes -> exists bits, encodes bytes bits /\ length bits = (162 * descriptor_channels o)%nat /\
        ((forall lvl, (lvl <= 2)%nat -> length (corners P o (sample_size P M32 o lvl)) = (lvl + 2)%nat) ->
          bits = flat_map (fun lvl => grid_bits P M32 o e q (sample_size P M32 o lvl) ((lvl + 2) * (lvl + 2))) [0; 1; 2]%nat).
Proof. exact descriptor_spec. Qed.
Print Assumptions C23_descriptor.

(** In exact arithmetic every pattern size of at least 1 meets the premises above. *)

Theorem C23_sizes :
  forall o : rsettings, (0 < descriptor_pattern_size o)%nat ->
    forall lvl, (lvl <= 2)%nat -> (0 < sample_size Rwidths Rmath o lvl)%nat /\ (length (corners Rwidths o (sample_size Rwidths Rmath o lvl)) <= lvl + 2)%nat.
Proof. exact sizes_safe. Qed.
Print Assumptions C23_sizes.

(** From 4 on all 4, 9 and 16 cells exist. *)

Theorem C23_full_sizes :
  forall o : rsettings, (4 <= descriptor_pattern_size o)%nat ->
    forall lvl, (lvl <= 2)%nat -> length (corners Rwidths o (sample_size Rwidths Rmath o lvl)) = (lvl + 2)%nat.
Proof. exact sizes_full. Qed.
Print Assumptions C23_full_sizes.

(** With pattern size 3 the last grid has 9 cells for 16 values: the other values compared are left over from the grids before. *)

Theorem C23_small_patterns_refuted :
  exists o : rsettings, (0 < descriptor_pattern_size o)%nat /\ (length (cells Rwidths o (sample_size Rwidths Rmath o 2)) < (2 + 2) * (2 + 2))%nat.
Proof. exact small_pattern. Qed.
Print Assumptions C23_small_patterns_refuted.

Theorem C23_zero_pattern_panics :
  forall (P : widths) (M32 : math (single P)) (A : angles (single P)) (o : settings (double P)) levels (kp : keypoint (single P)), sample_size P M32 o 0 = 0%nat -> mldb_descriptor P M32 A o levels kp = Panic.
Proof. exact zero_pattern. Qed.
Print Assumptions C23_zero_pattern_panics.

Example C23_example : nth_error [spot_level] (kp_class (keypoint_at demo_settings 0 spot_level 29 29)) = Some spot_level /\
  (descriptor_channels demo_settings <= 3)%nat /\ (4 <= descriptor_pattern_size demo_settings)%nat /\ sized 60 60 (Lt spot_level) /\ encodes (repeat 255%N 64) (repeat true 512).
Proof. split; [reflexivity|]. split; [cbn; lia|]. split; [cbn; lia|]. split; [exact flat_sized|]. split; [apply repeat_length|]. split; [intros x Hx; apply repeat_spec in Hx; subst; reflexivity|]. intros b Hb. unfold bit. rewrite (nth_indep _ 0%N 255%N) by (rewrite repeat_length; apply Nat.div_lt_upper_bound; lia). rewrite nth_repeat, (nth_indep _ false true), nth_repeat by (rewrite repeat_length; exact Hb). assert (b mod 8 < 8)%nat by (apply Nat.mod_upper_bound; lia). destruct (b mod 8) as [|[|[|[|[|[|[|[|?]]]]]]]]; try reflexivity; lia. Qed.

(** For any arithmetic, every total order of the responses and every routine that sorts: the strongest keypoints found, in order, without those that have no descriptor. *)

Theorem C22_selection :
  forall (P : widths) (M32 : math (single P)) (A : angles (single P)) (o : settings (double P)) (M64 : math (double P)) exp2 fed (float_ord : single P -> single P -> bool) sort image kps ds,
    sorts sort -> (forall a b, float_ord a b = true \/ float_ord b a = true) -> (forall a b c, float_ord a b = true -> float_ord b c = true -> float_ord a c = true) ->
    extract P M32 M64 A exp2 fed o float_ord sort image = Ok (kps, ds) ->
    exists l0 l1 levels found, allocate_evolutions P M64 exp2 fed o (g_width image) (g_height image) = Ok l0 /\ create_scale_space P M32 M64 o l0 image = Ok l1 /\ detector_response P M64 o l1 = Ok levels /\
      detect_keypoints P M32 A o levels = Ok found /\
      length kps = length ds /\ (length kps <= maximum_features o)%nat /\ StronglySorted (fun a b => float_ord (kp_response b) (kp_response a) = true) kps /\
      (exists best rest, Permutation found (best ++ rest) /\ length best = Nat.min (maximum_features o) (length found) /\ (forall a b, In a best -> In b rest -> float_ord (kp_response b) (kp_response a) = true) /\
         kept (fun kp d => mldb_descriptor P M32 A o levels kp = Ok d) best kps ds).
Proof. exact extract_selects. Qed.
Print Assumptions C22_selection.

(** What [kept] says: the i-th descriptor belongs to the i-th keypoint, and only keypoints without descriptor are left out. *)

Theorem C22_kept :
  forall (K D : Type) (f : K -> option D -> Prop) best kps ds, kept f best kps ds ->
    length kps = length ds /\ (forall i kp, nth_error kps i = Some kp -> exists d, nth_error ds i = Some d /\ f kp (Some d)) /\
    (exists rest, Permutation best (kps ++ rest) /\ forall kp, In kp rest -> f kp None).
Proof. exact (fun K D f best kps ds E => conj (proj1 (kept_lengths f best kps ds E)) (conj (kept_nth f best kps ds E) (kept_rest f best kps ds E))). Qed.
Print Assumptions C22_kept.

(** No stage panics. *)

Theorem C22_returns :
  forall (o : rsettings) (A : angles RNum) w h (image : gray RNum) (fed : R -> outcome (list R)) l float_ord sort, usable o -> (40 <= w)%nat -> (40 <= h)%nat -> sized w h image ->
    rallocate fed o w h = Ok l -> sorts sort -> exists r, extract Rwidths Rmath Rmath A Rexp2 fed o float_ord sort image = Ok r.
Proof. exact extract_total. Qed.
Print Assumptions C22_returns.

(** An image with a side below 40 pixels has no levels, and the first one is accessed. *)

Theorem C22_small_images_panic :
  forall (o : rsettings) (A : angles RNum) w h (image : gray RNum) (fed : R -> outcome (list R)) float_ord sort, (0 < num_sublevels o)%nat -> sized w h image -> (w < 40)%nat \/ (h < 40)%nat ->
    extract Rwidths Rmath Rmath A Rexp2 fed o float_ord sort image = Panic.
Proof. exact extract_small_real. Qed.
Print Assumptions C22_small_images_panic.

Example C22_example : exists sort : (keypoint RNum -> keypoint RNum -> bool) -> list (keypoint RNum) -> list (keypoint RNum), sorts sort /\
  exists (A : angles RNum) r, extract Rwidths Rmath Rmath A Rexp2 (fun t => Ok [t]) (default_settings 7) (fun a b => leb a b) sort flat = Ok r.
Proof. exists insertion. split; [exact insertion_sorts|].
  destruct (allocate_some (fun t => Ok [t]) (default_settings 7) 60 60) as (l & E); [eauto|]. exists (Angles RNum (fun x _ => x) (fun x _ => x) (fun x => x) (fun x => x)).
  apply (extract_total (default_settings 7) _ 60 60 flat (fun t => Ok [t]) l _ insertion (default_usable 7) ltac:(lia) ltac:(lia) flat_sized E insertion_sorts). Qed.
