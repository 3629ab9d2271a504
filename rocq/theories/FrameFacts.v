(** Facts about Frame.v: loading images and the features of a frame. *)
From Coq Require Import Reals ZArith List SpecFloat Lia Lra Psatz Bool Sorting.Permutation Sorting.Sorted.
From Flocq Require Import Core BinarySingleNaN.
From Verif Require Import Num Outcome OutcomeFacts Lin LinSpec Gray GraySpec GrayFacts Diffuse Akaze AkazeSpec AkazeSchedule AkazeWhole AkazeDemo Bicubic BicubicSpec BicubicFacts Pinhole PinholeFacts FloatFacts FloatUp Frame FrameSpec.
Import ListNotations.
Open Scope R_scope.

Local Instance fexp32_valid : Valid_exp (SpecFloat.fexp 24 128) := FLT_exp_valid (SpecFloat.emin 24 128) 24.
Local Instance fexp32_monotone : Monotone_exp (SpecFloat.fexp 24 128) := FLT_exp_monotone (SpecFloat.emin 24 128) 24.

(** ** Loading *)
Lemma rnd_near r : 0 <= r <= 1 -> Rabs (rnd 24 128 r - r) <= / 2 ^ 24.
Proof.
  intros Hr. unfold rnd. eapply Rle_trans; [apply error_le_half_ulp; auto with typeclass_instances|].
  assert (ulp radix2 (SpecFloat.fexp 24 128) r <= bpow radix2 (-23)) as H.
  { eapply Rle_trans; [apply (ulp_le radix2 (SpecFloat.fexp 24 128) r (bpow radix2 0))|].
    - rewrite !Rabs_pos_eq; [cbn; lra|apply bpow_ge_0|lra].
    - rewrite ulp_bpow. apply bpow_le. cbv. discriminate. }
  replace (/ 2 ^ 24) with (/ 2 * bpow radix2 (-23)); [apply Rmult_le_compat_l; lra|]. change (bpow radix2 (-23)) with (/ IZR (Z.pow_pos 2 23)). replace (IZR (Z.pow_pos 2 23)) with (2 ^ 23) by (change (Z.pow_pos 2 23) with (2 ^ Z.of_nat 23)%Z; apply pow_IZR). assert (2 ^ 23 <> 0) by (apply pow_nonzero; lra). replace (2 ^ 24) with (2 * 2 ^ 23) by (cbn [pow]; ring). field.
Qed.
Lemma level_fraction (m v : Z) : (0 < m)%Z -> (0 <= v <= m)%Z -> 0 <= IZR v / IZR m <= 1.
Proof.
  intros Hm [H1 H2]. apply IZR_lt in Hm. apply IZR_le in H1, H2. split; [apply Rmult_le_pos; [lra|]; apply Rlt_le, Rinv_0_lt_compat; lra|]. apply (Rmult_le_reg_r (IZR m)); [lra|]. unfold Rdiv. rewrite Rmult_assoc, Rinv_l by lra. lra.
Qed.
Lemma level_represents (m v : Z) : (0 < m <= 65535)%Z -> (0 <= v <= m)%Z -> represents 24 128 (ofZ v / ofZ m : F32)%num (rnd 24 128 (IZR v / IZR m)).
Proof.
  intros Hm Hv. pose proof (level_fraction m v ltac:(lia) Hv) as Hf. pose proof (rnd_small 24 128 _ _ _ Hf) as Hs.
  apply represents_div; [apply (represents_int (z := v)); change (2 ^ 24)%Z with 16777216%Z; lia|apply (represents_int (z := m)); change (2 ^ 24)%Z with 16777216%Z; lia|intros E; apply eq_IZR in E; lia|].
  rewrite Rabs_pos_eq by lra. pose proof (one_top 24 128 _ _). lra.
Qed.
Lemma level_gap (m v v' : Z) : (0 < m <= 65535)%Z -> (0 <= v <= m)%Z -> (0 <= v' <= m)%Z -> (v < v')%Z -> rnd 24 128 (IZR v / IZR m) < rnd 24 128 (IZR v' / IZR m).
Proof.
  intros Hm Hv Hv' L. pose proof (rnd_near _ (level_fraction m v ltac:(lia) Hv)) as E1. pose proof (rnd_near _ (level_fraction m v' ltac:(lia) Hv')) as E2.
  assert (IZR v' / IZR m - IZR v / IZR m >= / 65535) as G.
  { replace (IZR v' / IZR m - IZR v / IZR m) with (IZR (v' - v) * / IZR m) by (rewrite minus_IZR; field; intros E; apply eq_IZR in E; lia). apply Rle_ge. rewrite <- (Rmult_1_l (/ 65535)). apply Rmult_le_compat; [lra|lra|apply IZR_le; lia|]. apply Rinv_le_contravar; [apply IZR_lt; lia|apply IZR_le; lia]. }
  assert (2 * / 2 ^ 24 < / 65535) as B. { replace (2 * / 2 ^ 24) with (/ 8388608) by lra. apply Rinv_lt_contravar; lra. }
  apply Rabs_le_inv in E1, E2. lra.
Qed.
Lemma converted_faithful {T} (m : Z) (f : T -> Z) (b : buffer T) : (0 < m <= 65535)%Z -> (forall x y, (x < b_width b)%nat -> (y < b_height b)%nat -> (0 <= f (b_at b x y) <= m)%Z) ->
  faithful m (b_width b) (b_height b) (fun x y => f (b_at b x y)) (converted (F := F32) (fun p => ofZ (f p) / ofZ m)%num b).
Proof.
  intros Hm Hb. split; [apply of_fn_sized|]. intros x y Hx Hy. specialize (Hb x y Hx Hy) as Hv. unfold converted. rewrite (pixel_of_fn (N := F32)) by assumption.
  pose proof (level_represents m _ Hm Hv) as R1. rewrite (represents_value R1). pose proof (level_fraction m _ ltac:(lia) Hv) as Hf.
  split; [exact (proj1 (proj2 (represents_valid R1)))|]. split; [exact (rnd_small 24 128 _ _ _ Hf)|]. split; [exact (rnd_near _ Hf)|]. split; [|split].
  - intros ->. unfold Rdiv. rewrite Rmult_0_l. apply rnd_0.
  - intros ->. replace (IZR m / IZR m) with 1 by (field; intros E; apply eq_IZR in E; lia). apply (rnd_int (z := 1)). cbv. discriminate.
  - intros x' y' Hx' Hy' L. rewrite (pixel_of_fn (N := F32)) by assumption. specialize (Hb x' y' Hx' Hy') as Hv'. rewrite (represents_value (level_represents m _ Hm Hv')). now apply level_gap.
Qed.
Lemma load_8 luma lumaa (b : buffer Z) : (forall x y, (x < b_width b)%nat -> (y < b_height b)%nat -> (0 <= b_at b x y <= 255)%Z) ->
  exists g, from_dynamic (F := F32) luma lumaa (Luma8 b) = Ok g /\ faithful 255 (b_width b) (b_height b) (b_at b) g.
Proof. intros H. eexists. split; [reflexivity|]. exact (converted_faithful 255 (fun p => p) b ltac:(lia) H). Qed.
Lemma load_16 luma lumaa (b : buffer Z) : (forall x y, (x < b_width b)%nat -> (y < b_height b)%nat -> (0 <= b_at b x y <= 65535)%Z) ->
  exists g, from_dynamic (F := F32) luma lumaa (Luma16 b) = Ok g /\ faithful 65535 (b_width b) (b_height b) (b_at b) g.
Proof. intros H. eexists. split; [reflexivity|]. exact (converted_faithful 65535 (fun p => p) b ltac:(lia) H). Qed.

Lemma of_fn_ext {N : Num} w h (f g : nat -> nat -> N) : (forall x y, (x < w)%nat -> (y < h)%nat -> f x y = g x y) -> of_fn w h f = of_fn w h g.
Proof.
  intros H. unfold of_fn. f_equal. rewrite !flat_map_concat_map. f_equal. apply map_ext_in. intros y Hy. apply in_seq in Hy. apply map_ext_in. intros x Hx. apply in_seq in Hx. apply H; lia.
Qed.
(** Alpha is ignored. *)
Lemma load_alpha {F : Num} luma lumaa (b : buffer (Z * Z)) :
  from_dynamic (F := F) luma lumaa (LumaA8 b) = from_dynamic luma lumaa (Luma8 (mapped fst b)) /\ from_dynamic (F := F) luma lumaa (LumaA16 b) = from_dynamic luma lumaa (Luma16 (mapped fst b)).
Proof. split; reflexivity. Qed.
(** Sixteen bits which repeat eight bits give the same image. *)
Lemma represents_inj x y r : represents 24 128 x r -> represents 24 128 y r -> r <> 0 -> x = y.
Proof.
  intros (u & <- & U & Eu) (v & <- & V & Ev) Hr. f_equal. apply B2R_inj; [| |congruence].
  - destruct u; try discriminate U; [|reflexivity]. cbn in Eu. congruence.
  - destruct v; try discriminate V; [|reflexivity]. cbn in Ev. congruence.
Qed.
Lemma level_same (v : Z) : (0 <= v <= 255)%Z -> (ofZ (257 * v) / ofZ 65535 : F32)%num = (ofZ v / ofZ 255 : F32)%num.
Proof.
  intros Hv. destruct (Z.eq_dec v 0) as [-> | Hn]; [reflexivity|].
  pose proof (level_represents 65535 (257 * v) ltac:(lia) ltac:(lia)) as R1. pose proof (level_represents 255 v ltac:(lia) Hv) as R2.
  replace (IZR (257 * v) / 65535) with (IZR v / 255) in R1 by (rewrite mult_IZR; field). apply (represents_inj _ _ _ R1 R2).
  pose proof (level_gap 255 0 v ltac:(lia) ltac:(lia) Hv ltac:(lia)) as L. replace (0 / 255) with 0 in L by field. rewrite (rnd_0 24 128) in L. lra.
Qed.
Lemma load_same luma lumaa (b : buffer Z) : (forall x y, (x < b_width b)%nat -> (y < b_height b)%nat -> (0 <= b_at b x y <= 255)%Z) ->
  from_dynamic (F := F32) luma lumaa (Luma16 (mapped (Z.mul 257) b)) = from_dynamic luma lumaa (Luma8 b).
Proof. intros H. cbn [from_dynamic]. f_equal. apply of_fn_ext. intros x y Hx Hy. apply level_same. exact (H x y Hx Hy). Qed.
Lemma extract_same M32 M64 A exp2 fed luma lumaa float_ord sort o (b : buffer Z) : (forall x y, (x < b_width b)%nat -> (y < b_height b)%nat -> (0 <= b_at b x y <= 255)%Z) ->
  extract_image Fwidths M32 M64 A exp2 fed luma lumaa float_ord sort o (Luma16 (mapped (Z.mul 257) b)) = extract_image Fwidths M32 M64 A exp2 fed luma lumaa float_ord sort o (Luma8 b).
Proof. intros H. unfold extract_image. change (single Fwidths) with F32 in *. rewrite (load_same luma lumaa b H). reflexivity. Qed.

(** ** The features of a frame *)
Section features.
Context (P : widths) (M32 : math (single P)) (M64 : math (double P)) (A : angles (single P)) (K : casts (single P)).
Context (exp2 : double P -> double P) (fed : double P -> outcome (list (double P))).
Context (luma : single P * single P * single P -> single P) (lumaa : single P * single P * single P * single P -> single P).
Context (float_ord : single P -> single P -> bool) (sort : forall T : Type, (T -> T -> bool) -> list T -> list T).
Let loaded := extract_image P M32 M64 A exp2 fed luma lumaa float_ord sort.
Lemma color_channels rgb kp c : color_at P K rgb kp = Ok c ->
  interpolate_bicubic K u8_to_float (u8_clamp K) (channel rgb (fun p => fst (fst p))) (kp_x kp) (kp_y kp) 0%Z = Colour (fst (fst c)) /\
  interpolate_bicubic K u8_to_float (u8_clamp K) (channel rgb (fun p => snd (fst p))) (kp_x kp) (kp_y kp) 0%Z = Colour (snd (fst c)) /\
  interpolate_bicubic K u8_to_float (u8_clamp K) (channel rgb snd) (kp_x kp) (kp_y kp) 0%Z = Colour (snd c).
Proof.
  unfold color_at. do 3 (destruct (interpolate_bicubic K _ _ _ _ _ _) as [?| |]; cbn [sampled bind]; try (intros H; discriminate H)). intros [= <-]. repeat split.
Qed.
Lemma nth_combine {X Y} (l : list X) (m : list Y) i x y : nth_error l i = Some x -> nth_error m i = Some y -> nth_error (combine l m) i = Some (x, y).
Proof. revert m i. induction l as [|a l IH]; intros m i; [destruct i; discriminate|]. destruct m as [|b m]; [destruct i; discriminate|]. destruct i as [|i]; cbn; [intros [= ->] [= ->]; reflexivity|]. apply IH. Qed.
Lemma frame_features maximum threshold k k1 img rgb feats : (forall T, sorts (sort T)) -> (forall a b, float_ord a b = true \/ float_ord b a = true) -> (forall a b c, float_ord a b = true -> float_ord b c = true -> float_ord a c = true) ->
  kps_descriptors P M32 M64 A K exp2 fed luma lumaa float_ord sort maximum threshold k k1 img rgb = Ok feats ->
  exists kps ds unsorted, loaded (akaze_new P maximum threshold) img = Ok (kps, ds) /\ length kps = length ds /\ length unsorted = length kps /\ (length feats <= maximum)%nat /\
    Permutation unsorted feats /\ StronglySorted (fun a b => float_ord (f_response (snd b)) (f_response (snd a)) = true) feats /\
    forall i kp d, nth_error kps i = Some kp -> nth_error ds i = Some d -> exists f, nth_error unsorted i = Some (d, f) /\ seen_as K k k1 rgb kp f.
Proof.
  intros So To Tr H. unfold kps_descriptors in H. fold loaded in H. destruct (loaded (akaze_new P maximum threshold) img) as [[kps ds]| |] eqn:E; cbn [bind] in H; try discriminate H.
  destruct (mapM (color_at P K rgb) kps) as [colors| |] eqn:Ec; cbn [bind] in H; try discriminate H. injection H as <-.
  destruct (mapM_ok _ _ _ Ec) as [Lc Hc].
  assert (length kps = length ds /\ (length kps <= maximum)%nat) as [Ld Lm].
  { unfold loaded, extract_image in E. destruct (from_dynamic luma lumaa img) as [g| |]; cbn [bind] in E; try discriminate E.
    destruct (extract_selects P M32 A (akaze_new P maximum threshold) M64 exp2 fed float_ord (sort _) g kps ds (So _) To Tr E) as (_ & _ & _ & _ & _ & _ & _ & _ & H1 & H2 & _). split; [exact H1|exact H2]. }
  set (unsorted := map (feature_of P k k1) (combine (combine kps ds) colors)).
  assert (length unsorted = length kps) as Lu by (unfold unsorted; rewrite map_length, !combine_length, Lc; lia).
  destruct (So _ (fun a b : list N * feature P => float_ord (f_response (snd b)) (f_response (snd a))) unsorted) as [Pm Ss].
  exists kps, ds, unsorted. split; [reflexivity|]. split; [exact Ld|]. split; [exact Lu|]. split; [rewrite <- (Permutation_length Pm), Lu; exact Lm|]. split; [exact Pm|]. split.
  { apply Ss; [intros a b; apply To|]. intros a b c H1 H2. exact (Tr _ _ _ H2 H1). }
  intros i kp d Hk Hd. destruct (nth_error colors i) as [c|] eqn:Hn; [|apply nth_error_None in Hn; assert (i < length kps)%nat by (apply nth_error_Some; rewrite Hk; discriminate); lia].
  exists (Feature (calibrate_k1 k k1 (V2 (widen P (kp_x kp)) (widen P (kp_y kp)))) (kp_response kp) c). split; [unfold unsorted; rewrite nth_error_map, (nth_combine _ _ i (kp, d) c); [reflexivity|now apply nth_combine|exact Hn]|].
  split; [reflexivity|]. split; [reflexivity|]. apply color_channels. cbn [f_color].
  destruct (Hc i kp) as (c' & Hc' & Ek); [rewrite <- Hk; clear; revert i; induction kps as [|a l IH]; intros [|i]; cbn; auto|].
  assert (c' = c) as ->; [|exact Ek]. enough (nth_error colors i = Some c') by congruence. rewrite <- Hc'. clear. revert i. induction colors as [|a l IH]; intros [|i]; cbn; auto.
Qed.
End features.

(** ** Frames of loadable images are always processed *)
Lemma load_sides {F : Num} luma lumaa (image : grayscale F) w h : sides image = Some (w, h) -> exists g, from_dynamic luma lumaa image = Ok g /\ sized w h g.
Proof. destruct image; cbn [sides]; intros E; try discriminate E; injection E as <- <-; cbn [from_dynamic]; eexists; (split; [reflexivity|apply of_fn_sized]). Qed.
Lemma interpolate_u8 (im : image Z) (x y : R) : u32_image im -> exists c, @interpolate_bicubic RNum Rcasts Z u8_to_float (u8_clamp Rcasts) im x y 0%Z = Colour c /\ u8 c.
Proof.
  intros U. pose proof (floor_Int_part x) as Fx. pose proof (floor_Int_part y) as Fy.
  destruct (window_dec (Int_part x) (i_width im)) as [A|A]; [destruct (window_dec (Int_part y) (i_height im)) as [B|B]|].
  - eexists. split; [eapply interpolate_value; eauto|]. unfold window_value, blend_cubic. apply u8_clamp_value.
  - exists 0%Z. split; [apply (interpolate_default _ _ _ _ _ _ _ _ Fx Fy); tauto|split; discriminate].
  - exists 0%Z. split; [apply (interpolate_default _ _ _ _ _ _ _ _ Fx Fy); tauto|split; discriminate].
Qed.
Lemma color_total (rgb : image (Z * Z * Z)) (kp : keypoint (single Rwidths)) : u32_image rgb -> exists c, color_at Rwidths Rcasts rgb kp = Ok c /\ u8 (fst (fst c)) /\ u8 (snd (fst c)) /\ u8 (snd c).
Proof.
  intros U. destruct (interpolate_u8 (channel rgb (fun p => fst (fst p))) (kp_x kp) (kp_y kp) U) as (r & Er & Ur).
  destruct (interpolate_u8 (channel rgb (fun p => snd (fst p))) (kp_x kp) (kp_y kp) U) as (g & Eg & Ug). destruct (interpolate_u8 (channel rgb snd) (kp_x kp) (kp_y kp) U) as (b & Eb & Ub).
  exists (r, g, b). split; [|cbn [fst snd]; auto]. unfold color_at. change (single Rwidths) with RNum in *. rewrite Er, Eg, Eb. reflexivity.
Qed.
Lemma new_usable m (t : R) : usable (akaze_new Rwidths m t).
Proof. unfold usable, akaze_new, lit. cbn [num_sublevels max_octave_evolution base_scale_offset contrast_percentile contrast_factor_num_bins derivative_factor descriptor_channels descriptor_pattern_size]. change (double Rwidths) with RNum. rnum. repeat split; try lia; lra. Qed.
Lemma new_total checks m (t : R) w h : exists fuel0, forall fuel, (fuel0 <= fuel)%nat -> exists l, rallocate (fed_quarter checks fuel) (akaze_new Rwidths m t) w h = Ok l.
Proof. apply allocate_total; [cbn; lia|apply new_usable|exact (default_gap m)]. Qed.
Lemma frame_returns checks maximum (threshold : R) k (k1 : R) luma lumaa (A : angles RNum) float_ord (sort : forall T : Type, (T -> T -> bool) -> list T -> list T) img rgb w h :
  sides img = Some (w, h) -> (40 <= w)%nat -> (40 <= h)%nat -> u32_image rgb -> (forall T, sorts (sort T)) ->
  exists fuel0, forall fuel, (fuel0 <= fuel)%nat -> exists feats,
    kps_descriptors Rwidths Rmath Rmath A Rcasts Rexp2 (fed_quarter checks fuel) luma lumaa float_ord sort maximum threshold k k1 img rgb = Ok feats /\
    forall d f, In (d, f) feats -> unit_vec (f_bearing f) /\ 0 < vz (f_bearing f) /\ u8 (fst (fst (f_color f))) /\ u8 (snd (fst (f_color f))) /\ u8 (snd (f_color f)).
Proof.
  intros S Hw Hh U So. destruct (load_sides luma lumaa img w h S) as (g & Eg & Sg). destruct (new_total checks maximum threshold w h) as (f0 & T). exists f0. intros fuel Hf. destruct (T fuel Hf) as (l & El).
  destruct (extract_total (akaze_new Rwidths maximum threshold) A w h g (fed_quarter checks fuel) l float_ord (sort _) (new_usable _ _) Hw Hh Sg El (So _)) as ((kps & ds) & Ex).
  unfold kps_descriptors, extract_image. rewrite Eg. cbn [bind]. rewrite Ex. cbn [bind].
  assert (exists colors, mapM (color_at Rwidths Rcasts rgb) kps = Ok colors /\ Forall (fun c => u8 (fst (fst c)) /\ u8 (snd (fst c)) /\ u8 (snd c)) colors) as (colors & Ec & Fc).
  { clear - U. induction kps as [|kp kps (cs & E & Fs)]; [exists []; split; [reflexivity|constructor]|]. destruct (color_total rgb kp U) as (c & E1 & Uc). exists (c :: cs). cbn [mapM]. rewrite E1. cbn [bind]. rewrite E. split; [reflexivity|constructor; assumption]. }
  rewrite Ec. cbn [bind]. eexists. split; [reflexivity|]. intros d f Hi.
  apply (Permutation_in _ (Permutation_sym (proj1 (So _ _ _)))) in Hi. apply in_map_iff in Hi. destruct Hi as ([[kp d'] c] & E & Hc). injection E as _ <-. cbn [f_bearing f_color].
  apply in_combine_r in Hc. pose proof (proj1 (Forall_forall _ _) Fc c Hc) as Uc. destruct (calibrate_k1_front k k1 (V2 (widen Rwidths (kp_x kp)) (widen Rwidths (kp_y kp)))) as [H1 H2]. split; [exact H1|]. split; [exact H2|exact Uc].
Qed.
Lemma frame_panics maximum (threshold : R) k (k1 : R) luma lumaa (A : angles RNum) (fed : R -> outcome (list R)) float_ord (sort : forall T : Type, (T -> T -> bool) -> list T -> list T) img rgb :
  (sides img = None \/ exists w h, sides img = Some (w, h) /\ ((w < 40)%nat \/ (h < 40)%nat)) ->
  kps_descriptors Rwidths Rmath Rmath A Rcasts Rexp2 fed luma lumaa float_ord sort maximum threshold k k1 img rgb = Panic.
Proof.
  intros [N|(w & h & S & Hs)]; unfold kps_descriptors, extract_image.
  - destruct img; cbn [sides] in N; try discriminate N. reflexivity.
  - destruct (load_sides luma lumaa img w h S) as (g & Eg & Sg). rewrite Eg. cbn [bind]. rewrite (extract_small_real (akaze_new Rwidths maximum threshold) A w h g fed float_ord (sort _)); [reflexivity|cbn; lia|exact Sg|exact Hs].
Qed.
