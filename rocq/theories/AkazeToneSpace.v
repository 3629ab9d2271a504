(** Changes of brightness and contrast: proofs for the scale space, detection and refinement. *)
From Coq Require Import List Arith Lia Bool ZArith NArith Reals Lra Psatz.
From Verif Require Import Num LinSpec LinFacts Outcome OutcomeFacts Gray GraySpec GrayFacts GrayReal GrayProps Diffuse DiffuseSpec DiffuseFacts DiffuseProps Akaze AkazeSpec AkazeToneSpec AkazeTone.
Import ListNotations.
Open Scope R_scope.

Section space.
Variables (a c : R) (o : rsettings).
Hypothesis (Ha : 0 < a).
(** ** The scale space *)
Definition lv1 (e e' : rlevel) : Prop := same_place e e' /\ exists w h, (0 < w)%nat /\ (0 < h)%nat /\ im a c w h (Lt e) (Lt e') /\ im a c w h (Lsmooth e) (Lsmooth e').
Lemma tone_next (k k' : R) p p' e : k' = a * k -> lv1 p p' -> orel (fun r r' => lv1 (fst r) (fst r') /\ snd r' = a * snd r) (next_level Rwidths Rmath k p e) (next_level Rwidths Rmath k' p' e).
Proof.
  intros EK ((_ & _ & EO & _) & w & h & Hw & Hh & IT & _). unfold next_level. cbn [single double Rwidths] in *. rewrite EO.
  apply (orel_bind (fun r r' : gray RNum * R => (exists w h, (0 < w)%nat /\ (0 < h)%nat /\ im a c w h (fst r) (fst r')) /\ snd r' = a * snd r)).
  - destruct (octave p <? octave e)%nat.
    + apply (orel_bind (fun o o' => (2 <= w)%nat /\ (2 <= h)%nat /\ im a c (w / 2) (h / 2) o o')); [now apply (im_half w h Hw Hh)|]. intros x x' _ _ (L1 & L2 & I). cbn [orel fst snd].
      split; [exists (w / 2)%nat, (h / 2)%nat; split; [apply Nat.div_str_pos; lia|]; split; [apply Nat.div_str_pos; lia|exact I]|]. rewrite EK. rring.
    + cbn [orel fst snd]. split; [exists w, h; auto|exact EK].
  - clear w h Hw Hh IT. intros (lt, q) (lt', q') _ _ ((w & h & Hw & Hh & IT) & EQ). cbn [fst snd] in *.
    apply (orel_bind (im a c w h)); [now apply im_blur|]. intros sm sm' _ _ IS.
    apply (orel_bind (im a 0 w h)); [exact (proj1 (im_scharr w h Hw Hh a c sm sm' 1 IS))|]. intros lx lx' _ _ IX.
    apply (orel_bind (im a 0 w h)); [exact (proj2 (im_scharr w h Hw Hh a c sm sm' 1 IS))|]. intros ly ly' _ _ IY.
    apply (orel_bind (im 1 0 w h)); [rewrite EQ; now apply im_flow|]. intros fl fl' _ _ IF.
    apply (orel_bind (im a c w h)).
    + apply (orel_foldM _ eq); [apply forall2_refl| |exact IT]. intros s s' x x' _ IS' <-. now apply im_step.
    + intros lt1 lt1' _ _ IT1. cbn [orel fst snd]. split; [|exact EQ]. split; [repeat split|]. exists w, h. cbn [Lt Lsmooth]. auto. Qed.
Lemma tone_levels rest : forall (k k' : R) p p', k' = a * k -> lv1 p p' -> orel (Forall2 lv1) (next_levels Rwidths Rmath k p rest) (next_levels Rwidths Rmath k' p' rest).
Proof.
  induction rest as [|e rest IH]; intros k k' p p' EK L; cbn [next_levels]; [constructor|].
  apply (orel_bind (fun r r' : rlevel * R => lv1 (fst r) (fst r') /\ snd r' = a * snd r)); [now apply tone_next|]. intros (e1, q) (e1', q') _ _ (L1 & EQ). cbn [fst snd] in *.
  apply (orel_bind (Forall2 lv1)); [now apply IH|]. intros. cbn. now constructor. Qed.
Lemma tone_space l w h g g' : im a c w h g g' -> (3 <= w)%nat -> (3 <= h)%nat -> (0 < contrast_factor_num_bins o)%nat -> 0 <= contrast_percentile o <= 1 ->
  orel (Forall2 lv1) (rspace o l g) (rspace o l g').
Proof.
  intros I Hw Hh Hb Hp. unfold rspace, create_scale_space. destruct l as [|e rest]; [exact Logic.I|].
  apply (orel_bind (im a c w h)); [apply im_blur; [lia|lia|exact I]|]. intros lt lt' _ _ IT.
  apply (orel_bind (fun k k' : R => k' = a * k)); [apply (im_contrast w h ltac:(lia) ltac:(lia) a c); assumption|]. intros k k' _ _ EK.
  assert (LF : forall x, lv1 (Level (P := Rwidths) (etime e) (esigma e) (octave e) (sublevel e) (tau_steps e) lt lt (Lx e) (Ly e) (Lxx e) (Lyy e) (Lxy e) (Lflow e) x) (Level (P := Rwidths) (etime e) (esigma e) (octave e) (sublevel e) (tau_steps e) lt' lt' (Lx e) (Ly e) (Lxx e) (Lyy e) (Lxy e) (Lflow e) x)).
  { intros x. split; [repeat split|]. exists w, h. cbn [Lt Lsmooth]. repeat split; try lia; try apply IT. }
  apply (orel_bind (Forall2 lv1)); [apply tone_levels; [exact EK|apply LF]|]. intros r r' _ _ F. cbn. constructor; [apply LF|exact F]. Qed.
(** ** The response *)
Definition lv2 (e e' : rlevel) : Prop := same_place e e' /\ exists w h, (0 < w)%nat /\ (0 < h)%nat /\ im a c w h (Lt e) (Lt e') /\
  im a 0 w h (Lx e) (Lx e') /\ im a 0 w h (Ly e) (Ly e') /\ im (a * a) 0 w h (Ldet e) (Ldet e').
Lemma tone_response_level e e' t : lv1 e e' -> orel lv2 (level_response Rwidths Rmath o e) (level_response Rwidths Rmath (with_threshold t o) e').
Proof.
  intros ((E1 & E2 & E3 & E4 & E5) & w & h & Hw & Hh & IT & IS). unfold level_response.
  assert (ED : derivative_sigma Rwidths Rmath (with_threshold t o) e' = derivative_sigma Rwidths Rmath o e) by (unfold derivative_sigma; rewrite E2, E3; reflexivity).
  rewrite ED. set (s := to_usize Rmath (derivative_sigma Rwidths Rmath o e)). cbn [single double Rwidths] in *.
  apply (orel_bind (im a 0 w h)); [exact (proj1 (im_scharr w h Hw Hh a c _ _ s IS))|]. intros lx lx' _ _ IX.
  apply (orel_bind (im a 0 w h)); [exact (proj2 (im_scharr w h Hw Hh a c _ _ s IS))|]. intros ly ly' _ _ IY.
  apply (orel_bind (im a 0 w h)); [exact (proj1 (im_scharr w h Hw Hh a 0 _ _ s IX))|]. intros lxx lxx' _ _ IXX.
  apply (orel_bind (im a 0 w h)); [exact (proj2 (im_scharr w h Hw Hh a 0 _ _ s IY))|]. intros lyy lyy' _ _ IYY.
  apply (orel_bind (im a 0 w h)); [exact (proj2 (im_scharr w h Hw Hh a 0 _ _ s IX))|]. intros lxy lxy' _ _ IXY.
  destruct IXX as [(A1 & A2 & _) ((A1' & A2' & _) & PXX)]. destruct IYY as [(B1 & B2 & _) ((B1' & B2' & _) & PYY)]. destruct IXY as [(C1 & C2 & _) ((C1' & C2' & _) & PXY)].
  rewrite A1, A2, A1', A2', B1, B2, B1', B2', C1, C2, C1', C2', !Nat.eqb_refl. cbn [andb assert_ orel].
  split; [repeat split; assumption|]. exists w, h. cbn [Lt Lx Ly Ldet]. split; [exact Hw|]. split; [exact Hh|]. split; [exact IT|]. split; [exact IX|]. split; [exact IY|].
  split; [apply of_fn_sized|]. split; [apply of_fn_sized|]. intros x y Hx Hy. rewrite !pixel_of_fn by assumption. rewrite (PXX x y Hx Hy), (PYY x y Hx Hy), (PXY x y Hx Hy). rring. Qed.
Lemma tone_response l l' t : Forall2 lv1 l l' -> orel (Forall2 lv2) (rresponse o l) (rresponse (with_threshold t o) l').
Proof. intros F. apply (orel_mapM lv1); [exact F|]. intros. now apply tone_response_level. Qed.
End space.

(** ** Detection *)
Section detect.
Variables (a c : R) (o : rsettings).
Hypothesis (Ha : 0 < a).
Notation s := (a * a).
Lemma tone_data t w h g g' : im t 0 w h g g' -> g_width g' = g_width g /\ g_height g' = g_height g /\ g_data g' = map (Rmult t) (g_data g).
Proof.
  intros [(W & H & D) ((W' & H' & D') & P)]. split; [now rewrite W, W'|]. split; [now rewrite H, H'|]. apply (nth_ext _ _ 0 (t * 0)); [etransitivity; [exact D'|]; symmetry; rewrite map_length; exact D|].
  intros i Hi. rewrite map_nth. change (carrier RNum) with R in *. rewrite D' in Hi. assert (0 < w)%nat by (destruct w; lia).
  specialize (P (i mod w)%nat (i / w)%nat (Nat.mod_upper_bound i w ltac:(lia)) (Nat.div_lt_upper_bound i w h ltac:(lia) Hi)). unfold pixel in P. rewrite W, W' in P. replace (i / w * w + i mod w)%nat with i in P by (rewrite (Nat.div_mod i w) at 1; lia).
  change (@zero RNum) with 0 in P. etransitivity; [exact P|]. rring. Qed.
Lemma tone_pixel t w h g g' x y : im t 0 w h g g' -> pixel g' x y = t * pixel g x y :> R.
Proof. intros I. destruct (tone_data t w h g g' I) as (W & _ & D). unfold pixel. rewrite W, D. change (@zero RNum) with 0. replace 0 with (t * 0) at 1 by ring. exact (map_nth (Rmult t) (g_data g) 0 _). Qed.
Lemma tone_read {X} (f : X -> X) l i : orel (fun v v' => v' = f v) (read l i) (read (map f l) i).
Proof. unfold read. rewrite nth_error_map. destruct (nth_error l i); cbn; auto. Qed.
Lemma tone_get t w h g g' x y : im t 0 w h g g' -> orel (fun v v' : R => v' = t * v) (@get RNum g x y) (@get RNum g' x y).
Proof. intros I. destruct (tone_data t w h g g' I) as (W & H & D). unfold get. rewrite W, H, D. destruct (_ && _); [apply tone_read|exact Logic.I]. Qed.
Lemma tone_write {X} (f : X -> X) l i v : orel (fun l l' => l' = map f l) (write l i v) (write (map f l) i (f v)).
Proof. unfold write. rewrite map_length. destruct (i <? length l)%nat; [|exact Logic.I]. cbn. now rewrite map_app, firstn_map, map_cons, skipn_map. Qed.
Lemma tone_ltb t x y : 0 < t -> @ltb RNum (t * x) (t * y) = @ltb RNum x y.
Proof. intros Ht. cbn [ltb RNum]. unfold Rltb. destruct (Rlt_dec (t * x) (t * y)), (Rlt_dec x y); try reflexivity; exfalso; nra. Qed.
Lemma tone_leb t x y : 0 < t -> @leb RNum (t * x) (t * y) = @leb RNum x y.
Proof. intros Ht. cbn [leb RNum]. unfold Rleb. destruct (Rle_dec (t * x) (t * y)), (Rle_dec x y); try reflexivity; exfalso; nra. Qed.
Lemma s_pos : 0 < s.
Proof. nra. Qed.
Lemma tone_maximum w h g g' i : im s 0 w h g g' -> orel eq (is_maximum Rwidths o g i) (is_maximum Rwidths (with_threshold s o) g' i).
Proof.
  intros I. destruct (tone_data s w h g g' I) as (W & H & D). unfold is_maximum. cbn [single double Rwidths narrow] in *. rewrite W, D. pose proof s_pos as SP.
  do 9 (apply (orel_bind (fun v v' : R => v' = s * v)); [apply tone_read|intros ? ? _ _ ->]).
  cbn [orel]. change (@detector_threshold RNum (with_threshold s o)) with (s * detector_threshold o). change (carrier RNum) with R in *. rewrite !(tone_ltb s _ _ SP). reflexivity. Qed.
Notation wr := (with_response s).
Lemma tone_near ratio kp cache : forall k, first_near Rwidths ratio (wr kp) k (map wr cache) = option_map (fun '(i, p) => (i, wr p)) (first_near Rwidths ratio kp k cache).
Proof.
  induction cache as [|p cache IH]; intros k; cbn [map first_near option_map]; [reflexivity|]. change (near_cached Rwidths ratio (wr kp) (wr p)) with (near_cached Rwidths ratio kp p).
  destruct (near_cached Rwidths ratio kp p); [reflexivity|apply IH]. Qed.
Lemma tone_sizes e e' : lv2 a c e e' -> octave e' = octave e /\ esigma e' = esigma e /\ g_width (Ldet e') = g_width (Ldet e) /\ g_height (Ldet e') = g_height (Ldet e) /\ length (g_data (Ldet e')) = length (g_data (Ldet e)).
Proof.
  intros ((_ & E2 & E3 & _) & w & h & _ & _ & _ & _ & _ & I). destruct (tone_data _ w h _ _ I) as (W & H & D). split; [exact E3|]. split; [exact E2|]. split; [exact W|]. split; [exact H|]. cbn [single Rwidths] in *. rewrite D. apply map_length. Qed.
Lemma tone_consider e e' cache kp t : lv2 a c e e' -> orel (fun l l' => l' = map wr l) (consider Rwidths Rmath o e cache kp) (consider Rwidths Rmath (with_threshold t o) e' (map wr cache) (wr kp)).
Proof.
  intros L. destruct (tone_sizes e e' L) as (E1 & E2 & E3 & E4 & _). unfold consider. rewrite E1.
  assert (EO : is_out Rwidths Rmath (with_threshold t o) e' (wr kp) = is_out Rwidths Rmath o e kp) by (unfold is_out, level_sigma, level_size; rewrite E1, E2, E3, E4; reflexivity). rewrite EO.
  pose proof (tone_near (ratio_of (octave e)) kp cache 0) as TN.
  match type of TN with _ = ?r => match goal with |- context [match ?x with Some _ => _ | None => Ok (if _ then map wr cache else _) end] => replace x with r by (symmetry; exact TN) end end.
  clear TN. match goal with |- context [match ?x with Some _ => _ | None => Ok (if _ then cache else _) end] => change x with (first_near Rwidths (ratio_of (octave e)) kp 0 cache) end.
  destruct (first_near Rwidths (ratio_of (octave e)) kp 0 cache) as [(k, p)|]; cbn [option_map].
  - match goal with |- orel _ (if ?b then _ else _) (if ?b' then _ else _) => assert (EB : b' = b) by exact (tone_ltb s (kp_response p) (kp_response kp) s_pos); rewrite EB end.
    match goal with |- context [if ?b then _ else _] => destruct b end; [|reflexivity]. destruct (is_out Rwidths Rmath o e kp); [reflexivity|]. match goal with |- orel _ (write _ _ ?v) _ => exact (tone_write wr cache k v) end.
  - destruct (is_out Rwidths Rmath o e kp); [reflexivity|]. cbn [orel]. rewrite map_app. reflexivity. Qed.
Lemma tone_candidate class e e' x y t : lv2 a c e e' -> candidate Rwidths (with_threshold t o) class e' x y = wr (candidate Rwidths o class e x y).
Proof.
  intros L. destruct (tone_sizes e e' L) as (E1 & E2 & _). destruct L as (_ & w & h & _ & _ & _ & _ & _ & I). unfold candidate, level_size, with_response. cbn [kp_x kp_y kp_response kp_size kp_octave kp_class kp_angle single double Rwidths] in *. rewrite E1, E2.
  rewrite (tone_pixel s w h _ _ x y I). f_equal. cbn [abs_ RNum]. rewrite Rabs_mult, (Rabs_right s) by (pose proof s_pos; lra). reflexivity. Qed.
Lemma tone_scan_level cache class e e' : lv2 a c e e' -> orel (fun l l' => l' = map wr l) (scan_level Rwidths Rmath o cache (class, e)) (scan_level Rwidths Rmath (with_threshold s o) (map wr cache) (class, e')).
Proof.
  intros L. destruct (tone_sizes e e' L) as (E1 & E2 & E3 & E4 & E5). unfold scan_level. rewrite E3, E5. destruct (_ <? _)%nat; [exact Logic.I|].
  apply (orel_foldM (fun l l' => l' = map wr l) eq); [apply forall2_refl| |reflexivity]. intros k k' i i' _ -> <-. unfold scan_pixel. rewrite E3.
  apply (orel_bind eq).
  - destruct L as (_ & w & h & _ & _ & _ & _ & _ & I). exact (tone_maximum w h _ _ i I).
  - intros b b' _ _ <-. destruct b; [|reflexivity]. rewrite (tone_candidate class e e' _ _ s L). now apply tone_consider. Qed.
Lemma tone_filter l : filter_upper Rwidths (map wr l) = map wr (filter_upper Rwidths l).
Proof.
  induction l as [|kp l IH]; cbn [map filter_upper]; [reflexivity|].
  assert (E : existsb (suppressed Rwidths (wr kp)) (map wr l) = existsb (suppressed Rwidths kp) l).
  { clear IH. induction l as [|p l IH]; cbn [map existsb]; [reflexivity|]. rewrite IH. f_equal. unfold suppressed. cbv zeta. f_equal. f_equal. exact (tone_leb s (kp_response kp) (kp_response p) s_pos). }
  cbn [single double Rwidths] in *. rewrite E, IH. destruct (existsb _ l); reflexivity. Qed.
Lemma forall2_combine {X Y} (R : X -> Y -> Prop) l l' : Forall2 R l l' -> forall n, Forall2 (fun p p' => fst p' = fst p /\ R (snd p) (snd p')) (combine (seq n (length l)) l) (combine (seq n (length l')) l').
Proof. induction 1 as [|x y l l' H F IH]; intros n; cbn; constructor; auto. Qed.
Lemma tone_extrema l l' : Forall2 (lv2 a c) l l' -> orel (fun k k' => k' = map wr k) (rextrema o l) (rextrema (with_threshold s o) l').
Proof.
  intros F. unfold rextrema, find_extrema. apply (orel_bind (fun k k' => k' = map wr k)).
  - apply (orel_foldM (fun k k' => k' = map wr k) (fun p p' => fst p' = fst p /\ lv2 a c (snd p) (snd p'))); [now apply forall2_combine| |reflexivity].
    intros k k' (i, e) (i', e') _ -> (E & L). cbn [fst snd] in *. subst i'. now apply tone_scan_level.
  - intros k k' _ _ ->. cbn. apply tone_filter. Qed.
End detect.

(** ** Refinement *)
Section refine.
Variables (a c : R) (o : rsettings) (A : angles RNum).
Hypotheses (Ha : 0 < a) (HA : forall x y, a_atan2 A (a * y) (a * x) = a_atan2 A y x).
Notation s := (a * a).
Notation wr := (with_response s).
Definition scaled_sample (p : R * R * R) : R * R * R := let '(x, y, ang) := p in (a * x, a * y, ang).
Lemma tone_atan x y : fast_atan2 Rwidths Rmath A (a * y) (a * x) = fast_atan2 Rwidths Rmath A y x.
Proof. unfold fast_atan2. cbn [single Rwidths] in *. now rewrite HA. Qed.
Lemma tone_sample e e' xf yf z ij : lv2 a c e e' -> orel (fun p p' => p' = scaled_sample p) (sample_gradient Rwidths Rmath A e xf yf z ij) (sample_gradient Rwidths Rmath A e' xf yf z ij).
Proof.
  intros (_ & w & h & _ & _ & _ & IX & IY & _). destruct ij as [i j]. unfold sample_gradient.
  apply (orel_bind (fun v v' : R => v' = a * v)); [exact (tone_get a w h _ _ _ _ IX)|]. intros x x' _ _ ->.
  apply (orel_bind (fun v v' : R => v' = a * v)); [exact (tone_get a w h _ _ _ _ IY)|]. intros y y' _ _ ->.
  cbn [orel scaled_sample]. set (g := gauss_weight Rwidths i j). cbn [single Rwidths] in *. cbn [mul RNum]. replace (g * (a * x)) with (a * (g * x)) by rring. replace (g * (a * y)) with (a * (g * y)) by rring. now rewrite tone_atan. Qed.
Lemma tone_window samples ang : window_sum Rwidths Rmath (map scaled_sample samples) ang = let '(x, y) := window_sum Rwidths Rmath samples ang in (a * x, a * y).
Proof.
  unfold window_sum. cbn [single Rwidths] in *. assert (G : forall l x y, fold_left (fun '(sx, sy) '(rx, ry, ang0) => if in_window Rwidths Rmath ang (window_end Rwidths Rmath ang) ang0 then (@add RNum sx rx, @add RNum sy ry) else (sx, sy)) (map scaled_sample l) (a * x, a * y)
    = let '(x, y) := fold_left (fun '(sx, sy) '(rx, ry, ang0) => if in_window Rwidths Rmath ang (window_end Rwidths Rmath ang) ang0 then (@add RNum sx rx, @add RNum sy ry) else (sx, sy)) l (x, y) in (a * x, a * y)).
  { induction l as [|((rx, ry), g) l IH]; intros x y; [reflexivity|]. cbn [map fold_left scaled_sample]. match goal with |- context [in_window ?u ?v ?b ?d g] => destruct (in_window u v b d g) end; [|apply IH]. rewrite <- IH. cbn [add RNum]. f_equal. f_equal; ring. }
  rewrite <- G. change (@zero RNum) with 0. f_equal. f_equal; ring. Qed.
Lemma tone_slide samples fuel : forall ang best angle, slide Rwidths Rmath A fuel (map scaled_sample samples) ang (s * best) angle = slide Rwidths Rmath A fuel samples ang best angle.
Proof.
  induction fuel as [|fuel IH]; intros ang best angle; [reflexivity|]. cbn [slide]. match goal with |- (if ?b then _ else _) = _ => destruct b end; [|reflexivity]. cbn [single Rwidths] in *.
  rewrite tone_window. destruct (window_sum Rwidths Rmath samples ang) as [x y]. cbn [mul add RNum].
  replace (a * x * (a * x) + a * y * (a * y)) with (s * (x * x + y * y)) by ring. rewrite (tone_ltb s _ _ (s_pos a Ha)). rewrite tone_atan, !IH. reflexivity. Qed.
Lemma orel_map {X Y} (f : X -> Y) m m' : orel (Forall2 (fun p p' => p' = f p)) m m' -> orel (fun l l' => l' = map f l) m m'.
Proof. destruct m, m'; cbn; auto. induction 1 as [|p p' l l' H F IH]; [reflexivity|]. cbn [map]. now rewrite H, IH. Qed.
Lemma tone_orientation e e' kp : lv2 a c e e' -> orel eq (main_orientation Rwidths Rmath A e kp) (main_orientation Rwidths Rmath A e' (wr kp)).
Proof.
  intros L. destruct (tone_sizes a c e e' L) as (E1 & _). unfold main_orientation. rewrite E1. apply (orel_bind (fun l l' => l' = map scaled_sample l)).
  - apply orel_map, (orel_mapM eq); [apply forall2_refl|]. intros p p' _ <-. exact (tone_sample e e' _ _ _ p L).
  - intros l l' _ _ ->. pose proof (tone_slide l slide_fuel 0 0 (kp_angle kp)) as E. rewrite Rmult_0_r in E.
    match goal with |- orel eq ?m ?m' => assert (EM : m' = m) by exact E; rewrite EM; destruct m; cbn; auto end. Qed.
End refine.
