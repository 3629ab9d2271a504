(** The tutorial's programs with the features they extract. *)
From stdpp Require Import list.
From Coq Require Import ZArith Reals Lra Lia.
From Verif Require Import Num Outcome OutcomeFacts Lin LinSpec LinFacts Diffuse Gray GraySpec Pinhole Akaze AkazeSpec AkazeWhole AkazeInside Frame FrameSpec FrameFacts MatchingSpec Tutorial TutorialSpec TutorialFacts.
Local Open Scope R_scope.

Section whole.
Variables (A : angles RNum) (fed : R -> outcome (list R)) (luma : R * R * R -> R) (lumaa : R * R * R * R -> R) (float_ord : R -> R -> bool)
  (sort : forall T : Type, (T -> T -> bool) -> list T -> list T) (maximum : nat) (threshold : R).
Hypothesis Hsort : forall T, sorts (sort T).
Notation features_of g := (extract_image Rwidths Rmath Rmath A Rexp2 fed luma lumaa float_ord sort (akaze_new Rwidths maximum threshold) g).
Lemma extracted_within (g : grayscale RNum) (w h : nat) kps ds : sides g = Some (w, h) -> features_of g = Ok (kps, ds) ->
  length kps = length ds /\ forall kp, kp ∈ kps -> 13 <= kp_x kp <= INR w - 14 /\ 13 <= kp_y kp <= INR h - 14.
Proof.
  intros S E. destruct (load_sides luma lumaa g w h S) as (i & Ei & Si). 
  assert (extract Rwidths Rmath Rmath A Rexp2 fed (akaze_new Rwidths maximum threshold) float_ord (sort (keypoint RNum)) i = Ok (kps, ds)) as E'.
  { unfold extract_image in E. etransitivity; [|exact E]. symmetry. refine (f_equal (fun o => bind o _) Ei). }
  clear E. rename E' into E.
  destruct (decide (w < 40 \/ h < 40)%nat) as [Hs|Hb].
  { pose proof (extract_small_real (akaze_new Rwidths maximum threshold) A w h i fed float_ord (sort _) ltac:(cbn; lia) Si Hs) as E'. pose proof (eq_trans (eq_sym E') E) as E0. discriminate E0. }
  split.
  - unfold extract in E. destruct (allocate_evolutions _ _ _ _ _ _ _); try discriminate E. cbn [bind] in E. destruct (create_scale_space _ _ _ _ _ _); try discriminate E. cbn [bind] in E.
    destruct (detector_response _ _ _ _); try discriminate E. cbn [bind] in E. destruct (detect_keypoints _ _ _ _ _); try discriminate E. cbn [bind] in E.
    apply descriptors_kept in E. apply (kept_lengths _ _ _ _ E).
  - intros kp Hkp. apply elem_of_list_In in Hkp. exact (extract_inside _ A w h i fed float_ord (sort _) kps ds (new_usable _ _) ltac:(lia) ltac:(lia) Si (Hsort _) E kp Hkp).
Qed.
Lemma extracted_in_picture (p : picture) (g : grayscale RNum) kps ds : sides g = Some (b_width p, b_height p) -> features_of g = Ok (kps, ds) ->
  length kps = length ds /\ forall kp, kp ∈ kps -> within p kp.
Proof. intros S E. destruct (extracted_within g _ _ kps ds S E) as [L H]. split; [exact L|]. intros kp Hkp. destruct (H kp Hkp) as [Hx Hy]. unfold within. cbn [single Rwidths] in *. lra. Qed.
Lemma crosses_on_keypoints (p : picture) (g : grayscale RNum) kps ds : sides g = Some (b_width p, b_height p) -> (Z.of_nat (b_width p) <= 2147483648)%Z -> (Z.of_nat (b_height p) <= 2147483648)%Z ->
  features_of g = Ok (kps, ds) -> Forall2 (fun kp c => in_pixel (kp_x kp) (kp_y kp) c /\ (0 <= c.1 < Z.of_nat (b_width p))%Z /\ (0 <= c.2 < Z.of_nat (b_height p))%Z) kps (crosses Rwidths Rtrunc kps).
Proof.
  intros S Hw Hh E. destruct (extracted_in_picture p g kps ds S E) as [_ H]. clear E. unfold crosses. induction kps as [|kp kps IH]; [constructor|]. cbn [map]. constructor; [|apply IH; intros q Hq; apply H; right; exact Hq].
  destruct (H kp ltac:(left)) as [Hx Hy]. pose proof (trunc_range _ _ Hx) as Tx. pose proof (trunc_range _ _ Hy) as Ty. pose proof (trunc_pixel _ (proj1 Hx)) as Px. pose proof (trunc_pixel _ (proj1 Hy)) as Py.
  unfold as_i32, in_pixel. cbn [fst snd single Rwidths] in *. rewrite !Z.max_r, !Z.min_r by lia. split; [split; lra|]. split; lia.
Qed.
End whole.

Section two.
Context {D : Type}.
Variables (image_a image_b : picture) (kps_a kps_b : list rkeypoint) (ds_a ds_b : list D).
Variables (hue : R -> R * R * R) (knn : list D -> D -> nat -> list (nat * nat)) (dist : D -> D -> nat).
Hypothesis Hhue : wheel hue.
Hypothesis Hknn : linear_search knn dist.
Hypothesis La : length kps_a = length ds_a.
Hypothesis Lb : length kps_b = length ds_b.
Hypothesis Wa : forall kp, kp ∈ kps_a -> within image_a kp.
Hypothesis Wb : forall kp, kp ∈ kps_b -> within image_b kp.
Hypothesis Hwidth : (Z.of_nat (b_width image_a + b_width image_b) <= 2147483648)%Z.
Hypothesis Hheight_a : (Z.of_nat (b_height image_a) <= 2147483648)%Z.
Hypothesis Hheight_b : (Z.of_nat (b_height image_b) <= 2147483648)%Z.
Hypothesis Hfit_a : (b_width image_a <= 2000)%nat /\ (b_height image_a <= 1000)%nat.
Hypothesis Hfit_b : (b_width image_b <= 2000)%nat /\ (b_height image_b <= 1000)%nat.
Hypothesis Hoff : forall kp, kp ∈ kps_a ++ kps_b -> ~ (kp_x kp = 690 /\ kp_y kp = 2331966 / 10000).
Variable consensus : list (rvec3 * rvec3) -> option (riso * list nat).
Hypothesis Hcons : forall l pose inliers, consensus l = Some (pose, inliers) -> forall i, i ∈ inliers -> (i < length l)%nat.
Lemma chapter5_whole : ds_a = [] \/ (2 <= length ds_b)%nat -> ds_b = [] \/ (2 <= length ds_a)%nat ->
  exists ms bearings, all_matches dist ds_a ds_b ms /\
    Forall2 (fun m b => exists ka kb, kps_a !! m.1 = Some ka /\ kps_b !! m.2 = Some kb /\ b = (calibrate_k1 (kitti_intrinsics Rwidths) (kitti_k1 Rwidths) (image_point Rwidths ka), calibrate_k1 (kitti_intrinsics Rwidths) (kitti_k1 Rwidths) (image_point Rwidths kb))) ms bearings /\
    match consensus bearings with
    | None => chapter5 Rwidths Rtrunc hue consensus knn image_a image_b (kps_a, ds_a) (kps_b, ds_b) = Panic
    | Some (pose, inliers) => exists forward right down c l kept,
        chapter5 Rwidths Rtrunc hue consensus knn image_a image_b (kps_a, ds_a) (kps_b, ds_b) = Ok ((forward, right, down), c, l) /\
        (forall centre : rvec3, iso_point pose centre = vzero -> V3 right down forward = mvec (rot pose) centre) /\
        shows_both image_a image_b c /\ Forall2 (fun i m => ms !! i = Some m) inliers kept /\ lines_of hue (b_width image_a) kps_a kps_b kept l
    end.
Proof.
  intros Ha Hb.
  destruct (tutorial_matches knn dist Hknn ds_a ds_b Ha Hb) as (ms & Em & Hms). exists ms.
  assert (exists bearings, mapM (feature_match Rwidths kps_a kps_b) ms = Ok bearings /\ Forall2 (fun m b => exists ka kb, kps_a !! m.1 = Some ka /\ kps_b !! m.2 = Some kb /\ b = (calibrate_k1 (kitti_intrinsics Rwidths) (kitti_k1 Rwidths) (image_point Rwidths ka), calibrate_k1 (kitti_intrinsics Rwidths) (kitti_k1 Rwidths) (image_point Rwidths kb))) ms bearings) as (bearings & Ebs & Hbs).
  { assert (forall m, m ∈ ms -> symmetric_match dist ds_a ds_b m) as Hall by (intros m Hm; apply (proj1 Hms), Hm). clear Hms Em. induction ms as [|m ms IH]; [exists []; split; [reflexivity | constructor]|].
    destruct IH as (bs & E & F); [intros q Hq; apply Hall; right; exact Hq|]. destruct (match_features kps_a kps_b dist ds_a ds_b La Lb m (Hall m ltac:(left))) as (ka & kb & Ka & Kb).
    eexists (_ :: bs). split; [cbn [mapM]; rewrite (feature_match_spec kps_a kps_b m ka kb Ka Kb); cbn [bind]; rewrite E; reflexivity|]. constructor; [|exact F]. exists ka, kb. auto. }
  exists bearings. split; [exact Hms|]. split; [exact Hbs|]. destruct (consensus bearings) as [[pose inliers]|] eqn:Ec.
  - destruct (chapter5_shows hue Hhue image_a image_b kps_a kps_b Hwidth Hheight_a Hheight_b Wa Wb knn dist ds_a ds_b La Lb Hfit_a Hfit_b) with (ms := ms) (bearings := bearings) (pose := pose) (inliers := inliers) (consensus := consensus) as (c & l & kept & E & Hc & Hk & Hl); try assumption.
    + intros kp Hkp. apply Hoff, elem_of_app. left. exact Hkp.
    + intros kp Hkp. apply Hoff, elem_of_app. right. exact Hkp.
    + apply (Hcons _ _ _ Ec).
    + eexists _, _, _, c, l, kept. split; [exact E|]. split; [|split; [exact Hc|]; split; [exact Hk | exact Hl]].
      intros q Hq. unfold iso_point in Hq. assert (mvec (rot pose) q = vneg (trans pose)) as ->; [|reflexivity].
      assert (forall u v : rvec3, vadd u v = vzero -> u = vneg v) as H by (intros [u1 u2 u3] [v1 v2 v3] H; unfold vadd, vzero in H; cbn [vx vy vz] in H; injection H as H1 H2 H3; unfold vneg; cbn [vx vy vz]; f_equal; rlra). apply H, Hq.
  - unfold chapter5. cbn [fst snd]. rewrite Em. cbn [bind]. cbn [double single Rwidths] in *. rewrite Ebs. cbn [bind]. rewrite Ec. reflexivity.
Qed.
End two.
