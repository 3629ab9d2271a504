(** C76: the programs of the tutorial and kpdraw (tutorial-code/*/src/main.rs, kpdraw/src/lib.rs). *)
From stdpp Require Import list.
From Coq Require Import ZArith Reals Lia.
From Verif Require Import Num Outcome Lin LinSpec Diffuse Gray GraySpec Pinhole Akaze AkazeSpec Frame FrameSpec MatchingSpec Tutorial TutorialSpec TutorialFacts TutorialWhole TutorialDemo.
Local Open Scope R_scope.

(** The matches are exactly the pairs of features that stand out to each other by more than 24 bits. *)
Theorem C76_matches :
  forall (D : Type) (knn : list D -> D -> nat -> list (nat * nat)) (dist : D -> D -> nat), linear_search knn dist ->
    forall a b : list D, a = [] \/ (2 <= length b)%nat -> b = [] \/ (2 <= length a)%nat ->
    exists ms, tutorial_symmetric_matching knn a b = Ok ms /\ all_matches dist a b ms.
Proof. exact (fun D => tutorial_matches). Qed.
Print Assumptions C76_matches.

(** In the remaining cases a neighbour is missing and the program panics. *)
Theorem C76_few_features_panic :
  forall (D : Type) (knn : list D -> D -> nat -> list (nat * nat)) (dist : D -> D -> nat), linear_search knn dist ->
    forall a b : list D, (a <> [] /\ (length b < 2)%nat) \/ (b <> [] /\ (length a < 2)%nat) -> tutorial_symmetric_matching knn a b = Panic.
Proof. exact (fun D => tutorial_matches_few). Qed.
Print Assumptions C76_few_features_panic.

(** Features extracted with any settings the programs use lie in their picture, each with its descriptor. *)
Theorem C76_features_in_picture :
  forall A fed luma lumaa float_ord (sort : forall T : Type, (T -> T -> bool) -> list T -> list T) maximum threshold, (forall T, sorts (sort T)) ->
    forall (p : picture) (g : grayscale RNum) kps ds, sides g = Some (b_width p, b_height p) ->
    extract_image Rwidths Rmath Rmath A Rexp2 fed luma lumaa float_ord sort (akaze_new Rwidths maximum threshold) g = Ok (kps, ds) ->
    length kps = length ds /\ forall kp, kp ∈ kps -> within p kp.
Proof. exact extracted_in_picture. Qed.
Print Assumptions C76_features_in_picture.

(** Chapter 4: both pictures, unchanged, and for each match a line between its features, the colours going round the wheel. *)
Theorem C76_chapter4 :
  forall hue, wheel hue -> forall (image_a image_b : picture) (kps_a kps_b : list rkeypoint),
    (Z.of_nat (b_width image_a + b_width image_b) <= 2147483648)%Z -> (Z.of_nat (b_height image_a) <= 2147483648)%Z -> (Z.of_nat (b_height image_b) <= 2147483648)%Z ->
    (forall kp, kp ∈ kps_a -> within image_a kp) -> (forall kp, kp ∈ kps_b -> within image_b kp) ->
    forall (D : Type) (knn : list D -> D -> nat -> list (nat * nat)) (dist : D -> D -> nat), linear_search knn dist ->
    forall ds_a ds_b : list D, length kps_a = length ds_a -> length kps_b = length ds_b ->
    ds_a = [] \/ (2 <= length ds_b)%nat -> ds_b = [] \/ (2 <= length ds_a)%nat ->
    exists c l ms, chapter4 Rwidths Rtrunc Rtrunc hue knn image_a image_b (kps_a, ds_a) (kps_b, ds_b) = Ok (c, l) /\
      shows_both image_a image_b c /\ all_matches dist ds_a ds_b ms /\ lines_of hue (b_width image_a) kps_a kps_b ms l.
Proof. exact (fun hue Hhue a b ka kb H1 H2 H3 H4 H5 D knn dist Hk da db L1 L2 => chapter4_shows hue Hhue a b ka kb H1 H2 H3 H4 H5 knn dist Hk da db L1 L2). Qed.
Print Assumptions C76_chapter4.

(** Chapter 5, with exact arithmetic: the consensus sees the directions of the matched features; what it keeps is drawn from
    feature to feature, although only directions were kept; and the numbers printed are the way from the first camera to the
    second, seen from the second.  Without consensus the program panics. *)
Theorem C76_chapter5 :
  forall (D : Type) (image_a image_b : picture) (kps_a kps_b : list rkeypoint) (ds_a ds_b : list D) hue (knn : list D -> D -> nat -> list (nat * nat)) (dist : D -> D -> nat),
    wheel hue -> linear_search knn dist -> length kps_a = length ds_a -> length kps_b = length ds_b ->
    (forall kp, kp ∈ kps_a -> within image_a kp) -> (forall kp, kp ∈ kps_b -> within image_b kp) ->
    (Z.of_nat (b_width image_a + b_width image_b) <= 2147483648)%Z -> (Z.of_nat (b_height image_a) <= 2147483648)%Z -> (Z.of_nat (b_height image_b) <= 2147483648)%Z ->
    (b_width image_a <= 2000)%nat /\ (b_height image_a <= 1000)%nat -> (b_width image_b <= 2000)%nat /\ (b_height image_b <= 1000)%nat ->
    (forall kp, kp ∈ kps_a ++ kps_b -> ~ (kp_x kp = 690 /\ kp_y kp = 2331966 / 10000)) ->
    forall consensus : list (rvec3 * rvec3) -> option (riso * list nat), (forall l pose inliers, consensus l = Some (pose, inliers) -> forall i, i ∈ inliers -> (i < length l)%nat) ->
    ds_a = [] \/ (2 <= length ds_b)%nat -> ds_b = [] \/ (2 <= length ds_a)%nat ->
    exists ms bearings, all_matches dist ds_a ds_b ms /\
      Forall2 (fun m b => exists ka kb, kps_a !! m.1 = Some ka /\ kps_b !! m.2 = Some kb /\
        b = (calibrate_k1 (kitti_intrinsics Rwidths) (kitti_k1 Rwidths) (image_point Rwidths ka), calibrate_k1 (kitti_intrinsics Rwidths) (kitti_k1 Rwidths) (image_point Rwidths kb))) ms bearings /\
      match consensus bearings with
      | None => chapter5 Rwidths Rtrunc hue consensus knn image_a image_b (kps_a, ds_a) (kps_b, ds_b) = Panic
      | Some (pose, inliers) => exists forward right down c l kept,
          chapter5 Rwidths Rtrunc hue consensus knn image_a image_b (kps_a, ds_a) (kps_b, ds_b) = Ok ((forward, right, down), c, l) /\
          (forall centre : rvec3, iso_point pose centre = vzero -> V3 right down forward = mvec (rot pose) centre) /\
          shows_both image_a image_b c /\ Forall2 (fun i m => ms !! i = Some m) inliers kept /\ lines_of hue (b_width image_a) kps_a kps_b kept l
      end.
Proof. exact (fun D => chapter5_whole). Qed.
Print Assumptions C76_chapter5.

(** In binary64 the line of a feature at the left edge of its pixel can end a pixel too far left. *)
Theorem C76_line_end_refuted :
  exists (kp : keypoint F32) (q : vec2 F64), kp_x kp = ofZ 106 /\ kp_y kp = ofZ 200 /\
    uncalibrate_k1 (kitti_intrinsics Fwidths) (kitti_k1 Fwidths) (calibrate_k1 (kitti_intrinsics Fwidths) (kitti_k1 Fwidths) (image_point Fwidths kp)) = Some q /\
    image_point Fwidths kp = V2 (N := F64) (ofZ 106) (ofZ 200) /\ leb (ofZ 105 : F64) (px q) = true /\ ltb (px q) (ofZ 106 : F64) = true.
Proof. exact demo_moved. Qed.
Print Assumptions C76_line_end_refuted.

(** Chapter 3 and kpdraw: a cross in the pixel of every keypoint, in the picture. *)
Theorem C76_crosses :
  forall A fed luma lumaa float_ord (sort : forall T : Type, (T -> T -> bool) -> list T -> list T) maximum threshold, (forall T, sorts (sort T)) ->
    forall (p : picture) (g : grayscale RNum) kps ds, sides g = Some (b_width p, b_height p) -> (Z.of_nat (b_width p) <= 2147483648)%Z -> (Z.of_nat (b_height p) <= 2147483648)%Z ->
    extract_image Rwidths Rmath Rmath A Rexp2 fed luma lumaa float_ord sort (akaze_new Rwidths maximum threshold) g = Ok (kps, ds) ->
    Forall2 (fun kp c => in_pixel (kp_x kp) (kp_y kp) c /\ (0 <= c.1 < Z.of_nat (b_width p))%Z /\ (0 <= c.2 < Z.of_nat (b_height p))%Z) kps (crosses Rwidths Rtrunc kps).
Proof. exact crosses_on_keypoints. Qed.
Print Assumptions C76_crosses.

Example C76_example : linear_search (scan_knn gap) gap /\ wheel (fun _ => (1, 0, 1 / 2)) /\
  tutorial_symmetric_matching (scan_knn gap) [0; 100]%nat [3; 200]%nat = Ok [(0, 0)]%nat /\ tutorial_symmetric_matching (scan_knn gap) [0]%nat [3]%nat = Panic /\
  (forall kp, kp ∈ demo_a -> within (demo_picture 60 50 7) kp) /\ (forall kp, kp ∈ demo_b -> within (demo_picture 70 40 9) kp) /\
  (forall kp, kp ∈ demo_a ++ demo_b -> ~ (kp_x kp = 690 /\ kp_y kp = 2331966 / 10000)) /\ length demo_a = 2%nat /\ length demo_b = 2%nat.
Proof.
  split; [exact (scan_linear gap)|]. split; [intros x r g b E; injection E as <- <- <-; Lra.lra|]. split; [exact demo_matches|]. split; [exact demo_few|].
  destruct demo_within as (W1 & W2 & W3). split; [exact W1|]. split; [exact W2|]. split; [exact W3|]. split; reflexivity.
Qed.
