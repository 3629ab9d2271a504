(** A linear search, and a case in which the tutorial's programs show something. *)
From stdpp Require Import list list_numbers.
From Coq Require Import ZArith Reals Lra Lia.
From Verif Require Import Num Outcome Lin LinSpec Diffuse Pinhole Akaze Frame MatchingSpec Tutorial TutorialSpec.

(** Insertion in the order of the distances. *)
Fixpoint insert_by (x : nat * nat) (l : list (nat * nat)) : list (nat * nat) :=
  match l with [] => [x] | y :: l' => if decide (x.2 < y.2) then x :: l else y :: insert_by x l' end.
Definition ranked {D} (dist : D -> D -> nat) (fs : list D) (d : D) : list (nat * nat) := foldr insert_by [] (imap (fun i f => (i, dist d f)) fs).
Definition scan_knn {D} (dist : D -> D -> nat) (fs : list D) (d : D) (k : nat) : list (nat * nat) := take k (ranked dist fs d).
Fixpoint ascending (l : list (nat * nat)) : Prop := match l with [] => True | x :: l' => (forall y, y ∈ l' -> x.2 <= y.2) /\ ascending l' end.
Lemma insert_by_perm x l : insert_by x l ≡ₚ x :: l.
Proof. induction l as [|y l IH]; [reflexivity|]. cbn. destruct (decide _); [reflexivity|]. rewrite IH. apply Permutation_swap. Qed.
Lemma insert_by_ascending x l : ascending l -> ascending (insert_by x l).
Proof.
  induction l as [|y l IH]; cbn; [intros _; split; [intros z Hz; apply elem_of_nil in Hz; contradiction | exact I]|]. intros [Hy Hl]. destruct (decide _) as [H|H]; cbn.
  - split; [|auto]. intros z Hz. apply elem_of_cons in Hz as [->|Hz]; [lia|]. specialize (Hy z Hz). lia.
  - split; [|auto]. intros z Hz. rewrite insert_by_perm in Hz. apply elem_of_cons in Hz as [->|Hz]; [lia | auto].
Qed.
Lemma ranked_spec {D} (dist : D -> D -> nat) fs d : ascending (ranked dist fs d) /\ ranked dist fs d ≡ₚ imap (fun i f => (i, dist d f)) fs.
Proof.
  unfold ranked. generalize (imap (fun i f => (i, dist d f)) fs). intros l. induction l as [|x l [H1 H2]]; [split; [exact I | reflexivity]|]. cbn. split; [apply insert_by_ascending, H1|]. rewrite insert_by_perm, H2. reflexivity.
Qed.
Lemma scan_linear {D} (dist : D -> D -> nat) : linear_search (scan_knn dist) dist.
Proof.
  split.
  - intros fs d Hlen. unfold scan_knn. destruct (ranked_spec dist fs d) as [Ha Hp]. pose proof (Permutation_length Hp) as Hl. rewrite imap_length in Hl.
    destruct (ranked dist fs d) as [|[i0 d0] [|[i1 d1] rest]] eqn:E; cbn in Hl; [lia | lia|].
    assert (forall i x, (i, x) ∈ (i0, d0) :: (i1, d1) :: rest <-> exists f, fs !! i = Some f /\ x = dist d f) as Hin.
    { intros i x. rewrite Hp, elem_of_lookup_imap. split; [intros (j & y & [= -> ->] & Hy); eauto | intros (f & Hf & ->); eauto]. }
    destruct (proj1 (Hin i0 d0) ltac:(left)) as (f0 & F0 & ->). destruct (proj1 (Hin i1 d1) ltac:(right; left)) as (f1 & F1 & ->).
    destruct Ha as [A0 [A1 _]]. exists i0, i1, f0, f1. split; [reflexivity|]. split; [exact F0|]. split; [exact F1|]. split; [|split; [exact (A0 (i1, dist d f1) ltac:(left))|]].
    + assert (NoDup ((i0, dist d f0) :: (i1, dist d f1) :: rest).*1) as Hn.
      { rewrite Hp. apply NoDup_alt. intros i j x. rewrite !list_lookup_fmap, !list_lookup_imap. destruct (fs !! i), (fs !! j); cbn; congruence. }
      cbn in Hn. apply NoDup_cons in Hn as [Hn _]. intros ->. apply Hn. left.
    + intros i f Hf Hi. assert ((i, dist d f) ∈ (i0, dist d f0) :: (i1, dist d f1) :: rest) as Hm by (apply Hin; eauto). apply elem_of_cons in Hm as [[= -> _]|Hm]; [contradiction|].
      apply elem_of_cons in Hm as [[= -> ->]|Hm]; [lia|]. exact (A1 (i, dist d f) Hm).
  - intros fs d Hlen. unfold scan_knn. destruct (ranked_spec dist fs d) as [_ Hp]. pose proof (Permutation_length Hp) as Hl. rewrite imap_length in Hl. rewrite take_length. lia.
Qed.

(** Two pictures with two features each, of which one pair stands out. *)
Definition demo_picture (w h : nat) (c : Z) : picture := Buffer w h (fun x y => (Z.of_nat x, Z.of_nat y, c, 255)%Z).
Definition gap (x y : nat) : nat := (x - y) + (y - x).
Definition demo_keypoint (x y : R) : rkeypoint := KeyPoint (F := RNum) x y 1%R 2%R 0 0 0%R.
Definition demo_a : list rkeypoint := [demo_keypoint (205 / 10) 30; demo_keypoint 40 (151 / 10)].
Definition demo_b : list rkeypoint := [demo_keypoint 25 (301 / 10); demo_keypoint 14 20].
Lemma demo_matches : tutorial_symmetric_matching (scan_knn gap) [0; 100] [3; 200] = Ok [(0, 0)].
Proof. vm_compute. reflexivity. Qed.
Lemma demo_few : tutorial_symmetric_matching (scan_knn gap) [0] [3] = Panic.
Proof. vm_compute. reflexivity. Qed.
Lemma demo_within : (forall kp, kp ∈ demo_a -> within (demo_picture 60 50 7) kp) /\ (forall kp, kp ∈ demo_b -> within (demo_picture 70 40 9) kp) /\
  forall kp, kp ∈ demo_a ++ demo_b -> ~ (kp_x kp = 690 /\ kp_y kp = 2331966 / 10000)%R.
Proof.
  assert (INR 60 = 60 /\ INR 50 = 50 /\ INR 70 = 70 /\ INR 40 = 40)%R as (E1 & E2 & E3 & E4) by (rewrite !INR_IZR_INZ; repeat split; reflexivity).
  unfold within. cbn [b_width b_height demo_picture]. rewrite E1, E2, E3, E4. split; [|split].
  - intros kp Hkp. apply elem_of_cons in Hkp as [->|Hkp]; [cbn; lra|]. apply elem_of_list_singleton in Hkp as ->. cbn. lra.
  - intros kp Hkp. apply elem_of_cons in Hkp as [->|Hkp]; [cbn; lra|]. apply elem_of_list_singleton in Hkp as ->. cbn. lra.
  - intros kp Hkp. cbn [app demo_a demo_b] in Hkp. repeat (apply elem_of_cons in Hkp as [->|Hkp]; [cbn; lra|]). apply elem_of_nil in Hkp. contradiction.
Qed.

(** ** Binary64: the way through the camera model moves the end of a line to the pixel before. *)
Definition demo_f32 (x y : Z) : keypoint F32 := KeyPoint (ofZ x) (ofZ y) zero zero 0 0 zero.
Definition demo_back : option (vec2 F64) := Eval vm_compute in
  uncalibrate_k1 (kitti_intrinsics Fwidths) (kitti_k1 Fwidths) (calibrate_k1 (kitti_intrinsics Fwidths) (kitti_k1 Fwidths) (image_point Fwidths (demo_f32 106 200))).
Lemma demo_back_eq : uncalibrate_k1 (kitti_intrinsics Fwidths) (kitti_k1 Fwidths) (calibrate_k1 (kitti_intrinsics Fwidths) (kitti_k1 Fwidths) (image_point Fwidths (demo_f32 106 200))) = demo_back.
Proof. vm_cast_no_check (eq_refl demo_back). Qed.
Definition demo_end : vec2 F64 := match demo_back with Some q => q | None => V2 (N := F64) zero zero end.
Lemma demo_end_eq : demo_back = Some demo_end. Proof. reflexivity. Qed.
Lemma demo_image_point : image_point Fwidths (demo_f32 106 200) = V2 (N := F64) (ofZ 106) (ofZ 200).
Proof. vm_cast_no_check (eq_refl (V2 (N := F64) (ofZ 106) (ofZ 200))). Qed.
Lemma demo_left : leb (ofZ 105 : F64) (px demo_end) = true /\ ltb (px demo_end) (ofZ 106 : F64) = true.
Proof. split; vm_compute; reflexivity. Qed.
Lemma demo_moved : exists kp q, kp_x kp = ofZ 106 /\ kp_y kp = ofZ 200 /\
  uncalibrate_k1 (kitti_intrinsics Fwidths) (kitti_k1 Fwidths) (calibrate_k1 (kitti_intrinsics Fwidths) (kitti_k1 Fwidths) (image_point Fwidths kp)) = Some q /\
  image_point Fwidths kp = V2 (N := F64) (ofZ 106) (ofZ 200) /\ leb (ofZ 105 : F64) (px q) = true /\ ltb (px q) (ofZ 106 : F64) = true.
Proof.
  exists (demo_f32 106 200), demo_end. split; [reflexivity|]. split; [reflexivity|]. split; [exact (eq_trans demo_back_eq demo_end_eq)|]. split; [exact demo_image_point | exact demo_left].
Qed.
