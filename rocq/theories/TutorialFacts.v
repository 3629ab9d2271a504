(** Lemmas about the tutorial's programs. *)
From stdpp Require Import list list_numbers.
From Coq Require Import ZArith Reals Lra Lia.
From Verif Require Import Num Outcome OutcomeFacts Lin LinSpec LinFacts Diffuse GraySpec Pinhole PinholeSpec PinholeFacts Akaze Frame Matching MatchingSpec MatchingFacts Tutorial TutorialSpec.

(** ** Matching *)
Section matching.
Context {D : Type} (knn : list D -> D -> nat -> list (nat * nat)) (dist : D -> D -> nat).
Hypothesis Hknn : linear_search knn dist.
Lemma tutorial_match_one_spec (b : list D) (d : D) : 2 <= length b ->
  exists m, tutorial_match_one knn b d = Ok m /\ forall j, m = Some j <-> stands_out dist b d j.
Proof.
  intros Hb. destruct Hknn as [He _]. destruct (He b d Hb) as (i0 & i1 & f0 & f1 & E & L0 & L1 & Hne & H01 & Hrest).
  unfold tutorial_match_one. rewrite E. eexists. split; [reflexivity|]. intros j. unfold stands_out. destruct (decide (dist d f0 + 24 < dist d f1)) as [H|H]; split.
  - intros [= <-]. exists f0. split; [exact L0|]. intros k g Hk Hkj. specialize (Hrest k g Hk Hkj). lia.
  - intros (f & Hf & Hall). destruct (decide (j = i0)) as [->|Hj]; [reflexivity|]. specialize (Hall i0 f0 L0 ltac:(congruence)). specialize (Hrest j f Hf Hj). lia.
  - discriminate.
  - intros (f & Hf & Hall). exfalso. destruct (decide (j = i0)) as [->|Hj].
    + rewrite L0 in Hf. injection Hf as <-. specialize (Hall i1 f1 L1 ltac:(congruence)). lia.
    + specialize (Hall i0 f0 L0 ltac:(congruence)). specialize (Hrest j f Hf Hj). lia.
Qed.
Lemma tutorial_match_one_few (b : list D) (d : D) : length b < 2 -> tutorial_match_one knn b d = Panic.
Proof. intros Hb. destruct Hknn as [_ Hf]. specialize (Hf b d Hb). unfold tutorial_match_one. destruct (knn b d 2) as [|[? ?] [|[? ?] ?]]; [reflexivity | reflexivity | cbn in Hf; lia]. Qed.
Lemma tutorial_matching_spec (a b : list D) : a = [] \/ 2 <= length b ->
  exists ms, tutorial_matching knn a b = Ok ms /\ length ms = length a /\ forall i j, ms !! i = Some (Some j) <-> exists d, a !! i = Some d /\ stands_out dist b d j.
Proof.
  intros H. unfold tutorial_matching. destruct (mapM_total (tutorial_match_one knn b) a) as [ms E].
  { intros d Hd. destruct H as [->|Hb]; [apply elem_of_nil in Hd; contradiction|]. destruct (tutorial_match_one_spec b d Hb) as (m & Em & _). eauto. }
  exists ms. split; [exact E|]. apply mapM_ok in E as [Hl Hm]. split; [exact Hl|]. intros i j. split.
  - intros Hi. assert (i < length a) as Hlt by (rewrite <- Hl; eapply lookup_lt_Some, Hi). destruct (lookup_lt_is_Some_2 _ _ Hlt) as [d Hd]. exists d. split; [exact Hd|].
    destruct (Hm _ _ Hd) as (m & Hm1 & Hm2). rewrite Hi in Hm1. injection Hm1 as <-. destruct H as [->|Hb]; [rewrite lookup_nil in Hd; discriminate Hd|].
    destruct (tutorial_match_one_spec b d Hb) as (m & Em & Hs). rewrite Hm2 in Em. injection Em as <-. apply Hs. reflexivity.
  - intros (d & Hd & Hs). destruct (Hm _ _ Hd) as (m & Hm1 & Hm2). rewrite Hm1. f_equal. destruct H as [->|Hb]; [rewrite lookup_nil in Hd; discriminate Hd|].
    destruct (tutorial_match_one_spec b d Hb) as (m' & Em & Hs'). rewrite Hm2 in Em. injection Em as <-. apply Hs'. exact Hs.
Qed.
Lemma keep_symmetric_sorted rev n fwd ps : keep_symmetric rev n fwd = Ok ps ->
  (forall p, p ∈ ps -> n <= p.1) /\ (forall i j p q, i < j -> ps !! i = Some p -> ps !! j = Some q -> p.1 < q.1).
Proof.
  revert n ps. induction fwd as [|m fwd IH]; intros n ps H; cbn [keep_symmetric] in H; inv_ok.
  - split; [intros p Hp; apply elem_of_nil in Hp; contradiction|]. intros i j p q _ Hp. rewrite lookup_nil in Hp. discriminate Hp.
  - destruct (IH _ _ E0) as [Hge Hs].
    assert (a = [] \/ exists bix, a = [(n, bix)]) as [->|(bix & ->)].
    { destruct m as [bix|]; inv_ok; [|auto]. case_decide; eauto. }
    + split; [|exact Hs]. intros p Hp. specialize (Hge p Hp). lia.
    + cbn [app]. split.
      * intros p Hp. apply elem_of_cons in Hp as [->|Hp]; [reflexivity|]. specialize (Hge p Hp). lia.
      * intros i j p q Hij Hp Hq. destruct j as [|j]; [lia|]. cbn in Hq. destruct i as [|i]; cbn in Hp.
        -- injection Hp as <-. cbn. apply elem_of_list_lookup_2 in Hq. specialize (Hge q Hq). lia.
        -- apply (Hs i j p q); [lia | exact Hp | exact Hq].
Qed.
Lemma keep_symmetric_total rev n fwd : (forall i j, fwd !! i = Some (Some j) -> j < length rev) -> exists ps, keep_symmetric rev n fwd = Ok ps.
Proof.
  revert n. induction fwd as [|m fwd IH]; intros n H; cbn [keep_symmetric]; [eauto|].
  destruct (IH (S n)) as [ps ->]; [intros i j Hi; apply (H (S i) j), Hi|]. destruct m as [bix|]; cbn [bind]; [|eauto].
  assert (bix < length rev) as Hlt by (apply (H 0 bix); reflexivity). destruct (lookup_lt_is_Some_2 _ _ Hlt) as [r ->]. cbn. eauto.
Qed.
Lemma tutorial_matches (a b : list D) : a = [] \/ 2 <= length b -> b = [] \/ 2 <= length a ->
  exists ms, tutorial_symmetric_matching knn a b = Ok ms /\ all_matches dist a b ms.
Proof.
  intros Ha Hb. unfold tutorial_symmetric_matching. destruct (tutorial_matching_spec a b Ha) as (fwd & -> & Lf & Sf). destruct (tutorial_matching_spec b a Hb) as (rev & -> & Lr & Sr). cbn [bind].
  destruct (keep_symmetric_total rev 0 fwd) as [ps E].
  { intros i j Hi. rewrite Lr. apply Sf in Hi as (d & _ & f & Hf & _). eapply lookup_lt_Some, Hf. }
  exists ps. split; [exact E|]. split; [|apply (keep_symmetric_sorted _ _ _ _ E)].
  destruct (keep_symmetric_ok _ _ _ _ E) as [Hin _]. intros [i j]. rewrite Hin. unfold symmetric_match. cbn [fst snd]. rewrite <- Sf, <- Sr. split.
  - intros (k & -> & H1 & H2). split; assumption.
  - intros [H1 H2]. exists i. auto.
Qed.
(** Without two features to compare there is a panic. *)
Lemma tutorial_matching_few (a b : list D) : a <> [] -> length b < 2 -> tutorial_matching knn a b = Panic.
Proof. intros Ha Hb. destruct a as [|d a]; [congruence|]. unfold tutorial_matching. cbn [mapM]. rewrite tutorial_match_one_few by exact Hb. reflexivity. Qed.
Lemma tutorial_matches_few (a b : list D) : (a <> [] /\ length b < 2) \/ (b <> [] /\ length a < 2) -> tutorial_symmetric_matching knn a b = Panic.
Proof.
  intros H. unfold tutorial_symmetric_matching. destruct (decide (a <> [] /\ length b < 2)) as [[H1 H2]|Hn].
  - rewrite tutorial_matching_few by assumption. reflexivity.
  - destruct H as [H|[H1 H2]]; [contradiction|]. destruct (tutorial_matching_spec a b) as (fwd & -> & _).
    { destruct a; [left; reflexivity|]. right. destruct (decide (length b < 2)); [exfalso; apply Hn; split; [discriminate | assumption]|lia]. }
    cbn [bind]. rewrite tutorial_matching_few by assumption. reflexivity.
Qed.
End matching.

(** ** The canvas *)
Lemma render_steps (image : picture) (off : nat) (l : list (nat * nat)) : forall canvas : picture,
  (forall x y, (x, y) ∈ l -> x < b_width image /\ y < b_height image) -> off + b_width image <= b_width canvas -> b_height image <= b_height canvas ->
  exists c, foldM (fun c xy => put_pixel c (fst xy + off) (snd xy) (b_at image (fst xy) (snd xy))) l canvas = Ok c /\
    b_width c = b_width canvas /\ b_height c = b_height canvas /\
    (forall x y, (x, y) ∈ l -> b_at c (x + off) y = b_at image x y) /\
    (forall x y, (forall x', x = x' + off -> (x', y) ∉ l) -> b_at c x y = b_at canvas x y).
Proof.
  induction l as [|[x0 y0] l IH]; intros canvas Hl Hw Hh.
  - exists canvas. cbn. split; [reflexivity|]. split; [reflexivity|]. split; [reflexivity|]. split; [intros x y Hin; apply elem_of_nil in Hin; contradiction | reflexivity].
  - cbn [foldM fst snd]. destruct (Hl x0 y0 ltac:(left)) as [Hx0 Hy0]. unfold put_pixel at 1. rewrite decide_True by lia. cbn [bind].
    match goal with |- context [foldM _ l ?c] => set (c1 := c) end.
    destruct (IH c1) as (c & E & Wc & Hc & Hon & Hoff); [intros x y Hin; apply Hl; right; exact Hin | exact Hw | exact Hh|].
    exists c. split; [exact E|]. split; [exact Wc|]. split; [exact Hc|]. split.
    + intros x y Hin. destruct (decide ((x, y) ∈ l)) as [Hi|Hi]; [apply Hon, Hi|]. apply elem_of_cons in Hin as [[= -> ->]|Hin]; [|contradiction].
      rewrite Hoff by (intros x' Ex; replace x' with x0 by lia; exact Hi). unfold c1. cbn [b_at]. rewrite decide_True by auto. reflexivity.
    + intros x y Hout. rewrite Hoff.
      * unfold c1. cbn [b_at]. rewrite decide_False; [reflexivity|]. intros [-> ->]. apply (Hout x0 eq_refl). left.
      * intros x' Ex Hin. apply (Hout x' Ex). right. exact Hin.
Qed.
Lemma in_grid w h x y : (x, y) ∈ list_prod (seq 0 w) (seq 0 h) <-> x < w /\ y < h.
Proof. rewrite elem_of_list_In, in_prod_iff, !in_seq. lia. Qed.
Lemma render_spec (canvas image : picture) (off : nat) : off + b_width image <= b_width canvas -> b_height image <= b_height canvas ->
  exists c, render canvas image off = Ok c /\ b_width c = b_width canvas /\ b_height c = b_height canvas /\
    (forall x y, x < b_width image -> y < b_height image -> b_at c (x + off) y = b_at image x y) /\
    (forall x y, x < off \/ off + b_width image <= x \/ b_height image <= y -> b_at c x y = b_at canvas x y).
Proof.
  intros Hw Hh. destruct (render_steps image off (list_prod (seq 0 (b_width image)) (seq 0 (b_height image))) canvas) as (c & E & Wc & Hc & Hon & Hoff); [intros x y; apply in_grid | exact Hw | exact Hh|].
  exists c. split; [exact E|]. split; [exact Wc|]. split; [exact Hc|]. split.
  - intros x y Hx Hy. apply Hon, in_grid. auto.
  - intros x y Ho. apply Hoff. intros x' -> Hin. apply in_grid in Hin. lia.
Qed.
Lemma side_by_side_shows (a b : picture) : exists c, side_by_side a b = Ok c /\ shows_both a b c.
Proof.
  unfold side_by_side. destruct (render_spec (from_pixel (b_width a + b_width b) (b_height a `max` b_height b) (0, 0, 0, 255)%Z) a 0) as (c1 & -> & W1 & H1 & On1 & Off1); [cbn; lia | cbn; lia|].
  cbn [bind]. destruct (render_spec c1 b (b_width a)) as (c & -> & W & H & On & Off); [rewrite W1; cbn; lia | rewrite H1; cbn; lia|].
  exists c. split; [reflexivity|]. split; [rewrite W, W1; reflexivity|]. split; [rewrite H, H1; reflexivity|]. split; [|split; [|split]].
  - intros x y Hx Hy. rewrite Off by lia. rewrite <- (On1 x y Hx Hy). f_equal. lia.
  - intros x y Hx Hy. rewrite <- (On x y Hx Hy). f_equal. lia.
  - intros x y Hx Hy. rewrite Off by lia. rewrite Off1 by lia. reflexivity.
  - intros x y Hx Hy. rewrite Off by lia. rewrite Off1 by lia. reflexivity.
Qed.

(** ** The lines *)
Local Open Scope R_scope.
Lemma trunc_pixel (x : R) : 0 <= x -> IZR (Rtrunc x) <= x < IZR (Rtrunc x) + 1.
Proof. intros H. unfold Rtrunc. destruct (Rle_dec 0 x); [|contradiction]. destruct (base_Int_part x). lra. Qed.
Lemma trunc_range (x : R) (n : nat) : 0 <= x < INR n -> (0 <= Rtrunc x < Z.of_nat n)%Z.
Proof.
  intros [H1 H2]. destruct (trunc_pixel x H1) as [H3 H4]. rewrite INR_IZR_INZ in H2. split.
  - assert (IZR (-1) < IZR (Rtrunc x)) as H by (change (IZR (-1)) with (-1); lra). apply lt_IZR in H. lia.
  - apply lt_IZR. lra.
Qed.
Lemma point_tup_spec (x y : R) (w h off : nat) : 0 <= x < INR w -> 0 <= y < INR h -> (Z.of_nat (off + w) <= 2147483648)%Z -> (Z.of_nat h <= 2147483648)%Z ->
  exists q, (let! px := add_i32 (as_i32 (Rtrunc x)) (Z.of_nat off) in Ok (px, as_i32 (Rtrunc y))) = Ok q /\ in_pixel (INR off + x) y q.
Proof.
  intros Hx Hy Hw Hh. pose proof (trunc_range x w Hx) as Tx. pose proof (trunc_range y h Hy) as Ty. unfold as_i32, add_i32. rewrite !Z.max_r, !Z.min_r by lia. rewrite decide_True by lia. cbn [bind].
  eexists. split; [reflexivity|]. unfold in_pixel. cbn [fst snd]. rewrite plus_IZR, <- INR_IZR_INZ. pose proof (trunc_pixel x (proj1 Hx)). pose proof (trunc_pixel y (proj1 Hy)). lra.
Qed.
Lemma byte_spec (c : R) : 0 <= c <= 1 -> IZR (as_u8 (Rtrunc (c * 255))) <= 255 * c < IZR (as_u8 (Rtrunc (c * 255))) + 1.
Proof.
  intros H. assert (0 <= c * 255) as H0 by lra. pose proof (trunc_pixel _ H0) as [T1 T2].
  assert (0 <= Rtrunc (c * 255) <= 255)%Z as R.
  { split; [assert (IZR (-1) < IZR (Rtrunc (c * 255))) as L by (change (IZR (-1)) with (-1); lra); apply lt_IZR in L; lia|]. apply le_IZR. lra. }
  unfold as_u8. rewrite Z.max_r, Z.min_r by lia. lra.
Qed.
Section programs.
Variable hue : R -> R * R * R.
Hypothesis Hhue : wheel hue.
Lemma wheel_color_spec (ix : nat) (f t : Z * Z) : colored (hue (INR ix / 10)) (Segment f t (wheel_color Rwidths Rtrunc hue ix)).
Proof.
  unfold wheel_color. assert ((@ofZ (double Rwidths) (Z.of_nat ix) * lit 1 10)%num = INR ix / 10) as -> by (rewrite INR_IZR_INZ; cbn; unfold Rdiv; ring).
  destruct (hue (INR ix / 10)) as [[r g] b] eqn:E. destruct (Hhue _ _ _ _ E) as (Hr & Hg & Hb). cbn [colored s_color]. eexists _, _, _. split; [reflexivity|].
  split; [apply byte_spec, Hr|]. split; [apply byte_spec, Hg | apply byte_spec, Hb].
Qed.
(** Every element of an enumerated loop is worked on at its position. *)
Lemma enumerated_spec {X Y} (f : nat -> X -> outcome Y) (Q : nat -> X -> Y -> Prop) (l : list X) :
  (forall i x, l !! i = Some x -> exists y, f i x = Ok y /\ Q i x y) ->
  exists ys, enumerated f l = Ok ys /\ length ys = length l /\ forall i x y, l !! i = Some x -> ys !! i = Some y -> Q i x y.
Proof.
  intros H. unfold enumerated. set (z := zip (seq 0 (length l)) l).
  assert (forall k p, z !! k = Some p -> p.1 = k /\ l !! k = Some p.2) as Hz.
  { intros k [i x] Hk. unfold z in Hk. apply lookup_zip_with_Some in Hk as (i' & x' & [= -> ->] & H1 & H2). apply lookup_seq in H1 as [-> _]. auto. }
  assert (length z = length l) as Lz by (unfold z; rewrite zip_with_length, seq_length; lia).
  destruct (mapM_total (fun ix : nat * X => f ix.1 ix.2) z) as [ys E].
  { intros p Hp. apply elem_of_list_lookup in Hp as [k Hk]. destruct (Hz _ _ Hk) as [-> Hl]. destruct (H _ _ Hl) as (y & Ey & _). eauto. }
  exists ys. split; [exact E|]. apply mapM_ok in E as [Hl Hm]. split; [congruence|]. intros i x y Hi Hy.
  assert (i < length z)%nat as Hlt by (rewrite Lz; eapply lookup_lt_Some, Hi). destruct (lookup_lt_is_Some_2 _ _ Hlt) as [p Hp]. destruct (Hz _ _ Hp) as [H1 H2].
  destruct (Hm _ _ Hp) as (y' & Hy' & Ef). rewrite Hy in Hy'. injection Hy' as <-. rewrite H1 in Ef. rewrite H2 in Hi. injection Hi as Hi. rewrite Hi in *. destruct (H i x H2) as (y' & Ey & HQ). rewrite Ef in Ey. injection Ey as <-. exact HQ.
Qed.
Variables (image_a image_b : picture) (kps_a kps_b : list rkeypoint).
Hypothesis Hwidth : (Z.of_nat (b_width image_a + b_width image_b) <= 2147483648)%Z.
Hypothesis Hheight_a : (Z.of_nat (b_height image_a) <= 2147483648)%Z.
Hypothesis Hheight_b : (Z.of_nat (b_height image_b) <= 2147483648)%Z.
Hypothesis Hin_a : forall kp, kp ∈ kps_a -> within image_a kp.
Hypothesis Hin_b : forall kp, kp ∈ kps_b -> within image_b kp.
Context {D : Type} (knn : list D -> D -> nat -> list (nat * nat)) (dist : D -> D -> nat).
Hypothesis Hknn : linear_search knn dist.
Variables (ds_a ds_b : list D).
Hypothesis Hlen_a : length kps_a = length ds_a.
Hypothesis Hlen_b : length kps_b = length ds_b.
Lemma match_features (m : nat * nat) : symmetric_match dist ds_a ds_b m -> exists ka kb, kps_a !! m.1 = Some ka /\ kps_b !! m.2 = Some kb.
Proof.
  intros [(d & Hd & _) (d' & Hd' & _)]. apply lookup_lt_Some in Hd, Hd'. rewrite <- Hlen_a in Hd. rewrite <- Hlen_b in Hd'. destruct (lookup_lt_is_Some_2 _ _ Hd) as [ka ?]. destruct (lookup_lt_is_Some_2 _ _ Hd') as [kb ?]. eauto.
Qed.
Lemma ends (ka kb : rkeypoint) : ka ∈ kps_a -> kb ∈ kps_b ->
  (exists q, (let! px := add_i32 (as_i32 (Rtrunc (kp_x ka))) (Z.of_nat 0) in Ok (px, as_i32 (Rtrunc (kp_y ka)))) = Ok q /\ in_pixel (kp_x ka) (kp_y ka) q) /\
  (exists q, (let! px := add_i32 (as_i32 (Rtrunc (kp_x kb))) (Z.of_nat (b_width image_a)) in Ok (px, as_i32 (Rtrunc (kp_y kb)))) = Ok q /\ in_pixel (INR (b_width image_a) + kp_x kb) (kp_y kb) q).
Proof.
  intros Ha Hb. destruct (Hin_a _ Ha) as [Xa Ya]. destruct (Hin_b _ Hb) as [Xb Yb]. split.
  - destruct (point_tup_spec (kp_x ka) (kp_y ka) (b_width image_a) (b_height image_a) 0 Xa Ya ltac:(lia) Hheight_a) as (q & E & Hq). exists q. split; [exact E|]. replace (kp_x ka) with (INR 0 + kp_x ka) by (cbn; rring). exact Hq.
  - apply (point_tup_spec (kp_x kb) (kp_y kb) (b_width image_b) (b_height image_b) (b_width image_a) Xb Yb Hwidth Hheight_b).
Qed.
Lemma chapter4_shows : ds_a = [] \/ (2 <= length ds_b)%nat -> ds_b = [] \/ (2 <= length ds_a)%nat ->
  exists c l ms, chapter4 Rwidths Rtrunc Rtrunc hue knn image_a image_b (kps_a, ds_a) (kps_b, ds_b) = Ok (c, l) /\
    shows_both image_a image_b c /\ all_matches dist ds_a ds_b ms /\ lines_of hue (b_width image_a) kps_a kps_b ms l.
Proof.
  intros Ha Hb. unfold chapter4. cbn [fst snd]. destruct (tutorial_matches knn dist Hknn ds_a ds_b Ha Hb) as (ms & -> & Hms). cbn [bind].
  destruct (side_by_side_shows image_a image_b) as (c & -> & Hc). cbn [bind].
  destruct (enumerated_spec (match_line Rwidths Rtrunc Rtrunc hue (b_width image_a) kps_a kps_b) (fun ix m s => joins (b_width image_a) kps_a kps_b m s /\ colored (hue (INR ix / 10)) s) ms) as (l & -> & Ll & Hl).
  { intros ix m Hm. apply elem_of_list_lookup_2 in Hm. apply (proj1 Hms) in Hm. destruct (match_features m Hm) as (ka & kb & Ka & Kb). unfold match_line. cbn [single Rwidths]. rewrite Ka, Kb. cbn [unwrap bind].
    destruct (ends ka kb) as [(s & Es & Hs) (t & Et & Ht)]; [eapply elem_of_list_lookup_2, Ka | eapply elem_of_list_lookup_2, Kb|].
    unfold point_tup32. cbn [single Rwidths] in *. rewrite Es. cbn [bind]. rewrite Et. cbn [bind]. eexists. split; [reflexivity|]. split; [|apply wheel_color_spec]. exists ka, kb. auto. }
  cbn [bind]. exists c, l, ms. split; [reflexivity|]. split; [exact Hc|]. split; [exact Hms|]. split; [exact Ll | exact Hl].
Qed.

(** ** With the camera model in between *)
Definition off_principal (kp : rkeypoint) : Prop := ~ (kp_x kp = 690 /\ kp_y kp = 2331966 / 10000).
Hypothesis Hfit_a : (b_width image_a <= 2000)%nat /\ (b_height image_a <= 1000)%nat.
Hypothesis Hfit_b : (b_width image_b <= 2000)%nat /\ (b_height image_b <= 1000)%nat.
Hypothesis Hoff_a : forall kp, kp ∈ kps_a -> off_principal kp.
Hypothesis Hoff_b : forall kp, kp ∈ kps_b -> off_principal kp.
Lemma kitti_round_trip (p : picture) (kp : rkeypoint) : (b_width p <= 2000)%nat /\ (b_height p <= 1000)%nat -> within p kp -> off_principal kp ->
  uncalibrate_k1 (kitti_intrinsics Rwidths) (kitti_k1 Rwidths) (calibrate_k1 (kitti_intrinsics Rwidths) (kitti_k1 Rwidths) (image_point Rwidths kp)) = Some (image_point Rwidths kp).
Proof.
  intros [Hw Hh] [Hx Hy] Ho.
  assert (INR (b_width p) <= 2000) as Hw' by (apply le_INR in Hw; rewrite (INR_IZR_INZ 2000) in Hw; change (IZR (Z.of_nat 2000)) with 2000 in Hw; exact Hw).
  assert (INR (b_height p) <= 1000) as Hh' by (apply le_INR in Hh; rewrite (INR_IZR_INZ 1000) in Hh; change (IZR (Z.of_nat 1000)) with 1000 in Hh; exact Hh).
  set (u := (kp_x kp - 690) / (9842439 / 10000)). set (v := (kp_y kp - 2331966 / 10000) / (9808141 / 10000)).
  assert (norm2_2 (to_plane (kitti_intrinsics Rwidths) (image_point Rwidths kp)) = u * u + v * v) as En.
  { unfold u, v. unfold norm2_2, to_plane, kitti_intrinsics, image_point. cbn. field. }
  assert (-(1331 / 1000) <= u <= 1331 / 1000) as Hu.
  { unfold u. split; [apply Rmult_le_reg_r with (9842439 / 10000); [lra|] | apply Rmult_le_reg_r with (9842439 / 10000); [lra|]];
      replace ((kp_x kp - 690) / (9842439 / 10000) * (9842439 / 10000)) with (kp_x kp - 690) by (field; lra); lra. }
  assert (-(782 / 1000) <= v <= 782 / 1000) as Hv.
  { unfold v. split; [apply Rmult_le_reg_r with (9808141 / 10000); [lra|] | apply Rmult_le_reg_r with (9808141 / 10000); [lra|]];
      replace ((kp_y kp - 2331966 / 10000) / (9808141 / 10000) * (9808141 / 10000)) with (kp_y kp - 2331966 / 10000) by (field; lra); lra. }
  assert (u * u <= 1331 / 1000 * (1331 / 1000)) as Hu2 by nra. assert (v * v <= 782 / 1000 * (782 / 1000)) as Hv2 by nra.
  assert (0 <= u * u) by nra. assert (0 <= v * v) by nra.
  apply k1_pixel_round_trip.
  - split; cbn; lra.
  - cbv zeta. match goal with |- context [norm2_2 ?t] => replace (norm2_2 t) with (u * u + v * v) by (symmetry; exact En) end. change (kitti_k1 Rwidths) with (- (3728755 / 10000000)). lra.
  - cbv zeta. match goal with |- context [norm2_2 ?t] => replace (norm2_2 t) with (u * u + v * v) by (symmetry; exact En) end. change (kitti_k1 Rwidths) with (- (3728755 / 10000000)). intros Hzero. apply Ho. assert (u * u = 0) as U0 by lra. assert (v * v = 0) as V0 by lra.
    apply Rmult_integral in U0. apply Rmult_integral in V0. assert (u = 0) as U by tauto. assert (v = 0) as V by tauto. unfold u in U. unfold v in V. split; lra.
Qed.
Lemma feature_match_spec (m : nat * nat) ka kb : kps_a !! m.1 = Some ka -> kps_b !! m.2 = Some kb ->
  feature_match Rwidths kps_a kps_b m = Ok (calibrate_k1 (kitti_intrinsics Rwidths) (kitti_k1 Rwidths) (image_point Rwidths ka), calibrate_k1 (kitti_intrinsics Rwidths) (kitti_k1 Rwidths) (image_point Rwidths kb)).
Proof. intros Ka Kb. unfold feature_match. etransitivity; [refine (f_equal (fun o => bind o _) (f_equal unwrap Ka))|]. cbn [unwrap bind]. etransitivity; [refine (f_equal (fun o => bind o _) (f_equal unwrap Kb))|]. reflexivity. Qed.
Lemma bearing_line_spec ix ka kb : ka ∈ kps_a -> kb ∈ kps_b ->
  exists s, bearing_line Rwidths Rtrunc hue (b_width image_a) ix (calibrate_k1 (kitti_intrinsics Rwidths) (kitti_k1 Rwidths) (image_point Rwidths ka), calibrate_k1 (kitti_intrinsics Rwidths) (kitti_k1 Rwidths) (image_point Rwidths kb)) = Ok s /\
    in_pixel (kp_x ka) (kp_y ka) (s_from s) /\ in_pixel (INR (b_width image_a) + kp_x kb) (kp_y kb) (s_to s) /\ colored (hue (INR ix / 10)) s.
Proof.
  intros Ia Ib. unfold bearing_line. cbn [fst snd].
  rewrite (kitti_round_trip image_a ka Hfit_a (Hin_a _ Ia) (Hoff_a _ Ia)), (kitti_round_trip image_b kb Hfit_b (Hin_b _ Ib) (Hoff_b _ Ib)). cbn [unwrap bind].
  destruct (ends ka kb Ia Ib) as [(s & Es & Hs) (t & Et & Ht)]. unfold point_tup64, image_point. cbn [px py widen Rwidths double single] in *. rewrite Es. cbn [bind]. rewrite Et. cbn [bind].
  eexists. split; [reflexivity|]. cbn [s_from s_to]. split; [exact Hs|]. split; [exact Ht | apply wheel_color_spec].
Qed.
(** The consensus names matches it was given. *)
Variable consensus : list (rvec3 * rvec3) -> option (riso * list nat).
Lemma chapter5_shows ms bearings pose inliers : all_matches dist ds_a ds_b ms -> tutorial_symmetric_matching knn ds_a ds_b = Ok ms ->
  mapM (feature_match Rwidths kps_a kps_b) ms = Ok bearings -> consensus bearings = Some (pose, inliers) -> (forall i, i ∈ inliers -> (i < length bearings)%nat) ->
  exists c l kept, chapter5 Rwidths Rtrunc hue consensus knn image_a image_b (kps_a, ds_a) (kps_b, ds_b) = Ok ((- vz (trans pose), - vx (trans pose), - vy (trans pose)), c, l) /\
    shows_both image_a image_b c /\ Forall2 (fun i m => ms !! i = Some m) inliers kept /\ lines_of hue (b_width image_a) kps_a kps_b kept l.
Proof.
  intros Hms Em Eb Ec Hin. unfold chapter5. cbn [fst snd]. rewrite Em. cbn [bind]. cbn [double single Rwidths] in *. rewrite Eb. cbn [bind]. rewrite Ec. cbn [unwrap bind].
  apply mapM_ok in Eb as [Lb Hb].
  assert (exists kept kb, mapM (fun i => unwrap (bearings !! i)) inliers = Ok kb /\ Forall2 (fun i m => ms !! i = Some m) inliers kept /\ Forall2 (fun m b => m ∈ ms /\ feature_match Rwidths kps_a kps_b m = Ok b) kept kb) as (kept & kb & Ek & Hkept & Hkb).
  { clear Ec. induction inliers as [|i inliers IH]; [exists [], []; repeat split; constructor|].
    destruct IH as (kept & kb & Ek & H1 & H2); [intros j Hj; apply Hin; right; exact Hj|]. assert (i < length ms)%nat as Hi by (rewrite <- Lb; apply Hin; left).
    destruct (lookup_lt_is_Some_2 _ _ Hi) as [m Hm]. destruct (Hb _ _ Hm) as (b & Hb1 & Hb2). exists (m :: kept), (b :: kb). split; [cbn [mapM]; etransitivity; [refine (f_equal (fun o => bind o _) (f_equal unwrap Hb1))|]; cbn [unwrap bind]; rewrite Ek; reflexivity|].
    split; constructor; auto. split; [eapply elem_of_list_lookup_2, Hm | exact Hb2]. }
  cbn [double single Rwidths] in *. rewrite Ek. cbn [bind]. destruct (side_by_side_shows image_a image_b) as (c & -> & Hc). cbn [bind].
  destruct (enumerated_spec (bearing_line Rwidths Rtrunc hue (b_width image_a)) (fun ix b s => forall m, kept !! ix = Some m -> joins (b_width image_a) kps_a kps_b m s /\ colored (hue (INR ix / 10)) s) kb) as (l & El & Ll & Hl).
  { intros ix b Hkix. destruct (Forall2_lookup_r _ _ _ _ _ Hkb Hkix) as (m & Hm & Hmin & Hf). apply (proj1 Hms) in Hmin. destruct (match_features m Hmin) as (ka & kb' & Ka & Kb).
    rewrite (feature_match_spec m ka kb' Ka Kb) in Hf. injection Hf as <-.
    destruct (bearing_line_spec ix ka kb' (elem_of_list_lookup_2 _ _ _ Ka) (elem_of_list_lookup_2 _ _ _ Kb)) as (s & Es & Hs & Ht & Hcol). exists s. split; [exact Es|].
    intros m' Hm'. rewrite Hm in Hm'. injection Hm' as <-. split; [|exact Hcol]. exists ka, kb'. auto. }
  cbn [double single Rwidths] in *. rewrite El. cbn [bind]. exists c, l, kept. split; [reflexivity|]. split; [exact Hc|]. split; [exact Hkept|].
  pose proof (Forall2_length _ _ _ Hkb) as Lk. split; [congruence|]. intros ix m s Hm Hs.
  assert (ix < length kb)%nat as Hlt by (rewrite <- Lk; eapply lookup_lt_Some, Hm). destruct (lookup_lt_is_Some_2 _ _ Hlt) as [b Hbx]. exact (Hl ix b s Hbx Hs m Hm).
Qed.
End programs.
