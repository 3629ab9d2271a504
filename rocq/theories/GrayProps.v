(** Proofs about blurring, halving and the derivatives over the reals. *)
From Coq Require Import List Arith Lia Bool ZArith Reals Lra SpecFloat.
From Verif Require Import Num LinSpec LinFacts Outcome OutcomeFacts Gray GraySpec GrayFacts GrayReal.
Import ListNotations.
Open Scope R_scope.

(** ** Weighted averages *)
Definition averaging (k : list R) : Prop := (forall i, (i < length k)%nat -> 0 <= nth i k 0) /\ rsum (length k) (fun i => nth i k 0) = 1.
Definition palindrome (k : list R) : Prop := forall i, (i < length k)%nat -> nth (length k - 1 - i) k 0 = nth i k 0.
Lemma correlate_bound (lo hi : R) hk vk g x y : averaging hk -> averaging vk -> (forall X Y, lo <= extended g X Y <= hi) ->
  lo <= correlate hk vk g x y <= hi.
Proof.
  intros [Ph Sh] [Pv Sv] B.
  assert (C : forall c, c = rsum (length vk) (fun j => rsum (length hk) (fun i => nth i hk 0 * nth j vk 0 * c))).
  { intros c. rewrite (rsum_ext _ _ (fun j => nth j vk 0 * c)). - rewrite rsum_scal_r, Sv. ring.
    - intros j Hj. rewrite (rsum_ext _ _ (fun i => nth i hk 0 * (nth j vk 0 * c))) by (intros; ring). rewrite rsum_scal_r, Sh. ring. }
  unfold correlate. split; [rewrite (C lo)|rewrite (C hi)]; apply rsum_le; intros j Hj; apply rsum_le; intros i Hi; apply Rmult_le_compat_l;
    try (apply Rmult_le_pos; auto); apply B. Qed.
Lemma clamped_mirror w X : (0 < w)%nat -> clamped w (Z.of_nat w - 1 - X) = (w - 1 - clamped w X)%nat.
Proof. intros H. unfold clamped. lia. Qed.
Lemma offset_mirror {A} (k : list A) i : (length k mod 2 = 1)%nat -> (i < length k)%nat -> offset k (length k - 1 - i) = (- offset k i)%Z.
Proof. intros K Hi. pose proof (odd_half _ K). unfold offset. lia. Qed.
Lemma correlate_mirror w h hk vk (g g' : gray RNum) x y : (length hk mod 2 = 1)%nat -> palindrome hk -> sized w h g -> mirrored g g' -> (x < w)%nat -> (y < h)%nat ->
  correlate hk vk g' x y = correlate hk vk g (w - 1 - x) y.
Proof.
  intros K P S M Hx Hy. unfold correlate. apply rsum_ext. intros j Hj. rewrite <- (rsum_rev (length hk)). apply rsum_ext. intros i Hi. rewrite P by exact Hi. rewrite offset_mirror by assumption. f_equal.
  unfold mirrored in M. destruct S as (W & H & _). rewrite W, H in M. rewrite (extended_of _ _ _ _ _ _ M) by lia. unfold extended. rewrite W, H. f_equal.
  rewrite <- clamped_mirror by lia. f_equal. lia. Qed.
Lemma correlate_flip w h hk vk (g g' : gray RNum) x y : (length vk mod 2 = 1)%nat -> palindrome vk -> sized w h g -> flipped g g' -> (x < w)%nat -> (y < h)%nat ->
  correlate hk vk g' x y = correlate hk vk g x (h - 1 - y).
Proof.
  intros K P S M Hx Hy. unfold correlate. rewrite <- (rsum_rev (length vk)). apply rsum_ext. intros j Hj. apply rsum_ext. intros i Hi. rewrite P by exact Hj. rewrite (offset_mirror vk) by assumption. f_equal.
  unfold flipped in M. destruct S as (W & H & _). rewrite W, H in M. rewrite (extended_of _ _ _ _ _ _ M) by lia. unfold extended. rewrite W, H. f_equal.
  rewrite <- clamped_mirror by lia. f_equal. lia. Qed.

(** ** The Gaussian *)
Lemma bell_pos r z : 0 < bell r z.
Proof. apply exp_pos. Qed.
Lemma bell_even r z : bell r (- z) = bell r z.
Proof. unfold bell. rewrite opp_IZR. f_equal. f_equal. ring. Qed.
Lemma gaussian_bell (r : R) z : @gaussian RNum Rmath (IZR z) r = 1 / (sqrt (2 * PI) * r) * bell r z.
Proof. reflexivity. Qed.
Lemma gaussian_kernel_weights (r : R) n : 0 < r ->
  @gaussian_kernel RNum Rmath r (n * 2 + 1) = Ok (map (gauss_weight r n) (seq 0 (2 * n + 1))).
Proof.
  intros Hr. unfold gaussian_kernel. replace ((n * 2 + 1) mod 2)%nat with 1%nat by (rewrite Nat.add_comm, Nat.mod_add by lia; reflexivity). cbn [Nat.eqb assert_].
  replace ((n * 2 + 1) / 2)%nat with n by (rewrite Nat.div_add_l by lia; cbn; lia). replace (n * 2 + 1)%nat with (2 * n + 1)%nat by lia.
  f_equal. rewrite map_map. apply map_ext. intros i.
  change (fold_left add (map (fun i => @gaussian RNum Rmath (ofZ (Z.of_nat i - Z.of_nat n)) r) (seq 0 (2 * n + 1))) zero) with
    (fold_left Rplus (map (fun i => @gaussian RNum Rmath (IZR (Z.of_nat i - Z.of_nat n)) r) (seq 0 (2 * n + 1))) 0).
  rewrite fold_left_rsum. rewrite (rsum_ext _ _ (fun j => 1 / (sqrt (2 * PI) * r) * bell r (Z.of_nat j - Z.of_nat n))) by (intros; apply gaussian_bell).
  rewrite rsum_scal. change (@gaussian RNum Rmath (ofZ (Z.of_nat i - Z.of_nat n)) r) with (@gaussian RNum Rmath (IZR (Z.of_nat i - Z.of_nat n)) r). rewrite gaussian_bell.
  assert (0 < rsum (2 * n + 1) (fun j => bell r (Z.of_nat j - Z.of_nat n))) by (apply rsum_pos; [lia|intros; apply bell_pos]).
  assert (0 < sqrt (2 * PI)) by (apply sqrt_lt_R0; pose proof PI_RGT_0; lra).
  unfold gauss_weight. rnum. rewrite Rplus_0_l. field. repeat split; lra. Qed.
Lemma gauss_averaging r n : averaging (map (gauss_weight r n) (seq 0 (2 * n + 1))).
Proof.
  assert (0 < rsum (2 * n + 1) (fun j => bell r (Z.of_nat j - Z.of_nat n))) by (apply rsum_pos; [lia|intros; apply bell_pos]).
  split; rewrite map_length, seq_length.
  - intros i Hi. rewrite nth_map_seq by lia. unfold gauss_weight. apply Rlt_le, Rdiv_lt_0_compat; [apply bell_pos|assumption].
  - rewrite (rsum_ext _ _ (gauss_weight r n)) by (intros; now rewrite nth_map_seq by lia). unfold gauss_weight, Rdiv. rewrite rsum_scal_r. field. lra. Qed.
Lemma gauss_palindrome r n : palindrome (map (gauss_weight r n) (seq 0 (2 * n + 1))).
Proof. intros i. rewrite map_length, seq_length. intros Hi. rewrite !nth_map_seq by lia. unfold gauss_weight. cbn [Nat.add]. f_equal. rewrite <- bell_even. f_equal. lia. Qed.
Definition blur_radius (r : R) : nat := Z.to_nat (Rceil (2 * r)).
Lemma Rtrunc_IZR z : Rtrunc (IZR z) = z.
Proof. assert (K : forall a, Int_part (IZR a) = a) by (intros a; unfold Int_part; rewrite <- (tech_up (IZR a) (a + 1)); [lia| |]; rewrite plus_IZR; lra).
  unfold Rtrunc. destruct (Rle_dec 0 (IZR z)); [apply K|]. rewrite <- opp_IZR, K. lia. Qed.
Lemma gaussian_blur_correlates w h (g : gray RNum) (r : R) : sized w h g -> (0 < w)%nat -> (0 < h)%nat -> 0 < r ->
  exists out, @gaussian_blur RNum Rmath g r = Ok out /\
    image_of w h (correlate (map (gauss_weight r (blur_radius r)) (seq 0 (2 * blur_radius r + 1))) (map (gauss_weight r (blur_radius r)) (seq 0 (2 * blur_radius r + 1))) g) out.
Proof.
  intros S Hw Hh Hr. unfold gaussian_blur. cbn [ltb RNum zero]. unfold Rltb. destruct (Rlt_dec 0 r) as [_|]; [|lra]. cbn [assert_].
  replace (to_usize Rmath (m_ceil Rmath (@mul RNum two r))) with (blur_radius r).
  2:{ unfold to_usize, blur_radius. cbn [m_trunc m_ceil Rmath]. rewrite Rtrunc_IZR. reflexivity. }
  change (@gaussian_kernel RNum Rmath r (blur_radius r * 2 + 1)) with (@gaussian_kernel RNum Rmath r (blur_radius r * 2 + 1)).
  rewrite gaussian_kernel_weights by exact Hr. cbn [bind]. apply separable_correlates; auto; rewrite map_length, seq_length; rewrite Nat.add_comm, Nat.mul_comm, Nat.mod_add by lia; reflexivity. Qed.
Lemma blur_radius_ceil r : 0 < r -> 2 * r <= INR (blur_radius r) < 2 * r + 1 /\ (1 <= blur_radius r)%nat.
Proof.
  intros Hr. unfold blur_radius. assert (B : 2 * r <= IZR (Rceil (2 * r)) < 2 * r + 1) by (unfold Rceil; rewrite opp_IZR; destruct (base_Int_part (- (2 * r))); lra).
  assert (0 < Rceil (2 * r))%Z by (apply lt_IZR; lra). rewrite INR_IZR_INZ, Z2Nat.id by lia. split; [exact B|lia]. Qed.

(** C18. *)
Section blur.
Variables (w h : nat) (g : gray RNum) (r : R).
Hypotheses (S : sized w h g) (Hw : (0 < w)%nat) (Hh : (0 < h)%nat) (Hr : 0 < r).
Let K := map (gauss_weight r (blur_radius r)) (seq 0 (2 * blur_radius r + 1)).
Lemma K_odd : (length K mod 2 = 1)%nat.
Proof. unfold K. rewrite map_length, seq_length, Nat.add_comm, Nat.mul_comm, Nat.mod_add by lia. reflexivity. Qed.
Lemma blur_within lo hi : within lo hi g -> exists out, @gaussian_blur RNum Rmath g r = Ok out /\ sized w h out /\ within lo hi out.
Proof. intros B. destruct (gaussian_blur_correlates w h g r S Hw Hh Hr) as (out & E & Sz & P). exists out. split; [exact E|]. split; [exact Sz|].
  intros x y. destruct Sz as (W & H & _). rewrite W, H. intros Hx Hy. rewrite P by assumption. apply correlate_bound; try apply gauss_averaging.
  intros X Y. unfold extended. apply B; apply clamped_lt; destruct S as (A1 & A2 & _); rewrite ?A1, ?A2; assumption. Qed.
Lemma blur_mirror g' : mirrored g g' -> exists out out', @gaussian_blur RNum Rmath g r = Ok out /\ @gaussian_blur RNum Rmath g' r = Ok out' /\ mirrored out out'.
Proof. intros M. destruct (gaussian_blur_correlates w h g r S Hw Hh Hr) as (out & E & Sz & P). exists out.
  assert (S' : sized w h g') by (unfold mirrored in M; destruct S as (W & H & _); rewrite W, H in M; apply M).
  destruct (gaussian_blur_correlates w h g' r S' Hw Hh Hr) as (out' & E' & Sz' & P'). exists out'. split; [exact E|]. split; [exact E'|].
  unfold mirrored. destruct Sz as (W & H & D). rewrite W, H. split; [exact Sz'|]. intros x y Hx Hy. rewrite P', P by lia. apply correlate_mirror with (h := h); auto. apply K_odd. apply gauss_palindrome. Qed.
Lemma blur_flip g' : flipped g g' -> exists out out', @gaussian_blur RNum Rmath g r = Ok out /\ @gaussian_blur RNum Rmath g' r = Ok out' /\ flipped out out'.
Proof. intros M. destruct (gaussian_blur_correlates w h g r S Hw Hh Hr) as (out & E & Sz & P). exists out.
  assert (S' : sized w h g') by (unfold flipped in M; destruct S as (W & H & _); rewrite W, H in M; apply M).
  destruct (gaussian_blur_correlates w h g' r S' Hw Hh Hr) as (out' & E' & Sz' & P'). exists out'. split; [exact E|]. split; [exact E'|].
  unfold flipped. destruct Sz as (W & H & D). rewrite W, H. split; [exact Sz'|]. intros x y Hx Hy. rewrite P', P by lia. apply correlate_flip with (w := w); auto. apply K_odd. apply gauss_palindrome. Qed.
Lemma blur_spec : exists out k, @gaussian_blur RNum Rmath g r = Ok out /\ image_of w h (correlate k k g) out /\
    exists n, (1 <= n)%nat /\ 2 * r <= INR n < 2 * r + 1 /\ length k = (2 * n + 1)%nat /\ forall i, (i < 2 * n + 1)%nat -> nth i k 0 = gauss_weight r n i.
Proof. destruct (gaussian_blur_correlates w h g r S Hw Hh Hr) as (out & E & P). exists out, K. split; [exact E|]. split; [exact P|].
  destruct (blur_radius_ceil r Hr). exists (blur_radius r). repeat split; try tauto; try lra.
  - unfold K. now rewrite map_length, seq_length.
  - intros i Hi. unfold K. now rewrite nth_map_seq by lia. Qed.
End blur.
Lemma blur_constant w h c (g : gray RNum) (r : R) : (0 < w)%nat -> (0 < h)%nat -> 0 < r -> constant_image w h c g ->
  exists out, @gaussian_blur RNum Rmath g r = Ok out /\ constant_image w h c out.
Proof. intros Hw Hh Hr [S P]. destruct (blur_within w h g r S Hw Hh Hr c c) as (out & E & Sz & B).
  - intros x y. destruct S as (W & H & _). rewrite W, H. intros Hx Hy. rewrite P by assumption. lra.
  - exists out. split; [exact E|]. split; [exact Sz|]. intros x y Hx Hy. specialize (B x y). destruct Sz as (W & H & _). rewrite W, H in B. specialize (B Hx Hy). lra. Qed.
Lemma blur_nonpositive (g : gray RNum) (r : R) : r <= 0 -> @gaussian_blur RNum Rmath g r = Panic.
Proof. intros H. unfold gaussian_blur. cbn [ltb RNum zero]. unfold Rltb. destruct (Rlt_dec 0 r); [lra|reflexivity]. Qed.

(** ** C17 in binary32: a value outside the reach of the kernel spoils the result. *)
Lemma filter_reach_refuted :
  exists (g : gray F32) (kernel : list F32) out, sized 2 1 g /\ length kernel = 1%nat /\ horizontal_filter g kernel = Ok out /\
    isnan (pixel g 0 0) = false /\ isnan (nth 0 kernel zero) = false /\ isnan (pixel out 0 0) = true.
Proof.
  exists (Gray 2 1 [@one F32; S754_infinity false]), [@one F32].
  destruct (horizontal_filter_image 2 1 (Gray 2 1 [@one F32; S754_infinity false]) [@one F32]) as (out & E & Sz & P); [reflexivity|lia|repeat split|].
  exists out. split; [repeat split|]. split; [reflexivity|]. split; [exact E|]. split; [vm_compute; reflexivity|]. split; [vm_compute; reflexivity|].
  rewrite P by lia. vm_compute. reflexivity. Qed.
Lemma even_kernel_panics (g : gray RNum) kernel : (length kernel mod 2 <> 1)%nat -> @horizontal_filter RNum g kernel = Panic /\ @vertical_filter RNum g kernel = Panic.
Proof. intros H. unfold horizontal_filter, vertical_filter. replace (length kernel mod 2 =? 1)%nat with false by (symmetry; now apply Nat.eqb_neq). split; reflexivity. Qed.

(** ** C25: halving *)
Lemma half_twice n : negb (n / 2 * 2 =? n)%nat = Nat.odd n.
Proof. pose proof (Nat.div2_odd n) as H. rewrite Nat.div2_div in H. destruct (Nat.odd n); cbn [Nat.b2n] in H; destruct (Nat.eqb_spec (n / 2 * 2) n); cbn [negb]; try reflexivity; lia. Qed.
Lemma half_size_image w h (g : gray RNum) : sized w h g -> (2 <= w)%nat -> (2 <= h)%nat ->
  exists out, @half_size RNum g = Ok out /\ image_of (w / 2) (h / 2) (half_value w h (pixel g)) out.
Proof.
  intros (W & H & D) Hw Hh. unfold half_size. rewrite W, H, !half_twice.
  assert (1 <= w / 2)%nat by (apply (Nat.div_le_mono 2 w 2); lia). assert (1 <= h / 2)%nat by (apply (Nat.div_le_mono 2 h 2); lia).
  replace (h / 2 =? 0)%nat with false by (symmetry; apply Nat.eqb_neq; lia). replace (w / 2 =? 0)%nat with false by (symmetry; apply Nat.eqb_neq; lia).
  assert (Q : forall a : R, a * (1 / 4) = a / 4) by (intros; field). assert (T : forall a : R, a * (1 / 2) = a / 2) by (intros; field).
  destruct (Nat.odd w) eqn:OW, (Nat.odd h) eqn:OH; cbn [bind andb]; (eexists; split; [reflexivity|]); (split; [apply of_fn_sized|]); intros x y Hx Hy;
    rewrite !pixel_of_fn by assumption; unfold half_value; rewrite OW, OH; cbn [andb];
    repeat match goal with |- context [(x =? ?k)%nat] => destruct (x =? k)%nat | |- context [(y =? ?k)%nat] => destruct (y =? k)%nat end; cbn [andb];
    unfold lit; cbn [ofZ mul div add RNum]; first [apply Q|apply T|reflexivity]. Qed.
Lemma half_size_small w h (g : gray RNum) : sized w h g -> w = 1%nat \/ h = 1%nat -> @half_size RNum g = Panic.
Proof. intros (W & H & D) O. unfold half_size. rewrite W, H, !half_twice. destruct O as [-> | ->].
  - change (Nat.odd 1) with true. change (1 / 2)%nat with 0%nat. cbn [Nat.eqb]. destruct (Nat.odd h); [destruct (h / 2 =? 0)%nat|]; reflexivity.
  - change (Nat.odd 1) with true. change (1 / 2)%nat with 0%nat. reflexivity. Qed.
Lemma half_index w x : (x < w / 2)%nat -> (2 * x + 1 < w)%nat.
Proof. intros H. pose proof (Nat.div_mod w 2). lia. Qed.
Lemma half_value_within w h p lo hi x y : (2 <= w)%nat -> (2 <= h)%nat -> (forall x y, (x < w)%nat -> (y < h)%nat -> lo <= p x y <= hi) -> (x < w / 2)%nat -> (y < h / 2)%nat ->
  lo <= half_value w h p x y <= hi.
Proof. intros Hw Hh B Hx Hy. pose proof (half_index w x Hx). pose proof (half_index h y Hy). unfold half_value.
  destruct (Nat.odd w && (x =? w / 2 - 1)%nat), (Nat.odd h && (y =? h / 2 - 1)%nat).
  - apply B; lia.
  - pose proof (B (w - 1)%nat (2 * y)%nat). pose proof (B (w - 1)%nat (2 * y + 1)%nat). assert (w - 1 < w)%nat by lia. assert (2 * y < h)%nat by lia. intuition lra.
  - pose proof (B (2 * x)%nat (h - 1)%nat). pose proof (B (2 * x + 1)%nat (h - 1)%nat). assert (h - 1 < h)%nat by lia. assert (2 * x < w)%nat by lia. intuition lra.
  - assert (2 * x < w)%nat by lia. assert (2 * y < h)%nat by lia.
    pose proof (B (2 * x)%nat (2 * y)%nat). pose proof (B (2 * x + 1)%nat (2 * y)%nat). pose proof (B (2 * x)%nat (2 * y + 1)%nat). pose proof (B (2 * x + 1)%nat (2 * y + 1)%nat). intuition lra. Qed.
Lemma half_within w h (g : gray RNum) lo hi : sized w h g -> (2 <= w)%nat -> (2 <= h)%nat -> within lo hi g ->
  exists out, @half_size RNum g = Ok out /\ sized (w / 2) (h / 2) out /\ within lo hi out.
Proof. intros S Hw Hh B. destruct (half_size_image w h g S Hw Hh) as (out & E & Sz & P). exists out. split; [exact E|]. split; [exact Sz|].
  intros x y. destruct Sz as (W & H & _). rewrite W, H. intros Hx Hy. rewrite P by assumption. apply half_value_within; auto. destruct S as (W' & H' & _). intros a b Ha Hb. apply B; lia. Qed.
Lemma half_constant w h c (g : gray RNum) : (2 <= w)%nat -> (2 <= h)%nat -> constant_image w h c g ->
  exists out, @half_size RNum g = Ok out /\ constant_image (w / 2) (h / 2) c out.
Proof. intros Hw Hh [S P]. destruct (half_within w h g c c S Hw Hh) as (out & E & Sz & B).
  - intros x y. destruct S as (W & H & _). rewrite W, H. intros Hx Hy. rewrite P by assumption. lra.
  - exists out. split; [exact E|]. split; [exact Sz|]. intros x y Hx Hy. specialize (B x y). destruct Sz as (W & H & _). rewrite W, H in B. specialize (B Hx Hy). lra. Qed.
Lemma half_total w h (g : gray RNum) : sized (2 * w) (2 * h) g -> (1 <= w)%nat -> (1 <= h)%nat ->
  exists out, @half_size RNum g = Ok out /\ sized w h out /\ total g = 4 * total out.
Proof.
  intros S Hw Hh. destruct (half_size_image (2 * w) (2 * h) g S) as (out & E & Sz & P); [lia|lia|].
  assert (DW : forall n, (2 * n / 2)%nat = n) by (intros n; rewrite Nat.mul_comm; apply Nat.div_mul; lia). rewrite !DW in *.
  exists out. split; [exact E|]. split; [exact Sz|]. unfold total. destruct S as (W & H & _), Sz as (W' & H' & _). rewrite W, H, W', H'. rewrite <- rsum_scal, <- rsum_pairs. apply rsum_ext. intros y Hy.
  rewrite <- rsum_scal, <- rsum_plus. rewrite <- rsum_pairs. apply rsum_ext. intros x Hx. rewrite P by assumption. unfold half_value. rewrite !Nat.odd_mul. change (Nat.odd 2) with false. cbn [andb]. field. Qed.
Lemma half_odd_loses : exists g : gray RNum, sized 3 3 g /\ within 0 1 g /\ total g = 8 /\ exists out, @half_size RNum g = Ok out /\ constant_image 1 1 0 out.
Proof.
  exists (Gray (N := RNum) 3 3 [1; 1; 1; 1; 1; 1; 1; 1; 0]). split; [repeat split|]. split; [|split].
  - intros x y Hx Hy. cbn in Hx, Hy. destruct x as [|[|[|]]], y as [|[|[|]]]; try lia; cbn; lra.
  - unfold total. cbn. lra.
  - destruct (half_size_image 3 3 (Gray (N := RNum) 3 3 [1; 1; 1; 1; 1; 1; 1; 1; 0])) as (out & E & Sz & P); [repeat split|lia|lia|]. exists out. split; [exact E|]. split; [exact Sz|].
    intros x y Hx Hy. rewrite P by assumption. cbn in Hx, Hy. replace x with 0%nat by lia. replace y with 0%nat by lia. reflexivity. Qed.

(** ** C46: Scharr *)
Lemma rsum_single n k c : (k < n)%nat -> rsum n (fun i => if (i =? k)%nat then c else 0) = c.
Proof. intros H. induction n as [|n IH]; [lia|]. cbn [rsum]. destruct (Nat.eqb_spec n k) as [->|NE].
  - rewrite rsum_zero; [ring|]. intros i Hi. now replace (i =? k)%nat with false by (symmetry; apply Nat.eqb_neq; lia).
  - rewrite IH by lia. ring. Qed.
Lemma rsum_pick n k F : (k < n)%nat -> rsum n (fun i => (if (i =? k)%nat then 1 else 0) * F i) = F k.
Proof. intros H. rewrite <- (rsum_single n k (F k) H). apply rsum_ext. intros i Hi. destruct (Nat.eqb_spec i k); subst; ring. Qed.
Lemma nth_of_error (l : list R) i v : nth_error l i = Some v -> nth i l 0 = v.
Proof. intros H. now apply nth_error_nth. Qed.
Lemma nth_write (b : list R) i v : (i < length b)%nat -> exists b', write b i v = Ok b' /\ length b' = length b /\ forall j, (j < length b)%nat -> nth j b' 0 = if (j =? i)%nat then v else nth j b 0.
Proof. intros H. destruct (write_spec b i v H) as (b' & E & L & P). exists b'. split; [exact E|]. split; [exact L|]. intros j Hj. specialize (P j).
  destruct (j =? i)%nat; [now apply nth_of_error|]. rewrite (nth_error_nth' b 0) in P by exact Hj. now apply nth_of_error. Qed.
Lemma scharr_main_sum s : (1 <= s)%nat -> exists k : list R, @scharr_main RNum s = Ok k /\ length k = (2 * s + 1)%nat /\
  forall F, rsum (length k) (fun i => nth i k 0 * F i) = F (2 * s)%nat - F 0%nat.
Proof.
  intros Hs. unfold scharr_main. replace (s =? 0)%nat with false by (symmetry; apply Nat.eqb_neq; lia). replace (3 + 2 * (s - 1))%nat with (2 * s + 1)%nat by lia.
  destruct (nth_write (repeat 0 (2 * s + 1)) 0 (- (1))) as (k1 & E1 & L1 & P1); [rewrite repeat_length; lia|]. rewrite repeat_length in *.
  destruct (nth_write k1 (2 * s + 1 - 1) 1) as (k2 & E2 & L2 & P2); [lia|]. exists k2. split.
  - change (bind (write (repeat 0 (2 * s + 1)) 0 (- (1))) (fun k => write k (2 * s + 1 - 1) 1) = Ok k2). rewrite E1. exact E2.
  - split; [lia|]. intros F. rewrite L2, L1. rewrite (rsum_ext _ _ (fun i => (if (i =? 2 * s)%nat then 1 else 0) * F i - (if (i =? 0)%nat then 1 else 0) * F i)).
    + rewrite rsum_minus, !rsum_pick by lia. reflexivity.
    + intros i Hi. rewrite P2, P1 by lia. replace (2 * s + 1 - 1)%nat with (2 * s)%nat by lia. rewrite nth_repeat' by lia. destruct (Nat.eqb_spec i (2 * s)), (Nat.eqb_spec i 0); try lia; ring. Qed.
Lemma scharr_off_sum s : (1 <= s)%nat -> exists k : list R, @scharr_off RNum s = Ok k /\ length k = (2 * s + 1)%nat /\
  forall F, rsum (length k) (fun i => nth i k 0 * F i) = 1 / (32 * INR s) * (3 * F 0%nat + 10 * F s + 3 * F (2 * s)%nat).
Proof.
  intros Hs. unfold scharr_off. replace (s =? 0)%nat with false by (symmetry; apply Nat.eqb_neq; lia). replace (3 + 2 * (s - 1))%nat with (2 * s + 1)%nat by lia.
  replace ((2 * s + 1) / 2)%nat with s by (rewrite Nat.mul_comm, Nat.div_add_l by lia; cbn; lia).
  assert (HS : 0 < INR s) by (apply lt_0_INR; lia).
  set (norm := @div RNum one (mul (mul two (ofZ (Z.of_nat s))) (add (lit 10 3) two))). assert (NV : norm = 3 / (32 * INR s)).
  { unfold norm, lit, two. rnum. rewrite <- INR_IZR_INZ. field. lra. }
  set (mid := @mul RNum norm (lit 10 3)). assert (MV : mid = 10 / (32 * INR s)). { unfold mid. rewrite NV. unfold lit. rnum. field. lra. }
  destruct (nth_write (repeat 0 (2 * s + 1)) 0 norm) as (k1 & E1 & L1 & P1); [rewrite repeat_length; lia|]. rewrite repeat_length in *.
  destruct (nth_write k1 s mid) as (k2 & E2 & L2 & P2); [lia|].
  destruct (nth_write k2 (2 * s + 1 - 1) norm) as (k3 & E3 & L3 & P3); [lia|]. exists k3. split.
  - change (bind (write (repeat 0 (2 * s + 1)) 0 norm) (fun k => bind (write k s mid) (fun k => write k (2 * s + 1 - 1) norm)) = Ok k3). rewrite E1. cbn [bind]. rewrite E2. exact E3.
  - split; [lia|]. intros F. rewrite L3, L2, L1. rewrite (rsum_ext _ _ (fun i => norm * ((if (i =? 0)%nat then 1 else 0) * F i) + mid * ((if (i =? s)%nat then 1 else 0) * F i) + norm * ((if (i =? 2 * s)%nat then 1 else 0) * F i))).
    + rewrite !rsum_plus, !rsum_scal, !rsum_pick by lia. rewrite NV, MV. field. lra.
    + intros i Hi. rewrite P3, P2, P1 by lia. replace (2 * s + 1 - 1)%nat with (2 * s)%nat by lia. rewrite nth_repeat' by lia.
      destruct (Nat.eqb_spec i (2 * s)), (Nat.eqb_spec i s), (Nat.eqb_spec i 0); try lia; ring. Qed.
Lemma offset_ends (k : list R) s : length k = (2 * s + 1)%nat -> offset k 0 = (- Z.of_nat s)%Z /\ offset k s = 0%Z /\ offset k (2 * s) = Z.of_nat s.
Proof. intros L. unfold offset. rewrite L. replace ((2 * s + 1) / 2)%nat with s by (rewrite Nat.mul_comm, Nat.div_add_l by lia; cbn; lia). lia. Qed.
Lemma length_odd (k : list R) s : length k = (2 * s + 1)%nat -> (length k mod 2 = 1)%nat.
Proof. intros ->. rewrite Nat.add_comm, Nat.mul_comm, Nat.mod_add by lia. reflexivity. Qed.
Lemma correlate_factor hk vk g x y : correlate hk vk g x y =
  rsum (length vk) (fun j => nth j vk 0 * rsum (length hk) (fun i => nth i hk 0 * extended g (Z.of_nat x + offset hk i) (Z.of_nat y + offset vk j))).
Proof. unfold correlate. apply rsum_ext. intros j Hj. rewrite <- rsum_scal. apply rsum_ext. intros. ring. Qed.
Lemma correlate_factor' hk vk g x y : correlate hk vk g x y =
  rsum (length hk) (fun i => nth i hk 0 * rsum (length vk) (fun j => nth j vk 0 * extended g (Z.of_nat x + offset hk i) (Z.of_nat y + offset vk j))).
Proof. unfold correlate. rewrite rsum_swap. apply rsum_ext. intros i Hi. rewrite <- rsum_scal. apply rsum_ext. intros. ring. Qed.
Section scharr.
Variables (w h : nat) (g : gray RNum) (s : nat).
Hypotheses (S : sized w h g) (Hw : (0 < w)%nat) (Hh : (0 < h)%nat) (Hs : (1 <= s)%nat).
Lemma scharr_x_kernel main off c : length main = (2 * s + 1)%nat -> length off = (2 * s + 1)%nat ->
  (forall F, rsum (length main) (fun i => nth i main 0 * F i) = F (2 * s)%nat - F 0%nat) ->
  (forall F, rsum (length off) (fun i => nth i off 0 * F i) = c * (3 * F 0%nat + 10 * F s + 3 * F (2 * s)%nat)) -> c = scharr_gain s ->
  (forall x y, correlate main off g x y = scharr_x g s x y) /\ (forall x y, correlate off main g x y = scharr_y g s x y).
Proof.
  intros L1 L2 F1 F2 ->. destruct (offset_ends main s L1) as (M0 & M1 & M2). destruct (offset_ends off s L2) as (O0 & O1 & O2). split; intros x y.
  - rewrite correlate_factor. rewrite (F2 (fun j => rsum (length main) (fun i => nth i main 0 * extended g (Z.of_nat x + offset main i) (Z.of_nat y + offset off j)))).
    rewrite !(F1 (fun i => extended g (Z.of_nat x + offset main i) _)). rewrite M0, M2, O0, O1, O2. unfold scharr_x, across. rewrite !Z.add_0_r, !Z.add_opp_r. reflexivity.
  - rewrite correlate_factor'. rewrite (F2 (fun i => rsum (length main) (fun j => nth j main 0 * extended g (Z.of_nat x + offset off i) (Z.of_nat y + offset main j)))).
    rewrite !(F1 (fun j => extended g _ (Z.of_nat y + offset main j))). rewrite M0, M2, O0, O1, O2. unfold scharr_y, down. rewrite !Z.add_0_r, !Z.add_opp_r. reflexivity. Qed.
Lemma scharr_kernels : exists main off, length main = (2 * s + 1)%nat /\ length off = (2 * s + 1)%nat /\
  @scharr_horizontal RNum g s = @separable_filter RNum g main off /\ @scharr_vertical RNum g s = @separable_filter RNum g off main /\
  (forall x y, correlate main off g x y = scharr_x g s x y) /\ (forall x y, correlate off main g x y = scharr_y g s x y).
Proof.
  unfold scharr_horizontal, scharr_vertical. destruct (Nat.eqb_spec s 1) as [E|NE].
  - exists [- (1); 0; 1], [3; 10; 3]. split; [rewrite E; reflexivity|]. split; [rewrite E; reflexivity|]. split; [reflexivity|]. split; [reflexivity|].
    apply (scharr_x_kernel [- (1); 0; 1] [3; 10; 3] 1); try (rewrite E; reflexivity); try (intros F; rewrite E; cbn [length rsum nth Nat.mul Nat.add]; ring).
  - destruct (scharr_main_sum s Hs) as (main & E1 & L1 & F1). destruct (scharr_off_sum s Hs) as (off & E2 & L2 & F2). exists main, off. split; [exact L1|]. split; [exact L2|].
    rewrite E1, E2. split; [reflexivity|]. split; [reflexivity|]. apply (scharr_x_kernel main off (1 / (32 * INR s))); auto. unfold scharr_gain. now replace (s =? 1)%nat with false by (symmetry; now apply Nat.eqb_neq). Qed.
Lemma scharr_image : exists gx gy, @scharr_horizontal RNum g s = Ok gx /\ @scharr_vertical RNum g s = Ok gy /\ image_of w h (scharr_x g s) gx /\ image_of w h (scharr_y g s) gy.
Proof.
  destruct scharr_kernels as (main & off & L1 & L2 & -> & -> & X & Y). pose proof (length_odd _ _ L1). pose proof (length_odd _ _ L2).
  destruct (separable_correlates w h g main off) as (gx & E1 & S1 & P1); auto. destruct (separable_correlates w h g off main) as (gy & E2 & S2 & P2); auto.
  exists gx, gy. split; [exact E1|]. split; [exact E2|]. split; (split; [assumption|]); intros x y Hx Hy; [rewrite P1, X by assumption|rewrite P2, Y by assumption]; reflexivity. Qed.
End scharr.
Lemma simple_is_unit (g : gray RNum) : @simple_scharr_horizontal RNum g = @scharr_horizontal RNum g 1 /\ @simple_scharr_vertical RNum g = @scharr_vertical RNum g 1.
Proof. split; reflexivity. Qed.
Lemma scharr_zero (g : gray RNum) : (@scharr_horizontal RNum g 0 = Panic /\ @scharr_vertical RNum g 0 = Panic).
Proof. split; reflexivity. Qed.
Lemma scharr_constant w h c (g : gray RNum) s : constant_image w h c g -> (0 < w)%nat -> (0 < h)%nat -> (1 <= s)%nat ->
  exists gx gy, @scharr_horizontal RNum g s = Ok gx /\ @scharr_vertical RNum g s = Ok gy /\ constant_image w h 0 gx /\ constant_image w h 0 gy.
Proof.
  intros C Hw Hh Hs. destruct (scharr_image w h g s (proj1 C) Hw Hh Hs) as (gx & gy & E1 & E2 & (S1 & P1) & S2 & P2). exists gx, gy. split; [exact E1|]. split; [exact E2|].
  assert (E : forall X Y, extended g X Y = c) by (intros; now rewrite (extended_of _ _ _ _ _ _ C) by assumption).
  split; (split; [assumption|]); intros x y Hx Hy; [rewrite P1 by assumption; unfold scharr_x, across|rewrite P2 by assumption; unfold scharr_y, down]; rewrite !E; rring. Qed.
Lemma scharr_ramp w h a b c (g : gray RNum) s : ramp w h a b c g -> (0 < w)%nat -> (0 < h)%nat -> (1 <= s)%nat ->
  exists gx gy, @scharr_horizontal RNum g s = Ok gx /\ @scharr_vertical RNum g s = Ok gy /\ sized w h gx /\ sized w h gy /\
    (forall x y, (s <= x)%nat -> (x + s < w)%nat -> (y < h)%nat -> pixel gx x y = (if (s =? 1)%nat then 32 else 1) * b) /\
    (forall x y, (x < w)%nat -> (s <= y)%nat -> (y + s < h)%nat -> pixel gy x y = (if (s =? 1)%nat then 32 else 1) * c).
Proof.
  intros C Hw Hh Hs. destruct (scharr_image w h g s (proj1 C) Hw Hh Hs) as (gx & gy & E1 & E2 & (S1 & P1) & S2 & P2). exists gx, gy. split; [exact E1|]. split; [exact E2|]. split; [exact S1|]. split; [exact S2|].
  assert (E : forall X Y, extended g X Y = a + b * INR (clamped w X) + c * INR (clamped h Y)) by (intros; now rewrite (extended_of _ _ _ _ _ _ C) by assumption).
  assert (G : scharr_gain s * 32 * INR s = (if (s =? 1)%nat then 32 else 1)).
  { unfold scharr_gain. destruct (Nat.eqb_spec s 1) as [->|NE]; [cbn; ring|]. assert (0 < INR s) by (apply lt_0_INR; lia). field. lra. }
  split; intros x y.
  - intros Hx Hx' Hy. rewrite P1 by lia. unfold scharr_x, across. rewrite !E. replace (clamped w (Z.of_nat x + Z.of_nat s)) with (x + s)%nat by (unfold clamped; lia).
    replace (clamped w (Z.of_nat x - Z.of_nat s)) with (x - s)%nat by (unfold clamped; lia). rewrite plus_INR, minus_INR by lia. rewrite <- G. rring.
  - intros Hx Hy Hy'. rewrite P2 by lia. unfold scharr_y, down. rewrite !E. replace (clamped h (Z.of_nat y + Z.of_nat s)) with (y + s)%nat by (unfold clamped; lia).
    replace (clamped h (Z.of_nat y - Z.of_nat s)) with (y - s)%nat by (unfold clamped; lia). rewrite plus_INR, minus_INR by lia. rewrite <- G. rring. Qed.
