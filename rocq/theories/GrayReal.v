(** The filters of akaze/src/image.rs over the reals are correlations. *)
From Coq Require Import List Arith Lia Bool ZArith Reals Lra.
From Verif Require Import Num LinSpec LinFacts Outcome OutcomeFacts Gray GraySpec GrayFacts.
Import ListNotations.
Open Scope R_scope.
Ltac len := try change (@length (carrier RNum)) with (@length R) in *.

(** ** Finite sums *)
Lemma rsum_ext n f g : (forall i, (i < n)%nat -> f i = g i) -> rsum n f = rsum n g.
Proof. induction n as [|n IH]; intros H; cbn [rsum]; [reflexivity|]. rewrite IH by (intros; apply H; lia). now rewrite H by lia. Qed.
Lemma rsum_zero n f : (forall i, (i < n)%nat -> f i = 0) -> rsum n f = 0.
Proof. induction n as [|n IH]; intros H; cbn [rsum]; [reflexivity|]. rewrite IH by (intros; apply H; lia). rewrite H by lia. ring. Qed.
Lemma rsum_plus n f g : rsum n (fun i => f i + g i) = rsum n f + rsum n g.
Proof. induction n as [|n IH]; cbn [rsum]; [ring|]. rewrite IH. ring. Qed.
Lemma rsum_minus n f g : rsum n (fun i => f i - g i) = rsum n f - rsum n g.
Proof. induction n as [|n IH]; cbn [rsum]; [ring|]. rewrite IH. ring. Qed.
Lemma rsum_scal n c f : rsum n (fun i => c * f i) = c * rsum n f.
Proof. induction n as [|n IH]; cbn [rsum]; [ring|]. rewrite IH. ring. Qed.
Lemma rsum_scal_r n c f : rsum n (fun i => f i * c) = rsum n f * c.
Proof. induction n as [|n IH]; cbn [rsum]; [ring|]. rewrite IH. ring. Qed.
Lemma rsum_const n c : rsum n (fun _ => c) = INR n * c.
Proof. induction n as [|n IH]; cbn [rsum]; [cbn; ring|]. rewrite IH, S_INR. ring. Qed.
Lemma rsum_le n f g : (forall i, (i < n)%nat -> f i <= g i) -> rsum n f <= rsum n g.
Proof. induction n as [|n IH]; intros H; cbn [rsum]; [lra|]. specialize (IH (fun i Hi => H i (Nat.lt_lt_succ_r _ _ Hi))). specialize (H n (Nat.lt_succ_diag_r n)). lra. Qed.
Lemma rsum_swap n m f : rsum n (fun i => rsum m (fun j => f i j)) = rsum m (fun j => rsum n (fun i => f i j)).
Proof. induction n as [|n IH]; cbn [rsum]. - symmetry. now apply rsum_zero. - rewrite IH, <- rsum_plus. reflexivity. Qed.
Lemma rsum_more n m f : (n <= m)%nat -> (forall i, (n <= i < m)%nat -> f i = 0) -> rsum m f = rsum n f.
Proof. intros H. induction H as [|m H IH]; intros Z; [reflexivity|]. cbn [rsum]. rewrite IH by (intros; apply Z; lia). rewrite Z by lia. ring. Qed.
Lemma rsum_first n f : rsum (S n) f = f O + rsum n (fun i => f (S i)).
Proof. induction n as [|n IH]; [cbn; ring|]. change (rsum (S (S n)) f) with (rsum (S n) f + f (S n)). rewrite IH. cbn [rsum]. ring. Qed.
Lemma rsum_rev n f : rsum n (fun i => f (n - 1 - i)%nat) = rsum n f.
Proof. induction n as [|n IH]; [reflexivity|]. rewrite rsum_first. cbn [rsum]. replace (S n - 1 - 0)%nat with n by lia. rewrite <- IH at 1. rewrite Rplus_comm. f_equal.
  apply rsum_ext. intros i Hi. f_equal. lia. Qed.
Lemma rsum_app n m f : rsum (n + m) f = rsum n f + rsum m (fun i => f (n + i)%nat).
Proof. induction m as [|m IH]; [rewrite Nat.add_0_r; cbn; ring|]. rewrite Nat.add_succ_r. cbn [rsum]. rewrite IH. ring. Qed.
Lemma rsum_blocks n f : rsum n (fun c => f (4 * c)%nat + f (4 * c + 1)%nat + f (4 * c + 2)%nat + f (4 * c + 3)%nat) = rsum (4 * n) f.
Proof. induction n as [|n IH]; [reflexivity|]. replace (4 * S n)%nat with (S (S (S (S (4 * n))))) by lia. cbn [rsum]. rewrite IH.
  replace (4 * n + 1)%nat with (S (4 * n)) by lia. replace (4 * n + 2)%nat with (S (S (4 * n))) by lia. replace (4 * n + 3)%nat with (S (S (S (4 * n)))) by lia. ring. Qed.
Lemma rsum_pairs n f : rsum n (fun c => f (2 * c)%nat + f (2 * c + 1)%nat) = rsum (2 * n) f.
Proof. induction n as [|n IH]; [reflexivity|]. replace (2 * S n)%nat with (S (S (2 * n))) by lia. cbn [rsum]. rewrite IH.
  replace (2 * n + 1)%nat with (S (2 * n)) by lia. ring. Qed.
Lemma rsum_pos n f : (0 < n)%nat -> (forall i, (i < n)%nat -> 0 < f i) -> 0 < rsum n f.
Proof. intros Hn H. destruct n as [|n]; [lia|]. cbn [rsum]. assert (0 <= rsum n f). { rewrite <- (rsum_zero n (fun _ => 0)) by reflexivity. apply rsum_le. intros. apply Rlt_le, H. lia. } specialize (H n (Nat.lt_succ_diag_r n)). lra. Qed.
Lemma fold_left_rsum (f : nat -> R) n a : fold_left Rplus (map f (seq 0 n)) a = a + rsum n f.
Proof. revert a. induction n as [|n IH]; intros a; [cbn; ring|]. rewrite seq_S, map_app, fold_left_app, IH. cbn. ring. Qed.

(** ** One window *)
Notation rlanes := (@lanes RNum).
Definition lane_dot (a b : rlanes) : R :=
  let '(a0, a1, a2, a3) := a in let '(b0, b1, b2, b3) := b in a0 * b0 + a1 * b1 + a2 * b2 + a3 * b3.
Lemma fold_lanes (f g : nat -> rlanes) n acc :
  reduce_add (fold_left (fun acc '(a, b) => mul_add a b acc) (map (fun c => (f c, g c)) (seq 0 n)) acc) = reduce_add acc + rsum n (fun c => lane_dot (f c) (g c)) :> R.
Proof. induction n as [|n IH]; [symmetry; apply Rplus_0_r|]. rewrite seq_S, map_app, fold_left_app. cbn [map fold_left Nat.add rsum]. rewrite <- Rplus_assoc, <- IH.
  destruct (fold_left _ _ acc) as [[[c0 c1] c2] c3]. unfold lane_dot, mul_add, reduce_add. destruct (f n) as [[[a0 a1] a2] a3], (g n) as [[[b0 b1] b2] b3]. rnum. ring. Qed.
Lemma combine_maps {X Y W} (f : X -> Y) (g : X -> W) l : combine (map f l) (map g l) = map (fun x => (f x, g x)) l.
Proof. induction l as [|a l IH]; cbn [combine map]; [reflexivity|]. now rewrite IH. Qed.
Lemma apply_kernel_real (kernel window : list R) : length window = (length kernel + 3)%nat ->
  @apply_kernel RNum kernel window = rsum (length kernel) (fun i => nth i kernel 0 * nth i window 0).
Proof.
  intros L. unfold apply_kernel, simd_kernel, chunks_exact, chunks. change (@length (carrier RNum)) with (@length R). rewrite L. replace (length kernel + 4 - 1)%nat with (length kernel + 3)%nat by lia.
  set (n := ((length kernel + 3) / 4)%nat). rewrite !map_map, combine_maps, fold_lanes.
  unfold lane_dot, lanes_of. cbn [reduce_add zero RNum].
  transitivity (rsum (4 * n) (fun i => nth i window 0 * nth i kernel 0)).
  - rewrite <- rsum_blocks. rnum. rewrite !Rplus_0_l. apply rsum_ext. intros c Hc. rewrite !nth_piece by lia. rewrite !Nat.add_0_r, !(Nat.mul_comm c 4). reflexivity.
  - transitivity (rsum (length kernel) (fun i => nth i window 0 * nth i kernel 0)); [|apply rsum_ext; intros; ring]. apply rsum_more.
    + pose proof (Nat.div_mod (length kernel + 3) 4). pose proof (Nat.mod_upper_bound (length kernel + 3) 4). unfold n. lia.
    + intros i Hi. rewrite (nth_overflow kernel) by lia. ring.
Qed.

(** ** One line *)
Lemma clamped_lt n i : (0 < n)%nat -> (clamped n i < n)%nat.
Proof. intros H. unfold clamped. lia. Qed.
Lemma clamped_id n i : (i < n)%nat -> clamped n (Z.of_nat i) = i.
Proof. intros H. unfold clamped. lia. Qed.
Lemma padded_nth (kernel line : list R) (i : nat) : line <> [] -> (i < length line + 2 * (length kernel / 2))%nat ->
  nth i (@padded RNum kernel line) 0 = nth (clamped (length line) (Z.of_nat i - Z.of_nat (length kernel / 2))) line 0.
Proof.
  intros NE H. assert (0 < length line)%nat by (destruct line; [congruence|cbn; lia]). unfold padded, clamped. cbn [carrier RNum zero] in *.
  destruct (Nat.lt_ge_cases i (length kernel / 2)) as [A|A].
  - rewrite app_nth1 by (rewrite repeat_length; exact A). rewrite nth_repeat' by exact A. f_equal. lia.
  - rewrite app_nth2 by (rewrite repeat_length; exact A). rewrite repeat_length. destruct (Nat.lt_ge_cases (i - length kernel / 2) (length line)) as [B|B].
    + rewrite app_nth1 by exact B. f_equal. lia.
    + rewrite app_nth2 by exact B. rewrite app_nth1 by (rewrite repeat_length; lia). rewrite nth_repeat' by lia. f_equal. lia.
Qed.
Lemma filtered_real (kernel line : list R) (i : nat) : (length kernel mod 2 = 1)%nat -> (i < length line)%nat ->
  @filtered RNum kernel line i = rsum (length kernel) (fun j => nth j kernel 0 * nth (clamped (length line) (Z.of_nat i + offset kernel j)) line 0).
Proof.
  intros K H. pose proof (odd_half _ K). unfold filtered. rewrite apply_kernel_real.
  - apply rsum_ext. intros j Hj. f_equal. rewrite nth_piece by (rewrite simd_size_eq; len; lia). change (@nth (carrier RNum)) with (@nth R). rewrite padded_nth; [|destruct line; [cbn in H; lia|discriminate]|lia]. f_equal. f_equal. unfold offset. lia.
  - rewrite length_piece; [apply simd_size_eq|]. rewrite padded_length, simd_size_eq. change (@length (carrier RNum)) with (@length R). lia.
Qed.

(** ** The filters *)
Section filters.
Variables (w h : nat) (g : gray RNum).
Hypothesis S : sized w h g.
Lemma horizontal_correlates (kernel : list R) : (length kernel mod 2 = 1)%nat -> (0 < w)%nat ->
  exists out, @horizontal_filter RNum g kernel = Ok out /\ image_of w h (correlate_row kernel g) out.
Proof.
  intros K Hw. destruct (horizontal_filter_image w h g kernel K Hw S) as (out & E & Sz & P). exists out. split; [exact E|]. split; [exact Sz|].
  intros x y Hx Hy. rewrite P by assumption. destruct S as (W & H & D).
  assert (LR : @length R (row_of g y) = w) by (unfold row_of; len; etransitivity; [apply map_length|]; now rewrite seq_length).
  rewrite filtered_real; [|exact K|rewrite LR; exact Hx]. unfold correlate_row, extended. apply rsum_ext. intros i Hi. f_equal. rewrite LR, W, H. rewrite clamped_id by exact Hy.
  unfold row_of. etransitivity; [apply nth_map_seq; rewrite W; now apply clamped_lt|]. reflexivity.
Qed.
Lemma vertical_correlates (kernel : list R) : (length kernel mod 2 = 1)%nat -> (0 < h)%nat ->
  exists out, @vertical_filter RNum g kernel = Ok out /\ image_of w h (correlate_column kernel g) out.
Proof.
  intros K Hh. destruct (vertical_filter_image w h g kernel S K Hh) as (out & E & Sz & P). exists out. split; [exact E|]. split; [exact Sz|].
  intros x y Hx Hy. rewrite P by assumption. destruct S as (W & H & D).
  assert (LC : @length R (column_of g x) = h) by (unfold column_of; len; etransitivity; [apply map_length|]; now rewrite seq_length).
  rewrite filtered_real; [|exact K|rewrite LC; exact Hy]. unfold correlate_column, extended. apply rsum_ext. intros i Hi. f_equal. rewrite LC, W, H. rewrite (clamped_id w) by exact Hx.
  unfold column_of. etransitivity; [apply nth_map_seq; rewrite H; now apply clamped_lt|]. reflexivity.
Qed.
End filters.
Lemma extended_of w h f (g : gray RNum) x y : image_of w h f g -> (0 < w)%nat -> (0 < h)%nat -> extended g x y = f (clamped w x) (clamped h y).
Proof. intros [(W & H & _) P] Hw Hh. unfold extended. rewrite W, H. apply P; now apply clamped_lt. Qed.
Lemma separable_correlates w h (g : gray RNum) (hk vk : list R) : sized w h g -> (0 < w)%nat -> (0 < h)%nat ->
  (length hk mod 2 = 1)%nat -> (length vk mod 2 = 1)%nat ->
  exists out, @separable_filter RNum g hk vk = Ok out /\ image_of w h (correlate hk vk g) out.
Proof.
  intros S Hw Hh Kh Kv. destruct (horizontal_correlates w h g S hk Kh Hw) as (t & E & It). destruct (vertical_correlates w h t (proj1 It) vk Kv Hh) as (out & E' & Iout).
  exists out. unfold separable_filter. rewrite E. cbn [bind]. split; [exact E'|]. destruct Iout as [Sz P]. split; [exact Sz|].
  intros x y Hx Hy. rewrite P by assumption. unfold correlate_column, correlate. apply rsum_ext. intros j Hj. rewrite (extended_of _ _ _ _ _ _ It) by assumption.
  rewrite clamped_id by exact Hx. unfold correlate_row. rewrite <- rsum_scal. apply rsum_ext. intros i Hi.
  assert (EX : extended g (Z.of_nat x + offset hk i) (Z.of_nat (clamped h (Z.of_nat y + offset vk j))) = extended g (Z.of_nat x + offset hk i) (Z.of_nat y + offset vk j)).
  { unfold extended. destruct S as (_ & H & _). rewrite H. f_equal. apply clamped_id. now apply clamped_lt. }
  rewrite EX. ring.
Qed.
