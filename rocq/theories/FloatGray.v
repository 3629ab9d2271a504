(** The filters of akaze/src/image.rs in binary32: bounds on their rounding errors. *)
From Coq Require Import Reals ZArith SpecFloat Lia Lra Psatz.
From Flocq Require Import Core BinarySingleNaN.
From Coq Require Import List Arith Bool.
From Verif Require Import Num LinSpec Outcome OutcomeFacts Gray GraySpec GrayFacts GrayReal FloatFacts FloatUp FloatError32 FloatGraySpec.
Import ListNotations.
Open Scope R_scope.

(** ** One lane *)
Section lane.
Variables (x y : nat -> F32) (a b : nat -> R) (n : nat).
Hypotheses (X : forall c, (c < n)%nat -> rep32 (x c) (a c)) (Y : forall c, (c < n)%nat -> rep32 (y c) (b c)).
Definition lane_sum (k : nat) : F32 := fold_left (fun acc c => (x c * y c + acc)%num) (seq 0 k) zero.
Definition grown (k : nat) : R := (1 + u32) ^ S k.
Definition absolute (k : nat) : R := 3 * INR k * eta32 * (1 + u32) ^ k.
Lemma u32_pos : 0 < u32. Proof. unfold u32. lra. Qed.
Lemma grown_ge k : 1 <= (1 + u32) ^ k.
Proof. apply pow_R1_Rle. pose proof u32_pos. lra. Qed.
Lemma absolute_ge k : 0 <= absolute k.
Proof. unfold absolute. pose proof eta32_pos. pose proof (pos_INR k). pose proof (grown_ge k). repeat apply Rmult_le_pos; lra. Qed.
Lemma rsum_abs_ge m k : (m <= k)%nat -> rsum m (fun c => Rabs (a c * b c)) <= rsum k (fun c => Rabs (a c * b c)).
Proof. intros H. induction H as [|k H IH]; [lra|]. cbn [rsum]. pose proof (Rabs_pos (a k * b k)). lra. Qed.
Lemma rsum_abs_pos m : 0 <= rsum m (fun c => Rabs (a c * b c)).
Proof. pose proof (rsum_abs_ge 0 m ltac:(lia)). cbn [rsum] in H. exact H. Qed.
Lemma lane_sum_near : rsum n (fun c => Rabs (a c * b c)) <= bpow radix2 126 -> grown n + absolute n <= 3 / 2 -> forall k, (k <= n)%nat ->
  exists r, rep32 (lane_sum k) r /\ near r (rsum k (fun c => a c * b c)) (rsum k (fun c => Rabs (a c * b c))) (grown k) (absolute k) /\
    ((forall c, (c < n)%nat -> 0 <= a c /\ 0 <= b c) -> 0 <= r).
Proof.
  intros HS HG. induction k as [|k IH]; intros Hk.
  - exists 0. split; [apply represents_zero|]. split; [|lra]. cbn [rsum]. unfold grown, absolute. cbn [pow INR]. pose proof u32_pos. split; [rewrite Rabs_R0; lra|]. split; [|lra].
    replace (0 - 0) with 0 by ring. rewrite Rabs_R0. lra.
  - destruct (IH ltac:(lia)) as (r & Hr & Nr & Pr). pose proof (rsum_abs_ge (S k) n Hk) as Hsum. cbn [rsum] in Hsum.
    pose proof (Rabs_pos (a k * b k)) as Hpos. pose proof (rsum_abs_pos k) as Hpos'. assert (H126 : bpow radix2 127 = 2 * bpow radix2 126) by (change 127%Z with (1 + 126)%Z; rewrite bpow_plus; reflexivity).
    assert (H1 : 1 <= bpow radix2 126) by (change 1 with (bpow radix2 0); apply bpow_le; lia).
    destruct (near_mul (x k) (y k) (a k) (b k) (X k ltac:(lia)) (Y k ltac:(lia))) as (t & Ht & Nt & Pt); [lra|].
    pose proof u32_pos as Hu. pose proof eta32_pos as He. pose proof (grown_ge k) as Gk. pose proof (pos_INR k) as Ik.
    assert (Hgk : (1 + u32) <= grown k) by (unfold grown; cbn [pow]; nra).
    assert (Hmono : grown k <= grown n) by (unfold grown; apply Rle_pow; [lra|lia]).
    assert (Ha : eta32 + absolute k <= absolute n).
    { unfold absolute. apply Rle_trans with (3 * INR n * eta32 * (1 + u32) ^ k).
      - assert (INR k + 1 <= INR n) by (rewrite <- S_INR; apply le_INR; lia). assert (eta32 <= eta32 * (1 + u32) ^ k) by nra. assert (0 <= eta32 * (1 + u32) ^ k) by nra. nra.
      - apply Rmult_le_compat_l; [|apply Rle_pow; [lra|lia]]. pose proof (pos_INR n). nra. }
    destruct (near_add (x k * y k)%num (lane_sum k) t (a k * b k) (Rabs (a k * b k)) r (rsum k (fun c => a c * b c)) (rsum k (fun c => Rabs (a c * b c))) (grown k) eta32 (absolute k) Ht Hr) as (q & Hq & Nq & Pq).
    + eapply near_weaken; [exact Nt|exact Hgk|lra].
    + exact Nr.
    + pose proof (absolute_ge n). assert (0 <= grown k) by lra.
      apply Rle_trans with (grown n * bpow radix2 126 + absolute n * bpow radix2 126); [|nra]. apply Rplus_le_compat; [|nra]. apply Rmult_le_compat; lra.
    + exists q. split; [unfold lane_sum; rewrite seq_S, fold_left_app; exact Hq|]. split; [|intros P; apply Pq; [apply Pt; apply P; lia|apply Pr, P]].
      cbn [rsum]. rewrite (Rplus_comm (rsum k (fun c => a c * b c))), (Rplus_comm (rsum k (fun c => Rabs (a c * b c)))). eapply near_weaken; [exact Nq|unfold grown; cbn [pow]; right; ring|].
      unfold absolute. rewrite S_INR. cbn [pow]. assert (1 <= (1 + u32) * (1 + u32) ^ k) by nra. set (g := (1 + u32) * (1 + u32) ^ k) in *.
      replace ((eta32 + 3 * INR k * eta32 * (1 + u32) ^ k) * (1 + u32) + eta32) with (3 * INR k * eta32 * g + (2 + u32) * eta32) by (unfold g; ring).
      assert ((2 + u32) * eta32 <= 3 * eta32 * g); [|lra]. assert (2 + u32 <= 3) by (unfold u32; lra). assert (3 * eta32 * 1 <= 3 * eta32 * g) by (apply Rmult_le_compat_l; lra). nra.
Qed.
End lane.

(** ** One window *)
Definition lane_at (i : nat) (l : list F32) (c : nat) : F32 := nth (4 * c + i) l zero.
Lemma fold_mul_add (f0 f1 f2 f3 g0 g1 g2 g3 : nat -> F32) n :
  fold_left (fun acc '(a, b) => mul_add a b acc) (map (fun c => ((f0 c, f1 c, f2 c, f3 c), (g0 c, g1 c, g2 c, g3 c))) (seq 0 n)) (zero, zero, zero, zero) =
  (lane_sum f0 g0 n, lane_sum f1 g1 n, lane_sum f2 g2 n, lane_sum f3 g3 n).
Proof.
  induction n as [|n IH]; [reflexivity|]. rewrite seq_S, map_app, fold_left_app. cbn [map fold_left Nat.add]. etransitivity; [apply (f_equal (fun acc => mul_add (f0 n, f1 n, f2 n, f3 n) (g0 n, g1 n, g2 n, g3 n) acc) IH)|]. unfold lane_sum. rewrite !seq_S, !fold_left_app. reflexivity.
Qed.
Lemma apply_kernel_lanes (kernel window : list F32) : length window = (length kernel + 3)%nat ->
  let n := ((length kernel + 3) / 4)%nat in let lane i := lane_sum (lane_at i window) (lane_at i kernel) n in
  apply_kernel kernel window = (lane 0%nat + lane 1%nat + lane 2%nat + lane 3%nat)%num.
Proof.
  intros L n lane. unfold apply_kernel, simd_kernel, chunks_exact, chunks. rewrite L. replace (length kernel + 4 - 1)%nat with (length kernel + 3)%nat by lia. fold n.
  rewrite !map_map, combine_maps.
  rewrite (map_ext _ (fun c => ((lane_at 0 window c, lane_at 1 window c, lane_at 2 window c, lane_at 3 window c), (lane_at 0 kernel c, lane_at 1 kernel c, lane_at 2 kernel c, lane_at 3 kernel c)))).
  - rewrite fold_mul_add. reflexivity.
  - intros c. unfold lanes_of, lane_at. rewrite !nth_piece by lia. rewrite !(Nat.mul_comm c 4). reflexivity.
Qed.
Lemma rsum_four n (f : nat -> R) : rsum n (fun c => f (4 * c + 0)%nat) + rsum n (fun c => f (4 * c + 1)%nat) + rsum n (fun c => f (4 * c + 2)%nat) + rsum n (fun c => f (4 * c + 3)%nat) = rsum (4 * n) f.
Proof. rewrite <- rsum_blocks, !rsum_plus. f_equal. f_equal. f_equal. apply rsum_ext. intros i _. now rewrite Nat.add_0_r. Qed.
Lemma groups n : (4 * ((n + 3) / 4) <= n + 3)%nat /\ (n <= 4 * ((n + 3) / 4))%nat.
Proof. pose proof (Nat.div_mod (n + 3) 4). pose proof (Nat.mod_upper_bound (n + 3) 4). lia. Qed.
Lemma groups_R n : INR ((n + 3) / 4) <= (INR n + 3) / 4.
Proof. destruct (groups n) as [H _]. apply le_INR in H. rewrite mult_INR, plus_INR in H. cbn [INR] in H. lra. Qed.
Lemma groups_small n : INR n <= 65536 -> (1 + u32) ^ ((n + 3) / 4 + 4) <= 1 + (INR n + 20) / 2 ^ 25 /\ (INR n + 20) / 2 ^ 25 <= / 256.
Proof.
  intros H. pose proof (groups_R n) as G. pose proof (pos_INR n).
  assert (E : INR ((n + 3) / 4 + 4) = INR ((n + 3) / 4) + 4) by (rewrite plus_INR; cbn [INR]; lra). split.
  - eapply Rle_trans; [apply growth; rewrite E; unfold u32; lra|]. rewrite E. unfold u32. lra.
  - lra.
Qed.
Lemma eta32_148 : / 2 ^ 148 = 4 * eta32.
Proof. unfold eta32. replace 4 with (bpow radix2 2) by reflexivity. rewrite <- bpow_plus. change (2 + -150)%Z with (- Z.of_nat 148)%Z. rewrite bpow_opp. f_equal. rewrite <- IZR_Zpower by lia. apply pow_IZR. Qed.

Section window.
Variables (kernel window : list F32) (k p : nat -> R).
Hypotheses (L : length window = (length kernel + 3)%nat) (Small : INR (length kernel) <= 65536)
  (K : forall i, rep32 (nth i kernel zero) (k i)) (P : forall i, (i < length kernel + 3)%nat -> rep32 (nth i window zero) (p i)).
Let len := length kernel.
Let n := ((len + 3) / 4)%nat.
Let size := rsum len (fun i => Rabs (k i * p i)).
Lemma kernel_end i : (len <= i)%nat -> k i = 0.
Proof. intros H. pose proof (K i) as R1. rewrite nth_overflow in R1 by exact H. exact (represents_unique R1 (represents_zero 24 128 false)). Qed.
Lemma apply_kernel_near : size <= bpow radix2 126 ->
  exists r, rep32 (apply_kernel kernel window) r /\ Rabs (r - rsum len (fun i => k i * p i)) <= filter_error len size /\
    ((forall i, (i < len)%nat -> 0 <= k i) -> (forall i, (i < len + 3)%nat -> 0 <= p i) -> 0 <= r).
Proof.
  intros HS. rewrite (apply_kernel_lanes kernel window L). fold len n. destruct (groups len) as [G1 G2]. fold n in G1, G2. destruct (groups_small len Small) as [G3 G4]. fold n in G3.
  pose proof u32_pos as Hu. pose proof eta32_pos as He. pose proof (pos_INR len) as IL. pose proof (groups_R len) as GR. fold n in GR. pose proof (pos_INR n) as IN.
  assert (Es : forall f : nat -> R, (forall i, (len <= i)%nat -> f i = 0) -> rsum n (fun c => f (4 * c + 0)%nat) + rsum n (fun c => f (4 * c + 1)%nat) + rsum n (fun c => f (4 * c + 2)%nat) + rsum n (fun c => f (4 * c + 3)%nat) = rsum len f).
  { intros f Hf. rewrite rsum_four. apply rsum_more; [exact G2|]. intros i Hi. apply Hf. lia. }
  set (pk := fun i => p i * k i). set (S_ i := rsum n (fun c => Rabs (p (4 * c + i)%nat * k (4 * c + i)%nat))). set (V i := rsum n (fun c => p (4 * c + i)%nat * k (4 * c + i)%nat)).
  assert (ES : S_ 0%nat + S_ 1%nat + S_ 2%nat + S_ 3%nat = size).
  { unfold S_, size. rewrite (Es (fun i => Rabs (p i * k i))); [apply rsum_ext; intros; f_equal; ring|]. intros i Hi. rewrite (kernel_end i Hi), Rmult_0_r. apply Rabs_R0. }
  assert (EV : V 0%nat + V 1%nat + V 2%nat + V 3%nat = rsum len (fun i => k i * p i)).
  { unfold V. rewrite (Es (fun i => p i * k i)); [apply rsum_ext; intros; ring|]. intros i Hi. rewrite (kernel_end i Hi). ring. }
  assert (Hp : forall i, 0 <= S_ i) by (intros i; apply rsum_abs_pos).
  assert (G5 : forall j, (j <= n + 4)%nat -> (1 + u32) ^ j <= 1 + / 256) by (intros j Hj; apply Rle_trans with ((1 + u32) ^ (n + 4)); [apply Rle_pow; [lra|lia]|lra]).
  assert (Hb : absolute n <= 13 / 4 * (INR len + 3) * eta32).
  { unfold absolute. pose proof (G5 n ltac:(lia)). pose proof (grown_ge n). assert (3 * INR n * eta32 * (1 + u32) ^ n <= 3 * INR n * eta32 * (1 + / 256)) by (apply Rmult_le_compat_l; [nra|lra]). nra. }
  assert (Hb' : 4 * absolute n <= 13 / 4 * (INR len + 3) * eta32).
  { unfold absolute. pose proof (G5 n ltac:(lia)). pose proof (grown_ge n). assert (3 * INR n * eta32 * (1 + u32) ^ n <= 3 * INR n * eta32 * (1 + / 256)) by (apply Rmult_le_compat_l; [nra|lra]).
    assert (3 * INR n * eta32 <= 3 * ((INR len + 3) / 4) * eta32) by (apply Rmult_le_compat_r; lra). nra. }
  pose proof Small as Hlen. fold len in Hlen.
  assert (Heta : eta32 <= bpow radix2 (-30)) by (apply bpow_le; lia). change (bpow radix2 (-30)) with (/ IZR (Z.pow_pos 2 30)) in Heta. change (IZR (Z.pow_pos 2 30)) with 1073741824 in Heta.
  assert (Hsmall : 13 / 4 * (INR len + 3) * eta32 <= / 256) by nra.
  pose proof (absolute_ge n) as Ha. assert (Hg : grown n <= 1 + / 256) by (apply (G5 (S n)); lia).
  assert (Hlane : forall i, (i < 4)%nat -> exists r, rep32 (lane_sum (lane_at i window) (lane_at i kernel) n) r /\ near r (V i) (S_ i) (grown n) (absolute n) /\
    ((forall j, (j < len)%nat -> 0 <= k j) -> (forall j, (j < len + 3)%nat -> 0 <= p j) -> 0 <= r)).
  { intros i Hi. destruct (lane_sum_near (lane_at i window) (lane_at i kernel) (fun c => p (4 * c + i)%nat) (fun c => k (4 * c + i)%nat) n) with (k := n) as (r & Hr & Nr & Pr).
    - intros c Hc. apply P. fold len. lia.
    - intros c Hc. apply K.
    - fold (S_ i). pose proof (Hp 0%nat). pose proof (Hp 1%nat). pose proof (Hp 2%nat). pose proof (Hp 3%nat). destruct i as [|[|[|[|i]]]]; [lra..|lia].
    - lra.
    - lia.
    - exists r. split; [exact Hr|]. split; [exact Nr|]. intros Pk Pp. apply Pr. intros c Hc. split; [apply Pp; lia|]. destruct (Nat.lt_ge_cases (4 * c + i) len) as [H|H]; [now apply Pk|rewrite kernel_end by exact H; lra]. }
  destruct (Hlane 0%nat ltac:(lia)) as (r0 & R0 & N0 & P0). destruct (Hlane 1%nat ltac:(lia)) as (r1 & R1 & N1 & P1). destruct (Hlane 2%nat ltac:(lia)) as (r2 & R2 & N2 & P2). destruct (Hlane 3%nat ltac:(lia)) as (r3 & R3 & N3 & P3).
  assert (H126 : bpow radix2 127 = 2 * bpow radix2 126) by (change 127%Z with (1 + 126)%Z; rewrite bpow_plus; reflexivity).
  assert (H1 : 1 <= bpow radix2 126) by (change 1 with (bpow radix2 0); apply bpow_le; lia).
  pose proof (Hp 0%nat) as Q0. pose proof (Hp 1%nat) as Q1. pose proof (Hp 2%nat) as Q2. pose proof (Hp 3%nat) as Q3. pose proof (grown_ge (S n)) as Hg1. fold (grown n) in Hg1.
  assert (Fit : forall g s e, 1 <= g <= 1 + / 256 -> 0 <= s <= size -> e <= / 4 -> g * s + e <= bpow radix2 127).
  { intros g s e Hg' Hs' He'. apply Rle_trans with ((1 + / 256) * size + / 4); [|lra]. apply Rplus_le_compat; [apply Rmult_le_compat; lra|exact He']. }
  destruct (near_add _ _ _ _ _ _ _ _ _ _ _ R0 R1 N0 N1) as (t1 & T1 & M1 & Z1); [apply Fit; lra|].
  assert (G6 : grown n * (1 + u32) = (1 + u32) ^ (n + 2)) by (unfold grown; replace (n + 2)%nat with (S (S n)) by lia; cbn [pow]; ring).
  assert (G7 : grown n * (1 + u32) * (1 + u32) = (1 + u32) ^ (n + 3)) by (unfold grown; replace (n + 3)%nat with (S (S (S n))) by lia; cbn [pow]; ring).
  assert (G8 : grown n * (1 + u32) * (1 + u32) * (1 + u32) = (1 + u32) ^ (n + 4)) by (unfold grown; replace (n + 4)%nat with (S (S (S (S n)))) by lia; cbn [pow]; ring).
  pose proof (G5 (n + 2)%nat ltac:(lia)) as U2. pose proof (G5 (n + 3)%nat ltac:(lia)) as U3. pose proof (grown_ge (n + 2)) as W2. pose proof (grown_ge (n + 3)) as W3.
  rewrite <- G6 in U2, W2. rewrite <- G7 in U3, W3.
  assert (Hu1 : u32 <= / 1000) by (unfold u32; lra).
  assert (GU : grown n <= grown n * (1 + u32)) by (clear - Hg1 Hu; nra). assert (GU' : grown n <= grown n * (1 + u32) * (1 + u32)) by (clear - Hg1 Hu GU; nra).
  set (b1 := (absolute n + absolute n) * (1 + u32) + eta32) in *. assert (B1 : b1 <= 2 * absolute n + 2 * u32 * absolute n + eta32) by (unfold b1; lra).
  assert (U : u32 * absolute n <= / 1000 * absolute n) by (apply Rmult_le_compat_r; lra).
  assert (B1p : 0 <= b1) by (unfold b1; clear - Ha Hu He; nra).
  destruct (near_add _ _ _ _ _ _ _ _ _ _ _ T1 R2 M1 (near_weaken _ _ _ _ _ _ _ N2 GU (Rle_refl _))) as (t2 & T2 & M2 & Z2); [apply Fit; lra|].
  set (b2 := (b1 + absolute n) * (1 + u32) + eta32) in *. assert (B2 : b2 <= b1 + absolute n + u32 * (b1 + absolute n) + eta32) by (unfold b2; lra).
  assert (U' : u32 * (b1 + absolute n) <= / 1000 * (b1 + absolute n)) by (apply Rmult_le_compat_r; lra).
  assert (B2p : 0 <= b2) by (unfold b2; clear - Ha Hu He B1p; nra).
  destruct (near_add _ _ _ _ _ _ _ _ _ _ _ T2 R3 M2 (near_weaken _ _ _ _ _ _ _ N3 GU' (Rle_refl _))) as (t3 & T3 & M3 & Z3); [apply Fit; lra|].
  set (b3 := (b2 + absolute n) * (1 + u32) + eta32) in *. assert (B3 : b3 <= b2 + absolute n + u32 * (b2 + absolute n) + eta32) by (unfold b3; lra).
  assert (U'' : u32 * (b2 + absolute n) <= / 1000 * (b2 + absolute n)) by (apply Rmult_le_compat_r; lra).
  exists t3. split; [exact T3|]. split; [|intros Pk Pp; apply Z3; [apply Z2; [apply Z1; auto|auto]|auto]].
  rewrite ES, EV, G8 in M3. destruct M3 as (_ & M3 & _ & _). eapply Rle_trans; [exact M3|]. unfold filter_error. apply Rplus_le_compat.
  - assert (0 <= size) by lra. apply Rmult_le_compat_r; lra.
  - unfold Rdiv at 1. rewrite eta32_148. clear - B1 B2 B3 U U' U'' Hb' He IL Ha B1p B2p. nra.
Qed.
End window.

(** ** One line *)
Lemma padded_nth_any {N : Num} (kernel line : list N) (i : nat) : line <> [] -> (i < length line + 2 * (length kernel / 2))%nat ->
  nth i (padded kernel line) zero = nth (clamped (length line) (Z.of_nat i - Z.of_nat (length kernel / 2))) line zero.
Proof.
  intros NE H. assert (0 < length line)%nat by (destruct line; [congruence|cbn; lia]). unfold padded, clamped.
  destruct (Nat.lt_ge_cases i (length kernel / 2)) as [A|A].
  - rewrite app_nth1 by (rewrite repeat_length; exact A). rewrite nth_repeat' by exact A. f_equal. lia.
  - rewrite app_nth2 by (rewrite repeat_length; exact A). rewrite repeat_length. destruct (Nat.lt_ge_cases (i - length kernel / 2) (length line)) as [B|B].
    + rewrite app_nth1 by exact B. f_equal. lia.
    + rewrite app_nth2 by exact B. rewrite app_nth1 by (rewrite repeat_length; lia). rewrite nth_repeat' by lia. f_equal. lia.
Qed.
Lemma padded_rest {N : Num} (kernel line : list N) (i : nat) : (length line + 2 * (length kernel / 2) <= i)%nat -> nth i (padded kernel line) zero = zero.
Proof.
  intros H. unfold padded. rewrite !app_assoc. rewrite app_nth2 by (rewrite !app_length, !repeat_length; lia). apply nth_repeat.
Qed.
Section line.
Variables (kernel line : list F32) (a : R).
Hypotheses (Odd : (length kernel mod 2 = 1)%nat) (Small : INR (length kernel) <= 65536)
  (K : forall i, finite_single (nth i kernel zero)) (P : forall i, (i < length line)%nat -> finite_single (nth i line zero) /\ Rabs (value (nth i line zero)) <= a)
  (Fit : kernel_norm kernel * a <= 2 ^ 126).
Let k i := value (nth i kernel zero).
Let p i := value (nth i line zero).
Lemma real_nth (l : list F32) i : nth i (map value l) 0 = value (nth i l zero).
Proof. change 0 with (value (@zero F32)) at 1. apply (map_nth value). Qed.
Lemma kernel_norm_eq : kernel_norm kernel = rsum (length kernel) (fun i => Rabs (k i)).
Proof. unfold kernel_norm. apply rsum_ext. intros i _. unfold real_kernel. now rewrite real_nth. Qed.
Lemma filtered_near i : (i < length line)%nat ->
  exists r, rep32 (filtered kernel line i) r /\
    Rabs (r - rsum (length kernel) (fun j => k j * p (clamped (length line) (Z.of_nat i + offset kernel j)))) <= filter_error (length kernel) (kernel_norm kernel * a) /\
    ((forall j, 0 <= k j) -> (forall j, (j < length line)%nat -> 0 <= p j) -> 0 <= r).
Proof.
  intros H. pose proof (odd_half _ Odd) as OH. assert (NE : line <> []) by (destruct line; [cbn in H; lia|discriminate]).
  set (window := piece (padded kernel line) i (simd_size kernel)).
  assert (LW : length window = (length kernel + 3)%nat) by (unfold window; rewrite length_piece; [apply simd_size_eq|rewrite padded_length, simd_size_eq; lia]).
  assert (Hw : forall j, (j < length kernel)%nat -> nth j window zero = nth (clamped (length line) (Z.of_nat i + offset kernel j)) line zero).
  { intros j Hj. unfold window. rewrite nth_piece by (rewrite simd_size_eq; lia). rewrite padded_nth_any by (assumption || lia). f_equal. f_equal. unfold offset. lia. }
  assert (Hv : forall j, (j < length kernel + 3)%nat -> (exists m, (m < length line)%nat /\ nth j window zero = nth m line zero) \/ nth j window zero = zero).
  { intros j Hj. unfold window. rewrite nth_piece by (rewrite simd_size_eq; lia). destruct (Nat.lt_ge_cases (i + j) (length line + 2 * (length kernel / 2))) as [A|A]; [left|right; now apply padded_rest].
    exists (clamped (length line) (Z.of_nat (i + j) - Z.of_nat (length kernel / 2))). split; [apply clamped_lt; lia|]. now apply padded_nth_any. }
  destruct (apply_kernel_near kernel window k (fun j => value (nth j window zero)) LW Small) as (r & Rr & Er & Pr).
  - intros j. destruct (K j) as [V1 V2]. now apply valid_represents.
  - intros j Hj. apply (valid_represents (prec := 24) (emax := 128)); destruct (Hv j Hj) as [(m & Hm & ->) | ->]; try reflexivity; now destruct (P m Hm) as [[V1 V2] _].
  - eapply Rle_trans; [|apply Rle_trans with (1 := Fit)].
    + rewrite kernel_norm_eq, <- rsum_scal_r. apply rsum_le. intros j Hj. rewrite Rabs_mult. apply Rmult_le_compat_l; [apply Rabs_pos|]. rewrite Hw by exact Hj. apply P. apply clamped_lt. lia.
    + right. change 126%Z with (Z.of_nat 126). rewrite <- IZR_Zpower by lia. apply pow_IZR.
  - exists r. split; [exact Rr|]. split.
    + rewrite (rsum_ext _ _ (fun j => k j * value (nth j window zero))) by (intros j Hj; unfold p; now rewrite Hw). eapply Rle_trans; [exact Er|]. unfold filter_error. apply Rplus_le_compat_r. apply Rmult_le_compat_l.
      * pose proof (pos_INR (length kernel)). apply Rmult_le_pos; [lra|]. apply Rlt_le, Rinv_0_lt_compat, pow_lt. lra.
      * rewrite kernel_norm_eq, <- rsum_scal_r. apply rsum_le. intros j Hj. rewrite Rabs_mult. apply Rmult_le_compat_l; [apply Rabs_pos|]. rewrite Hw by exact Hj. apply P. apply clamped_lt. lia.
    + intros Pk Pp. apply Pr; [intros; apply Pk|]. intros j Hj. destruct (Hv j Hj) as [(m & Hm & ->) | ->]; [now apply Pp|cbn; lra].
Qed.
End line.

(** ** Whole images *)
Lemma forall_nth_finite (kernel : list F32) : Forall finite_single kernel -> forall i, finite_single (nth i kernel zero).
Proof. intros H i. destruct (Nat.lt_ge_cases i (length kernel)) as [L|L]; [rewrite Forall_forall in H; apply H, nth_In, L|rewrite nth_overflow by exact L; split; reflexivity]. Qed.
Lemma real_pixel (g : gray F32) x y : pixel (real_image g) x y = value (pixel g x y).
Proof. unfold pixel, real_image. cbn [g_width g_data]. apply real_nth. Qed.
Lemma length_row (g : gray F32) y : length (row_of g y) = g_width g.
Proof. unfold row_of. now rewrite map_length, seq_length. Qed.
Lemma length_column (g : gray F32) x : length (column_of g x) = g_height g.
Proof. unfold column_of. now rewrite map_length, seq_length. Qed.
Section images.
Variables (w h : nat) (a : R) (g : gray F32) (kernel : list F32).
Hypotheses (G : finite_image w h a g) (Odd : (length kernel mod 2 = 1)%nat) (Small : INR (length kernel) <= 65536) (Kf : Forall finite_single kernel) (Fit : kernel_norm kernel * a <= 2 ^ 126).
Definition nonneg_kernel : Prop := forall i, 0 <= nth i (real_kernel kernel) 0.
Definition nonneg_image (g : gray F32) : Prop := forall x y, (x < w)%nat -> (y < h)%nat -> 0 <= value (pixel g x y).
Lemma horizontal_near : (0 < w)%nat -> exists out, horizontal_filter g kernel = Ok out /\ sized w h out /\
  (forall x y, (x < w)%nat -> (y < h)%nat -> finite_single (pixel out x y) /\
    Rabs (value (pixel out x y) - correlate_row (real_kernel kernel) (real_image g) x y) <= filter_error (length kernel) (kernel_norm kernel * a)) /\
  (nonneg_kernel -> nonneg_image g -> nonneg_image out).
Proof.
  intros Hw. destruct G as [S P]. destruct (horizontal_filter_image w h g kernel Odd Hw S) as (out & E & So & Po). exists out. split; [exact E|]. split; [exact So|].
  destruct S as (W & H & D). assert (NR : forall x y, (x < w)%nat -> nth x (row_of g y) zero = pixel g x y) by (intros x y Hx; unfold row_of; rewrite nth_map_seq by lia; reflexivity).
  assert (Main : forall x y, (x < w)%nat -> (y < h)%nat -> exists r, rep32 (pixel out x y) r /\ Rabs (r - correlate_row (real_kernel kernel) (real_image g) x y) <= filter_error (length kernel) (kernel_norm kernel * a) /\
    (nonneg_kernel -> nonneg_image g -> 0 <= r)).
  { intros x y Hx Hy. rewrite Po by assumption. destruct (filtered_near kernel (row_of g y) a Odd Small (forall_nth_finite kernel Kf)) with (i := x) as (r & Rr & Er & Pr).
    - intros i Hi. rewrite length_row, W in Hi. rewrite NR by exact Hi. now apply P.
    - exact Fit.
    - rewrite length_row, W. exact Hx.
    - exists r. split; [exact Rr|]. rewrite length_row, W in Er, Pr. split.
      + unfold correlate_row. replace (length (real_kernel kernel)) with (length kernel) by (symmetry; apply map_length).
        rewrite (rsum_ext _ _ (fun j => value (nth j kernel zero) * value (nth (clamped w (Z.of_nat x + offset kernel j)) (row_of g y) zero))); [exact Er|].
        intros j Hj. unfold real_kernel at 1. rewrite real_nth. f_equal. unfold extended. rewrite real_pixel. change (g_width (real_image g)) with (g_width g). change (g_height (real_image g)) with (g_height g). rewrite W, H, (clamped_id h) by exact Hy.
        rewrite NR by (apply clamped_lt; lia). f_equal. f_equal. unfold offset, real_kernel. now rewrite map_length.
      + intros Nk Ng. apply Pr; [intros j; specialize (Nk j); unfold real_kernel in Nk; now rewrite real_nth in Nk|]. intros j Hj. rewrite NR by exact Hj. now apply Ng. }
  split.
  - intros x y Hx Hy. destruct (Main x y Hx Hy) as (r & Rr & Er & _). rewrite (represents_value Rr). split; [|exact Er]. destruct (represents_valid Rr) as (V & F & _). split; assumption.
  - intros Nk Ng x y Hx Hy. destruct (Main x y Hx Hy) as (r & Rr & _ & Pr). rewrite (represents_value Rr). now apply Pr.
Qed.
Lemma vertical_near : (0 < h)%nat -> exists out, vertical_filter g kernel = Ok out /\ sized w h out /\
  (forall x y, (x < w)%nat -> (y < h)%nat -> finite_single (pixel out x y) /\
    Rabs (value (pixel out x y) - correlate_column (real_kernel kernel) (real_image g) x y) <= filter_error (length kernel) (kernel_norm kernel * a)) /\
  (nonneg_kernel -> nonneg_image g -> nonneg_image out).
Proof.
  intros Hh. destruct G as [S P]. destruct (vertical_filter_image w h g kernel S Odd Hh) as (out & E & So & Po). exists out. split; [exact E|]. split; [exact So|].
  destruct S as (W & H & D). assert (NR : forall x y, (y < h)%nat -> nth y (column_of g x) zero = pixel g x y) by (intros x y Hx; unfold column_of; rewrite nth_map_seq by lia; reflexivity).
  assert (Main : forall x y, (x < w)%nat -> (y < h)%nat -> exists r, rep32 (pixel out x y) r /\ Rabs (r - correlate_column (real_kernel kernel) (real_image g) x y) <= filter_error (length kernel) (kernel_norm kernel * a) /\
    (nonneg_kernel -> nonneg_image g -> 0 <= r)).
  { intros x y Hx Hy. rewrite Po by assumption. destruct (filtered_near kernel (column_of g x) a Odd Small (forall_nth_finite kernel Kf)) with (i := y) as (r & Rr & Er & Pr).
    - intros i Hi. rewrite length_column, H in Hi. rewrite NR by exact Hi. now apply P.
    - exact Fit.
    - rewrite length_column, H. exact Hy.
    - exists r. split; [exact Rr|]. rewrite length_column, H in Er, Pr. split.
      + unfold correlate_column. replace (length (real_kernel kernel)) with (length kernel) by (symmetry; apply map_length).
        rewrite (rsum_ext _ _ (fun j => value (nth j kernel zero) * value (nth (clamped h (Z.of_nat y + offset kernel j)) (column_of g x) zero))); [exact Er|].
        intros j Hj. unfold real_kernel at 1. rewrite real_nth. f_equal. unfold extended. rewrite real_pixel. change (g_width (real_image g)) with (g_width g). change (g_height (real_image g)) with (g_height g). rewrite W, H, (clamped_id w) by exact Hx.
        rewrite NR by (apply clamped_lt; lia). f_equal. f_equal. unfold offset, real_kernel. now rewrite map_length.
      + intros Nk Ng. apply Pr; [intros j; specialize (Nk j); unfold real_kernel in Nk; now rewrite real_nth in Nk|]. intros j Hj. rewrite NR by exact Hj. now apply Ng. }
  split.
  - intros x y Hx Hy. destruct (Main x y Hx Hy) as (r & Rr & Er & _). rewrite (represents_value Rr). split; [|exact Er]. destruct (represents_valid Rr) as (V & F & _). split; assumption.
  - intros Nk Ng x y Hx Hy. destruct (Main x y Hx Hy) as (r & Rr & _ & Pr). rewrite (represents_value Rr). now apply Pr.
Qed.
End images.

(** ** Two passes *)
Lemma correlate_two_passes w h (g : gray RNum) (hk vk : list R) x y : sized w h g -> (0 < w)%nat -> (0 < h)%nat -> (x < w)%nat ->
  correlate hk vk g x y = rsum (length vk) (fun j => nth j vk 0 * correlate_row hk g x (clamped h (Z.of_nat y + offset vk j))).
Proof.
  intros (W & H & _) Hw Hh Hx. unfold correlate. apply rsum_ext. intros j Hj. unfold correlate_row. rewrite <- rsum_scal. apply rsum_ext. intros i Hi.
  assert (EX : extended g (Z.of_nat x + offset hk i) (Z.of_nat (clamped h (Z.of_nat y + offset vk j))) = extended g (Z.of_nat x + offset hk i) (Z.of_nat y + offset vk j)).
  { unfold extended. rewrite H. f_equal. apply clamped_id. now apply clamped_lt. }
  rewrite EX. ring.
Qed.
Lemma kernel_norm_real kernel : kernel_norm kernel = rsum (length (real_kernel kernel)) (fun i => Rabs (nth i (real_kernel kernel) 0)).
Proof. unfold kernel_norm, real_kernel. now rewrite map_length. Qed.
Lemma rsum_abs_le n f b : (forall i, (i < n)%nat -> Rabs (f i) <= b i) -> Rabs (rsum n f) <= rsum n b.
Proof. induction n as [|n IH]; intros H; cbn [rsum]; [rewrite Rabs_R0; lra|]. eapply Rle_trans; [apply Rabs_triang|]. specialize (IH (fun i Hi => H i (Nat.lt_lt_succ_r _ _ Hi))). specialize (H n (Nat.lt_succ_diag_r n)). lra. Qed.
Lemma correlate_row_le w h a g kernel x y : finite_image w h a g -> (x < w)%nat -> (y < h)%nat -> Rabs (correlate_row (real_kernel kernel) (real_image g) x y) <= kernel_norm kernel * a.
Proof.
  intros [(W & H & _) P] Hx Hy. unfold correlate_row. rewrite kernel_norm_real, <- rsum_scal_r. apply rsum_abs_le. intros i Hi. rewrite Rabs_mult. apply Rmult_le_compat_l; [apply Rabs_pos|].
  unfold extended. rewrite real_pixel. change (g_width (real_image g)) with (g_width g). change (g_height (real_image g)) with (g_height g). rewrite W, H. apply P; apply clamped_lt; lia.
Qed.
Lemma kernel_norm_pos kernel : 0 <= kernel_norm kernel.
Proof. rewrite <- (rsum_zero (length kernel) (fun _ => 0)) by reflexivity. apply rsum_le. intros. apply Rabs_pos. Qed.
Lemma filter_error_pos n s : 0 <= s -> 0 <= filter_error n s.
Proof. intros H. unfold filter_error. pose proof (pos_INR n). assert (0 < / 2 ^ 25) by (apply Rinv_0_lt_compat, pow_lt; lra). assert (0 < / 2 ^ 148) by (apply Rinv_0_lt_compat, pow_lt; lra). unfold Rdiv. assert (0 <= (INR n + 20) * / 2 ^ 25) by (apply Rmult_le_pos; lra). assert (0 <= (INR n + 20) * / 2 ^ 148) by (apply Rmult_le_pos; lra). nra. Qed.
Lemma separable_near w h a (g : gray F32) (hk vk : list F32) : finite_image w h a g -> (0 < w)%nat -> (0 < h)%nat ->
  (length hk mod 2 = 1)%nat -> (length vk mod 2 = 1)%nat -> INR (length hk) <= 65536 -> INR (length vk) <= 65536 -> Forall finite_single hk -> Forall finite_single vk ->
  let first := filter_error (length hk) (kernel_norm hk * a) in let a' := kernel_norm hk * a + first in
  kernel_norm hk * a <= 2 ^ 126 -> kernel_norm vk * a' <= 2 ^ 126 ->
  exists out, separable_filter g hk vk = Ok out /\ sized w h out /\ forall x y, (x < w)%nat -> (y < h)%nat -> finite_single (pixel out x y) /\
    Rabs (value (pixel out x y) - correlate (real_kernel hk) (real_kernel vk) (real_image g) x y) <= filter_error (length vk) (kernel_norm vk * a') + kernel_norm vk * first.
Proof.
  intros G Hw Hh Oh Ov Sh Sv Fh Fv first a' B1 B2. destruct (horizontal_near w h a g hk G Oh Sh Fh B1 Hw) as (t & Et & St & Pt & _). fold first in Pt.
  assert (Gt : finite_image w h a' t).
  { split; [exact St|]. intros x y Hx Hy. destruct (Pt x y Hx Hy) as [F E]. split; [exact F|]. pose proof (correlate_row_le w h a g hk x y G Hx Hy) as C. unfold a'.
    replace (value (pixel t x y)) with (correlate_row (real_kernel hk) (real_image g) x y + (value (pixel t x y) - correlate_row (real_kernel hk) (real_image g) x y)) by ring. eapply Rle_trans; [apply Rabs_triang|]. lra. }
  destruct (vertical_near w h a' t vk Gt Ov Sv Fv B2 Hh) as (out & Eo & So & Po & _). exists out. split; [unfold separable_filter; rewrite Et; exact Eo|]. split; [exact So|].
  intros x y Hx Hy. destruct (Po x y Hx Hy) as [F E]. split; [exact F|]. destruct G as [(W & H & D) P].
  assert (SR : sized w h (real_image g)) by (split; [exact W|]; split; [exact H|]; unfold real_image; cbn [g_data]; etransitivity; [apply map_length|exact D]).
  rewrite (correlate_two_passes w h _ _ _ x y SR Hw Hh Hx).
  set (c := correlate_column (real_kernel vk) (real_image t) x y) in *. match goal with |- Rabs (?v - ?s) <= _ => replace (v - s) with ((v - c) + (c - s)) by ring end. eapply Rle_trans; [apply Rabs_triang|]. apply Rplus_le_compat; [exact E|].
  unfold c, correlate_column. rewrite <- rsum_minus, kernel_norm_real, <- rsum_scal_r. apply rsum_abs_le. intros j Hj. rewrite <- Rmult_minus_distr_l, Rabs_mult. apply Rmult_le_compat_l; [apply Rabs_pos|].
  destruct St as (Wt & Ht & _). unfold extended. rewrite real_pixel. change (g_width (real_image t)) with (g_width t). change (g_height (real_image t)) with (g_height t). rewrite Wt, Ht, (clamped_id w) by exact Hx. apply Pt; [exact Hx|apply clamped_lt; lia].
Qed.
