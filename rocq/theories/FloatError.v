(** Rounding errors of binary64: every operation is off by at most [u] relatively and [eta] absolutely. *)
From Coq Require Import Reals ZArith SpecFloat Lia Lra Psatz.
From Flocq Require Import Core BinarySingleNaN.
From Flocq Require Import Relative.
From Verif Require Import Num FloatFacts FloatUp.
Open Scope R_scope.

Notation rnd64 := (FloatFacts.rnd 53 1024).
Notation rep64 := (FloatFacts.represents 53 1024).
Definition u64 : R := / 9007199254740992.
Definition eta64 : R := bpow radix2 (-1075).
Lemma eta_pos : 0 < eta64. Proof. apply bpow_gt_0. Qed.
Lemma u64_bpow : u64 = bpow radix2 (-53).
Proof. unfold u64. change (bpow radix2 (-53)) with (/ IZR (Z.pow_pos 2 53)). reflexivity. Qed.
Lemma half_bpow e : / 2 * bpow radix2 (e + 1) <= bpow radix2 e.
Proof. rewrite bpow_plus. change (bpow radix2 1) with 2. pose proof (bpow_gt_0 radix2 e). lra. Qed.
Lemma rnd_model r : exists d e, Rabs d <= u64 /\ Rabs e <= eta64 /\ rnd64 r = r * (1 + d) + e.
Proof.
  destruct (error_N_FLT radix2 (-1074) 53 ltac:(lia) (fun z => negb (Z.even z)) r) as (d & e & Hd & He & _ & E).
  exists d, e. split; [|split; [|exact E]].
  - rewrite u64_bpow. eapply Rle_trans; [exact Hd|]. apply half_bpow.
  - unfold eta64. eapply Rle_trans; [exact He|]. exact (half_bpow (-1075)).
Qed.
Lemma rnd_error r : Rabs (rnd64 r - r) <= u64 * Rabs r + eta64.
Proof.
  destruct (rnd_model r) as (d & e & Hd & He & ->). replace (r * (1 + d) + e - r) with (d * r + e) by ring. eapply Rle_trans; [apply Rabs_triang|]. rewrite Rabs_mult. pose proof (Rabs_pos r). nra.
Qed.
(** No underflow. *)
Lemma rnd_relative r : bpow radix2 (-1000) <= Rabs r -> exists d, Rabs d <= u64 /\ rnd64 r = r * (1 + d).
Proof.
  intros H. destruct (relative_error_N_FLT_ex radix2 (-1074) 53 ltac:(lia) (fun z => negb (Z.even z)) r) as (d & Hd & E).
  - eapply Rle_trans; [|exact H]. apply bpow_le. lia.
  - exists d. split; [|exact E]. rewrite u64_bpow. eapply Rle_trans; [exact Hd|]. apply half_bpow.
Qed.
Lemma rnd_bounded n r : (-1074 <= n)%Z -> Rabs r <= bpow radix2 n -> Rabs (rnd64 r) <= bpow radix2 n.
Proof.
  intros Hn H. apply Rabs_le. apply Rabs_le_inv in H. rewrite <- (rnd_bpow 53 1024 ltac:(reflexivity) n) by (change (SpecFloat.emin 53 1024) with (-1074)%Z; lia). split; [|apply rnd_le; lra].
  replace (- rnd64 (bpow radix2 n)) with (rnd64 (- bpow radix2 n)); [apply rnd_le; lra|]. unfold FloatFacts.rnd. apply round_NE_opp.
Qed.
Lemma rnd_fits n r : (-1074 <= n < 1024)%Z -> Rabs r <= bpow radix2 n -> Rabs (rnd64 r) <= bpow radix2 n /\ Rabs (rnd64 r) < bpow radix2 1024.
Proof. intros Hn H. pose proof (rnd_bounded n r ltac:(lia) H) as B. split; [exact B|]. eapply Rle_lt_trans; [exact B|]. apply bpow_lt. lia. Qed.

(** Operations whose result is at most [2 ^ n]. *)
Section ops.
Variables (x y : F64) (a b : R) (n : Z).
Hypotheses (X : rep64 x a) (Y : rep64 y b) (Hn : (-1074 <= n < 1024)%Z).
Lemma add64 : Rabs (a + b) <= bpow radix2 n -> rep64 (x + y)%num (rnd64 (a + b)) /\ Rabs (rnd64 (a + b)) <= bpow radix2 n.
Proof. intros H. destruct (rnd_fits n _ Hn H). split; [|assumption]. apply represents_add; assumption. Qed.
Lemma sub64 : Rabs (a - b) <= bpow radix2 n -> rep64 (x - y)%num (rnd64 (a - b)) /\ Rabs (rnd64 (a - b)) <= bpow radix2 n.
Proof. intros H. destruct (rnd_fits n _ Hn H). split; [|assumption]. apply represents_sub; assumption. Qed.
Lemma mul64 : Rabs (a * b) <= bpow radix2 n -> rep64 (x * y)%num (rnd64 (a * b)) /\ Rabs (rnd64 (a * b)) <= bpow radix2 n.
Proof. intros H. destruct (rnd_fits n _ Hn H). split; [|assumption]. apply represents_mul; assumption. Qed.
Lemma div64 : b <> 0 -> Rabs (a / b) <= bpow radix2 n -> rep64 (x / y)%num (rnd64 (a / b)) /\ Rabs (rnd64 (a / b)) <= bpow radix2 n.
Proof. intros Hb H. destruct (rnd_fits n _ Hn H). split; [|assumption]. apply represents_div; assumption. Qed.
End ops.
