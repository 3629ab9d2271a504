(** Rounding errors of binary32: every operation is off by at most [u] relatively and [eta] absolutely. *)
From Coq Require Import Reals ZArith SpecFloat Lia Lra Psatz.
From Flocq Require Import Core BinarySingleNaN.
From Flocq Require Import Relative.
From Verif Require Import Num FloatFacts FloatUp.
Open Scope R_scope.

Notation rnd32 := (FloatFacts.rnd 24 128).
Notation rep32 := (FloatFacts.represents 24 128).
Definition u32 : R := / 16777216.
Definition eta32 : R := bpow radix2 (-150).
Lemma eta32_pos : 0 < eta32. Proof. apply bpow_gt_0. Qed.
Lemma u32_bpow : u32 = bpow radix2 (-24).
Proof. unfold u32. change (bpow radix2 (-24)) with (/ IZR (Z.pow_pos 2 24)). reflexivity. Qed.
Lemma half_bpow e : / 2 * bpow radix2 (e + 1) <= bpow radix2 e.
Proof. rewrite bpow_plus. change (bpow radix2 1) with 2. pose proof (bpow_gt_0 radix2 e). lra. Qed.
Lemma rnd_model r : exists d e, Rabs d <= u32 /\ Rabs e <= eta32 /\ rnd32 r = r * (1 + d) + e.
Proof.
  destruct (error_N_FLT radix2 (-149) 24 ltac:(lia) (fun z => negb (Z.even z)) r) as (d & e & Hd & He & _ & E).
  exists d, e. split; [|split; [|exact E]].
  - rewrite u32_bpow. eapply Rle_trans; [exact Hd|]. apply half_bpow.
  - unfold eta32. eapply Rle_trans; [exact He|]. exact (half_bpow (-150)).
Qed.
Lemma rnd_error r : Rabs (rnd32 r - r) <= u32 * Rabs r + eta32.
Proof.
  destruct (rnd_model r) as (d & e & Hd & He & ->). replace (r * (1 + d) + e - r) with (d * r + e) by ring. eapply Rle_trans; [apply Rabs_triang|]. rewrite Rabs_mult. pose proof (Rabs_pos r). nra.
Qed.
(** No underflow. *)
Lemma rnd_relative r : bpow radix2 (-126) <= Rabs r -> exists d, Rabs d <= u32 /\ rnd32 r = r * (1 + d).
Proof.
  intros H. destruct (relative_error_N_FLT_ex radix2 (-149) 24 ltac:(lia) (fun z => negb (Z.even z)) r) as (d & Hd & E).
  - eapply Rle_trans; [|exact H]. apply bpow_le. lia.
  - exists d. split; [|exact E]. rewrite u32_bpow. eapply Rle_trans; [exact Hd|]. apply half_bpow.
Qed.
Lemma rnd_bounded n r : (-149 <= n)%Z -> Rabs r <= bpow radix2 n -> Rabs (rnd32 r) <= bpow radix2 n.
Proof.
  intros Hn H. apply Rabs_le. apply Rabs_le_inv in H. rewrite <- (rnd_bpow 24 128 ltac:(reflexivity) n) by (change (SpecFloat.emin 24 128) with (-149)%Z; lia). split; [|apply rnd_le; lra].
  replace (- rnd32 (bpow radix2 n)) with (rnd32 (- bpow radix2 n)); [apply rnd_le; lra|]. unfold FloatFacts.rnd. apply round_NE_opp.
Qed.
Lemma rnd_fits n r : (-149 <= n < 128)%Z -> Rabs r <= bpow radix2 n -> Rabs (rnd32 r) <= bpow radix2 n /\ Rabs (rnd32 r) < bpow radix2 128.
Proof. intros Hn H. pose proof (rnd_bounded n r ltac:(lia) H) as B. split; [exact B|]. eapply Rle_lt_trans; [exact B|]. apply bpow_lt. lia. Qed.

(** Operations whose result is at most [2 ^ n]. *)
Section ops.
Variables (x y : F32) (a b : R) (n : Z).
Hypotheses (X : rep32 x a) (Y : rep32 y b) (Hn : (-149 <= n < 128)%Z).
Lemma add32 : Rabs (a + b) <= bpow radix2 n -> rep32 (x + y)%num (rnd32 (a + b)) /\ Rabs (rnd32 (a + b)) <= bpow radix2 n.
Proof. intros H. destruct (rnd_fits n _ Hn H). split; [|assumption]. apply represents_add; assumption. Qed.
Lemma mul32 : Rabs (a * b) <= bpow radix2 n -> rep32 (x * y)%num (rnd32 (a * b)) /\ Rabs (rnd32 (a * b)) <= bpow radix2 n.
Proof. intros H. destruct (rnd_fits n _ Hn H). split; [|assumption]. apply represents_mul; assumption. Qed.
Lemma div32 : b <> 0 -> Rabs (a / b) <= bpow radix2 n -> rep32 (x / y)%num (rnd32 (a / b)) /\ Rabs (rnd32 (a / b)) <= bpow radix2 n.
Proof. intros Hb H. destruct (rnd_fits n _ Hn H). split; [|assumption]. apply represents_div; assumption. Qed.
End ops.

(** ** Growth of relative errors *)
Lemma growth m : 2 * INR m * u32 <= 1 -> (1 + u32) ^ m <= 1 + 2 * INR m * u32.
Proof.
  induction m as [|m IH]; intros H; [cbn; lra|]. rewrite S_INR in *. cbn [pow]. assert (0 < u32) by (unfold u32; lra). pose proof (pos_INR m).
  assert (2 * INR m * u32 <= 1) as H' by nra. specialize (IH H'). apply Rle_trans with ((1 + u32) * (1 + 2 * INR m * u32)); [apply Rmult_le_compat_l; lra|]. nra.
Qed.
(** [r] approximates [v], which is at most [s] in absolute value, with the relative error [a - 1] and the absolute error [b]. *)
Definition near (r v s a b : R) : Prop := Rabs v <= s /\ Rabs (r - v) <= (a - 1) * s + b /\ 1 <= a /\ 0 <= b.
Lemma near_size r v s a b : near r v s a b -> Rabs r <= a * s + b.
Proof. intros (H1 & H2 & _ & _). replace r with (v + (r - v)) by ring. eapply Rle_trans; [apply Rabs_triang|]. lra. Qed.
Lemma near_weaken r v s a b a' b' : near r v s a b -> a <= a' -> b <= b' -> near r v s a' b'.
Proof. intros (H1 & H2 & H3 & H4) A B. pose proof (Rabs_pos v). repeat split; try lra. eapply Rle_trans; [exact H2|]. apply Rplus_le_compat; [apply Rmult_le_compat_r; lra|lra]. Qed.
Lemma near_self v : near v v (Rabs v) 1 0.
Proof. repeat split; try lra. replace (v - v) with 0 by ring. rewrite Rabs_R0. lra. Qed.
Lemma near_rnd r v s a b : near r v s a b -> near (rnd32 r) v s (a * (1 + u32)) (b * (1 + u32) + eta32).
Proof.
  intros H. pose proof (near_size _ _ _ _ _ H) as Hs. destruct H as (H1 & H2 & H3 & H4). pose proof (rnd_error r) as He. pose proof eta32_pos. assert (0 < u32) by (unfold u32; lra). pose proof (Rabs_pos v).
  split; [exact H1|]. split; [|split; nra]. replace (rnd32 r - v) with ((rnd32 r - r) + (r - v)) by ring. eapply Rle_trans; [apply Rabs_triang|].
  assert (u32 * Rabs r <= u32 * (a * s + b)) by (apply Rmult_le_compat_l; lra). nra.
Qed.
Lemma near_plus r v s r' v' s' a b b' : near r v s a b -> near r' v' s' a b' -> near (r + r') (v + v') (s + s') a (b + b').
Proof.
  intros (H1 & H2 & H3 & H4) (H1' & H2' & _ & H4'). split; [eapply Rle_trans; [apply Rabs_triang|]; lra|]. split; [|lra].
  replace (r + r' - (v + v')) with ((r - v) + (r' - v')) by ring. eapply Rle_trans; [apply Rabs_triang|]. lra.
Qed.
(** One addition. *)
Lemma near_add (x y : F32) r v s r' v' s' a b b' : rep32 x r -> rep32 y r' -> near r v s a b -> near r' v' s' a b' ->
  a * (s + s') + (b + b') <= bpow radix2 127 ->
  exists t, rep32 (x + y)%num t /\ near t (v + v') (s + s') (a * (1 + u32)) ((b + b') * (1 + u32) + eta32) /\ (0 <= r -> 0 <= r' -> 0 <= t).
Proof.
  intros X Y Nx Ny Hb. pose proof (near_plus _ _ _ _ _ _ _ _ _ Nx Ny) as Np. destruct (add32 x y r r' 127 X Y ltac:(lia)) as [HR _]; [eapply Rle_trans; [apply (near_size _ _ _ _ _ Np)|exact Hb]|].
  exists (rnd32 (r + r')). split; [exact HR|]. split; [apply near_rnd; exact Np|]. intros P Q. apply (rnd_nonneg 24 128 _). lra.
Qed.
(** One product of two given numbers. *)
Lemma near_mul (x y : F32) p q : rep32 x p -> rep32 y q -> Rabs (p * q) <= bpow radix2 127 ->
  exists t, rep32 (x * y)%num t /\ near t (p * q) (Rabs (p * q)) (1 + u32) eta32 /\ (0 <= p -> 0 <= q -> 0 <= t).
Proof.
  intros X Y Hb. destruct (mul32 x y p q 127 X Y ltac:(lia) Hb) as [HR _]. exists (rnd32 (p * q)). split; [exact HR|]. split; [|intros P Q; apply (rnd_nonneg 24 128 _); nra].
  eapply near_weaken; [apply near_rnd, near_self|lra|lra].
Qed.
