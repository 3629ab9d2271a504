(** Pinhole calibration in binary64: bounds on the rounding errors of a round trip. *)
From Coq Require Import Reals ZArith SpecFloat Lia Lra Psatz.
From Flocq Require Import Core BinarySingleNaN.
From Coq Require Import List Bool.
From Verif Require Import Num Lin Core Pinhole PinholeSpec PinholeProps FloatFacts FloatUp FloatError FloatPinholeSpec.
Import ListNotations.
Open Scope R_scope.

(** ** Real arithmetic of the errors *)
Lemma abs_scale d w c : Rabs d <= c -> Rabs (d * w) <= c * Rabs w.
Proof. intros H. rewrite Rabs_mult. apply Rmult_le_compat_r; [apply Rabs_pos|exact H]. Qed.
Lemma ratio_error y n e : 1 <= n -> n <= bpow radix2 210 -> eta64 * n <= e -> 0 < rnd64 (1 / n) /\
  Rabs (rnd64 (y / n) / rnd64 (1 / n)) <= 2 * Rabs y + 2 * e /\ Rabs (rnd64 (rnd64 (y / n) / rnd64 (1 / n)) - y) <= 13 / 4 * u64 * Rabs y + 4 * e.
Proof.
  intros H1 H2 He. pose proof eta_pos as Hp. assert (Hee : eta64 <= e) by nra.
  assert (Hn : / n <> 0) by (apply Rinv_neq_0_compat; lra). assert (Hi : 0 < / n) by (apply Rinv_0_lt_compat; lra).
  destruct (rnd_relative (1 / n)) as (d & Hd & Ez).
  { unfold Rdiv. rewrite Rmult_1_l, Rabs_pos_eq by lra. apply Rle_trans with (/ bpow radix2 210); [rewrite <- bpow_opp; apply bpow_le; lia|apply Rinv_le_contravar; lra]. }
  destruct (rnd_model (y / n)) as (d' & e' & Hd' & He' & Ey). rewrite Ez, Ey.
  pose proof (Rabs_le_inv _ _ Hd) as Bd. pose proof (Rabs_le_inv _ _ Hd') as Bd'. unfold u64 in Bd, Bd'.
  assert (Hz : 0 < 1 + d) by lra. split; [unfold Rdiv; rewrite Rmult_1_l; apply Rmult_lt_0_compat; lra|].
  set (w := (y / n * (1 + d') + e') / (1 / n * (1 + d))).
  assert (Ew : w * (1 + d) = y + (d' * y + e' * n)) by (unfold w; field; lra).
  assert (D1 : Rabs (d' * y + e' * n) <= u64 * Rabs y + e).
  { eapply Rle_trans; [apply Rabs_triang|]. apply Rplus_le_compat; [now apply abs_scale|]. rewrite Rabs_mult, (Rabs_pos_eq n) by lra. apply Rle_trans with (eta64 * n); [apply Rmult_le_compat_r; lra|exact He]. }
  assert (D2 : Rabs (w - y) <= u64 * Rabs y + e + u64 * Rabs w).
  { replace (w - y) with ((d' * y + e' * n) + - (d * w)) by lra. eapply Rle_trans; [apply Rabs_triang|]. rewrite Rabs_Ropp. apply Rplus_le_compat; [exact D1|now apply abs_scale]. }
  assert (D3 : Rabs w <= Rabs y + Rabs (w - y)). { replace w with (y + (w - y)) at 1 by ring. apply Rabs_triang. }
  pose proof (rnd_error w) as D4. assert (D5 : Rabs (rnd64 w - y) <= Rabs (rnd64 w - w) + Rabs (w - y)). { replace (rnd64 w - y) with ((rnd64 w - w) + (w - y)) by ring. apply Rabs_triang. }
  pose proof (Rabs_pos y). pose proof (Rabs_pos w). clearbody w. clear - D2 D3 D4 D5 Hee Hp H H0. unfold u64 in *. split; lra.
Qed.
Lemma back_error a f n e : f <> 0 -> 1 <= n -> n <= bpow radix2 210 -> eta64 * n <= e ->
  let y := rnd64 (a / f) in let y' := rnd64 (rnd64 (y / n) / rnd64 (1 / n)) in
  Rabs (rnd64 (y' * f) - a) <= 11 / 2 * u64 * Rabs a + 8 * e * (Rabs f + 1) /\ Rabs (y' * f) <= 2 * Rabs a + 8 * e * (Rabs f + 1) /\ Rabs (y * f) <= 5 / 4 * Rabs a + e * (Rabs f + 1) /\ Rabs (y' * f - y * f) <= 4 * u64 * Rabs a + 6 * e * (Rabs f + 1).
Proof.
  intros Hf H1 H2 He y y'. pose proof eta_pos as Hp. assert (Hee : eta64 <= e) by nra.
  destruct (ratio_error y n e H1 H2 He) as (_ & _ & R1). fold y' in R1.
  pose proof (rnd_error (a / f)) as R2. fold y in R2. pose proof (rnd_error (y' * f)) as R3. pose proof (Rabs_pos f) as Pf. pose proof (Rabs_pos a) as Pa. pose proof (Rabs_pos y) as Py.
  assert (E1 : Rabs (y * f - a) <= u64 * Rabs a + eta64 * Rabs f).
  { replace (y * f - a) with ((y - a / f) * f) by (field; exact Hf). rewrite Rabs_mult. apply Rle_trans with ((u64 * Rabs (a / f) + eta64) * Rabs f); [apply Rmult_le_compat_r; assumption|].
    replace (Rabs a) with (Rabs (a / f) * Rabs f); [lra|]. rewrite <- Rabs_mult. f_equal. field. exact Hf. }
  assert (E2 : Rabs (y' * f - y * f) <= 13 / 4 * u64 * Rabs (y * f) + 4 * (e * Rabs f)).
  { replace (y' * f - y * f) with ((y' - y) * f) by ring. rewrite !Rabs_mult. apply Rle_trans with ((13 / 4 * u64 * Rabs y + 4 * e) * Rabs f); [apply Rmult_le_compat_r; assumption|]. lra. }
  assert (E3 : Rabs (y * f) <= Rabs a + Rabs (y * f - a)). { replace (y * f) with (a + (y * f - a)) at 1 by ring. apply Rabs_triang. }
  assert (E4 : Rabs (y' * f) <= Rabs (y * f) + Rabs (y' * f - y * f)). { replace (y' * f) with (y * f + (y' * f - y * f)) at 1 by ring. apply Rabs_triang. }
  assert (E5 : Rabs (rnd64 (y' * f) - a) <= Rabs (rnd64 (y' * f) - y' * f) + Rabs (y' * f - y * f) + Rabs (y * f - a)).
  { replace (rnd64 (y' * f) - a) with ((rnd64 (y' * f) - y' * f) + (y' * f - y * f) + (y * f - a)) by ring. eapply Rle_trans; [apply Rabs_triang|]. apply Rplus_le_compat_r, Rabs_triang. }
  assert (E6 : eta64 * Rabs f <= e * Rabs f) by (apply Rmult_le_compat_r; lra). assert (E7 : 0 <= e * Rabs f) by (apply Rmult_le_pos; lra).
  pose proof (Rabs_pos (y * f)). clear - E1 E2 E3 E4 E5 E6 E7 R3 Hee Hp Pa Pf H. set (ef := e * Rabs f) in *. replace (8 * e * (Rabs f + 1)) with (8 * ef + 8 * e) by (unfold ef; ring). replace (e * (Rabs f + 1)) with (ef + e) by (unfold ef; ring). replace (6 * e * (Rabs f + 1)) with (6 * ef + 6 * e) by (unfold ef; ring).
  unfold u64 in *. repeat split; lra.
Qed.
Lemma triangle a b c : Rabs (a - c) <= Rabs (a - b) + Rabs (b - c).
Proof. replace (a - c) with ((a - b) + (b - c)) by ring. apply Rabs_triang. Qed.
Lemma abs_minus a b : Rabs (a - b) <= Rabs a + Rabs b.
Proof. replace (a - b) with (a + - b) by ring. rewrite <- (Rabs_Ropp b). apply Rabs_triang. Qed.
Lemma abs_near a b : Rabs a <= Rabs b + Rabs (a - b).
Proof. replace a with (b + (a - b)) at 1 by ring. apply Rabs_triang. Qed.
Lemma sum_near r s r0 s0 : Rabs ((r + s) - (r0 + s0)) <= Rabs (r - r0) + Rabs (s - s0).
Proof. replace ((r + s) - (r0 + s0)) with ((r - r0) + (s - s0)) by ring. apply Rabs_triang. Qed.
Section coordinates.
Variables (p c f n e : R).
Hypotheses (Hf : f <> 0) (H1 : 1 <= n) (H2 : n <= bpow radix2 210) (He : eta64 * n <= e).
Let E := e * (Rabs f + 1).
Let a := rnd64 (p - c).
Let y := rnd64 (a / f).
Let y' := rnd64 (rnd64 (y / n) / rnd64 (1 / n)).
Lemma e_eta : 0 < eta64 <= e. Proof. pose proof eta_pos. split; [assumption|]. nra. Qed.
Lemma e_E : e <= E. Proof. pose proof e_eta. pose proof (Rabs_pos f). unfold E. nra. Qed.
Lemma y_error : Rabs (rnd64 (rnd64 (y' * f) + c) - p) <= 8 * u64 * (Rabs p + Rabs c) + 12 * E /\ Rabs (rnd64 (y' * f) + c) <= 4 * (Rabs p + Rabs c) + 12 * E.
Proof.
  pose proof e_eta as He0. pose proof e_E as HeE. destruct (back_error a f n e Hf H1 H2 He) as (B1 & _). fold y y' in B1. set (r := rnd64 (y' * f)) in *.
  pose proof (rnd_error (p - c)) as A1. fold a in A1. pose proof (rnd_error (r + c)) as A2. pose proof (abs_minus p c) as A3. pose proof (abs_near a (p - c)) as A4.
  pose proof (sum_near r c (p - c) c) as A5. replace (p - c + c) with p in A5 by ring. replace (c - c) with 0 in A5 by ring. rewrite Rabs_R0 in A5. pose proof (triangle r a (p - c)) as A6. pose proof (abs_near (r + c) p) as A7. pose proof (triangle (rnd64 (r + c)) (r + c) p) as A8.
  replace (8 * e * (Rabs f + 1)) with (8 * E) in B1 by (unfold E; ring). pose proof (Rabs_pos p). pose proof (Rabs_pos c). clearbody E a r y'. clear - B1 A1 A2 A3 A4 A5 A6 A7 A8 He0 HeE H H0. unfold u64 in *. split; lra.
Qed.
(** The other coordinate. *)
Variables (px_ cx_ g s : R).
Hypotheses (Hg : g <> 0) (Hs : Rabs s <= Rabs f).
Let G := e * (Rabs g + 1).
Let t := rnd64 (s * y).
Let ax := rnd64 (px_ - cx_).
Let num := rnd64 (ax - t).
Let x := rnd64 (num / g).
Let x' := rnd64 (rnd64 (x / n) / rnd64 (1 / n)).
Lemma x_error : let M := Rabs px_ + Rabs cx_ + Rabs p + Rabs c in let r := rnd64 (x' * g) in let t' := rnd64 (s * y') in
  Rabs (rnd64 (rnd64 (r + t') + cx_) - px_) <= 16 * u64 * M + 20 * (E + G) /\ Rabs (s * y') <= 8 * M + 20 * (E + G) /\ Rabs (r + t') <= 8 * M + 20 * (E + G) /\ Rabs (rnd64 (r + t') + cx_) <= 8 * M + 20 * (E + G) /\ Rabs num <= 8 * M + 20 * E.
Proof.
  intros M r t'. pose proof e_eta as He0. pose proof e_E as HeE. assert (HeG : e <= G) by (pose proof (Rabs_pos g); unfold G; nra).
  destruct (back_error a f n e Hf H1 H2 He) as (_ & _ & B2 & B3). fold y y' in B2, B3. destruct (back_error num g n e Hg H1 H2 He) as (C1 & _). fold x x' r in C1.
  replace (e * (Rabs f + 1)) with E in B2 by (unfold E; ring). replace (6 * e * (Rabs f + 1)) with (6 * E) in B3 by (unfold E; ring). replace (8 * e * (Rabs g + 1)) with (8 * G) in C1 by (unfold G; ring).
  assert (S1 : Rabs (s * y) <= Rabs (y * f)). { rewrite !Rabs_mult, (Rmult_comm (Rabs y)). apply Rmult_le_compat_r; [apply Rabs_pos|exact Hs]. }
  assert (S2 : Rabs (s * y' - s * y) <= Rabs (y' * f - y * f)). { replace (s * y' - s * y) with (s * (y' - y)) by ring. replace (y' * f - y * f) with (f * (y' - y)) by ring. rewrite !Rabs_mult. apply Rmult_le_compat_r; [apply Rabs_pos|exact Hs]. }
  pose proof (rnd_error (p - c)) as A1. fold a in A1. pose proof (abs_minus p c) as A2. pose proof (abs_near a (p - c)) as A3.
  pose proof (rnd_error (s * y)) as T1. fold t in T1. pose proof (rnd_error (s * y')) as T2. fold t' in T2. pose proof (abs_near (s * y') (s * y)) as T3. pose proof (abs_near t (s * y)) as T4.
  assert (T5 : Rabs (t' - t) <= Rabs (t' - s * y') + Rabs (s * y' - s * y) + Rabs (t - s * y)). { pose proof (triangle t' (s * y') t) as Q1. pose proof (triangle (s * y') (s * y) t) as Q2. rewrite (Rabs_minus_sym (s * y) t) in Q2. lra. }
  pose proof (rnd_error (px_ - cx_)) as X1. fold ax in X1. pose proof (abs_minus px_ cx_) as X2. pose proof (abs_near ax (px_ - cx_)) as X3.
  pose proof (rnd_error (ax - t)) as N1. fold num in N1. pose proof (abs_minus ax t) as N2. pose proof (abs_near num (ax - t)) as N3.
  pose proof (sum_near r t' num t) as R1.
  assert (R2 : Rabs (num + t - ax) <= Rabs (num - (ax - t))) by (replace (num + t - ax) with (num - (ax - t)) by ring; lra).
  pose proof (triangle (r + t') (num + t) ax) as R3. pose proof (triangle (r + t') ax (px_ - cx_)) as R4. pose proof (rnd_error (r + t')) as R5. set (r2 := rnd64 (r + t')) in *. pose proof (triangle r2 (r + t') (px_ - cx_)) as R6. pose proof (abs_near (r + t') (px_ - cx_)) as R7.
  pose proof (sum_near r2 cx_ (px_ - cx_) cx_) as Z1. replace (px_ - cx_ + cx_) with px_ in Z1 by ring. replace (cx_ - cx_) with 0 in Z1 by ring. rewrite Rabs_R0 in Z1. pose proof (abs_near (r2 + cx_) px_) as Z2. pose proof (rnd_error (r2 + cx_)) as Z3. pose proof (triangle (rnd64 (r2 + cx_)) (r2 + cx_) px_) as Z4.
  unfold M. clearbody E G r2 r t' num t ax. clear - He0 HeE HeG B2 B3 C1 S1 S2 A1 A2 A3 T1 T2 T3 T4 T5 X1 X2 X3 N1 N2 N3 R1 R2 R3 R4 R5 R6 R7 Z1 Z2 Z3 Z4.
  pose proof (Rabs_pos p). pose proof (Rabs_pos c). pose proof (Rabs_pos px_). pose proof (Rabs_pos cx_). pose proof (Rabs_pos (t - s * y)). pose proof (Rabs_pos (s * y)). unfold u64 in *. repeat split; lra.
Qed.
End coordinates.

(** ** The program *)
Definition moderate (x : F64) (r : R) : Prop := rep64 x r /\ Rabs r <= bpow radix2 100.
Definition focal (x : F64) (r : R) : Prop := moderate x r /\ bpow radix2 (-100) <= Rabs r.
Lemma focal_nonzero x r : focal x r -> r <> 0.
Proof. intros [_ H] ->. rewrite Rabs_R0 in H. pose proof (bpow_gt_0 radix2 (-100)). lra. Qed.
Lemma focal_quotient x r a m : focal x r -> Rabs a <= bpow radix2 m -> Rabs (a / r) <= bpow radix2 (m + 100).
Proof.
  intros F H. pose proof (focal_nonzero x r F) as N. destruct F as [_ F]. pose proof (bpow_gt_0 radix2 (-100)) as Hp. unfold Rdiv. rewrite Rabs_mult, Rabs_inv, bpow_plus. apply Rmult_le_compat; [apply Rabs_pos| |exact H|].
  - apply Rlt_le, Rinv_0_lt_compat. lra.
  - change 100%Z with (- (-100))%Z. rewrite bpow_opp. apply Rinv_le_contravar; lra.
Qed.
Lemma bpow_twice m : bpow radix2 m + bpow radix2 m = bpow radix2 (m + 1).
Proof. rewrite bpow_plus. change (bpow radix2 1) with 2. ring. Qed.
Lemma positive_signneg (x : F64) r : rep64 x r -> 0 < r -> signneg x = false.
Proof. intros (b & <- & Hf & <-) Hr. pose proof (positive_sign 53 1024 b Hf Hr) as H. destruct b as [s|s| |s m e B]; try discriminate Hf; exact H. Qed.
Lemma one_rep : rep64 (@one F64) 1.
Proof. apply (represents_int (z := 1)). cbv. discriminate. Qed.
Lemma rnd_ge_1 r : 1 <= r -> 1 <= rnd64 r.
Proof. intros H. replace 1 with (rnd64 1); [now apply rnd_le|]. apply (rnd_int (z := 1)). cbv. discriminate. Qed.
(** The norm of a bearing before it is normalised. *)
Lemma norm_rep (x y : F64) a b : rep64 x a -> rep64 y b -> Rabs a <= bpow radix2 206 -> Rabs b <= bpow radix2 206 ->
  exists n, rep64 (norm (V3 x y (@one F64))) n /\ 1 <= n <= bpow radix2 210 /\ n = rnd64 (R_sqrt.sqrt (rnd64 (rnd64 (rnd64 (a * a) + rnd64 (b * b)) + 1))).
Proof.
  intros X Y A B. assert (Sq : forall r, Rabs r <= bpow radix2 206 -> Rabs (r * r) <= bpow radix2 412).
  { intros r H. rewrite Rabs_mult. change 412%Z with (206 + 206)%Z. rewrite bpow_plus. apply Rmult_le_compat; try apply Rabs_pos; exact H. }
  destruct (mul64 x x a a 412 X X ltac:(lia) (Sq a A)) as [X2 BX]. destruct (mul64 y y b b 412 Y Y ltac:(lia) (Sq b B)) as [Y2 BY].
  assert (Px : 0 <= rnd64 (a * a)) by (apply (rnd_nonneg 53 1024 _); nra). assert (Py : 0 <= rnd64 (b * b)) by (apply (rnd_nonneg 53 1024 _); nra). rewrite Rabs_pos_eq in BX, BY by assumption.
  set (s := rnd64 (a * a)) in *. set (t := rnd64 (b * b)) in *.
  destruct (add64 _ _ s t 413 X2 Y2 ltac:(lia)) as [S BS]; [rewrite Rabs_pos_eq by lra; change 413%Z with (412 + 1)%Z; rewrite <- bpow_twice; lra|].
  assert (Pst : 0 <= rnd64 (s + t)) by (apply (rnd_nonneg 53 1024 _); lra). rewrite Rabs_pos_eq in BS by assumption. set (q := rnd64 (s + t)) in *.
  assert (One : rep64 (@one F64 * one)%num 1).
  { destruct (mul64 one one 1 1 0 one_rep one_rep ltac:(lia)) as [O _]; [rewrite Rmult_1_l, Rabs_R1; cbn; lra|]. rewrite Rmult_1_l in O. replace 1 with (rnd64 1); [exact O|]. apply (rnd_int (z := 1)). cbv. discriminate. }
  assert (L1 : 1 <= bpow radix2 413) by (change 1 with (bpow radix2 0); apply bpow_le; lia).
  destruct (add64 _ _ q 1 414 S One ltac:(lia)) as [T BT]; [rewrite Rabs_pos_eq by lra; change 414%Z with (413 + 1)%Z; rewrite <- bpow_twice; lra|].
  assert (P1 : 1 <= rnd64 (q + 1)) by (apply rnd_ge_1; lra). rewrite Rabs_pos_eq in BT by lra. set (v := rnd64 (q + 1)) in *.
  exists (rnd64 (R_sqrt.sqrt v)). split; [exact (represents_sqrt T ltac:(lra))|].
  assert (1 <= R_sqrt.sqrt v <= bpow radix2 207) as [Q1 Q2].
  { split; [rewrite <- sqrt_1; apply sqrt_le_1; lra|]. rewrite <- (sqrt_Rsqr (bpow radix2 207)) by apply bpow_ge_0. apply sqrt_le_1_alt. unfold Rsqr. rewrite <- bpow_plus. exact BT. }
  split; [|reflexivity]. split; [now apply rnd_ge_1|]. pose proof (rnd_bounded 207 (R_sqrt.sqrt v) ltac:(lia)) as R. rewrite Rabs_pos_eq in R by lra. specialize (R Q2). pose proof (Rle_abs (rnd64 (R_sqrt.sqrt v))). assert (bpow radix2 207 <= bpow radix2 210) by (apply bpow_le; lia). lra.
Qed.
Definition slack : R := bpow radix2 (-865).
Lemma slack_ok n : 1 <= n <= bpow radix2 210 -> eta64 * n <= slack.
Proof. intros H. unfold eta64, slack. change (-865)%Z with (-1075 + 210)%Z. rewrite bpow_plus. apply Rmult_le_compat_l; [apply bpow_ge_0|lra]. Qed.
Lemma slack_small f : Rabs f <= bpow radix2 100 -> 0 <= slack * (Rabs f + 1) <= bpow radix2 (-764).
Proof.
  intros H. pose proof (Rabs_pos f). unfold slack. split; [apply Rmult_le_pos; [apply bpow_ge_0|lra]|]. change (-764)%Z with (-865 + 101)%Z. rewrite (bpow_plus radix2 (-865)). apply Rmult_le_compat_l; [apply bpow_ge_0|]. change 101%Z with (100 + 1)%Z. rewrite <- bpow_twice. assert (1 <= bpow radix2 100) by (change 1 with (bpow radix2 0); apply bpow_le; lia). lra.
Qed.
(** ** Bearings have length one up to rounding *)
Lemma component_error v n e : 1 <= n -> eta64 * n <= e -> e <= u64 / 16 -> let w := rnd64 (v / n) in Rabs (w * w * (n * n) - v * v) <= 9 / 4 * u64 * (v * v) + 4 * e.
Proof.
  intros Hn He Hu w. pose proof eta_pos as Hp. destruct (rnd_model (v / n)) as (d & f & Hd & Hf & E). fold w in E.
  assert (W : w * n = v * (1 + d) + f * n) by (rewrite E; field; lra). set (g := f * n) in *. assert (Hg : Rabs g <= e). { unfold g. rewrite Rabs_mult, (Rabs_pos_eq n) by lra. apply Rle_trans with (eta64 * n); [apply Rmult_le_compat_r; lra|exact He]. }
  replace (w * w * (n * n) - v * v) with (d * (2 + d) * (v * v) + 2 * (1 + d) * (v * g) + g * g) by (replace (w * w * (n * n)) with ((w * n) * (w * n)) by ring; rewrite W; ring).
  apply Rabs_le_inv in Hd, Hg. assert (He0 : 0 <= e <= 1) by (unfold u64 in Hu; nra). clearbody g. clear - Hd Hg He0 Hu.
  assert (V : 0 <= v * v) by nra. assert (A1 : Rabs (d * (2 + d) * (v * v)) <= 17 / 8 * u64 * (v * v)).
  { rewrite Rabs_mult, (Rabs_pos_eq (v * v)) by exact V. apply Rmult_le_compat_r; [exact V|]. apply Rabs_le. unfold u64 in *. split; nra. }
  assert (A2 : Rabs (v * g) <= e * (1 + v * v) / 2 + 0).
  { rewrite Rplus_0_r. apply Rabs_le. assert (g * g <= e * e) by nra. assert (-(e * (1 + v * v)) <= 2 * (v * g) <= e * (1 + v * v)); [|lra]. 
    assert (Hv : Rabs v <= (1 + v * v) / 2).
    { pose proof (Rle_0_sqr (Rabs v - 1)) as Q. replace (v * v) with (Rabs v * Rabs v) by (rewrite <- Rabs_mult; apply Rabs_pos_eq, V). unfold Rsqr in Q. lra. }
    assert (K : Rabs (v * g) <= Rabs v * e) by (rewrite Rabs_mult; apply Rmult_le_compat_l; [apply Rabs_pos|apply Rabs_le; exact Hg]). assert (K2 : Rabs v * e <= (1 + v * v) / 2 * e) by (apply Rmult_le_compat_r; lra). pose proof (Rle_trans _ _ _ K K2) as K3. apply Rabs_le_inv in K3. lra. }
  assert (A3 : Rabs (2 * (1 + d) * (v * g)) <= 9 / 4 * (e * (1 + v * v) / 2)).
  { rewrite Rabs_mult. apply Rmult_le_compat; try apply Rabs_pos; [|lra]. apply Rabs_le. unfold u64 in *. split; lra. }
  assert (A4 : Rabs (g * g) <= e). { rewrite Rabs_pos_eq by nra. nra. }
  eapply Rle_trans; [apply Rabs_triang|]. eapply Rle_trans; [apply Rplus_le_compat_r, Rabs_triang|].
  assert (A5 : e * (v * v) <= u64 / 16 * (v * v)) by (apply Rmult_le_compat_r; assumption). 
  unfold u64 in *. lra.
Qed.
Lemma norm_error a b : let N := a * a + b * b + 1 in let n := rnd64 (R_sqrt.sqrt (rnd64 (rnd64 (rnd64 (a * a) + rnd64 (b * b)) + 1))) in Rabs (n * n - N) <= 11 / 2 * u64 * N.
Proof.
  intros N n. assert (Hx : 0 <= a * a) by nra. assert (Hy : 0 <= b * b) by nra. pose proof eta_pos as Hp. assert (Ht : eta64 <= u64 / 1024). { rewrite u64_bpow. apply Rle_trans with (bpow radix2 (-63)); [apply bpow_le; lia|]. replace (bpow radix2 (-53)) with (1024 * bpow radix2 (-63)); [lra|]. change 1024 with (bpow radix2 10). now rewrite <- bpow_plus. }
  pose proof (rnd_error (a * a)) as E1. rewrite (Rabs_pos_eq _ Hx) in E1. pose proof (rnd_error (b * b)) as E2. rewrite (Rabs_pos_eq _ Hy) in E2.
  assert (Px : 0 <= rnd64 (a * a)) by (apply (rnd_nonneg 53 1024 _); exact Hx). assert (Py : 0 <= rnd64 (b * b)) by (apply (rnd_nonneg 53 1024 _); exact Hy).
  set (s := rnd64 (a * a)) in *. set (t := rnd64 (b * b)) in *. pose proof (rnd_error (s + t)) as E3.
  assert (Pst : 0 <= rnd64 (s + t)) by (apply (rnd_nonneg 53 1024 _); lra). set (q := rnd64 (s + t)) in *. pose proof (rnd_error (q + 1)) as E4. rewrite (Rabs_pos_eq (s + t)) in E3 by lra. rewrite (Rabs_pos_eq (q + 1)) in E4 by lra.
  assert (P1 : 1 <= rnd64 (q + 1)) by (apply rnd_ge_1; lra). set (v := rnd64 (q + 1)) in *. apply Rabs_le_inv in E1, E2, E3, E4.
  assert (V : - (13 / 4 * u64 * N) <= v - N <= 13 / 4 * u64 * N). { unfold N, u64 in *. clearbody s t q v. clear n. lra. }
  assert (Q : 1 <= R_sqrt.sqrt v) by (rewrite <- sqrt_1; apply sqrt_le_1; lra). assert (S2 : R_sqrt.sqrt v * R_sqrt.sqrt v = v) by (apply sqrt_sqrt; lra).
  destruct (rnd_relative (R_sqrt.sqrt v)) as (d & Hd & E5); [rewrite Rabs_pos_eq by lra; apply Rle_trans with (bpow radix2 0); [apply bpow_le; lia|exact Q]|]. fold n in E5. apply Rabs_le_inv in Hd.
  assert (NN : n * n = v * ((1 + d) * (1 + d))) by (rewrite E5; transitivity ((R_sqrt.sqrt v * R_sqrt.sqrt v) * ((1 + d) * (1 + d))); [ring|now rewrite S2]). rewrite NN.
  assert (D : - (17 / 8 * u64) <= d * (2 + d) <= 17 / 8 * u64) by (unfold u64 in *; split; nra). replace (v * ((1 + d) * (1 + d)) - N) with ((v - N) + v * (d * (2 + d))) by ring. set (w := d * (2 + d)) in *. clearbody w v n s t q.
  assert (v <= 9 / 8 * N). { unfold u64 in V. assert (1 <= N) by (unfold N; lra). lra. }
  assert (HN : 1 <= N) by (unfold N; lra). assert (W : - (17 / 8 * u64 * v) <= v * w <= 17 / 8 * u64 * v) by (split; nra). apply Rabs_le. clear - V W HN. clearbody N. unfold u64 in *. lra.
Qed.
Lemma normalized_unit a b n : 1 <= n <= bpow radix2 210 -> n = rnd64 (R_sqrt.sqrt (rnd64 (rnd64 (rnd64 (a * a) + rnd64 (b * b)) + 1))) ->
  let x := rnd64 (a / n) in let y := rnd64 (b / n) in let z := rnd64 (1 / n) in Rabs (x * x + y * y + z * z - 1) <= 8 * u64.
Proof.
  intros Hn En x y z. pose proof (norm_error a b) as E0. cbv zeta in E0. rewrite <- En in E0. set (N := a * a + b * b + 1) in *.
  assert (Su : slack <= u64 / 1024). { rewrite u64_bpow. unfold slack. apply Rle_trans with (bpow radix2 (-63)); [apply bpow_le; lia|]. replace (bpow radix2 (-53)) with (1024 * bpow radix2 (-63)); [lra|]. change 1024 with (bpow radix2 10). now rewrite <- bpow_plus. }
  pose proof (slack_ok n Hn) as He. assert (Hs : slack <= u64 / 16) by (unfold u64 in *; lra).
  pose proof (component_error a n slack (proj1 Hn) He Hs) as Ex. pose proof (component_error b n slack (proj1 Hn) He Hs) as Ey. pose proof (component_error 1 n slack (proj1 Hn) He Hs) as Ez. cbv zeta in Ex, Ey, Ez. fold x in Ex. fold y in Ey. fold z in Ez.
  apply Rabs_le_inv in E0, Ex, Ey, Ez. assert (Nn : 1 <= n * n) by nra. set (m := n * n) in *. set (w := x * x + y * y + z * z). assert (HN : 1 <= N) by (unfold N; nra).
  assert (A : - (31 / 4 * u64 * N + u64 / 16) <= w * m - m <= 31 / 4 * u64 * N + u64 / 16).
  { replace (w * m - m) with ((x * x * m - a * a) + (y * y * m - b * b) + (z * z * m - 1 * 1) - (m - N)) by (unfold w, N; ring). unfold N in E0 |- *. clear - E0 Ex Ey Ez Su. unfold u64 in *. lra. }
  assert (B : N <= (1 + 6 * u64) * m). { clear - E0 HN Nn. clearbody N m. unfold u64 in *. lra. }
  assert (C : - (8 * u64 * m) <= (w - 1) * m <= 8 * u64 * m). { replace ((w - 1) * m) with (w * m - m) by ring. clear - A B Nn HN. clearbody N m w. unfold u64 in *. lra. }
  apply Rabs_le. split; nra.
Qed.
Lemma round_trip (k : intrinsics F64) (p : vec2 F64) P1 P2 C1 C2 G F S :
  moderate (px p) P1 -> moderate (py p) P2 -> moderate (px (principal_point k)) C1 -> moderate (py (principal_point k)) C2 ->
  focal (px (focals k)) G -> focal (py (focals k)) F -> moderate (skew k) S -> Rabs S <= Rabs F ->
  exists q Q1 Q2 X Y Z, (rep64 (vx (calibrate k p)) X /\ rep64 (vy (calibrate k p)) Y /\ rep64 (vz (calibrate k p)) Z /\ 0 < Z /\ Rabs (X * X + Y * Y + Z * Z - 1) <= 8 * u64) /\
    uncalibrate k (calibrate k p) = Some q /\ rep64 (px q) Q1 /\ rep64 (py q) Q2 /\
    Rabs (Q1 - P1) <= 16 * u64 * (Rabs P1 + Rabs C1 + Rabs P2 + Rabs C2) + bpow radix2 (-700) /\ Rabs (Q2 - P2) <= 8 * u64 * (Rabs P2 + Rabs C2) + bpow radix2 (-700).
Proof.
  intros [Rp1 Bp1] [Rp2 Bp2] [Rc1 Bc1] [Rc2 Bc2] FG FF [Rs Bs] Hs. pose proof FG as [[Rg Bg] _]. pose proof FF as [[Rf Bf] _].
  pose proof (focal_nonzero _ _ FF) as Nf. pose proof (focal_nonzero _ _ FG) as Ng.
  set (B := bpow radix2 100) in *. assert (HB : 1 <= B) by (change 1 with (bpow radix2 0); apply bpow_le; lia).
  assert (Pow : forall m, (0 <= m)%Z -> bpow radix2 (100 + m) = IZR (2 ^ m) * B). { intros m Hm. rewrite bpow_plus, <- (IZR_Zpower radix2 m Hm). unfold B. change (radix_val radix2) with 2%Z. ring. }
  assert (H101 : bpow radix2 101 = 2 * B) by (exact (Pow 1%Z ltac:(lia))). assert (H106 : bpow radix2 106 = 64 * B) by (exact (Pow 6%Z ltac:(lia))). assert (H110 : bpow radix2 110 = 1024 * B) by (exact (Pow 10%Z ltac:(lia))).
  assert (Tiny : bpow radix2 (-764) <= 1 / 1024). { change (1 / 1024) with (1 * / IZR (Z.pow_pos 2 10)). rewrite Rmult_1_l. change (/ IZR (Z.pow_pos 2 10)) with (bpow radix2 (-10)). apply bpow_le. lia. }
  destruct (slack_small F Bf) as [E0 E1]. destruct (slack_small G Bg) as [G0 G1].
  (* to the plane *)
  destruct (sub64 _ _ P2 C2 101 Rp2 Rc2 ltac:(lia)) as [Ra Ba]; [rewrite H101; pose proof (abs_minus P2 C2); lra|]. set (a := rnd64 (P2 - C2)) in *.
  destruct (div64 _ _ a F 201 Ra Rf ltac:(lia) Nf (focal_quotient _ F a 101 FF Ba)) as [Ry By]. set (y := rnd64 (a / F)) in *.
  assert (Bsy : Rabs (S * y) <= bpow radix2 301). { rewrite Rabs_mult. change 301%Z with (100 + 201)%Z. rewrite bpow_plus. apply Rmult_le_compat; try apply Rabs_pos; assumption. }
  destruct (mul64 _ _ S y 301 Rs Ry ltac:(lia) Bsy) as [Rt Bt]. set (t := rnd64 (S * y)) in *.
  destruct (sub64 _ _ P1 C1 101 Rp1 Rc1 ltac:(lia)) as [Rax Bax]; [rewrite H101; pose proof (abs_minus P1 C1); lra|]. set (ax := rnd64 (P1 - C1)) in *.
  assert (bpow radix2 101 <= bpow radix2 301) as H301 by (apply bpow_le; lia).
  destruct (sub64 _ _ ax t 302 Rax Rt ltac:(lia)) as [Rn _]; [change 302%Z with (301 + 1)%Z; rewrite <- bpow_twice; pose proof (abs_minus ax t); lra|]. set (num := rnd64 (ax - t)) in *.
  assert (Bn : Rabs num <= bpow radix2 106).
  { pose proof (slack_ok 1) as S1. assert (1 <= 1 <= bpow radix2 210) as O by (split; [lra|]; change 1 with (bpow radix2 0); apply bpow_le; lia).
    destruct (x_error P2 C2 F 1 slack Nf ltac:(lra) (proj2 O) (S1 O) P1 C1 G S Ng Hs) as (_ & _ & _ & _ & X). fold a y t ax num in X. rewrite H106. lra. }
  destruct (div64 _ _ num G 206 Rn Rg ltac:(lia) Ng (focal_quotient _ G num 106 FG Bn)) as [Rx Bx]. set (x := rnd64 (num / G)) in *.
  assert (By' : Rabs y <= bpow radix2 206) by (apply Rle_trans with (1 := By), bpow_le; lia).
  destruct (norm_rep _ _ x y Rx Ry Bx By') as (n & Rnn & [Hn1 Hn2] & En). pose proof (slack_ok n (conj Hn1 Hn2)) as He.
  (* the bearing *)
  assert (Ln : forall r m, Rabs r <= bpow radix2 m -> Rabs (r / n) <= bpow radix2 m).
  { intros r m H. unfold Rdiv. rewrite Rabs_mult, (Rabs_pos_eq (/ n)) by (apply Rlt_le, Rinv_0_lt_compat; lra). assert (/ n <= 1) by (rewrite <- Rinv_1; apply Rinv_le_contravar; lra). pose proof (Rabs_pos r). nra. }
  assert (Nn : n <> 0) by lra. destruct (div64 _ _ x n 206 Rx Rnn ltac:(lia) Nn (Ln x 206%Z Bx)) as [Rbx _]. destruct (div64 _ _ y n 206 Ry Rnn ltac:(lia) Nn (Ln y 206%Z By')) as [Rby _].
  destruct (div64 _ _ 1 n 0 one_rep Rnn ltac:(lia) Nn) as [Rbz _]; [apply (Ln 1 0%Z); rewrite Rabs_R1; cbn; lra|].
  destruct (ratio_error x n slack Hn1 Hn2 He) as (Pz & Wx & _). destruct (ratio_error y n slack Hn1 Hn2 He) as (_ & Wy & _).
  assert (Nz : rnd64 (1 / n) <> 0) by lra.
  assert (slack <= bpow radix2 206) as Sl by (apply bpow_le; lia). assert (bpow radix2 208 = 4 * bpow radix2 206) as H208 by (change 208%Z with (206 + 2)%Z; rewrite bpow_plus; change (bpow radix2 2) with 4; ring).
  destruct (div64 _ _ _ _ 208 Rbx Rbz ltac:(lia) Nz) as [Rx' _]; [rewrite H208; lra|]. destruct (div64 _ _ _ _ 208 Rby Rbz ltac:(lia) Nz) as [Ry' By2]; [rewrite H208; lra|].
  set (x' := rnd64 (rnd64 (x / n) / rnd64 (1 / n))) in *. set (y' := rnd64 (rnd64 (y / n) / rnd64 (1 / n))) in *.
  (* back to pixels *)
  destruct (y_error P2 C2 F n slack Nf Hn1 Hn2 He) as [Y1 Y2]. fold a y y' in Y1, Y2. destruct (x_error P2 C2 F n slack Nf Hn1 Hn2 He P1 C1 G S Ng Hs) as (X1 & X2 & X3 & X4 & _). fold a y y' t ax num x x' in X1, X2, X3, X4.
  destruct (back_error a F n slack Nf Hn1 Hn2 He) as (_ & Z1 & _). fold y y' in Z1. destruct (back_error num G n slack Ng Hn1 Hn2 He) as (_ & Z2 & _). fold x x' in Z2.
  rewrite H101 in Ba. rewrite H106 in Bn.
  destruct (mul64 _ _ y' F 110 Ry' Rf ltac:(lia)) as [Ryf _]; [rewrite H110; lra|]. destruct (mul64 _ _ x' G 110 Rx' Rg ltac:(lia)) as [Rxg _]; [rewrite H110; lra|].
  destruct (mul64 _ _ S y' 110 Rs Ry' ltac:(lia)) as [Rsy _]; [rewrite H110; lra|].
  destruct (add64 _ _ _ _ 110 Rxg Rsy ltac:(lia)) as [Rr _]; [rewrite H110; lra|].
  destruct (add64 _ _ _ _ 110 Rr Rc1 ltac:(lia)) as [Rq1 _]; [rewrite H110; lra|]. destruct (add64 _ _ _ _ 110 Ryf Rc2 ltac:(lia)) as [Rq2 _]; [rewrite H110; lra|].
  eexists. eexists. eexists. eexists. eexists. eexists. split; [split; [exact Rbx|]; split; [exact Rby|]; split; [exact Rbz|]; split; [exact Pz|]; exact (normalized_unit x y n (conj Hn1 Hn2) En)|]. split; [unfold uncalibrate; rewrite (positive_signneg _ (rnd64 (1 / n))); [reflexivity|exact Rbz|exact Pz]|]. split; [exact Rq1|]. split; [exact Rq2|].
  assert (bpow radix2 (-700) = IZR (2 ^ 64) * bpow radix2 (-764)) as H700 by (change (-700)%Z with (64 + -764)%Z; rewrite bpow_plus, <- (IZR_Zpower radix2 64) by lia; reflexivity).
  pose proof (bpow_gt_0 radix2 (-764)). change (2 ^ 64)%Z with 18446744073709551616%Z in H700. split; lra.
Qed.


(** ** Statements about values *)
Lemma bpow_neg n : bpow radix2 (- Z.of_nat n) = / 2 ^ n.
Proof. rewrite bpow_opp. f_equal. rewrite <- (IZR_Zpower radix2) by lia. apply eq_sym, (pow_IZR 2 n). Qed.
Lemma bpow_nat n : bpow radix2 (Z.of_nat n) = 2 ^ n.
Proof. rewrite <- (IZR_Zpower radix2) by lia. apply eq_sym, (pow_IZR 2 n). Qed.
Lemma double_rep x : finite_double x -> rep64 x (SF2R radix2 x).
Proof. intros [V F]. apply valid_represents; assumption. Qed.
Lemma rep_double x r : rep64 x r -> finite_double x /\ SF2R radix2 x = r.
Proof. intros H. split; [destruct (represents_valid H) as (V & F & _); split; assumption|exact (represents_value H)]. Qed.
Lemma practical_parts k p : practical k p -> let v x := SF2R radix2 x in
  moderate (px p) (v (px p)) /\ moderate (py p) (v (py p)) /\ moderate (px (principal_point k)) (v (px (principal_point k))) /\ moderate (py (principal_point k)) (v (py (principal_point k))) /\
  focal (px (focals k)) (v (px (focals k))) /\ focal (py (focals k)) (v (py (focals k))) /\ moderate (skew k) (v (skew k)) /\ Rabs (v (skew k)) <= Rabs (v (py (focals k))).
Proof.
  intros (A & B & C) v. assert (M : forall x, In x [px p; py p; px (principal_point k); py (principal_point k); skew k; px (focals k); py (focals k)] -> moderate x (v x)).
  { intros x Hx. destruct (A x Hx) as [D L]. split; [now apply double_rep|]. change (bpow radix2 100) with (bpow radix2 (Z.of_nat 100)). rewrite (bpow_nat 100). exact L. }
  assert (G : forall x, In x [px (focals k); py (focals k)] -> bpow radix2 (-100) <= Rabs (v x)) by (intros x Hx; change (bpow radix2 (-100)) with (bpow radix2 (- Z.of_nat 100)); rewrite (bpow_neg 100); now apply B).
  repeat split; try (apply M; cbn; tauto); try (apply G; cbn; tauto). exact C.
Qed.
Lemma eight_u : 8 * u64 = / 2 ^ 50.
Proof. unfold u64. replace 9007199254740992 with (8 * 2 ^ 50) by lra. field. Qed.
Lemma float_pixel (k : intrinsics F64) (p : vec2 F64) : practical k p -> exists q, uncalibrate k (calibrate k p) = Some q /\ finite_double (px q) /\ finite_double (py q) /\
  Rabs (SF2R radix2 (px q) - SF2R radix2 (px p)) <= / 2 ^ 49 * (Rabs (SF2R radix2 (px p)) + Rabs (SF2R radix2 (px (principal_point k))) + Rabs (SF2R radix2 (py p)) + Rabs (SF2R radix2 (py (principal_point k)))) + / 2 ^ 700 /\
  Rabs (SF2R radix2 (py q) - SF2R radix2 (py p)) <= / 2 ^ 50 * (Rabs (SF2R radix2 (py p)) + Rabs (SF2R radix2 (py (principal_point k)))) + / 2 ^ 700.
Proof.
  intros H. destruct (practical_parts k p H) as (H1 & H2 & H3 & H4 & H5 & H6 & H7 & H8). cbv zeta in *.
  destruct (round_trip k p _ _ _ _ _ _ _ H1 H2 H3 H4 H5 H6 H7 H8) as (q & Q1 & Q2 & X & Y & Z & _ & E & R1 & R2 & E1 & E2).
  exists q. destruct (rep_double _ _ R1) as [D1 ->]. destruct (rep_double _ _ R2) as [D2 ->]. split; [exact E|]. split; [exact D1|]. split; [exact D2|].
  rewrite <- (bpow_neg 700). change (- Z.of_nat 700)%Z with (-700)%Z. assert (16 * u64 = / 2 ^ 49) as <-. { replace (16 * u64) with (2 * (8 * u64)) by ring. rewrite eight_u. replace (2 ^ 50) with (2 * 2 ^ 49) by (cbn [pow]; ring). field. }
  rewrite <- eight_u. split; [exact E1|exact E2].
Qed.
Lemma float_bearing (k : intrinsics F64) (p : vec2 F64) : practical k p -> let b := calibrate k p in finite_double (vx b) /\ finite_double (vy b) /\ finite_double (vz b) /\ 0 < SF2R radix2 (vz b) /\
  Rabs (SF2R radix2 (vx b) ^ 2 + SF2R radix2 (vy b) ^ 2 + SF2R radix2 (vz b) ^ 2 - 1) <= / 2 ^ 50.
Proof.
  intros H. destruct (practical_parts k p H) as (H1 & H2 & H3 & H4 & H5 & H6 & H7 & H8). cbv zeta in *.
  destruct (round_trip k p _ _ _ _ _ _ _ H1 H2 H3 H4 H5 H6 H7 H8) as (q & Q1 & Q2 & X & Y & Z & (RX & RY & RZ & HZ & U) & _).
  destruct (rep_double _ _ RX) as [D1 ->]. destruct (rep_double _ _ RY) as [D2 ->]. destruct (rep_double _ _ RZ) as [D3 ->]. rewrite <- eight_u. repeat split; try apply D1; try apply D2; try apply D3; try exact HZ.
  replace (X ^ 2 + Y ^ 2 + Z ^ 2 - 1) with (X * X + Y * Y + Z * Z - 1) by ring. exact U.
Qed.
(** The camera of the documentation. *)
Lemma int_double z : (Z.abs z <= 2 ^ 53)%Z -> finite_double (@ofZ F64 z) /\ SF2R radix2 (@ofZ F64 z) = IZR z.
Proof. intros H. apply rep_double. exact (represents_int (z := z) H). Qed.
Lemma practical_case : practical (Intrinsics (N := F64) (V2 (N := F64) (ofZ 800) (ofZ 900)) (V2 (N := F64) (ofZ 500) (ofZ 600)) (ofZ 2)) (V2 (N := F64) (ofZ 471) (ofZ 322)).
Proof.
  assert (I : forall z, (1 <= z <= 1024)%Z -> finite_double (@ofZ F64 z) /\ Rabs (SF2R radix2 (@ofZ F64 z)) <= 2 ^ 100 /\ / 2 ^ 100 <= Rabs (SF2R radix2 (@ofZ F64 z))).
  { intros z Hz. destruct (int_double z ltac:(change (2 ^ 53)%Z with 9007199254740992%Z; lia)) as [D ->]. split; [exact D|]. assert (1 <= IZR z <= 1024) by (split; [apply (IZR_le 1)|apply (IZR_le _ 1024)]; lia). rewrite Rabs_pos_eq by lra.
    assert (1 <= 2 ^ 90) by (apply pow_R1_Rle; lra). replace (2 ^ 100) with (1024 * 2 ^ 90) by (change 100%nat with (10 + 90)%nat; rewrite pow_add; lra). split; [nra|]. apply Rle_trans with (/ 1); [apply Rinv_le_contravar; nra|lra]. }
  split; [|split].
  - cbn [In px py principal_point skew focals]. intros x Hx. repeat destruct Hx as [<- | Hx]; try (split; apply I; lia). destruct Hx.
  - cbn [In px py focals]. intros x Hx. repeat destruct Hx as [<- | Hx]; try (apply I; lia). destruct Hx.
  - cbn [skew py focals]. destruct (int_double 2 ltac:(cbv; discriminate)) as [_ ->]. destruct (int_double 900 ltac:(cbv; discriminate)) as [_ ->]. rewrite !Rabs_pos_eq by lra. lra.
Qed.
(** With a tiny distortion the way back loses all digits. *)
Lemma cancellation : exists (k : intrinsics F64) (k1 : F64) (p q : vec2 F64), finite2 (focals k) = true /\ finite2 (principal_point k) = true /\ isfin (skew k) = true /\ finite2 p = true /\
  ltb zero (k1 * norm2_2 (to_plane k p))%num = true /\ leb (k1 * norm2_2 (to_plane k p))%num one = true /\ uncalibrate_k1 k k1 (calibrate_k1 k k1 p) = Some q /\ finite2 q = true /\ leb (ofZ 15) (px q - px p)%num = true.
Proof.
  set (k := Intrinsics (N := F64) (V2 (N := F64) (ofZ 1000) (ofZ 1000)) (V2 (N := F64) (ofZ 500) (ofZ 500)) zero). set (k1 := (@one F64 / ofZ 1099511627776)%num). set (p := V2 (N := F64) (ofZ 504) (ofZ 500)).
  destruct (some_test (uncalibrate_k1 k k1 (calibrate_k1 k k1 p)) (fun q => andb (finite2 q) (leb (ofZ 15) (px q - px p)%num))) as (q & E & Hq); [vm_compute; reflexivity|]. apply andb_true_iff in Hq.
  exists k, k1, p, q. do 6 (split; [vm_compute; reflexivity|]). split; [exact E|exact Hq].
Qed.
