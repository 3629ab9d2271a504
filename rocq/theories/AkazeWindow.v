(** * The samples around a keypoint and their weights. *)
From Coq Require Import Reals ZArith List Lia Lra Machin Ratan AltSeries.
From Verif Require Import Num Diffuse Akaze AkazeSpec.
Import ListNotations.
Local Open Scope R_scope.

(** ** The samples are the points of the grid closer than six steps. *)
Lemma disc_in (i j : Z) : In (i, j) disc <-> (i * i + j * j < 36)%Z.
Proof.
  unfold disc. rewrite filter_In, in_flat_map. rewrite Z.ltb_lt. split; [tauto|]. intros H. split; [|exact H].
  assert (-6 < i < 6)%Z as Hi by nia. assert (-6 < j < 6)%Z as Hj by nia.
  exists (Z.to_nat (j + 6)). split; [apply in_seq; lia|]. apply in_map_iff. exists (Z.to_nat (i + 6)). split; [f_equal; lia | apply in_seq; lia].
Qed.
Lemma pair_eq_dec (a b : Z * Z) : {a = b} + {a <> b}.
Proof. destruct a as [a a'], b as [b b']. destruct (Z.eq_dec a b) as [<-|H]; [|right; congruence]. destruct (Z.eq_dec a' b') as [<-|H]; [left; reflexivity | right; congruence]. Defined.
Lemma disc_nodup : NoDup disc.
Proof. replace disc with (nodup pair_eq_dec disc) by (vm_compute; reflexivity). apply NoDup_nodup. Qed.

(** ** The number [exp (-8/100)] *)
Definition step_down : R := exp (- (8 / 100)).
Lemma exp_terms_decrease (x : R) : 0 <= x <= 1 -> Un_decreasing (fun n => x ^ n / INR (fact n)).
Proof.
  intros Hx n. rewrite fact_simpl, mult_INR. assert (0 < INR (fact n)) by apply INR_fact_lt_0.
  assert (1 <= INR (S n)) as Hn by (rewrite S_INR; assert (0 <= INR n) by apply pos_INR; lra). assert (0 <= x ^ n) by (apply pow_le; lra).
  apply Rmult_le_reg_r with (INR (S n) * INR (fact n)); [nra|].
  replace (x ^ S n / (INR (S n) * INR (fact n)) * (INR (S n) * INR (fact n))) with (x * x ^ n) by (cbn [pow]; field; lra).
  replace (x ^ n / INR (fact n) * (INR (S n) * INR (fact n))) with (INR (S n) * x ^ n) by (field; lra). nra.
Qed.
Lemma exp_between (x : R) (N : nat) : 0 <= x <= 1 ->
  sum_f_R0 (tg_alt (fun n => x ^ n / INR (fact n))) (S (2 * N)) <= exp (- x) <= sum_f_R0 (tg_alt (fun n => x ^ n / INR (fact n))) (2 * N).
Proof.
  intros Hx. apply alternated_series_ineq; [apply exp_terms_decrease, Hx | apply cv_speed_pow_fact|].
  unfold exp. destruct (exist_exp (- x)) as [l Hl]. cbn [proj1_sig]. intros eps He. destruct (Hl eps He) as [n Hn]. exists n. intros m Hm.
  specialize (Hn m Hm). replace (sum_f_R0 (tg_alt (fun n => x ^ n / INR (fact n))) m) with (sum_f_R0 (fun i => / INR (fact i) * (- x) ^ i) m); [exact Hn|].
  apply sum_eq. intros i _. unfold tg_alt. replace (- x) with (-1 * x) by ring. rewrite Rpow_mult_distr. unfold Rdiv. ring.
Qed.
Lemma step_down_between : IZR 923116346 / IZR (10 ^ 9) <= step_down <= IZR 923116374 / IZR (10 ^ 9).
Proof.
  destruct (exp_between (8 / 100) 2 ltac:(lra)) as [H1 H2]. fold step_down in H1, H2. unfold tg_alt in H1, H2. cbn [sum_f_R0 Nat.mul Nat.add] in H1, H2.
  rewrite !INR_IZR_INZ in H1, H2. cbv [fact Nat.mul Nat.add Z.of_nat Pos.of_succ_nat Pos.succ] in H1, H2. cbn [pow] in H1, H2. rewrite !Rmult_1_r in H1, H2.
  rewrite INR_IZR_INZ in H1. change (Z.of_nat 120) with 120%Z in H1. change (10 ^ 9)%Z with 1000000000%Z. lra.
Qed.
Lemma PI_between : IZR 314159265 / IZR (10 ^ 8) <= PI <= IZR 314159266 / IZR (10 ^ 8).
Proof.
  destruct (PI_2_3_7_ineq 4) as [H1 H2]. unfold tg_alt, PI_2_3_7_tg, Ratan_seq in H1, H2. cbn [sum_f_R0 Nat.mul Nat.add] in H1, H2.
  rewrite !INR_IZR_INZ in H1, H2. cbv [Nat.mul Nat.add Z.of_nat Pos.of_succ_nat Pos.succ] in H1, H2. cbn [pow] in H1, H2. rewrite !Rmult_1_r in H1, H2.
  rewrite !INR_IZR_INZ in H1. change (Z.of_nat 19) with 19%Z in H1. change (10 ^ 8)%Z with 100000000%Z. lra.
Qed.

(** ** Powers and the table *)
Notation bell i j := (exp (- IZR (i * i + j * j) / (25 / 2)) / (25 / 2 * PI)).
Lemma exp_nat (x : R) (n : nat) : exp (INR n * x) = exp x ^ n.
Proof. induction n as [|n IH]; [cbn; rewrite Rmult_0_l; apply exp_0|]. rewrite S_INR, Rmult_plus_distr_r, Rmult_1_l, exp_plus, IH. cbn [pow]. ring. Qed.
Lemma bell_power (i j : Z) : bell i j = step_down ^ Z.to_nat (i * i + j * j) / (25 / 2 * PI).
Proof.
  unfold step_down. f_equal. rewrite <- exp_nat. f_equal. rewrite INR_IZR_INZ, Z2Nat.id by nia. field.
Qed.
Lemma power_between (n : nat) : IZR (923116346 ^ Z.of_nat n) / IZR (10 ^ (9 * Z.of_nat n)) <= step_down ^ n <= IZR (923116374 ^ Z.of_nat n) / IZR (10 ^ (9 * Z.of_nat n)).
Proof.
  rewrite Z.pow_mul_r by lia. change (10 ^ 9)%Z with 1000000000%Z. rewrite <- !pow_IZR. 
  assert (forall a b : R, b <> 0 -> (a / b) ^ n = a ^ n / b ^ n) as Hd by (intros a b Hb; unfold Rdiv; rewrite Rpow_mult_distr, pow_inv; reflexivity).
  rewrite <- !Hd by lra. destruct step_down_between as [H1 H2]. change (10 ^ 9)%Z with 1000000000%Z in H1, H2. split; apply pow_incr; lra.
Qed.
(** The entry [t] agrees with the [n]th power to [3] units. *)
Definition entry_close (n t : Z) : bool :=
  let d := (10 ^ (9 * n))%Z in
  andb (Z.leb (2 * 10 ^ 16 * 923116374 ^ n) ((t + 3) * 25 * 314159265 * d)) (Z.leb ((t - 3) * 25 * 314159266 * d) (2 * 10 ^ 16 * 923116346 ^ n)).
Lemma entry_close_sound (n t : Z) : (0 <= n)%Z -> (3 <= t)%Z -> entry_close n t = true -> Rabs (IZR t / 100000000 - step_down ^ Z.to_nat n / (25 / 2 * PI)) <= 3 / 100000000.
Proof.
  unfold entry_close. rewrite Bool.andb_true_iff, !Z.leb_le. intros Hn Ht [H1 H2]. apply IZR_le in H1, H2. rewrite !mult_IZR in H1, H2. rewrite plus_IZR in H1. rewrite minus_IZR in H2.
  destruct (power_between (Z.to_nat n)) as [P1 P2]. rewrite Z2Nat.id in P1, P2 by exact Hn. destruct PI_between as [Q1 Q2]. change (10 ^ 8)%Z with 100000000%Z in Q1, Q2.
  set (d := IZR (10 ^ (9 * n))) in *. assert (0 < d) as Hd by (apply IZR_lt, Z.pow_pos_nonneg; lia).
  set (u := IZR (923116374 ^ n)) in *. set (l := IZR (923116346 ^ n)) in *. set (p := step_down ^ Z.to_nat n) in *. change (10 ^ 16)%Z with 10000000000000000%Z in H1, H2.
  apply IZR_le in Ht. set (T := IZR t) in *. clearbody d u l p T.
  assert (p * d <= u) as P2' by (apply Rmult_le_compat_r with (r := d) in P2; [|lra]; replace (u / d * d) with u in P2 by (field; lra); exact P2).
  assert (l <= p * d) as P1' by (apply Rmult_le_compat_r with (r := d) in P1; [|lra]; replace (l / d * d) with l in P1 by (field; lra); exact P1).
  assert (0 < 25 / 2 * PI) as HP by lra.
  assert (p * 200000000 <= (T + 3) * 25 * PI) as U.
  { apply Rmult_le_reg_r with d; [exact Hd|]. apply Rle_trans with ((T + 3) * 25 * (314159265 / 100000000) * d); [lra|]. apply Rmult_le_compat_r; [lra|]. apply Rmult_le_compat_l; lra. }
  assert ((T - 3) * 25 * PI <= p * 200000000) as L.
  { apply Rmult_le_reg_r with d; [exact Hd|]. apply Rle_trans with ((T - 3) * 25 * (314159266 / 100000000) * d); [|lra]. apply Rmult_le_compat_r; [lra|]. apply Rmult_le_compat_l; lra. }
  apply Rabs_le. split.
  - apply Rplus_le_reg_r with (- (T / 100000000)). replace (T / 100000000 - p / (25 / 2 * PI) + - (T / 100000000)) with (- (p / (25 / 2 * PI))) by ring.
    apply Ropp_le_cancel. rewrite Ropp_involutive. apply Rmult_le_reg_r with (25 / 2 * PI); [exact HP|]. replace (p / (25 / 2 * PI) * (25 / 2 * PI)) with p by (field; lra). lra.
  - apply Rplus_le_reg_r with (p / (25 / 2 * PI) - 3 / 100000000). replace (T / 100000000 - p / (25 / 2 * PI) + (p / (25 / 2 * PI) - 3 / 100000000)) with (T / 100000000 - 3 / 100000000) by ring.
    replace (3 / 100000000 + (p / (25 / 2 * PI) - 3 / 100000000)) with (p / (25 / 2 * PI)) by ring.
    apply Rmult_le_reg_r with (25 / 2 * PI); [exact HP|]. replace (p / (25 / 2 * PI) * (25 / 2 * PI)) with p by (field; lra). lra.
Qed.
Definition table_entry (i j : nat) : Z := nth i (nth j gauss25 []) 0%Z.
Lemma table_checked : forallb (fun i => forallb (fun j => andb (Z.leb 3 (table_entry i j)) (entry_close (Z.of_nat i * Z.of_nat i + Z.of_nat j * Z.of_nat j) (table_entry i j))) (seq 0 7)) (seq 0 7) = true.
Proof. vm_compute. reflexivity. Qed.
Lemma weight_bell (i j : Z) : (Z.abs i <= 6)%Z -> (Z.abs j <= 6)%Z -> Rabs (gauss_weight Rwidths i j - bell i j) <= 3 / 100000000.
Proof.
  intros Hi Hj. pose proof table_checked as H. rewrite forallb_forall in H. specialize (H (Z.abs_nat i) ltac:(apply in_seq; lia)). cbn beta in H.
  rewrite forallb_forall in H. specialize (H (Z.abs_nat j) ltac:(apply in_seq; lia)). cbn beta in H. apply Bool.andb_true_iff in H. destruct H as [H1 H2]. apply Z.leb_le in H1.
  rewrite bell_power. replace (i * i + j * j)%Z with (Z.of_nat (Z.abs_nat i) * Z.of_nat (Z.abs_nat i) + Z.of_nat (Z.abs_nat j) * Z.of_nat (Z.abs_nat j))%Z by (rewrite !Zabs2Nat.id_abs; nia).
  apply entry_close_sound; [nia | exact H1 | exact H2].
Qed.
