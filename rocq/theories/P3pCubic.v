(** The root of the cubic found by Newton's method. *)
From Coq Require Import Reals List Lia Lra Psatz Arith Ranalysis.
From Verif Require Import Num Lin LinSpec P3p P3pSpec P3pFacts.
Import ListNotations.
Open Scope R_scope.

Lemma iter_plus {A} (f : A -> A) m n x : Nat.iter (m + n) f x = Nat.iter m f (Nat.iter n f x).
Proof. induction m as [|m IH]; [reflexivity|]. cbn. f_equal. exact IH. Qed.

Section cubic.
Variables b c d : R.
Notation h := (cubic_value b c d).
Notation h' := (cubic_slope b c).

Lemma cubic_at_value r : cubic_at (N := RNum) b c d r = h r.
Proof. unfold cubic_at, cubic_value. rnum. ring. Qed.
Lemma slope_at_value r : slope_at (N := RNum) b c r = h' r.
Proof. unfold slope_at, cubic_slope, three, two. rnum. ring. Qed.
Lemma newton_value r : newton (N := RNum) b c d r = r - h r / h' r.
Proof. unfold newton. rewrite cubic_at_value, slope_at_value. reflexivity. Qed.
Lemma cubic_continuous : continuity h.
Proof. unfold cubic_value. intros x. apply derivable_continuous_pt. reg. Qed.
(** Expansion around a point. *)
Lemma cubic_expand t s : h (t + s) = h t + h' t * s + (3 * t + b) * (s * s) + s * s * s.
Proof. unfold cubic_value, cubic_slope. ring. Qed.

(** A point from which Newton's method approaches the root [rho] from one side: the second derivative at [rho] points that way. *)
Definition good (rho r : R) : Prop := h rho = 0 /\ 0 <= h' rho /\ 0 <= (3 * rho + b) * (r - rho).

Lemma newton_good rho r : good rho r -> exists k, 0 <= k <= 2 / 3 /\ newton (N := RNum) b c d r - rho = k * (r - rho).
Proof.
  intros (H0 & H1 & H2). rewrite newton_value. set (u := r - rho) in *. set (A := 3 * rho + b) in *. set (B := h' rho) in *.
  assert (Eh : h r = u * (u * u + A * u + B)).
  { replace r with (rho + u) by (unfold u; ring). rewrite cubic_expand, H0. fold A B. ring. }
  assert (Es : h' r = 3 * (u * u) + 2 * (A * u) + B) by (unfold cubic_slope, u, A, B, cubic_slope; ring).
  rewrite Eh, Es. replace r with (u + rho) by (unfold u; ring). clearbody u A B.
  destruct (Req_dec u 0) as [->|N].
  - exists 0. split; [lra|]. replace (0 * (0 * 0 + A * 0 + B)) with 0 by ring. unfold Rdiv. rewrite Rmult_0_l. ring.
  - assert (P : 0 < u * u) by nra. set (q := A * u) in *. assert (D : 0 < 3 * (u * u) + 2 * q + B) by lra.
    exists ((2 * (u * u) + q) / (3 * (u * u) + 2 * q + B)). split.
    + split; [apply Rmult_le_pos; [lra|apply Rlt_le, Rinv_0_lt_compat; exact D]|].
      apply Rmult_le_reg_r with (3 * (u * u) + 2 * q + B); [exact D|]. unfold Rdiv at 1. rewrite Rmult_assoc, Rinv_l by lra. lra.
    + unfold q. field. fold q. lra.
Qed.
Lemma newton_good_again rho r : good rho r -> good rho (newton (N := RNum) b c d r).
Proof. intros H. destruct (newton_good rho r H) as (k & K & E). destruct H as (H0 & H1 & H2). split; [exact H0|]. split; [exact H1|]. rewrite E. nra. Qed.
Lemma newton_iter rho n : forall r, good rho r -> good rho (Nat.iter n (newton (N := RNum) b c d) r) /\
  exists k, 0 <= k <= (2 / 3) ^ n /\ Nat.iter n (newton (N := RNum) b c d) r - rho = k * (r - rho).
Proof.
  induction n as [|n IH]; intros r H.
  - split; [exact H|]. exists 1. cbn. split; [lra|ring].
  - destruct (IH r H) as [G (k & K & E)]. change (Nat.iter (S n) (newton (N := RNum) b c d) r) with (newton (N := RNum) b c d (Nat.iter n (newton (N := RNum) b c d) r)).
    split; [apply newton_good_again; exact G|]. destruct (newton_good rho _ G) as (k' & K' & E'). exists (k' * k). cbn [pow]. split.
    + split; [nra|]. apply Rmult_le_compat; lra.
    + rewrite E', E. ring.
Qed.
Lemma newton_until_good rho n : forall r, good rho r ->
  exists k, 0 <= k <= 1 /\ newton_until (N := RNum) b c d n r - rho = k * (r - rho) /\
    (Rabs (h (newton_until (N := RNum) b c d n r)) <= / 10000000000000 \/ k <= (2 / 3) ^ n).
Proof.
  induction n as [|n IH]; intros r H.
  - exists 1. cbn. split; [lra|]. split; [ring|right; lra].
  - cbn [newton_until]. rewrite cubic_at_value. cbn [ltb RNum]. unfold lit. rnum.
    destruct (Rltb (1 / 10000000000000) (Rabs (h r))) eqn:E.
    + destruct (IH _ (newton_good_again rho r H)) as (k & K & E1 & E2). destruct (newton_good rho r H) as (k' & K' & E').
      exists (k * k'). split; [split; nra|]. split; [rewrite E1, E'; ring|]. destruct E2 as [E2|E2]; [left; exact E2|right]. cbn [pow].
      rewrite Rmult_comm. apply Rmult_le_compat; lra.
    + apply Rltb_false in E. exists 1. split; [lra|]. split; [ring|left; lra].
Qed.
(** The last step: from the iterate number [n], with [n <= 7]. *)
Lemma cube_root_good rho r n : (n <= 7)%nat -> Nat.iter n (newton (N := RNum) b c d) (cube_root_start (N := RNum) b c d) = r -> good rho r ->
  exists k, 0 <= k <= (2 / 3) ^ (7 - n) /\ cube_root (N := RNum) b c d - rho = k * (r - rho) /\
    (Rabs (h (cube_root (N := RNum) b c d)) <= / 10000000000000 \/ k <= (2 / 3) ^ (50 - n)).
Proof.
  intros Hn Er G. unfold cube_root.
  assert (E7 : Nat.iter 7 (newton (N := RNum) b c d) (cube_root_start (N := RNum) b c d) = Nat.iter (7 - n) (newton (N := RNum) b c d) r).
  { rewrite <- Er, <- iter_plus. f_equal. lia. }
  rewrite E7. destruct (newton_iter rho (7 - n) r G) as [G' (k & K & E)]. destruct (newton_until_good rho 43 _ G') as (k' & K' & E' & F).
  exists (k' * k). split.
  - split; [nra|]. assert (0 <= (2 / 3) ^ (7 - n)) by lra. nra.
  - split; [rewrite E', E; ring|]. destruct F as [F|F]; [left; exact F|right].
    replace (50 - n)%nat with (43 + (7 - n))%nat by lia. rewrite pow_add. apply Rmult_le_compat; try lra.
Qed.
(** A point where the cubic has the value [(r - t)^3] and [t] is on the other side of the root. *)
Lemma root_between t r : h t * (r - t) <= 0 -> h r = (r - t) * (r - t) * (r - t) ->
  exists rho, h rho = 0 /\ 0 <= (rho - t) * (r - rho) /\ 0 <= (r - t) * (rho - t).
Proof.
  intros H1 H2. destruct (Rle_dec t r) as [L|L].
  - destruct (IVT_cor h t r cubic_continuous L) as (z & [Z1 Z2] & Z).
    + rewrite H2. assert (0 <= (r - t) * (r - t)) by nra. nra.
    + exists z. split; [exact Z|]. split; nra.
  - destruct (IVT_cor h r t cubic_continuous) as (z & [Z1 Z2] & Z); [lra| |].
    + rewrite H2. assert (0 <= (r - t) * (r - t)) by nra. nra.
    + exists z. split; [exact Z|]. split; nra.
Qed.
(** Two stationary points. *)
Lemma start_stationary : 3 * c < b * b ->
  exists t rho, good rho (cube_root_start (N := RNum) b c d) /\ h' t = 0 /\ 0 <= (rho - t) * (3 * t + b) /\
    Rabs (cube_root_start (N := RNum) b c d - rho) <= Rabs (cube_root_start (N := RNum) b c d - t) /\
    (0 < h t -> 3 * t + b < 0) /\ (3 * t + b < 0 -> 0 < h t).
Proof.
  intros H. unfold cube_root_start, three. rewrite !cubic_at_value. cbn [leb ltb RNum]. rnum.
  assert (L : Rleb (3 * c) (b * b) = true) by (apply Rleb_true; lra). rewrite L.
  set (v := sqrt (b * b - 3 * c)). assert (V : v * v = b * b - 3 * c) by (apply sqrt_def; lra). assert (V0 : 0 < v) by (apply sqrt_lt_R0; lra). clearbody v.
  set (t1 := (- b - v) / 3). assert (T1 : 3 * t1 + b = - v) by (unfold t1; field).
  set (t2 := (- b + v) / 3). assert (T2 : 3 * t2 + b = v) by (unfold t2; field).
  assert (S1 : h' t1 = 0) by (unfold cubic_slope, t1; field_simplify; nra).
  assert (S2 : h' t2 = 0) by (unfold cubic_slope, t2; field_simplify; nra).
  assert (S : forall x, h' x = 3 * ((x - t1) * (x - t2))).
  { intros x. assert (E : 3 * ((x - t1) * (x - t2)) = 3 * x * x + 2 * b * x + (b * b - v * v) / 3) by (unfold t1, t2; field). rewrite E. unfold cubic_slope. nra. }
  rewrite T1, T2.
  destruct (Rltb 0 (h t1)) eqn:K.
  - apply Rltb_true in K. set (s := sqrt (- h t1 / - v)).
    assert (P : 0 < - h t1 / - v) by (replace (- h t1 / - v) with (h t1 / v) by (field; lra); apply Rdiv_lt_0_compat; lra).
    assert (Q : s * s * v = h t1) by (unfold s; rewrite sqrt_def by lra; field; lra). assert (Q0 : 0 < s) by (apply sqrt_lt_R0; exact P). clearbody s.
    destruct (root_between t1 (t1 - s)) as (rho & R1 & R2 & R3).
    + nra.
    + replace (t1 - s) with (t1 + - s) by ring. rewrite cubic_expand, S1, T1, <- Q. ring.
    + exists t1, rho. assert (R4 : rho <= t1) by nra. assert (R5 : t1 - s <= rho). { destruct (Req_dec rho t1) as [->|]; [lra|nra]. }
      split; [split; [exact R1|split]|].
      * rewrite S. nra.
      * assert (3 * rho + b <= 0) by lra. nra.
      * split; [exact S1|]. split; [rewrite T1; nra|]. split; [|split; intros; lra].
        rewrite !Rabs_left1 by lra. lra.
  - apply Rltb_false in K.
    assert (K2 : h t2 <= 0).
    { assert (E : h t2 = h t1 - 4 / 27 * (v * v * v)).
      { replace t2 with (t1 + 2 / 3 * v) by (unfold t1, t2; field). rewrite cubic_expand, S1, T1. field. }
      rewrite E. assert (0 < v * v * v) by (apply Rmult_lt_0_compat; nra). lra. }
    set (s := sqrt (- h t2 / v)).
    assert (P : 0 <= - h t2 / v) by (apply Rmult_le_pos; [lra|apply Rlt_le, Rinv_0_lt_compat; exact V0]).
    assert (Q : s * s * v = - h t2) by (unfold s; rewrite sqrt_def by lra; field; lra). assert (Q0 : 0 <= s) by apply sqrt_pos. clearbody s.
    destruct (root_between t2 (t2 + s)) as (rho & R1 & R2 & R3).
    + nra.
    + rewrite cubic_expand, S2, T2. replace (h t2) with (- (s * s * v)) by lra. ring.
    + exists t2, rho.
      assert (R4 : t2 <= rho <= t2 + s).
      { destruct (Req_dec s 0) as [Z|Z]; [|split; [|destruct (Req_dec rho t2) as [->|]]; nra].
        destruct (Req_dec rho t2) as [->|]; [lra|]. exfalso. nra. }
      split; [split; [exact R1|split]|].
      * rewrite S. assert (t1 <= t2) by lra. nra.
      * assert (0 <= 3 * rho + b) by lra. nra.
      * split; [exact S2|]. split; [rewrite T2; nra|]. split; [|split; intros; lra].
        rewrite !Rabs_right by lra. lra.
Qed.
(** No stationary point, slope at the inflection not too small: the first iterate is on the good side. *)
Lemma start_monotone : b * b < 3 * c -> / 10000 <= h' (- b / 3) ->
  exists rho, good rho (newton (N := RNum) b c d (cube_root_start (N := RNum) b c d)) /\ cube_root_start (N := RNum) b c d = - b / 3 /\
    Rabs (newton (N := RNum) b c d (cube_root_start (N := RNum) b c d) - rho) <= Rabs (h (- b / 3) / h' (- b / 3)).
Proof.
  intros H G. set (t := - b / 3) in *.
  assert (E0 : cube_root_start (N := RNum) b c d = t).
  { unfold cube_root_start, three. rewrite !slope_at_value. cbn [leb ltb RNum]. rnum.
    destruct (Rleb (3 * c) (b * b)) eqn:L; [apply Rleb_true in L; lra|]. fold t. unfold lit. rnum.
    destruct (Rltb (Rabs (h' t)) (1 / 10000)) eqn:L2; [|reflexivity]. apply Rltb_true in L2. rewrite Rabs_right in L2 by lra. lra. }
  rewrite E0, newton_value. set (q := h' t) in *. assert (T : 3 * t + b = 0) by (unfold t; field).
  assert (Q : 0 < q) by lra. set (x := h t / q). assert (X : h t = q * x) by (unfold x; field; lra).
  destruct (root_between t (t - x)) as (rho & R1 & R2 & R3).
  - rewrite X. nra.
  - replace (t - x) with (t + - x) by ring. rewrite cubic_expand, T. fold q. rewrite X. ring.
  - exists rho. split; [split; [exact R1|split]|].
    + replace rho with (t + (rho - t)) by ring. assert (E : h' (t + (rho - t)) = q + 2 * (3 * t + b) * (rho - t) + 3 * ((rho - t) * (rho - t))) by (unfold q, cubic_slope; ring).
      rewrite E, T. pose proof (Rle_0_sqr (rho - t)) as SQ. unfold Rsqr in SQ. lra.
    + replace (3 * rho + b) with (3 * (rho - t)) by lra. nra.
    + split; [reflexivity|]. destruct (Rle_dec 0 x) as [L|L].
      * rewrite (Rabs_right x) by lra. destruct (Req_dec x 0) as [Z|Z].
        -- assert (rho = t) by nra. subst rho. rewrite Z. rewrite Rabs_left1; lra.
        -- assert (rho <= t) by nra. assert (t - x <= rho) by (destruct (Req_dec rho t) as [->|]; [lra|nra]). rewrite Rabs_left1; lra.
      * rewrite (Rabs_left x) by lra. assert (t <= rho) by nra. assert (rho <= t - x) by (destruct (Req_dec rho t) as [->|]; [lra|nra]). rewrite Rabs_right; lra.
Qed.
(** The start is closer to the root than the other side of the cubic's turning point. *)
Lemma cube_root_stationary : 3 * c < b * b ->
  exists rho k, h rho = 0 /\ 0 <= k <= (2 / 3) ^ 7 /\ cube_root (N := RNum) b c d - rho = k * (cube_root_start (N := RNum) b c d - rho) /\
    (Rabs (h (cube_root (N := RNum) b c d)) <= / 10000000000000 \/ k <= (2 / 3) ^ 50).
Proof.
  intros H. destruct (start_stationary H) as (t & rho & G & _). exists rho. destruct (cube_root_good rho _ 0 ltac:(lia) eq_refl G) as (k & K). exists k.
  split; [apply G|]. exact K.
Qed.
Lemma cube_root_monotone : b * b < 3 * c -> / 10000 <= h' (- b / 3) ->
  exists rho k, h rho = 0 /\ (forall x, h x = 0 -> x = rho) /\ 0 <= k <= (2 / 3) ^ 6 /\ Rabs (cube_root (N := RNum) b c d - rho) <= k * Rabs (h (- b / 3) / h' (- b / 3)) /\
    (Rabs (h (cube_root (N := RNum) b c d)) <= / 10000000000000 \/ k <= (2 / 3) ^ 49).
Proof.
  intros H S. destruct (start_monotone H S) as (rho & G & _ & D). exists rho.
  destruct (cube_root_good rho _ 1 ltac:(lia) eq_refl G) as (k & K & E & F). exists k. destruct G as (G1 & _).
  split; [exact G1|]. split; [|split; [exact K|split; [|exact F]]].
  - intros x Hx. assert (P : (x - rho) * (x * x + x * rho + rho * rho + b * (x + rho) + c) = 0) by (transitivity (h x - h rho); [unfold cubic_value; ring|lra]).
    apply Rmult_integral in P. destruct P as [P|P]; [lra|]. exfalso.
    pose proof (Rle_0_sqr (3 * (x + rho) + 2 * b)) as Q1. pose proof (Rle_0_sqr (x - rho)) as Q2.
    assert (E12 : 12 * (x * x + x * rho + rho * rho + b * (x + rho) + c) = Rsqr (3 * (x + rho) + 2 * b) + 3 * Rsqr (x - rho) + 4 * (3 * c - b * b)) by (unfold Rsqr; ring).
    rewrite P in E12. lra.
  - rewrite E, Rabs_mult, (Rabs_right k) by lra. apply Rmult_le_compat_l; [lra|exact D].
Qed.
End cubic.
