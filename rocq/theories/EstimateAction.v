(** Lemmas about the action matrix of the five-point algorithm and its result. *)
From Coq Require Import Reals List Arith Lia Lra Psatz Permutation Sorted.
From Verif Require Import Num Outcome Lin LinSpec LinFacts Pinhole PinholeSpec PinholeFacts EssentialFacts Estimate EstimateSpec EstimateFacts EstimateFive.
Import ListNotations.
Open Scope R_scope.

Definition lower (x y z : R) : nat -> R := fun i => nth i (lower_monomials x y z) 0.
Definition cubic (x y z : R) : nat -> R := fun i => nth i (cubic_monomials x y z) 0.

Lemma total_app n m f : total (n + m) f = total n f + total m (fun i => f (n + i)%nat).
Proof. induction m as [|m IH]; [rewrite Nat.add_0_r; cbn [total]; ring|]. rewrite Nat.add_succ_r. cbn [total]. rewrite IH. ring. Qed.
Lemma peval_split p x y z : peval p x y z = inner 10 (coeff p) (cubic x y z) + total 10 (fun j => coeff p (10 + j)%nat * lower x y z j).
Proof.
  unfold peval. change 20%nat with (10 + 10)%nat. rewrite total_app. f_equal.
Qed.

(** The points at which all constraints vanish. *)
Definition solution (basis : nat -> nat -> R) (x y z : R) : Prop := forall p, In p (constraints (N := RNum) basis) -> peval p x y z = 0.
Lemma solution_iff basis x y z : solution basis x y z <-> Forall (fun r => r = 0) (essential_constraints (by_rows (combine basis x y z 1))).
Proof.
  rewrite <- constraints_spec, Forall_map, Forall_forall. reflexivity.
Qed.
Lemma constraints_length (basis : nat -> nat -> R) : length (constraints (N := RNum) basis) = 10%nat. Proof. reflexivity. Qed.

Lemma eliminated basis (m : nat -> nat -> R) x y z :
  solution basis x y z -> lu_correct (constraint_matrix (N := RNum) basis) (fun i j => constraint_matrix (N := RNum) basis i (10 + j)%nat) m ->
  forall i, (i < 10)%nat -> apply 10 m (lower x y z) i = - cubic x y z i.
Proof.
  intros Hs [Hm Hinj] i Hi. cut (cubic x y z i + apply 10 m (lower x y z) i = 0); [lra|].
  revert i Hi. apply (Hinj (fun i => cubic x y z i + apply 10 m (lower x y z) i)). intros i Hi.
  set (C := constraint_matrix (N := RNum) basis) in *. unfold apply at 1, inner.
  erewrite total_ext by (intros; apply Rmult_plus_distr_l). rewrite total_plus, apply_adjoint.
  rewrite (total_ext 10 (fun k => total 10 _ * _) (fun k => C i (10 + k)%nat * lower x y z k)).
  2: { intros k Hk. rewrite <- (Hm i k Hi Hk). reflexivity. }
  change (total 10 (fun k => C i k * cubic x y z k)) with (inner 10 (C i) (cubic x y z)).
  assert (In (nth i (constraints (N := RNum) basis) []) (constraints (N := RNum) basis)) as Hin by (apply nth_In; rewrite constraints_length; exact Hi).
  specialize (Hs _ Hin). rewrite peval_split in Hs. exact Hs.
Qed.
Lemma action_eigenvector basis (m : nat -> nat -> R) x y z :
  solution basis x y z -> lu_correct (constraint_matrix (N := RNum) basis) (fun i j => constraint_matrix (N := RNum) basis i (10 + j)%nat) m ->
  forall i, (i < 10)%nat -> apply 10 (action_matrix (N := RNum) m) (lower x y z) i = - x * lower x y z i.
Proof.
  intros Hs Hm. pose proof (eliminated basis m x y z Hs Hm) as H.
  assert (forall j, (j < 10)%nat -> inner 10 (fun k => if (k =? j)%nat then - (1) else 0) (lower x y z) = - lower x y z j) as U.
  { intros j Hj. rewrite <- (total_delta 10 (fun k => lower x y z k) j Hj). unfold inner. replace (- total 10 (fun i => delta i j * lower x y z i)) with (-1 * total 10 (fun i => delta i j * lower x y z i)) by ring.
    rewrite <- total_scale. apply total_ext. intros k _. unfold delta. destruct (k =? j)%nat; ring. }
  intros i Hi. set (v := lower x y z) in *.
  assert (forall k c, (k < 10)%nat -> cubic x y z k = c -> inner 10 (m k) v = - c) as K. { intros k c Hk <-. exact (H k Hk). }
  destruct i as [|[|[|[|[|[|[|[|[|[|i]]]]]]]]]]; [..|lia]; unfold apply.
  - change (inner 10 (m 0%nat) v = - x * v 0%nat). rewrite (K 0%nat _ ltac:(lia) eq_refl). unfold v, lower, cubic. cbn [nth lower_monomials cubic_monomials]. ring.
  - change (inner 10 (m 1%nat) v = - x * v 1%nat). rewrite (K 1%nat _ ltac:(lia) eq_refl). unfold v, lower, cubic. cbn [nth lower_monomials cubic_monomials]. ring.
  - change (inner 10 (m 2%nat) v = - x * v 2%nat). rewrite (K 2%nat _ ltac:(lia) eq_refl). unfold v, lower, cubic. cbn [nth lower_monomials cubic_monomials]. ring.
  - change (inner 10 (m 4%nat) v = - x * v 3%nat). rewrite (K 4%nat _ ltac:(lia) eq_refl). unfold v, lower, cubic. cbn [nth lower_monomials cubic_monomials]. ring.
  - change (inner 10 (m 5%nat) v = - x * v 4%nat). rewrite (K 5%nat _ ltac:(lia) eq_refl). unfold v, lower, cubic. cbn [nth lower_monomials cubic_monomials]. ring.
  - change (inner 10 (m 7%nat) v = - x * v 5%nat). rewrite (K 7%nat _ ltac:(lia) eq_refl). unfold v, lower, cubic. cbn [nth lower_monomials cubic_monomials]. ring.
  - change (inner 10 (fun k => if (k =? 0)%nat then - (1) else 0) v = - x * v 6%nat). rewrite U by lia. unfold v, lower, cubic. cbn [nth lower_monomials cubic_monomials]. ring.
  - change (inner 10 (fun k => if (k =? 1)%nat then - (1) else 0) v = - x * v 7%nat). rewrite U by lia. unfold v, lower, cubic. cbn [nth lower_monomials cubic_monomials]. ring.
  - change (inner 10 (fun k => if (k =? 3)%nat then - (1) else 0) v = - x * v 8%nat). rewrite U by lia. unfold v, lower, cubic. cbn [nth lower_monomials cubic_monomials]. ring.
  - change (inner 10 (fun k => if (k =? 6)%nat then - (1) else 0) v = - x * v 9%nat). rewrite U by lia. unfold v, lower, cubic. cbn [nth lower_monomials cubic_monomials]. ring.
Qed.

(** ** Eigenvectors *)
Lemma shifted_apply (A : nat -> nat -> R) lambda v i : (i < 10)%nat ->
  apply 10 (fun i j => A i j - (if (i =? j)%nat then lambda else 0)) v i = apply 10 A v i - lambda * v i.
Proof.
  intros Hi. unfold apply, inner. replace (lambda * v i) with (lambda * total 10 (fun k => delta k i * v k)) by (rewrite (total_delta 10 v i Hi); reflexivity).
  replace (lambda * total 10 (fun k => delta k i * v k)) with (- (- lambda * total 10 (fun k => delta k i * v k))) by ring.
  rewrite <- total_scale. unfold Rminus. rewrite Ropp_involutive, <- total_plus. apply total_ext. intros k _. unfold delta. rewrite (Nat.eqb_sym k i). destruct (i =? k)%nat; ring.
Qed.
Lemma threshold_positive : ltb (0 : RNum) (svd_null_threshold (N := RNum)) = true.
Proof. unfold svd_null_threshold, lit. rnum. unfold ltb, RNum, Rltb. destruct (Rlt_dec _ _) as [|H]; [reflexivity|]. exfalso. apply H. rnum. lra. Qed.
(** The null vector of an exact eigenvalue is an eigenvector. *)
Lemma eigenvector_found null (A : nat -> nat -> R) lambda w :
  (forall d, null (fun i j => A i j - (if (i =? j)%nat then lambda else 0)) = Some d -> null_correct (fun i j => A i j - (if (i =? j)%nat then lambda else 0)) d) ->
  null (fun i j => A i j - (if (i =? j)%nat then lambda else 0)) <> None ->
  (exists i, (i < 10)%nat /\ w i <> 0) -> (forall i, (i < 10)%nat -> apply 10 A w i = lambda * w i) ->
  exists v, compute_eigenvector (N := RNum) null A lambda = Some v /\ inner 10 v v = 1 /\ (forall i, (i < 10)%nat -> apply 10 A v i = lambda * v i).
Proof.
  intros Hc Hn (i0 & Hi0 & Hw0) Hw. unfold compute_eigenvector.
  set (B := fun i j : nat => A i j - (if (i =? j)%nat then lambda else 0)) in *. match goal with |- context [match null ?t with Some _ => _ | None => _ end] => change t with B end.
  destruct (null B) as [[s v]|] eqn:E; [|contradiction]. specialize (Hc _ eq_refl). destruct Hc as (Hs & Hv & Hsv & Hmin).
  set (n2 := inner 10 w w). assert (0 < n2) as Hn2.
  { destruct (Rle_lt_or_eq_dec 0 n2 (inner_self_nonneg 10 w)) as [L|L]; [exact L|]. exfalso. apply Hw0. apply (inner_self_zero 10 w); [symmetry; exact L|exact Hi0]. }
  assert (s = 0) as ->.
  { specialize (Hmin (fun k => / sqrt n2 * w k)). rewrite inner_scale_l, inner_scale_r in Hmin. fold n2 in Hmin. pose proof (sqrt_lt_R0 n2 Hn2) as Hq.
    assert (/ sqrt n2 * (/ sqrt n2 * n2) = 1) as Q. { rewrite <- (sqrt_sqrt n2) at 3 by lra. field. lra. }
    specialize (Hmin Q). rewrite (inner_ext 10 _ (fun _ => 0) _ (fun _ => 0)) in Hmin.
    - unfold inner in Hmin. rewrite total_zero in Hmin by (intros; ring). nra.
    - intros i Hi. unfold B. rewrite shifted_apply by exact Hi. unfold apply. rewrite inner_scale_r. change (inner 10 (A i) w) with (apply 10 A w i). rewrite Hw by exact Hi. ring.
    - intros i Hi. unfold B. rewrite shifted_apply by exact Hi. unfold apply. rewrite inner_scale_r. change (inner 10 (A i) w) with (apply 10 A w i). rewrite Hw by exact Hi. ring. }
  exists v. rewrite threshold_positive. split; [reflexivity|]. split; [exact Hv|]. intros i Hi.
  pose proof (inner_self_zero 10 (apply 10 B v) ltac:(rewrite Hsv; ring) i Hi) as Z. unfold B in Z. rewrite shifted_apply in Z by exact Hi. lra.
Qed.

(** ** The candidates *)
Definition misread (basis : nat -> nat -> R) (x y z : R) : nat -> R := combine basis (z * z) x y z.
Lemma candidate_found eigenvalues null solve (basis m : nat -> nat -> R) x y z :
  solution basis x y z ->
  solve (constraint_matrix (N := RNum) basis) (fun i j => constraint_matrix (N := RNum) basis i (10 + j)%nat) = Some m ->
  lu_correct (constraint_matrix (N := RNum) basis) (fun i j => constraint_matrix (N := RNum) basis i (10 + j)%nat) m ->
  eigenvalues_correct (action_matrix (N := RNum) m) (eigenvalues (action_matrix (N := RNum) m)) ->
  (forall B, null B <> None /\ forall d, null B = Some d -> null_correct B d) ->
  (forall v, (forall i, (i < 10)%nat -> apply 10 (action_matrix (N := RNum) m) v i = - x * v i) -> exists c, forall i, (i < 10)%nat -> v i = c * lower x y z i) ->
  exists k, k <> 0 /\ In (of_columns (N := RNum) (fun r => k * misread basis x y z r)) (five_points_from_basis (N := RNum) eigenvalues null solve basis).
Proof.
  intros Hs Hsolve Hm He Hn Hsimple. pose proof (action_eigenvector basis m x y z Hs Hm) as Hw. set (A := action_matrix (N := RNum) m) in *.
  assert (exists i, (i < 10)%nat /\ lower x y z i <> 0) as Hw0. { exists 9%nat. split; [lia|]. unfold lower. cbn. lra. }
  destruct (He (- x) (lower x y z) Hw0 Hw) as (i & Hi & Ei).
  destruct (eigenvector_found null A (- x) (lower x y z) (proj2 (Hn _)) (proj1 (Hn _)) Hw0 Hw) as (v & Ev & Hv1 & Hv). destruct (Hsimple v Hv) as [k Hk]. exists k. split.
  - intros ->. rewrite (inner_ext 10 v (fun _ => 0) v (fun _ => 0)) in Hv1 by (intros j Hj; rewrite Hk by exact Hj; ring). unfold inner in Hv1. rewrite total_zero in Hv1 by (intros; ring). lra.
  - unfold five_points_from_basis. rewrite Hsolve. fold A. unfold from_action. apply in_flat_map. exists i. split; [apply in_seq; lia|]. rewrite Ei. cbn [eqb RNum zero]. unfold Reqb. destruct (Req_EM_T 0 0); [|contradiction].
    rewrite Ev. left. apply of_columns_ext. intros r _. rewrite sum_total. cbn [total Nat.add]. rewrite !Hk by lia. unfold misread, combine, lower. cbn [nth lower_monomials]. rnum. ring.
Qed.
(** When the candidate is a multiple of the matrix sought. *)
Lemma misread_right (basis : nat -> nat -> R) x y z : independent basis ->
  (exists c, c <> 0 /\ of_columns (N := RNum) (misread basis x y z) = mscale c (of_columns (N := RNum) (combine basis x y z 1))) <->
  (x = 1 /\ y = 1 /\ z = 1) \/ (x = -1 /\ y = 1 /\ z = -1).
Proof.
  intros Hi. split.
  - intros (c & Hc & E). assert (forall k, (k < 9)%nat -> misread basis x y z k = c * combine basis x y z 1 k) as H.
    { unfold of_columns, mscale, vscale in E. cbn [row1 row2 row3 vx vy vz] in E. injection E as E0 E3 E6 E1 E4 E7 E2 E5 E8. rnum.
      intros k Hk. do 9 (destruct k as [|k]; [rewrite Rmult_comm; assumption|]). lia. }
    destruct (Hi (z * z - c * x) (x - c * y) (y - c * z) (z - c * 1)) as (H1 & H2 & H3 & H4).
    { intros k Hk. specialize (H k Hk). unfold misread, combine in *. lra. }
    assert (c = z) by lra. subst c. assert (y = z * z) by lra. subst y. assert (x = z * (z * z)) by lra. subst x.
    assert (z * z * ((1 - z) * (1 + z)) = 0) as Q by lra. apply Rmult_integral in Q as [Q|Q]; [exfalso; apply Hc; nra|]. apply Rmult_integral in Q as [Q|Q]; [left|right].
    + assert (z = 1) by lra. subst z. repeat split; ring.
    + assert (z = -1) by lra. subst z. repeat split; ring.
  - intros [(-> & -> & ->)|(-> & -> & ->)]; [exists 1|exists (-1)]; (split; [lra|]); unfold of_columns, mscale, vscale, misread, combine; cbn [row1 row2 row3 vx vy vz]; f_equal; f_equal; rnum; ring.
Qed.
