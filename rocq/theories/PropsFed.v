(** Property theorems C15 and C16: the FED time steps (akaze/src/fed_tau.rs). *)
From Coq Require Import List Reals ZArith Permutation Lra.
From Verif Require Import Outcome Fed FedSpec FedFacts FedSum.
Import ListNotations.
Open Scope R_scope.

(** ** C15.  Full statement: for every list of steps (of any length) reordering finishes and
    returns a permutation.  It holds for every length but 1. *)
Theorem C15_reordering_permutes_partial :
  forall (A : Type) (checks : bool) (tau : list A) (reordering : bool),
    length tau <> 1%nat ->
    exists fuel0 out,
      (forall fuel, (fuel0 <= fuel)%nat -> fed_order checks fuel tau reordering = Ok out) /\
      Permutation out tau.
Proof. exact (fun A checks tau reordering => fed_order_permutation checks tau reordering). Qed.
Print Assumptions C15_reordering_permutes_partial.

Example C15_nontrivial :
  exists out, fed_order true 20 [10; 11; 12; 13; 14]%nat true = Ok out /\
              Permutation out [10; 11; 12; 13; 14]%nat /\ out <> [10; 11; 12; 13; 14]%nat.
Proof.
  exists [11; 13; 10; 12; 14]%nat. split; [reflexivity|]. split; [|discriminate].
  apply NoDup_Permutation; try (repeat constructor; simpl; intuition discriminate).
  intros x. simpl. intuition.
Qed.

(** Whatever is returned is a permutation, for every length. *)
Theorem C15_result_is_permutation :
  forall (A : Type) (checks : bool) (fuel : nat) (tau : list A) (reordering : bool) (out : list A),
    fed_order checks fuel tau reordering = Ok out -> Permutation out tau.
Proof. exact (fun A checks fuel tau reordering out => fed_order_ok_permutation checks fuel tau reordering out). Qed.
Print Assumptions C15_result_is_permutation.

(** Counterexample at length 1: with overflow checks it panics, without it never finishes. *)
Theorem C15_single_step_refuted :
  exists tau : list nat, length tau = 1%nat /\
    (forall fuel, fed_order true (S fuel) tau true = Panic) /\
    (forall fuel, fed_order false fuel tau true = Fuel).
Proof. exact fed_order_single_witness. Qed.
Print Assumptions C15_single_step_refuted.

(** The same through the public entry point, with the stability limit the scale space uses. *)
Theorem C15_process_time_refuted :
  exists T, 0 < T /\
    (forall fuel, fed_tau_by_process_time true (S fuel) T 1 (1 / 4) true = Panic) /\
    (forall fuel, fed_tau_by_process_time false fuel T 1 (1 / 4) true = Fuel).
Proof. exact fed_process_one_step_witness. Qed.
Print Assumptions C15_process_time_refuted.

(** ** C16 *)
(** Full statement: the returned steps add up to [T / M].  Missing: the case where the slack
    rounds the step count down to zero, see [C16_tiny_time_refuted]. *)
Theorem C16_steps_sum_partial :
  forall checks fuel T M tau_max reordering out,
    0 < T -> (0 < M)%Z -> 0 < tau_max ->
    fed_tau_by_process_time checks fuel T M tau_max reordering = Ok out ->
    least_step_count tau_max (T / IZR M) (length out) /\
    (out <> [] -> Rsum out = T / IZR M) /\
    (forall x, In x out -> 0 < x).
Proof. exact fed_process_ok. Qed.
Print Assumptions C16_steps_sum_partial.

Theorem C16_returns_partial :
  forall checks T M tau_max reordering,
    0 < T -> (0 < M)%Z -> 0 < tau_max ->
    ~ least_step_count tau_max (T / IZR M) 1 ->
    exists fuel0 out, forall fuel, (fuel0 <= fuel)%nat ->
      fed_tau_by_process_time checks fuel T M tau_max reordering = Ok out.
Proof. exact fed_process_total. Qed.
Print Assumptions C16_returns_partial.

Theorem C16_step_count_unique :
  forall tau_max t n m, 0 < tau_max ->
    least_step_count tau_max t n -> least_step_count tau_max t m -> n = m.
Proof. exact least_unique. Qed.
Print Assumptions C16_step_count_unique.

Theorem C16_tiny_time_refuted :
  exists T, 0 < T /\
    (forall fuel, fed_tau_by_process_time true (S (S (S fuel))) T 1 (1 / 4) true = Ok []) /\
    Rsum [] <> T.
Proof. exact fed_process_tiny. Qed.
Print Assumptions C16_tiny_time_refuted.

(** Two steps are needed for a cycle time of one half: the hypotheses of the theorems hold. *)
Example C16_nontrivial :
  least_step_count (1 / 4) (1 / 2 / IZR 1) 2 /\ ~ least_step_count (1 / 4) (1 / 2 / IZR 1) 1.
Proof.
  assert (H : least_step_count (1 / 4) (1 / 2 / IZR 1) 2).
  { replace (1 / 2 / IZR 1) with (1 / 2) by field. rewrite <- fed_count_two.
    apply fed_count_least; lra. }
  split; [exact H|]. intros H1.
  discriminate (least_unique (1 / 4) _ _ _ ltac:(lra) H H1).
Qed.
