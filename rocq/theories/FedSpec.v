(** Independent specification for the FED time steps (C15, C16). *)
From Coq Require Import List Reals.
Import ListNotations.
Open Scope R_scope.

(** Sum of a list of reals. *)
Definition Rsum (l : list R) : R := fold_right Rplus 0 l.

(** The slack the code subtracts before rounding the step count up. *)
Definition slack : R := 1 / 100000000.

(** The longest cycle time which [x] steps of stability limit [tau_max] can cover
    (Grewenig et al.: [tau_max * (n^2 + n) / 3]). *)
Definition max_cycle_time (tau_max x : R) : R := tau_max * (x * x + x) / 3.

(** [n] is the least step count covering [t], up to the slack. *)
Definition least_step_count (tau_max t : R) (n : nat) : Prop :=
  t <= max_cycle_time tau_max (INR n + slack) /\
  forall m, (m < n)%nat -> max_cycle_time tau_max (INR m + slack) < t.

(** Value of the [k]-th step of a plain (not reordered) [n]-step cycle, as published. *)
Definition published_step (n : nat) (tau_max stretch : R) (k : nat) : R :=
  stretch * (tau_max / (2 * (cos (PI * (2 * INR k + 1) / (4 * INR n + 2))) ^ 2)).
