(** Model of /repo/akaze/src/fed_tau.rs: Fast Explicit Diffusion time steps. *)
From Coq Require Import List Arith Bool Reals ZArith.
From Verif Require Import Outcome.
Import ListNotations.

(** ** Reordering (fed_tau.rs 69-90), generic in the step type *)

(** [primal::is_prime] (external crate): modelled by trial division. *)
Definition is_prime (p : nat) : bool :=
  (2 <=? p) && forallb (fun d => negb (p mod d =? 0)) (seq 2 (p - 2)).

(** fed_tau.rs 74-77: [while !is_prime(prime) { prime += 1 }]. *)
Fixpoint next_prime (fuel prime : nat) : outcome nat :=
  match fuel with
  | 0 => Fuel
  | S fuel' => if is_prime prime then Ok prime else next_prime fuel' (prime + 1)
  end.

(** fed_tau.rs 81-86: the loop which advances [k] until the index is in range.
    Returns the index and the new value of [k].  [checks] says whether integer
    overflow checks are on (debug build).  When [((k+1)*kappa) % prime] is 0 the
    subtraction of 1 underflows: with checks it panics; without, the index wraps to
    [usize::MAX], which is not smaller than [n], and the loop goes on.
    Simplification: [(k+1)*kappa] itself is not reduced modulo 2^64. *)
Fixpoint find_index (checks : bool) (fuel n kappa prime k : nat) : outcome (nat * nat) :=
  match fuel with
  | 0 => Fuel
  | S fuel' =>
      match ((k + 1) * kappa) mod prime with
      | 0 => if checks then Panic else find_index checks fuel' n kappa prime (k + 1)
      | S index => if n <=? index then find_index checks fuel' n kappa prime (k + 1)
                   else Ok (index, k + 1)
      end
  end.

(** fed_tau.rs 78-89: [(0..n).map(...)] with the captured counter [k]; [todo] is the
    number of elements still to produce. *)
Fixpoint reorder_loop {A} (checks : bool) (fuel : nat) (tau : list A)
    (n kappa prime todo k : nat) : outcome (list A) :=
  match todo with
  | 0 => Ok []
  | S todo' =>
      let! (index, k') := find_index checks fuel n kappa prime k in
      let! x := unwrap (nth_error tau index) in
      let! rest := reorder_loop checks fuel tau n kappa prime todo' k' in
      Ok (x :: rest)
  end.

(** fed_tau.rs 69-92: what [fed_tau_internal] returns for the computed steps [tau]. *)
Definition fed_order {A} (checks : bool) (fuel : nat) (tau : list A) (reordering : bool)
    : outcome (list A) :=
  if reordering then
    let n := length tau in
    let kappa := n / 2 in
    let! prime := next_prime fuel (n + 1) in
    reorder_loop checks fuel tau n kappa prime n 0
  else Ok tau.

(** ** The step sizes (fed_tau.rs 26-68), over exact reals *)
Open Scope R_scope.

(** fed_tau.rs 62-67: the [k]-th step of an [n]-step cycle. *)
Definition fed_step (n : nat) (scale tau_max : R) (k : nat) : R :=
  let c := 1 / (4 * INR n + 2) in
  let d := scale * tau_max / 2 in
  let h := cos (PI * (2 * INR k + 1) * c) in
  d / (h * h).

(** fed_tau.rs 61-68. *)
Definition fed_steps (n : nat) (scale tau_max : R) : list R :=
  map (fed_step n scale tau_max) (seq 0 n).

(** fed_tau.rs 60-93 [fed_tau_internal]. *)
Definition fed_tau_internal (checks : bool) (fuel n : nat) (scale tau_max : R)
    (reordering : bool) : outcome (list R) :=
  fed_order checks fuel (fed_steps n scale tau_max) reordering.

(** [f64::ceil] on a real. *)
Definition Rceil (x : R) : Z := (- Int_part (- x))%Z.

(** fed_tau.rs 44: number of steps.  The cast [(c + 0.5) as usize] of an integral [c]
    truncates back to [c] (and saturates negative values at 0). *)
Definition fed_count (t tau_max : R) : nat :=
  Z.to_nat (Rceil (sqrt (3 * t / tau_max + 1 / 4) - 1 / 2 - 1 / 100000000)).

(** fed_tau.rs 46: ratio between the requested and the maximal cycle time.
    Dividing by zero steps is [x / 0] in the code; the step list is then empty. *)
Definition fed_scale (n : nat) (t tau_max : R) : R :=
  3 * t / (tau_max * (INR n * (INR n + 1))).

(** fed_tau.rs 42-48 [fed_tau_by_cycle_time]. *)
Definition fed_tau_by_cycle_time (checks : bool) (fuel : nat) (t tau_max : R)
    (reordering : bool) : outcome (list R) :=
  let n := fed_count t tau_max in
  fed_tau_internal checks fuel n (fed_scale n t tau_max) tau_max reordering.

(** fed_tau.rs 26-29 [fed_tau_by_process_time]; [M] is the number of cycles. *)
Definition fed_tau_by_process_time (checks : bool) (fuel : nat) (T : R) (M : Z)
    (tau_max : R) (reordering : bool) : outcome (list R) :=
  fed_tau_by_cycle_time checks fuel (T / IZR M) tau_max reordering.
