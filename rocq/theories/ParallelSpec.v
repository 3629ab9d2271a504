(** Specification vocabulary for C79: executions of parallel programs. *)
From stdpp Require Import list relations.
From Verif Require Import Outcome Parallel.

Section spec.
Context {C A : Type}.
(** A state of an execution: the memory and what is still to be done. *)
Notation state := (list C * prog C A)%type.
Definition step (s s' : state) : Prop := next s.2 s.1 s'.1 s'.2.
(** Any number of steps, chosen in any way. *)
Definition reaches : state -> state -> Prop := rtc step.
(** There is no infinite execution. *)
Definition always_ends (s : state) : Prop := Acc (fun s' s => step s s') s.
(** Every execution can be continued until the program has finished, and it always finishes with [o] and the memory [m]. *)
Record only_result (s : state) (final : outcome (list C * A)) : Prop := {
  or_ends : always_ends s;
  or_goes_on : forall s', reaches s s' -> (exists s'', step s' s'') \/ exists o, s'.2 = Done o;
  or_result : forall m o, reaches s (m, Done o) -> (let! a := o in Ok (m, a)) = final
}.
End spec.
