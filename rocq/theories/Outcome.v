(** Results of running a piece of Rust code: a value, a panic, or a loop that did
    not finish within the given fuel. *)
From Coq Require Import List.
Import ListNotations.

Inductive outcome (A : Type) : Type :=
| Ok (a : A)      (* the call returned [a] *)
| Panic           (* slice index, unwrap, assert, missing key, integer underflow, ... *)
| Fuel.           (* the fuel given to a loop ran out *)
Arguments Ok {A} a.
Arguments Panic {A}.
Arguments Fuel {A}.

Definition bind {A B} (m : outcome A) (f : A -> outcome B) : outcome B :=
  match m with Ok a => f a | Panic => Panic | Fuel => Fuel end.

Declare Scope outcome_scope.
Delimit Scope outcome_scope with outcome.
Notation "'let!' x ':=' m 'in' k" := (bind m (fun x => k))
  (at level 200, x pattern, m at level 100, k at level 200, right associativity)
  : outcome_scope.
Open Scope outcome_scope.

(** [Option::unwrap], slot map indexing, slice indexing. *)
Definition unwrap {A} (o : option A) : outcome A :=
  match o with Some a => Ok a | None => Panic end.

(** [assert!(b)] followed by the rest of the body. *)
Definition assert_ {A} (b : bool) (k : outcome A) : outcome A :=
  if b then k else Panic.

(** A [for] loop over a list threading a state. *)
Fixpoint foldM {S X} (f : S -> X -> outcome S) (l : list X) (s : S) : outcome S :=
  match l with
  | [] => Ok s
  | x :: l' => let! s' := f s x in foldM f l' s'
  end.

(** [iter().map(f).collect()] where [f] may panic. *)
Fixpoint mapM {X Y} (f : X -> outcome Y) (l : list X) : outcome (list Y) :=
  match l with
  | [] => Ok []
  | x :: l' => let! y := f x in let! ys := mapM f l' in Ok (y :: ys)
  end.
