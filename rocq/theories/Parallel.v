(** The model of fork-join parallelism on shared memory as the crate [rayon] offers it, for the parts of it that the code uses
    (akaze/src/lib.rs 241-247, akaze/src/detector_response.rs 20-23, 53-56, 69-83, akaze/src/scale_space_extrema.rs 351-355,
    akaze/src/descriptors.rs 33-45).

    The memory is a list of cells.  A program does atomic accesses to it one after the other and forks: both branches of
    a fork then run at the same time, their accesses in any order. *)
From stdpp Require Import list.
From Verif Require Import Outcome.

Inductive prog (C : Type) : Type -> Type :=
| Done {A : Type} (o : outcome A) : prog C A                                                           (* finished, or panicked *)
| Act {A B : Type} (f : list C -> outcome (list C * B)) (k : B -> prog C A) : prog C A                  (* one access, then [k] *)
| Join {A B D : Type} (p : prog C B) (q : prog C D) (k : B * D -> prog C A) : prog C A.                  (* [p] and [q] in parallel, then [k] *)
Arguments Done {C A} o.
Arguments Act {C A B} f k.
Arguments Join {C A B D} p q k.

Section programs.
Context {C : Type}.
Implicit Types (m : list C).

(** One after the other. *)
Fixpoint then_ {A B : Type} (p : prog C A) : (A -> prog C B) -> prog C B :=
  match p with
  | Done o => fun f => match o with Ok a => f a | Panic => Done Panic | Fuel => Done Fuel end
  | Act g k => fun f => Act g (fun b => then_ (k b) f)
  | Join p q k => fun f => Join p q (fun x => then_ (k x) f)
  end.
(** [rayon::join]. *)
Definition join {A B : Type} (p : prog C A) (q : prog C B) : prog C (A * B) := Join p q (fun x => Done (Ok x)).
(** Reading and changing cell [i] of a slice. *)
Definition peek (i : nat) : prog C C := Act (fun m => match m !! i with Some c => Ok (m, c) | None => Panic end) (fun c => Done (Ok c)).
Definition poke (i : nat) (g : C -> C) : prog C unit := Act (fun m => match m !! i with Some c => Ok (<[i:=g c]> m, tt) | None => Panic end) (fun x => Done (Ok x)).
(** Looking at the whole memory. *)
Definition look {A : Type} (f : list C -> outcome A) : prog C A := Act (fun m => let! a := f m in Ok (m, a)) (fun a => Done (Ok a)).
(** A [for] loop. *)
Fixpoint loop {X S : Type} (l : list X) (f : S -> X -> prog C S) (s : S) : prog C S :=
  match l with [] => Done (Ok s) | x :: l => then_ (f s x) (fun s => loop l f s) end.

(** How a parallel iterator divides its items: the first [n] and the others in parallel, or all of them one after the other.
    [rayon] decides this at run time. *)
Inductive shape := Whole | Split (n : nat) (a b : shape).
(** [into_par_iter().for_each(f)] for the cells [first], ... *)
Fixpoint for_each (sh : shape) (first count : nat) (f : nat -> prog C unit) : prog C unit :=
  match sh with
  | Whole => loop (seq first count) (fun _ i => f i) tt
  | Split n a b => Join (for_each a first (Nat.min n count) f) (for_each b (first + Nat.min n count) (count - Nat.min n count) f) (fun _ => Done (Ok tt))
  end.
(** [par_iter().filter_map(f).collect()]: the results of both parts are put together in the order of the items. *)
Fixpoint filter_map {X Y : Type} (sh : shape) (l : list X) (f : X -> prog C (option Y)) : prog C (list Y) :=
  match sh with
  | Whole => loop l (fun ys x => then_ (f x) (fun y => Done (Ok (ys ++ match y with Some y => [y] | None => [] end)))) []
  | Split n a b => Join (filter_map a (take n l) f) (filter_map b (drop n l) f) (fun x => Done (Ok (x.1 ++ x.2)))
  end.

(** ** Running *)
(** A fork goes on when both branches are finished; a panic of one of them is passed on then. *)
Definition joined {A B D : Type} (a : outcome B) (b : outcome D) (k : B * D -> prog C A) : prog C A :=
  match a, b with
  | Ok a, Ok b => k (a, b)
  | Ok _, Panic => Done Panic
  | Ok _, Fuel => Done Fuel
  | Panic, _ => Done Panic
  | Fuel, _ => Done Fuel
  end.
(** The program [p] with memory [m] can become [p'] with memory [m'] in one step. *)
Fixpoint next {A : Type} (p : prog C A) (m : list C) : list C -> prog C A -> Prop :=
  match p with
  | Done o => fun m' p' => False
  | Act f k => fun m' p' => match f m with Ok (m1, b) => m' = m1 /\ p' = k b | Panic => m' = m /\ p' = Done Panic | Fuel => m' = m /\ p' = Done Fuel end
  | Join p q k => fun m' p' =>
      (exists p1, next p m m' p1 /\ p' = Join p1 q k) \/ (exists q1, next q m m' q1 /\ p' = Join p q1 k) \/
      exists a b, p = Done a /\ q = Done b /\ m' = m /\ p' = joined a b k
  end.
End programs.
Arguments prog : clear implicits.
