(** Model of feature matching in /repo/cv-sfm/src/lib.rs 3097-3133.
    The index ([HggLite]) is an external crate: [knn fs d k] stands for
    [descriptor_features.knn(d, k)] on a frame whose descriptors are [fs]; it returns
    (index, distance) pairs.  Simplification: the sum [distance + better_by] is not
    reduced modulo 2^32 (Hamming distances are at most 512). *)
From stdpp Require Import list.
From Verif Require Import Outcome.

Section matching.
Context {D : Type} (knn : list D -> D -> nat -> list (nat * nat)).

(** lib.rs 3103-3112: the body of the closure, for one feature of [a]. *)
Definition match_one (b : list D) (better_by : nat) (d : D) : outcome (option nat) :=
  match knn b d 2 with
  | (i0, d0) :: (_, d1) :: _ => Ok (if decide (d0 + better_by <= d1) then Some i0 else None)
  | _ => Panic                                  (* knn[0] / knn[1] out of bounds *)
  end.

(** lib.rs 3097-3114 [matching]. *)
Definition matching (a b : list D) (better_by : nat) : outcome (list (option nat)) :=
  if decide (length a < 2 \/ length b < 2) then Ok []
  else mapM (match_one b better_by) a.

(** lib.rs 3121-3132: [enumerate().filter_map(..)]; [aix] is the index of the head.
    [reverse_matches[bix]] panics when [bix] is out of range. *)
Fixpoint keep_symmetric (rev : list (option nat)) (aix : nat) (fwd : list (option nat))
    : outcome (list (nat * nat)) :=
  match fwd with
  | [] => Ok []
  | m :: fwd' =>
      let! here := match m with
                   | None => Ok []
                   | Some bix =>
                       let! r := unwrap (rev !! bix) in
                       Ok (if decide (r = Some aix) then [(aix, bix)] else [])
                   end in
      let! rest := keep_symmetric rev (S aix) fwd' in
      Ok (here ++ rest)
  end.

(** lib.rs 3116-3133 [symmetric_matching]. *)
Definition symmetric_matching (a b : list D) (better_by : nat) : outcome (list (nat * nat)) :=
  let! fwd := matching a b better_by in
  let! rev := matching b a better_by in
  keep_symmetric rev 0 fwd.

End matching.
