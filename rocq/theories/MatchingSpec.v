(** Independent specification of mutual matching (C12). *)
From stdpp Require Import list.

(** The pair the other way round. *)
Definition swap_pair {A B} (p : A * B) : B * A := (p.2, p.1).

Section spec.
Context {D : Type} (knn : list D -> D -> nat -> list (nat * nat)) (dist : D -> D -> nat).

(** [j] is the first answer for descriptor [d] and beats the second by [margin]. *)
Definition clearly_best (fs : list D) (margin : nat) (d : D) (j : nat) : Prop :=
  exists d0 k d1 rest, knn fs d 2 = (j, d0) :: (k, d1) :: rest /\ d0 + margin <= d1.

(** Both frames are searchable and [i], [j] are each other's clear best match. *)
Definition mutual (a b : list D) (margin : nat) (i j : nat) : Prop :=
  2 <= length a /\ 2 <= length b /\
  exists da db, a !! i = Some da /\ b !! j = Some db /\
    clearly_best b margin da j /\ clearly_best a margin db i.

(** What any nearest-neighbour index promises: [min 2 n] answers, all in range. *)
Definition knn_in_range : Prop :=
  forall fs d, 2 <= length fs ->
    length (knn fs d 2) = 2 /\ forall i x, (i, x) ∈ knn fs d 2 -> i < length fs.

(** What an exact index promises in addition: true distances, the two smallest first. *)
Definition knn_exact : Prop :=
  forall fs d, 2 <= length fs ->
    exists i0 i1 f0 f1, knn fs d 2 = [(i0, dist d f0); (i1, dist d f1)] /\
      fs !! i0 = Some f0 /\ fs !! i1 = Some f1 /\ i0 <> i1 /\ dist d f0 <= dist d f1 /\
      forall i f, fs !! i = Some f -> i <> i0 -> dist d f1 <= dist d f.
End spec.
