(** Property theorems C12: symmetric matching (cv-sfm/src/lib.rs 3097-3133). *)
From stdpp Require Import list.
From Verif Require Import Outcome Matching MatchingSpec MatchingFacts.

(** The pairs returned are exactly the mutual clear best matches, and no feature of either
    frame occurs twice. *)
Theorem C12_matches_are_mutual_and_one_to_one :
  forall (D : Type) (knn : list D -> D -> nat -> list (nat * nat)) a b margin ps,
    symmetric_matching knn a b margin = Ok ps ->
    (forall i j, (i, j) ∈ ps <-> mutual knn a b margin i j) /\ NoDup (ps.*1) /\ NoDup (ps.*2).
Proof. exact (fun D knn => symmetric_matching_ok knn). Qed.
Print Assumptions C12_matches_are_mutual_and_one_to_one.

(** Matching never panics and stays in range, for any index that answers with two in-range
    neighbours when there are two. *)
Theorem C12_matching_total_and_in_range :
  forall (D : Type) (knn : list D -> D -> nat -> list (nat * nat)) a b margin,
    knn_in_range knn ->
    exists ps, symmetric_matching knn a b margin = Ok ps /\
      forall i j, (i, j) ∈ ps -> i < length a /\ j < length b.
Proof. exact (fun D knn => symmetric_matching_total knn). Qed.
Print Assumptions C12_matching_total_and_in_range.

(** Swapping the frames swaps the pairs. *)
Theorem C12_matching_swaps :
  forall (D : Type) (knn : list D -> D -> nat -> list (nat * nat)) a b margin ps qs,
    symmetric_matching knn a b margin = Ok ps -> symmetric_matching knn b a margin = Ok qs ->
    (swap_pair <$> ps) ≡ₚ qs.
Proof. exact (fun D knn => symmetric_matching_swap knn). Qed.
Print Assumptions C12_matching_swaps.

(** With an exact index a matched pair beats every alternative on both sides by the margin. *)
Theorem C12_exact_index_margin :
  forall (D : Type) (knn : list D -> D -> nat -> list (nat * nat)) (dist : D -> D -> nat)
         a b margin ps i j da db,
    knn_exact knn dist -> symmetric_matching knn a b margin = Ok ps -> (i, j) ∈ ps ->
    a !! i = Some da -> b !! j = Some db ->
    (forall k d, b !! k = Some d -> k <> j -> dist da db + margin <= dist da d) /\
    (forall k d, a !! k = Some d -> k <> i -> dist db da + margin <= dist db d).
Proof. exact (fun D knn => symmetric_matching_exact knn). Qed.
Print Assumptions C12_exact_index_margin.

(** Non-vacuity: a concrete run in which one feature is matched, one is ambiguous and one is
    not mutual. *)
Example C12_nontrivial :
  symmetric_matching linear_knn [10; 50; 52; 200] [12; 51; 201; 203] 4 = Ok [(0, 0)] /\
  symmetric_matching linear_knn [10; 60; 200] [12; 51; 201] 4 = Ok [(0, 0); (1, 1); (2, 2)].
Proof. split; reflexivity. Qed.

Example C12_exact_index_exists : knn_exact linear_knn adist.
Proof. exact linear_knn_exact. Qed.
