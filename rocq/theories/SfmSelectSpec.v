(** Which three-view constraints are recorded for a view (C73). *)
From Coq Require Import Sorting.Sorted.
From stdpp Require Import gmap list.
From Verif Require Import Outcome Sfm SfmSpec.

Section spec.
Context {P F : Type}.
Implicit Types (rc : recon P) (d : vdata P F) (e : env P F).

(** The robust landmarks which all three views observe. *)
Definition common e d (r : key) rc (v a b : key) (ls : list key) : Prop :=
  NoDup ls /\ forall l, l ∈ ls <-> e_robust e d r l = true /\ forall u, u ∈ [v; a; b] -> exists f, assigned rc u f l.
(** Views [a] and [b] have enough landmarks in common with [v]. *)
Definition eligible e (s : settings) d r rc (v a b : key) : Prop :=
  v <> a /\ v <> b /\ a <> b /\ exists ls, common e d r rc v a b ls /\ optimization_robust_covisibility_minimum_landmarks s <= length ls.
(** The constraint found for the three views, if the optimisation of their poses succeeds. *)
Definition found e d r (v a b : key) (ls : list key) (cs : list (constraint3 P)) : Prop :=
  e_optimize3 e d r (sort3 v a b) ls = None \/ exists c, c ∈ cs /\ c_views c = sort3 v a b /\ e_optimize3 e d r (sort3 v a b) ls = Some (c_poses c).
Definition mentions (c : constraint3 P) (u : key) : Prop := let '(x, y, z) := c_views c in u = x \/ u = y \/ u = z.

Record selected e (s : settings) d r rc (v : key) (cs : list (constraint3 P)) : Prop := {
  (* while there is room, no eligible triple is left out *)
  se_room : length cs < optimization_maximum_three_view_constraints s ->
    forall a b, eligible e s d r rc v a b -> exists ls, common e d r rc v a b ls /\ found e d r v a b ls cs;
  (* if there are at most as many views in question as constraints allowed, each is in some constraint *)
  se_covers : forall vs, length vs <= optimization_maximum_three_view_constraints s ->
    (forall a b, eligible e s d r rc v a b -> v ∈ vs /\ a ∈ vs /\ b ∈ vs) ->
    (forall a b ls, eligible e s d r rc v a b -> common e d r rc v a b ls -> e_optimize3 e d r (sort3 v a b) ls <> None) ->
    forall a b u, eligible e s d r rc v a b -> u ∈ [v; a; b] -> exists c, c ∈ cs /\ mentions c u;
  (* a triple with the most landmarks comes first *)
  se_best : 1 <= optimization_maximum_three_view_constraints s ->
    (forall l, Sorted (fun t t' : key * key * key * list key => length t'.2 <= length t.2) (e_sort e l)) ->
    (exists a b, eligible e s d r rc v a b) ->
    exists a b ls, eligible e s d r rc v a b /\ common e d r rc v a b ls /\
      (forall a' b' ls', eligible e s d r rc v a' b' -> common e d r rc v a' b' ls' -> length ls' <= length ls) /\ found e d r v a b ls cs
}.
End spec.
