(** C79: feature extraction with the feature [rayon] (akaze/src/lib.rs, detector_response.rs, scale_space_extrema.rs,
    descriptors.rs): the parallel program is the model in AkazeParallel.v, its executions are those of Parallel.v. *)
From stdpp Require Import list relations.
From Coq Require Import ZArith Reals.
From Verif Require Import Outcome Num Gray Diffuse Akaze Parallel ParallelSpec AkazeParallel AkazeParallelFacts.
Open Scope nat_scope.

(** In any arithmetic, for every image, every way of dividing the work and every order in which the threads do their steps:
    the extraction ends, it is never stuck, and when it has ended it has returned what the sequential code returns - the same
    keypoints and descriptors in the same order - or panicked if that does not return. *)
Theorem C79_parallel_extraction :
  forall (P : widths) (M32 : math (single P)) (M64 : math (double P)) (A : angles (single P)) (exp2 : double P -> double P) (fed : double P -> outcome (list (double P))) (options : settings (double P))
    (sh1 sh2 sh3 sh4 : shape) (float_ord : single P -> single P -> bool) (sort : (keypoint (single P) -> keypoint (single P) -> bool) -> list (keypoint (single P)) -> list (keypoint (single P))) (image : gray (single P)),
    let start := ([], par_extract P M32 M64 A exp2 fed options sh1 sh2 sh3 sh4 float_ord sort image) in
    always_ends start /\
    (forall s, reaches start s -> (exists s', step s s') \/ exists o, s.2 = Done o) /\
    forall m o, reaches start (m, Done o) -> forall r, o = Ok r <-> extract P M32 M64 A exp2 fed options float_ord sort image = Ok r.
Proof. exact parallel_extraction. Qed.
Print Assumptions C79_parallel_extraction.

(** The order of steps does matter for other programs: two branches that write to one cell. *)
Example C79_race : forall x : nat, x = 1 \/ x = 2 ->
  reaches ([0], join (poke 0 (fun _ => 1)) (poke 0 (fun _ => 2))) ([x], Done (Ok (tt, tt))).
Proof. exact race. Qed.
(** In a parallel loop over two cells the second one can be done first. *)
Example C79_any_order : reaches ([1; 1], for_each (Split 1 Whole Whole) 0 2 (fun i => poke i (fun x => x + i + 1)))
  ([1; 3], Join (loop [0] (fun _ i => poke i (fun x => x + i + 1)) tt) (Done (Ok tt)) (fun _ => Done (Ok tt))).
Proof. exact any_order. Qed.
