(** The steps that the mapping code takes when it optimises poses. *)
From Coq Require Import Reals List.
From Verif Require Import Num Lin LinSpec Core CoreSpec Geom GeomSpec Optimize OptimizeSpec OptimizeFacts OptimizeProps SfmGeom.
Import ListNotations.
Open Scope R_scope.
Lemma mapping_single (nearest : rmat3 -> rmat3) (eps : R) (st : gsettings RNum) (pose : riso) ls : ls <> [] -> let T := real_trig nearest eps in
  run (fun p => [plain_sums (deltas p ls)]) (fun p => iso_mul (se3_isometry T (mean_step (single_view_optimization_rate st) (length ls) (deltas p ls))) p)
    (single_view_patience st) pose (single_optimize T st pose ls).
Proof. intros H. exact (single_l2_run nearest eps pose (single_view_optimization_rate st) (single_view_patience st) ls H). Qed.
Lemma mapping_three (nearest : rmat3 -> rmat3) (eps : R) (st : gsettings RNum) (poses : riso * riso) ls : ls <> [] -> let T := real_trig nearest eps in
  exists result, three_optimize T st poses ls = invert result /\
  run (fun p => [plain_sums (firsts p ls); plain_sums (seconds p ls)])
    (fun p => move T p (mean_step (1 / 1000) (length ls) (firsts p ls), mean_step (1 / 1000) (length ls) (seconds p ls))) (three_view_patience st) (invert poses) result.
Proof. intros H. exact (three_l2_run nearest eps poses (1 / 1000) (three_view_patience st) ls H). Qed.
