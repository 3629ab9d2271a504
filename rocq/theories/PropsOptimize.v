(** Property theorems C42: the pose optimisers (cv-optimize).  Real arithmetic unless the statement
    says otherwise. *)
From Coq Require Import Reals List ZArith.
From Verif Require Import Num Lin LinSpec Core CoreSpec Geom GeomSpec GeomProps Optimize OptimizeSpec OptimizeFacts OptimizeProps.
Import ListNotations.
Open Scope R_scope.

(** ** C42 *)
Theorem C42_no_iterations :
  forall (nearest : rmat3 -> rmat3) (eps : R) (pose : riso) (poses : riso * riso) epsilon rate ls ls', rigid2 poses -> let T := real_trig nearest eps in
    single_view_l1 T pose epsilon rate 0 ls = pose /\ single_view_l2 T pose rate 0 ls = pose /\
    three_view_l1 T poses epsilon rate 0 ls' = poses /\ three_view_l2 T poses rate 0 ls' = poses /\ three_view_adaptive T poses 0 ls' = poses.
Proof. exact no_iterations. Qed.
Print Assumptions C42_no_iterations.
(** In every arithmetic. *)
Theorem C42_no_landmarks :
  forall {N : Num} (T : trig N) (pose : iso N) (poses : iso N * iso N) epsilon rate n,
    single_view_l1 T pose epsilon rate n [] = pose /\ single_view_l2 T pose rate n [] = pose /\
    three_view_l1 T poses epsilon rate n [] = poses /\ three_view_l2 T poses rate n [] = poses /\ three_view_adaptive T poses n [] = poses.
Proof. exact @no_landmarks. Qed.
Print Assumptions C42_no_landmarks.
(** A pose that agrees with every landmark is left alone, for all settings. *)
Theorem C42_single_view_perfect :
  forall (nearest : rmat3 -> rmat3) (eps : R) (pose : riso) epsilon rate n ls, (forall l, In l ls -> agrees pose l) -> let T := real_trig nearest eps in
    single_view_l1 T pose epsilon rate n ls = pose /\ single_view_l2 T pose rate n ls = pose.
Proof. exact single_perfect. Qed.
Print Assumptions C42_single_view_perfect.
Theorem C42_three_view_perfect :
  forall (nearest : rmat3 -> rmat3) (eps : R) (poses : riso * riso) epsilon rate n ls, rigid (fst poses) -> rigid (snd poses) -> (forall o, In o ls -> three_agree poses o) -> let T := real_trig nearest eps in
    three_view_l1 T poses epsilon rate n ls = poses /\ three_view_l2 T poses rate n ls = poses /\ three_view_adaptive T poses n ls = poses.
Proof. exact three_perfect. Qed.
Print Assumptions C42_three_view_perfect.
(** What each optimiser computes: at most [n] of the named steps, fewer only after fifty iterations
    without progress. *)
Theorem C42_single_view_l1_run :
  forall (nearest : rmat3 -> rmat3) (eps : R) (pose : riso) epsilon rate n ls, ls <> [] -> let T := real_trig nearest eps in
    run (fun p => [unit_sums (deltas p ls)])
      (fun p => iso_mul (se3_isometry T (weiszfeld_step rate (norm (trans p) * epsilon) epsilon (deltas p ls))) p)
      n pose (single_view_l1 T pose epsilon rate n ls).
Proof. exact single_l1_run. Qed.
Print Assumptions C42_single_view_l1_run.
Theorem C42_single_view_l2_run :
  forall (nearest : rmat3 -> rmat3) (eps : R) (pose : riso) rate n ls, ls <> [] -> let T := real_trig nearest eps in
    run (fun p => [plain_sums (deltas p ls)]) (fun p => iso_mul (se3_isometry T (mean_step rate (length ls) (deltas p ls))) p)
      n pose (single_view_l2 T pose rate n ls).
Proof. exact single_l2_run. Qed.
Print Assumptions C42_single_view_l2_run.
Theorem C42_single_view_gradients :
  forall (pose : riso) ls g, In g (deltas pose ls) <-> exists l, In l ls /\ gives pose l g.
Proof. exact in_deltas. Qed.
Print Assumptions C42_single_view_gradients.
Theorem C42_three_view_l1_run :
  forall (nearest : rmat3 -> rmat3) (eps : R) (poses : riso * riso) epsilon rate n ls, ls <> [] -> let T := real_trig nearest eps in
    exists result, three_view_l1 T poses epsilon rate n ls = invert result /\
    run (fun p => [unit_sums (firsts p ls); unit_sums (seconds p ls)])
      (fun p => move T p (weiszfeld_step rate (both_lengths p * epsilon) epsilon (firsts p ls), weiszfeld_step rate (both_lengths p * epsilon) epsilon (seconds p ls)))
      n (invert poses) result.
Proof. exact three_l1_run. Qed.
Print Assumptions C42_three_view_l1_run.
Theorem C42_three_view_l2_run :
  forall (nearest : rmat3 -> rmat3) (eps : R) (poses : riso * riso) rate n ls, ls <> [] -> let T := real_trig nearest eps in
    exists result, three_view_l2 T poses rate n ls = invert result /\
    run (fun p => [plain_sums (firsts p ls); plain_sums (seconds p ls)])
      (fun p => move T p (mean_step rate (length ls) (firsts p ls), mean_step rate (length ls) (seconds p ls))) n (invert poses) result.
Proof. exact three_l2_run. Qed.
Print Assumptions C42_three_view_l2_run.
Theorem C42_three_view_adaptive_run :
  forall (nearest : rmat3 -> rmat3) (eps : R) (poses : riso * riso) n ls, ls <> [] -> let T := real_trig nearest eps in
    three_view_adaptive T poses n ls =
      invert (Nat.iter n (fun p => move T p (shortened_step (length ls) (firsts p ls), shortened_step (length ls) (seconds p ls))) (invert poses)).
Proof. exact three_adaptive_run. Qed.
Print Assumptions C42_three_view_adaptive_run.
Theorem C42_rigid :
  forall (nearest : rmat3 -> rmat3) (eps : R) (pose : riso) (poses : riso * riso) epsilon rate n ls ls', rigid pose -> rigid2 poses -> let T := real_trig nearest eps in
    rigid (single_view_l1 T pose epsilon rate n ls) /\ rigid (single_view_l2 T pose rate n ls) /\
    rigid2 (three_view_l1 T poses epsilon rate n ls') /\ rigid2 (three_view_l2 T poses rate n ls') /\ rigid2 (three_view_adaptive T poses n ls').
Proof. exact all_rigid. Qed.
Print Assumptions C42_rigid.
(** No step is longer than the longest gradient times the rate. *)
Theorem C42_weiszfeld_step_bounded :
  forall rate kt kr (gs : list (se3 RNum)) Bt Br, 0 <= rate -> 0 < kt -> 0 < kr -> 0 <= Bt -> 0 <= Br -> 
    (forall g, In g gs -> norm (se_t g) <= Bt /\ norm (se_r g) <= Br) ->
    norm (se_t (weiszfeld_step rate kt kr gs)) <= rate * (Bt + kt) /\ norm (se_r (weiszfeld_step rate kt kr gs)) <= rate * (Br + kr).
Proof. exact weiszfeld_bound. Qed.
Print Assumptions C42_weiszfeld_step_bounded.
Theorem C42_mean_step_bounded :
  forall rate n (gs : list (se3 RNum)) Bt Br, 0 <= rate -> 0 <= Bt -> 0 <= Br -> (length gs <= n)%nat ->
    (forall g, In g gs -> norm (se_t g) <= Bt /\ norm (se_r g) <= Br) ->
    norm (se_t (mean_step rate n gs)) <= rate * Bt /\ norm (se_r (mean_step rate n gs)) <= rate * Br.
Proof. exact mean_bound. Qed.
Print Assumptions C42_mean_step_bounded.
Theorem C42_shortened_step_bounded :
  forall n (gs : list (se3 RNum)) Bt Br, 0 <= Bt -> 0 <= Br -> (length gs <= n)%nat ->
    (forall g, In g gs -> norm (se_t g) <= Bt /\ norm (se_r g) <= Br) ->
    norm (se_t (shortened_step n gs)) <= Bt /\ norm (se_r (shortened_step n gs)) <= Br.
Proof. exact shortened_bound. Qed.
Print Assumptions C42_shortened_step_bounded.
(** When every landmark is at infinity, one iteration makes the pose NaN. *)
Theorem C42_finite_refuted :
  exists (pose : iso F64) (ls : list (vec3 F64 * vec4 F64)), v_finite (trans pose) = true /\ pose = Iso mid (trans pose) /\
    (forall l, In l ls -> v_finite (fst l) = true /\ h_finite (snd l) = true) /\
    forall (T : trig F64) (epsilon rate : F64), isnan (vx (trans (single_view_l1 T pose epsilon rate 1 ls))) = true.
Proof. exact single_view_nan. Qed.
Print Assumptions C42_finite_refuted.
(** When all gradients vanish, the adaptive step is zero and not NaN, in float arithmetic. *)
Theorem C42_adaptive_at_rest :
  forall (inv : F64) (gs : list (se3 F64)), isfin inv = true ->
    ((forall g, In g gs -> at_rest (se_t g)) -> at_rest (se_t (adaptive_gradient inv gs))) /\
    ((forall g, In g gs -> at_rest (se_r g)) -> at_rest (se_r (adaptive_gradient inv gs))).
Proof. exact adaptive_rest. Qed.
Print Assumptions C42_adaptive_at_rest.
Example C42_case : agrees left_camera demo_landmark /\ three_agree (near_camera, far_camera) (between, away_bearing, far_bearing).
Proof. exact (conj demo_agrees demo_three). Qed.
