(** C43, C44 and C50: the two-view estimators (eight-point/src/lib.rs, nister-stewenius/src/lib.rs). *)
From Coq Require Import Reals List Arith SpecFloat.
From Verif Require Import Num Outcome Lin LinSpec Pinhole PinholeSpec Estimate EstimateSpec EstimateFacts EstimateFive EstimateAction EstimateBasis EstimateDemo EstimateProps.
Import ListNotations.
Open Scope R_scope.

(** ** C43.  Vectors of nine entries are functions of the index, the entries of a matrix taken column after column
    ([columns]); [inner] is the scalar product.  The eigensolver is any function; [lowest_correct] is what is asked of its
    result, and every full orthonormal system of eigenvectors satisfies it ([C43_any_eigensystem]). *)
Theorem C43_rows :
  forall (ms : list rmatch) (p : riso), (forall m, In m (firstn 8 ms) -> observes p m) ->
    forall i, inner 9 (encode8 (N := RNum) ms i) (columns (essential_of p)) = 0.
Proof. exact (fun ms p H => row8 ms (essential_of p) (fun m Hm => observes_epipolar p m (H m Hm))). Qed.
Print Assumptions C43_rows.
(** Real arithmetic, in which a bearing at right angles to the optical axis (depth zero) yields a row of zeros; in floating point it yields NaN, see [C43_sideways_refuted]. *)
Theorem C43_multiple_of_the_essential_matrix_partial :
  forall eigen (ms : list rmatch) (E : rmat3) d,
    (forall m, In m (firstn 8 ms) -> epipolar E m) -> E <> mzero ->
    (forall x, (forall i, (i < 8)%nat -> inner 9 (encode8 (N := RNum) ms i) x = 0) -> exists c, forall k, (k < 9)%nat -> x k = c * columns E k) ->
    eigen (gram 8 (encode8 (N := RNum) ms)) = Some d -> lowest_correct 9 (gram 8 (encode8 (N := RNum) ms)) d ->
    exists c, c <> 0 /\ eight_point eigen ms = Some (mscale c E).
Proof. exact eight_point_exact. Qed.
Print Assumptions C43_multiple_of_the_essential_matrix_partial.
(** The whole estimator: four rigid poses with unit translation, one of them the true pose up to scale. *)
Theorem C43_true_pose_is_returned_partial :
  forall eigen try_svd (ms : list rmatch) (p : riso) d s,
    rigid p -> trans p <> vzero ->
    (forall m, In m (firstn 8 ms) -> epipolar (essential_of p) m) ->
    (forall x, (forall i, (i < 8)%nat -> inner 9 (encode8 (N := RNum) ms i) x = 0) -> exists c, forall k, (k < 9)%nat -> x k = c * columns (essential_of p) k) ->
    eigen (gram 8 (encode8 (N := RNum) ms)) = Some d -> lowest_correct 9 (gram 8 (encode8 (N := RNum) ms)) d ->
    (forall c, try_svd (mscale c (essential_of p)) = Some (s c)) -> (forall c, svd_correct (mscale c (essential_of p)) (s c)) ->
    length (eight_point_estimate eigen try_svd ms) = 4%nat /\
    (forall q, In q (eight_point_estimate eigen try_svd ms) -> rigid q /\ unit_vec (trans q)) /\
    In (Iso (rot p) (normalize (trans p))) (eight_point_estimate eigen try_svd ms).
Proof. exact eight_point_poses. Qed.
Print Assumptions C43_true_pose_is_returned_partial.
Theorem C43_any_eigensystem :
  forall n (M : nat -> nat -> R) rows d, eigen_correct n (gram (N := RNum) rows M) d -> lowest_correct n (gram (N := RNum) rows M) d.
Proof. exact (fun n M rows d => eigen_lowest n _ d (gram_symmetric n rows M)). Qed.
Print Assumptions C43_any_eigensystem.
Theorem C43_at_most_four :
  forall (N : Num) eigen try_svd (ms : list (bearings N)), (length (eight_point_estimate eigen try_svd ms) <= 4)%nat.
Proof. exact @eight_point_at_most_four. Qed.
Print Assumptions C43_at_most_four.
(** Further matches are ignored. *)
Theorem C43_first_eight :
  forall (N : Num) eigen try_svd (ms : list (bearings N)), eight_point_estimate eigen try_svd ms = eight_point_estimate eigen try_svd (firstn 8 ms).
Proof. exact @eight_point_first_eight. Qed.
Print Assumptions C43_first_eight.
Theorem C43_sideways_refuted :
  exists m : bearings F64, v_finite (fst m) = true /\ v_finite (snd m) = true /\ eqb (norm2 (fst m)) one = true /\ eqb (norm2 (snd m)) one = true /\
    isnan (encode8 [m] 0 8) = true.
Proof. exact sideways_row. Qed.
Print Assumptions C43_sideways_refuted.
(** Eight matches with integer coordinates that determine the pose. *)
Example C43_case : rigid demo_pose8 /\ trans demo_pose8 <> vzero /\ length demo_matches = 8%nat /\
  (forall m, In m demo_matches -> observes demo_pose8 m /\ vz (fst m) <> 0) /\
  (forall x, (forall i, (i < 8)%nat -> inner 9 (encode8 (N := RNum) demo_matches i) x = 0) -> exists c, forall k, (k < 9)%nat -> x k = c * columns (essential_of demo_pose8) k) /\
  (exists d, lowest_correct 9 (gram 8 (encode8 (N := RNum) demo_matches)) d) /\
  (exists s, forall c, svd_correct (mscale c (essential_of demo_pose8)) (s c)).
Proof. exact demo_eight. Qed.

(** ** C44.  [peval p x y z] is the value of a polynomial, [leval a x y z] that of a linear form (EstimateSpec.v). *)
Theorem C44_o1 :
  forall (a b : rvec4) (x y z : R), peval (o1 (N := RNum) a b) x y z = leval a x y z * leval b x y z.
Proof. exact peval_o1. Qed.
Print Assumptions C44_o1.
Theorem C44_o2 :
  forall (p : poly RNum) (b : rvec4) (x y z : R), quadratic p -> peval (o2 (N := RNum) p b) x y z = peval p x y z * leval b x y z.
Proof. exact peval_o2. Qed.
Print Assumptions C44_o2.
(** The ten rows, in order: the determinant and the entries of the trace constraint. *)
Theorem C44_constraints :
  forall (basis : nat -> nat -> R) (x y z : R),
    map (fun p => peval p x y z) (constraints (N := RNum) basis) = essential_constraints (by_rows (combine basis x y z 1)).
Proof. exact constraints_spec. Qed.
Print Assumptions C44_constraints.
Theorem C44_solutions_are_essential :
  forall (basis : nat -> nat -> R) (x y z : R),
    (forall p, In p (constraints (N := RNum) basis) -> peval p x y z = 0) <-> essential (of_columns (N := RNum) (combine basis x y z 1)).
Proof. exact solution_essential. Qed.
Print Assumptions C44_solutions_are_essential.
(** The basis is orthonormal, its epipolar residuals are small, and every exact solution is a combination of it. *)
Theorem C44_null_space :
  forall eigen (ms : list rmatch) d (basis : nat -> nat -> R),
    eigen (gram 5 (encode5 (N := RNum) ms)) = Some d -> eigen_correct 9 (gram 5 (encode5 (N := RNum) ms)) d ->
    nullspace_basis (N := RNum) eigen ms = Some basis ->
    (forall j l, (j < 4)%nat -> (l < 4)%nat -> inner 9 (fun k => basis k j) (fun k => basis k l) = delta j l) /\
    (forall j, (j < 4)%nat -> inner 5 (apply 9 (encode5 (N := RNum) ms) (fun k => basis k j)) (apply 9 (encode5 (N := RNum) ms) (fun k => basis k j)) <= / 1000000000000) /\
    (forall x, (forall i, (i < 5)%nat -> inner 9 (encode5 (N := RNum) ms i) x = 0) ->
      let c j := inner 9 (fun k => basis k j) x in forall k, (k < 9)%nat -> x k = combine basis (c 0%nat) (c 1%nat) (c 2%nat) (c 3%nat) k).
Proof. exact nullspace_spec. Qed.
Print Assumptions C44_null_space.
(** With five or more matches the estimator returns; the forty places always suffice. *)
Theorem C44_at_most_forty :
  forall (N : Num) eigen eigenvalues null solve try_svd (ms : list (bearings N)), (5 <= length ms)%nat ->
    exists l, five_point_estimate eigen eigenvalues null solve try_svd ms = Ok l /\ (length l <= 40)%nat.
Proof. exact @five_point_total. Qed.
Print Assumptions C44_at_most_forty.
Theorem C44_too_few_panics :
  forall (N : Num) eigen eigenvalues null solve try_svd (ms : list (bearings N)), (length ms < 5)%nat ->
    five_point_estimate eigen eigenvalues null solve try_svd ms = Panic.
Proof. exact @five_point_too_few. Qed.
Print Assumptions C44_too_few_panics.
(** When the null space cannot be computed the estimator returns forty poses, made of the zero matrix, for every input. *)
Theorem C44_failure_refuted :
  exists eigen eigenvalues null solve try_svd,
    (forall A, eigen A = None) /\ eigenvalues_correct (zero_matrix (N := RNum)) (eigenvalues (zero_matrix (N := RNum))) /\
    (exists d, null (fun i j => 0 - (if (i =? j)%nat then 0 else 0)) = Some d /\ null_correct (fun i j => 0 - (if (i =? j)%nat then 0 else 0)) d) /\
    (exists d, try_svd mzero = Some d /\ svd_correct mzero d) /\
    forall ms : list rmatch, (5 <= length ms)%nat -> exists l, five_point_estimate (N := RNum) eigen eigenvalues null solve try_svd ms = Ok l /\ length l = 40%nat.
Proof. exact failure_gives_poses. Qed.
Print Assumptions C44_failure_refuted.
Example C44_case : quadratic (o1 (N := RNum) (V4 1 2 3 4) (V4 5 6 7 8)) /\ peval (o2 (N := RNum) (o1 (N := RNum) (V4 1 2 3 4) (V4 5 6 7 8)) (V4 1 0 0 1)) 1 1 1 = 10 * 26 * 2.
Proof. split; [apply quadratic_o1|]. rewrite peval_o2 by apply quadratic_o1. rewrite peval_o1. unfold leval. cbn [hx hy hz hw]. Lra.lra. Qed.

(** ** C50.  [combine basis x y z w] is the combination of the columns of the null space basis; the matrix sought is the one
    with coefficients (x, y, z, 1), and the vector of the ten monomials of degree at most two is [lower x y z]. *)
(** Every solution is an eigenvector of the action matrix. *)
Theorem C50_action_matrix :
  forall (basis m : nat -> nat -> R) (x y z : R),
    (forall p, In p (constraints (N := RNum) basis) -> peval p x y z = 0) ->
    lu_correct (constraint_matrix (N := RNum) basis) (fun i j => constraint_matrix (N := RNum) basis i (10 + j)%nat) m ->
    forall i, (i < 10)%nat -> apply 10 (action_matrix (N := RNum) m) (lower x y z) i = - x * lower x y z i.
Proof. exact action_eigenvector. Qed.
Print Assumptions C50_action_matrix.
(** On exact matches and with correct decompositions the candidate for the true essential matrix is the combination with coefficients (z^2, x, y, z) instead of (x, y, z, 1): rows 5 to 8 of the eigenvector are used instead of rows 6 to 9.  It is a multiple of the true matrix at two points only. *)
Theorem C50_what_is_returned_partial :
  forall eigen eigenvalues null solve (ms : list rmatch) (E : rmat3) d (basis m : nat -> nat -> R),
    essential E -> (forall q, In q ms -> epipolar E q) ->
    eigen (gram 5 (encode5 (N := RNum) ms)) = Some d -> eigen_correct 9 (gram 5 (encode5 (N := RNum) ms)) d ->
    nullspace_basis (N := RNum) eigen ms = Some basis ->
    let c j := inner 9 (fun k => basis k j) (columns E) in
    let x := c 0%nat / c 3%nat in let y := c 1%nat / c 3%nat in let z := c 2%nat / c 3%nat in
    c 3%nat <> 0 ->
    solve (constraint_matrix (N := RNum) basis) (fun i j => constraint_matrix (N := RNum) basis i (10 + j)%nat) = Some m ->
    lu_correct (constraint_matrix (N := RNum) basis) (fun i j => constraint_matrix (N := RNum) basis i (10 + j)%nat) m ->
    eigenvalues_correct (action_matrix (N := RNum) m) (eigenvalues (action_matrix (N := RNum) m)) ->
    (forall B, null B <> None /\ forall d, null B = Some d -> null_correct B d) ->
    (forall v, (forall i, (i < 10)%nat -> apply 10 (action_matrix (N := RNum) m) v i = - x * v i) -> exists c, forall i, (i < 10)%nat -> v i = c * lower x y z i) ->
    E = mscale (c 3%nat) (of_columns (N := RNum) (combine basis x y z 1)) /\
    exists k, k <> 0 /\ In (of_columns (N := RNum) (fun r => k * combine basis (z * z) x y z r)) (five_points_relative_pose (N := RNum) eigen eigenvalues null solve ms) /\
      ((exists s, s <> 0 /\ of_columns (N := RNum) (fun r => k * combine basis (z * z) x y z r) = mscale s E) <-> (x = 1 /\ y = 1 /\ z = 1) \/ (x = -1 /\ y = 1 /\ z = -1)).
Proof. exact five_point_exact. Qed.
Print Assumptions C50_what_is_returned_partial.
(** A null space with small integer entries for which the candidate is wrong. *)
Theorem C50_recovery_refuted :
  exists (basis m : nat -> nat -> R) (p : riso) x y z,
    independent basis /\ rigid p /\ trans p <> vzero /\ of_columns (N := RNum) (combine basis x y z 1) = essential_of p /\
    lu_correct (constraint_matrix (N := RNum) basis) (fun i j => constraint_matrix (N := RNum) basis i (10 + j)%nat) m /\
    (forall i, (i < 10)%nat -> apply 10 (action_matrix (N := RNum) m) (lower x y z) i = - x * lower x y z i) /\
    (forall v, (forall i, (i < 10)%nat -> apply 10 (action_matrix (N := RNum) m) v i = - x * v i) -> exists c, forall i, (i < 10)%nat -> v i = c * lower x y z i) /\
    forall eigenvalues null solve,
      solve (constraint_matrix (N := RNum) basis) (fun i j => constraint_matrix (N := RNum) basis i (10 + j)%nat) = Some m ->
      eigenvalues_correct (action_matrix (N := RNum) m) (eigenvalues (action_matrix (N := RNum) m)) ->
      (forall B, null B <> None /\ forall d, null B = Some d -> null_correct B d) ->
      exists k, k <> 0 /\ In (of_columns (N := RNum) (fun r => k * combine basis (z * z) x y z r)) (five_points_from_basis (N := RNum) eigenvalues null solve basis) /\
        ~ exists c, c <> 0 /\ of_columns (N := RNum) (fun r => k * combine basis (z * z) x y z r) = mscale c (essential_of p).
Proof. exact five_point_misreads. Qed.
Print Assumptions C50_recovery_refuted.
