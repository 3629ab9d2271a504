(** Concrete cases for the two-view estimators, and statements gathered for the property file. *)
From Coq Require Import Reals List Arith ZArith QArith Qreals Lia Lra Psatz.
From Verif Require Import Num Outcome Lin LinSpec LinFacts Pinhole PinholeSpec PinholeFacts EssentialFacts PinholeProps Estimate EstimateSpec EstimateFacts EstimateFive EstimateAction EstimateBasis.
Import ListNotations.
Open Scope R_scope.

(** ** Exact evaluation of the constraints of a rational basis *)
Definition QNum : Num :=
  mkNum Q 0%Q 1%Q Qplus Qminus Qmult Qdiv Qopp (fun x => x) (fun x => x) (fun _ _ => false) (fun _ _ => false) Qeq_bool (fun _ => false) (fun _ => false) (fun _ => true) inject_Z.
Definition real_of : QNum -> RNum := Q2R.
Lemma real_zero : real_of zero = zero. Proof. unfold real_of, Q2R. cbn. rnum. lra. Qed.
Lemma real_add a b : real_of (add a b) = add (real_of a) (real_of b). Proof. apply Q2R_plus. Qed.
Lemma real_sub a b : real_of (sub a b) = sub (real_of a) (real_of b). Proof. apply Q2R_minus. Qed.
Lemma real_mul a b : real_of (mul a b) = mul (real_of a) (real_of b). Proof. apply Q2R_mult. Qed.
Lemma real_half : real_of half = half. Proof. unfold real_of, half, lit, Q2R. cbn. rnum. lra. Qed.
Lemma real_int z : real_of (inject_Z z) = IZR z. Proof. unfold real_of, Q2R, inject_Z. cbn [Qnum Qden]. rewrite Rinv_1. apply Rmult_1_r. Qed.
Definition real_vec (v : vec4 QNum) : vec4 RNum := V4 (real_of (hx v)) (real_of (hy v)) (real_of (hz v)) (real_of (hw v)).
Definition real_poly : poly QNum -> poly RNum := map real_of.
Lemma real_coeff p i : real_of (coeff p i) = coeff (real_poly p) i.
Proof. unfold coeff, real_poly. rewrite <- real_zero. symmetry. apply map_nth. Qed.
Lemma real_padd p q : real_poly (padd p q) = padd (real_poly p) (real_poly q).
Proof. unfold padd, real_poly at 1. rewrite map_map. apply map_ext. intros i. rewrite real_add, !real_coeff. reflexivity. Qed.
Lemma real_psub p q : real_poly (psub p q) = psub (real_poly p) (real_poly q).
Proof. unfold psub, real_poly at 1. rewrite map_map. apply map_ext. intros i. rewrite real_sub, !real_coeff. reflexivity. Qed.
Lemma real_pscale s p : real_poly (pscale s p) = pscale (real_of s) (real_poly p).
Proof. unfold pscale, real_poly at 1. rewrite map_map. apply map_ext. intros i. rewrite real_mul, !real_coeff. reflexivity. Qed.
Lemma real_o1 a b : real_poly (o1 a b) = o1 (real_vec a) (real_vec b).
Proof. unfold o1, real_poly, real_vec. cbn [map hx hy hz hw]. rewrite !real_zero, !real_add, !real_mul. reflexivity. Qed.
Lemma real_o2 p b : real_poly (o2 p b) = o2 (real_poly p) (real_vec b).
Proof. unfold o2. cbv zeta. rewrite <- !real_coeff. unfold real_poly, real_vec. cbn [map hx hy hz hw]. rewrite !real_add, !real_mul. reflexivity. Qed.
Lemma real_eet e i j : real_poly (eet e i j) = eet (fun i j => real_vec (e i j)) i j.
Proof. unfold eet, eet_upper. destruct (i <=? j)%nat; rewrite !real_padd, !real_o1; reflexivity. Qed.
Lemma real_eet_less e i j : real_poly (eet_less e i j) = eet_less (fun i j => real_vec (e i j)) i j.
Proof. unfold eet_less, half_trace. rewrite <- !real_eet, <- real_half, <- !real_padd, <- real_pscale, <- real_psub. destruct (i =? j)%nat; reflexivity. Qed.
Lemma real_cubic_row e i j : real_poly (cubic_row e i j) = cubic_row (fun i j => real_vec (e i j)) i j.
Proof. unfold cubic_row. rewrite !real_padd, !real_o2, !real_eet_less. reflexivity. Qed.
Lemma real_det_row e : real_poly (det_row e) = det_row (fun i j => real_vec (e i j)).
Proof. unfold det_row. rewrite !real_padd, !real_o2, !real_psub, !real_o1. reflexivity. Qed.
Lemma real_constraints (basis : nat -> nat -> QNum) : map real_poly (constraints basis) = constraints (fun i j => real_of (basis i j)).
Proof. unfold constraints. cbv zeta. cbn [map]. rewrite real_det_row, !real_cubic_row. reflexivity. Qed.

(** ** Five points: a null space for which the eigenvector is read at the wrong place *)
Definition table (t : list (list Z)) : nat -> nat -> R := fun i j => Q2R (inject_Z (nth j (nth i t []) 0%Z)).
Lemma table_int t i j : table t i j = IZR (nth j (nth i t []) 0%Z). Proof. apply real_int. Qed.
Definition demo_basis_table : list (list Z) :=
  [[0; 0; 0; 0];
   [0; (-1); (-1); 0];
   [0; 1; 0; (-1)];
   [1; 0; 0; 1];
   [0; 0; (-1); 0];
   [1; 0; 0; 0];
   [0; 1; 0; (-1)];
   [0; 0; 0; 0];
   [0; (-1); 0; 1]]%Z.
Definition demo_constraints_table : list (list Z) :=
  [[0; 0; (-2); 0; 0; (-2); 1; 0; 0; 0; 0; 2; (-1); 2; (-3); 0; 0; 1; 2; 0];
   [0; 1; 0; (-1); 0; 1; 0; 1; 0; 0; (-1); 1; 3; 0; 1; 1; (-1); (-3); 0; 1];
   [0; 1; 0; 0; 1; (-1); (-1); 0; (-2); (-1); 0; 1; (-1); 2; (-1); 0; 0; 1; 1; 0];
   [0; 0; 0; 1; 0; 1; 1; 1; 0; 0; 0; (-1); (-2); 0; (-1); 0; 1; 1; 0; 0];
   [1; 0; (-2); 0; 0; (-1); 0; 0; 0; 0; 2; 3; (-1); 0; (-1); 0; 0; 1; 0; 0];
   [0; 0; (-1); 0; (-1); (-1); 1; 0; (-1); (-1); 0; 1; 0; 0; (-3); 0; 0; 0; 1; 0];
   [1; 0; (-1); 0; 0; (-1); 1; 0; 1; 0; 1; 1; (-1); 0; (-1); (-1); 0; 2; 0; (-1)];
   [0; (-1); 0; 0; 0; 0; (-1); 0; (-1); 0; 1; 0; (-1); 0; 1; 1; 0; 2; 0; (-1)];
   [0; 0; 0; 1; 0; 0; 1; 0; 0; 0; 0; 0; (-2); 0; (-3); 0; 0; 1; 2; 0];
   [0; 1; 0; (-1); 0; 0; 1; 0; 1; 0; (-1); 2; 4; 0; (-1); (-1); (-2); (-4); 0; 1]]%Z.
Definition demo_solved_table : list (list Z) :=
  [[1; 1; (-1); (-1); (-1); 1; (-1); 2; 2; (-1)];
   [(-1); 0; 0; 0; (-1); 1; 0; (-1); 2; 1];
   [(-1); (-2); (-1); 0; 0; 1; 0; 2; 2; (-1)];
   [0; (-2); (-3); 0; 0; 0; 2; 2; 0; 0];
   [1; 2; 1; 1; 0; (-2); (-1); (-1); (-2); 0];
   [1; 2; 2; (-1); 0; (-1); (-1); (-3); (-2); 1];
   [0; 2; 1; 0; (-3); 0; (-2); (-1); 2; 0];
   [(-1); (-3); (-2); 1; 2; 1; 2; 3; 0; (-1)];
   [0; (-2); 0; 0; 3; (-2); 2; 0; (-4); 0];
   [(-1); 1; (-1); 0; (-3); 4; (-2); 1; 7; 0]]%Z.

Definition demo_basis : nat -> nat -> R := table demo_basis_table.
Definition demo_solved : nat -> nat -> R := table demo_solved_table.
Definition demo_pose5 : riso := Iso mid (V3 0 0 (-1)).

Definition same_table (a : list (list Q)) (b : list (list Z)) : bool :=
  forallb (fun i => forallb (fun j => Qeq_bool (nth j (nth i a []) 0%Q) (inject_Z (nth j (nth i b []) 0%Z))) (seq 0 20)) (seq 0 10).
Lemma demo_constraint i j : (i < 10)%nat -> (j < 20)%nat -> constraint_matrix (N := RNum) demo_basis i j = table demo_constraints_table i j.
Proof.
  intros Hi Hj. set (qb := (fun i j => inject_Z (nth j (nth i demo_basis_table []) 0%Z)) : nat -> nat -> QNum).
  assert (same_table (constraints qb) demo_constraints_table = true) as H by (vm_compute; reflexivity).
  unfold constraint_matrix. replace (constraints (N := RNum) demo_basis) with (map real_poly (constraints qb)).
  - change (@nil RNum) with (real_poly []). rewrite map_nth, <- real_coeff. unfold table. apply Qeq_eqR, Qeq_bool_iff.
    unfold same_table in H. rewrite forallb_forall in H. specialize (H i ltac:(apply in_seq; lia)). rewrite forallb_forall in H. exact (H j ltac:(apply in_seq; lia)).
  - rewrite real_constraints. reflexivity.
Qed.

Lemma demo_solved_correct : lu_correct (constraint_matrix (N := RNum) demo_basis) (fun i j => constraint_matrix (N := RNum) demo_basis i (10 + j)%nat) demo_solved.
Proof.
  split.
  - intros i j Hi Hj. rewrite demo_constraint by lia. unfold apply, inner. rewrite (total_ext 10 _ (fun k => IZR (nth k (nth i demo_constraints_table []) 0 * nth j (nth k demo_solved_table []) 0)%Z))
      by (intros k Hk; rewrite demo_constraint by lia; unfold demo_solved; rewrite !table_int, mult_IZR; reflexivity).
    rewrite table_int. cbn [total]. rewrite Rplus_0_l, <- !plus_IZR. f_equal. revert i j Hi Hj.
    assert (forallb (fun i => forallb (fun j => Z.eqb
      (fold_right Z.add 0%Z (map (fun k => nth k (nth i demo_constraints_table []) 0%Z * nth j (nth k demo_solved_table []) 0%Z)%Z (seq 0 10)))
      (nth (10 + j) (nth i demo_constraints_table []) 0%Z)) (seq 0 10)) (seq 0 10) = true) as H by (vm_compute; reflexivity).
    intros i j Hi Hj. rewrite forallb_forall in H. specialize (H i ltac:(apply in_seq; lia)). rewrite forallb_forall in H. specialize (H j ltac:(apply in_seq; lia)).
    apply Z.eqb_eq in H. rewrite <- H. cbn [seq map fold_right]. ring.
  - intros x H. unfold apply, inner in H.
    assert (forall i, (i < 10)%nat -> total 10 (fun k => IZR (nth k (nth i demo_constraints_table []) 0%Z) * x k) = 0) as K.
    { intros i Hi. rewrite <- (H i Hi). apply total_ext. intros k Hk. rewrite demo_constraint, table_int by lia. reflexivity. }
    clear H. pose proof (K 0%nat ltac:(lia)) as K0. pose proof (K 1%nat ltac:(lia)) as K1. pose proof (K 2%nat ltac:(lia)) as K2. pose proof (K 3%nat ltac:(lia)) as K3. pose proof (K 4%nat ltac:(lia)) as K4.
    pose proof (K 5%nat ltac:(lia)) as K5. pose proof (K 6%nat ltac:(lia)) as K6. pose proof (K 7%nat ltac:(lia)) as K7. pose proof (K 8%nat ltac:(lia)) as K8. pose proof (K 9%nat ltac:(lia)) as K9. clear K.
    cbn [total nth demo_constraints_table] in *. intros i Hi. do 10 (destruct i as [|i]; [lra|]). lia.
Qed.
Lemma demo_simple v : (forall i, (i < 10)%nat -> apply 10 (action_matrix (N := RNum) demo_solved) v i = - 0 * v i) -> exists c, forall i, (i < 10)%nat -> v i = c * lower 0 1 0 i.
Proof.
  intros H. exists (v 9%nat). pose proof (H 0%nat ltac:(lia)) as K0. pose proof (H 1%nat ltac:(lia)) as K1. pose proof (H 2%nat ltac:(lia)) as K2. pose proof (H 3%nat ltac:(lia)) as K3. pose proof (H 4%nat ltac:(lia)) as K4.
  pose proof (H 5%nat ltac:(lia)) as K5. pose proof (H 6%nat ltac:(lia)) as K6. pose proof (H 7%nat ltac:(lia)) as K7. pose proof (H 8%nat ltac:(lia)) as K8. pose proof (H 9%nat ltac:(lia)) as K9. clear H.
  unfold apply, inner, action_matrix, demo_solved in *. cbn [total Nat.eqb] in *. rewrite !table_int in *. cbn [nth demo_solved_table] in *. rnum.
  intros i Hi. unfold lower, lower_monomials. do 10 (destruct i as [|i]; [cbn [nth]; lra|]). lia.
Qed.
Lemma demo_basis_value k j : demo_basis k j = IZR (nth j (nth k demo_basis_table []) 0%Z). Proof. apply table_int. Qed.
Lemma demo_independent : independent demo_basis.
Proof.
  intros a b c d H. unfold combine in H. pose proof (H 1%nat ltac:(lia)) as H1. pose proof (H 2%nat ltac:(lia)) as H2. pose proof (H 3%nat ltac:(lia)) as H3. pose proof (H 4%nat ltac:(lia)) as H4. pose proof (H 5%nat ltac:(lia)) as H5.
  rewrite !demo_basis_value in *. cbn [nth demo_basis_table] in *. lra.
Qed.
Lemma demo_essential : of_columns (N := RNum) (combine demo_basis 0 1 0 1) = essential_of demo_pose5.
Proof.
  unfold of_columns, combine. rewrite !demo_basis_value. cbn [nth demo_basis_table]. unfold essential_of, demo_pose5, cross_matrix, mmul, mid, col1, col2, col3, dot. cbn [rot trans row1 row2 row3 vx vy vz]. apply (f_equal3 M3); apply (f_equal3 V3); rnum; lra.
Qed.
Lemma mid_rotation : rotation mid. Proof. split; lin. Qed.
Lemma demo_rigid : rigid demo_pose5 /\ trans demo_pose5 <> vzero.
Proof. split; [exact mid_rotation|]. intros E. injection E as E. rnum. lra. Qed.

(** With correct decompositions the candidate of the true essential matrix is not a multiple of it. *)
Lemma five_point_misreads : exists (basis m : nat -> nat -> R) (p : riso) x y z,
  independent basis /\ rigid p /\ trans p <> vzero /\ of_columns (N := RNum) (combine basis x y z 1) = essential_of p /\
  lu_correct (constraint_matrix (N := RNum) basis) (fun i j => constraint_matrix (N := RNum) basis i (10 + j)%nat) m /\
  (forall i, (i < 10)%nat -> apply 10 (action_matrix (N := RNum) m) (lower x y z) i = - x * lower x y z i) /\
  (forall v, (forall i, (i < 10)%nat -> apply 10 (action_matrix (N := RNum) m) v i = - x * v i) -> exists c, forall i, (i < 10)%nat -> v i = c * lower x y z i) /\
  forall eigenvalues null solve,
    solve (constraint_matrix (N := RNum) basis) (fun i j => constraint_matrix (N := RNum) basis i (10 + j)%nat) = Some m ->
    eigenvalues_correct (action_matrix (N := RNum) m) (eigenvalues (action_matrix (N := RNum) m)) ->
    (forall B, null B <> None /\ forall d, null B = Some d -> null_correct B d) ->
    exists k, k <> 0 /\ In (of_columns (N := RNum) (fun r => k * combine basis (z * z) x y z r)) (five_points_from_basis (N := RNum) eigenvalues null solve basis) /\
      ~ exists c, c <> 0 /\ of_columns (N := RNum) (fun r => k * combine basis (z * z) x y z r) = mscale c (essential_of p).
Proof.
  exists demo_basis, demo_solved, demo_pose5, 0, 1, 0. assert (solution demo_basis 0 1 0) as Hs. { apply solution_essential. rewrite demo_essential. apply essential_of_essential. exact (proj1 demo_rigid). }
  split; [exact demo_independent|]. split; [exact (proj1 demo_rigid)|]. split; [exact (proj2 demo_rigid)|]. split; [exact demo_essential|]. split; [exact demo_solved_correct|].
  split; [exact (action_eigenvector _ _ _ _ _ Hs demo_solved_correct)|]. split; [exact demo_simple|]. intros eigenvalues null solve Hsol Hev Hn.
  destruct (candidate_found eigenvalues null solve demo_basis demo_solved 0 1 0 Hs Hsol demo_solved_correct Hev Hn demo_simple) as (k & Hk & Hin). exists k. split; [exact Hk|]. split; [exact Hin|].
  intros (c & Hc & E). unfold of_columns, combine in E. rewrite !demo_basis_value in E. cbn [nth demo_basis_table] in E. rewrite <- demo_essential in E. unfold of_columns, combine in E. rewrite !demo_basis_value in E. cbn [nth demo_basis_table] in E.
  unfold mscale, vscale in E. cbn [row1 row2 row3 vx vy vz] in E. injection E as E0 E3 E6 E1 E4 E7 E2 E5 E8. rnum. lra.
Qed.
