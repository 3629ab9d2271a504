(** Lemmas about the null space extraction of the five-point algorithm, and the whole algorithm. *)
From Coq Require Import Reals List Arith Lia Lra Psatz Permutation Sorted.
From Verif Require Import Num Outcome Lin LinSpec LinFacts Pinhole PinholeSpec PinholeFacts EssentialFacts Estimate EstimateSpec EstimateFacts EstimateFive EstimateAction.
Import ListNotations.
Open Scope R_scope.

(** ** Sorting *)
Section sort.
Variable v : nat -> R.
Lemma insert_key_perm i l : Permutation (insert_key (N := RNum) v i l) (i :: l).
Proof. induction l as [|j l IH]; cbn [insert_key]; [reflexivity|]. destruct (_ : bool); [reflexivity|]. rewrite IH. apply perm_swap. Qed.
Lemma sort_perm l : Permutation (sort_by_key (N := RNum) v l) l.
Proof.
  unfold sort_by_key. assert (forall acc, Permutation (fold_left (fun s i => insert_key (N := RNum) v i s) l acc) (acc ++ l)) as H; [|apply (H [])].
  induction l as [|i l IH]; intros acc; cbn [fold_left]; [rewrite app_nil_r; reflexivity|]. rewrite IH, insert_key_perm. cbn [app]. apply Permutation_middle.
Qed.
Definition ascending := StronglySorted (fun i j => v i <= v j).
Lemma insert_key_sorted i l : ascending l -> ascending (insert_key (N := RNum) v i l).
Proof.
  induction 1 as [|j l Hl IH Hj]; cbn [insert_key]; [repeat constructor|]. cbn [ltb RNum]. unfold Rltb. destruct (Rlt_dec (v i) (v j)) as [L|L].
  - constructor; [constructor; assumption|]. constructor; [lra|]. eapply Forall_impl; [|exact Hj]. cbn beta. intros k Hk. lra.
  - constructor; [exact IH|]. apply Forall_forall. intros k Hk. pose proof (Permutation_in _ (insert_key_perm i l) Hk) as [<-|Hk']; [lra|]. rewrite Forall_forall in Hj. apply Hj. exact Hk'.
Qed.
Lemma sort_sorted l : ascending (sort_by_key (N := RNum) v l).
Proof.
  unfold sort_by_key. assert (forall acc, ascending acc -> ascending (fold_left (fun s i => insert_key (N := RNum) v i s) l acc)) as H; [|apply H; constructor].
  induction l as [|i l IH]; intros acc Ha; cbn [fold_left]; [exact Ha|]. apply IH, insert_key_sorted, Ha.
Qed.
Lemma first_above_spec t l n : first_above (N := RNum) v t l = Some n ->
  (n < length l)%nat /\ (forall k, (k < n)%nat -> v (nth k l 0%nat) <= t) /\ t < v (nth n l 0%nat).
Proof.
  revert n. induction l as [|i l IH]; intros n; cbn [first_above]; [discriminate|]. cbn [ltb RNum]. unfold Rltb. destruct (Rlt_dec t (v i)) as [L|L].
  - intros [= <-]. cbn [length nth]. split; [lia|]. split; [intros; lia|exact L].
  - destruct (first_above (N := RNum) v t l) as [k|] eqn:E; [|intros [=]]. intros [= <-]. destruct (IH k eq_refl) as (H1 & H2 & H3). cbn [length nth]. split; [lia|]. split; [|exact H3].
    intros [|j] Hj; [lra|]. apply H2. lia.
Qed.
Lemma sorted_above l : ascending l -> forall n k t, t < v (nth n l 0%nat) -> (n <= k < length l)%nat -> t < v (nth k l 0%nat).
Proof.
  induction 1 as [|i l Hl IH Hi]; intros n k t Hn Hk; cbn [length] in *; [lia|]. destruct k as [|k]; [replace n with O in Hn by lia; exact Hn|]. destruct n as [|n]; cbn [nth] in *.
  - rewrite Forall_forall in Hi. assert (v i <= v (nth k l 0%nat)) by (apply Hi, nth_In; lia). lra.
  - apply (IH n); [exact Hn|lia].
Qed.
End sort.

Lemma total_list n f : total n f = fold_right Rplus 0 (map f (seq 0 n)).
Proof.
  induction n as [|n IH]; [reflexivity|]. rewrite seq_S, map_app, fold_right_app. cbn [map fold_right total]. rewrite IH. rewrite Rplus_0_r. cbn [Nat.add]. generalize (map f (seq 0 n)) (f n). clear.
  intros l x. induction l as [|y l IH]; cbn [fold_right]; [ring|]. rewrite <- IH. ring.
Qed.
Lemma fold_perm (l l' : list R) : Permutation l l' -> fold_right Rplus 0 l = fold_right Rplus 0 l'.
Proof. induction 1; cbn [fold_right]; try lra. Qed.
Lemma total_permuted n f (s : list nat) : Permutation s (seq 0 n) -> total n f = total n (fun k => f (nth k s 0%nat)).
Proof.
  intros H. rewrite !total_list. rewrite (fold_perm _ (map f s)) by (apply Permutation_map; symmetry; exact H). f_equal.
  assert (length s = n) as L by (rewrite (Permutation_length H), seq_length; reflexivity). rewrite <- L. clear. 
  rewrite <- (map_map (fun k => nth k s 0%nat) f). f_equal. induction s as [|i s IH]; [reflexivity|]. cbn [length seq map]. f_equal. rewrite <- seq_shift, map_map. exact IH.
Qed.

(** ** The null space *)
Lemma row5 (ms : list rmatch) E : (forall m, In m ms -> epipolar E m) -> forall i, inner 9 (encode5 (N := RNum) ms i) (columns E) = 0.
Proof.
  intros H i. unfold inner, encode5. destruct (nth_error ms i) as [[a b]|] eqn:Hi.
  - rewrite kron_columns. exact (H _ (nth_error_In _ _ Hi)).
  - apply total_zero. intros. rnum. ring.
Qed.
Lemma threshold_value : eigen_threshold (N := RNum) = / 1000000000000. Proof. unfold eigen_threshold, lit. rnum. unfold Rdiv. ring. Qed.
Lemma nullspace_spec eigen (ms : list rmatch) d (basis : nat -> nat -> R) :
  eigen (gram 5 (encode5 (N := RNum) ms)) = Some d -> eigen_correct 9 (gram 5 (encode5 (N := RNum) ms)) d ->
  nullspace_basis (N := RNum) eigen ms = Some basis ->
  (forall j l, (j < 4)%nat -> (l < 4)%nat -> inner 9 (fun k => basis k j) (fun k => basis k l) = delta j l) /\
  (forall j, (j < 4)%nat -> inner 5 (apply 9 (encode5 (N := RNum) ms) (fun k => basis k j)) (apply 9 (encode5 (N := RNum) ms) (fun k => basis k j)) <= / 1000000000000) /\
  (forall x, (forall i, (i < 5)%nat -> inner 9 (encode5 (N := RNum) ms i) x = 0) ->
    let c j := inner 9 (fun k => basis k j) x in forall k, (k < 9)%nat -> x k = combine basis (c 0%nat) (c 1%nat) (c 2%nat) (c 3%nat) k).
Proof.
  intros He Hd. unfold nullspace_basis. rewrite He. destruct d as [values vectors]. set (s := sort_by_key (N := RNum) values (seq 0 9)).
  destruct (first_above (N := RNum) values eigen_threshold s) as [n|] eqn:Hf; [|discriminate].
  assert (n = 4%nat \/ n <> 4%nat) as [->|D] by lia; [|do 5 (destruct n as [|n]; try discriminate); contradiction].
  intros [= <-]. pose proof (sort_perm values (seq 0 9)) as Hp. fold s in Hp. pose proof (sort_sorted values (seq 0 9)) as Hsort. fold s in Hsort.
  assert (length s = 9%nat) as Hlen by (rewrite (Permutation_length Hp), seq_length; reflexivity).
  destruct (first_above_spec _ _ _ _ Hf) as (_ & Hlow & Hhigh). rewrite threshold_value in *.
  assert (forall k, (k < 9)%nat -> (nth k s 0 < 9)%nat) as Hs9. { intros k Hk. assert (In (nth k s 0%nat) (seq 0 9)) as Hin by (apply (Permutation_in _ Hp), nth_In; lia). apply in_seq in Hin. lia. }
  assert (forall j l, (j < 9)%nat -> (l < 9)%nat -> nth j s 0%nat = nth l s 0%nat -> j = l) as Hinj.
  { intros j l Hj Hl E. apply (proj1 (NoDup_nth s 0%nat)); [|lia..|exact E]. apply (Permutation_NoDup (Permutation_sym Hp)), seq_NoDup. }
  pose proof Hd as (H1 & H2 & H3). set (M := encode5 (N := RNum) ms) in *. split; [|split].
  - intros j l Hj Hl. rewrite H2 by (apply Hs9; lia). unfold delta. destruct (Nat.eqb_spec j l) as [->|Dj]; [rewrite Nat.eqb_refl; reflexivity|].
    destruct (Nat.eqb_spec (nth j s 0%nat) (nth l s 0%nat)) as [E|]; [|reflexivity]. elim Dj. apply Hinj; [lia..|exact E].
  - intros j Hj. set (i := nth j s 0%nat). assert (i < 9)%nat as Hi by (apply Hs9; lia). rewrite <- gram_quadratic.
    change (inner 9 (vectors i) (apply 9 (gram 5 M) (vectors i)) <= / 1000000000000).
    rewrite (inner_ext 9 _ (vectors i) _ (fun k => values i * vectors i k) (fun _ _ => eq_refl) (fun k Hk => H1 i k Hi Hk)), inner_scale_r, H2 by exact Hi. unfold delta. rewrite Nat.eqb_refl, Rmult_1_r. apply Hlow. exact Hj.
  - intros x Hx k Hk. rewrite (expansion 9 _ values vectors x Hd k Hk), (total_permuted 9 _ s Hp). etransitivity; [exact (total_app 4 5 _)|].
    rewrite (total_zero 5); [cbn [total]; unfold combine; rewrite Rplus_0_l, Rplus_0_r; reflexivity|]. intros j Hj. set (i := nth (4 + j) s 0%nat). assert (i < 9)%nat as Hi by (apply Hs9; lia).
    assert (/ 1000000000000 < values i) as Hv by (apply (sorted_above values s Hsort 4); [exact Hhigh|lia]). assert (0 < / 1000000000000) as Hpos by (apply Rinv_0_lt_compat; lra).
    assert (values i * inner 9 (vectors i) x = 0) as Z.
    { rewrite <- inner_scale_l. rewrite <- (inner_ext 9 _ _ x x (fun k Hk => H1 i k Hi Hk) (fun _ _ => eq_refl)). rewrite <- apply_symmetric by apply gram_symmetric.
      apply total_zero. intros l Hl. rewrite (gram_kernel 9 5 M x Hx l Hl). ring. }
    apply Rmult_integral in Z as [Z|Z]; [lra|]. rewrite Z. ring.
Qed.
Lemma orthonormal_independent (basis : nat -> nat -> R) : (forall j l, (j < 4)%nat -> (l < 4)%nat -> inner 9 (fun k => basis k j) (fun k => basis k l) = delta j l) -> independent basis.
Proof.
  intros H a b c d Z.
  assert (forall j, (j < 4)%nat -> a * delta 0 j + b * delta 1 j + c * delta 2 j + d * delta 3 j = 0) as Q.
  { intros j Hj. rewrite <- !H by lia. rewrite <- !inner_scale_l. unfold inner. rewrite <- !total_plus. apply total_zero. intros k Hk. specialize (Z k Hk). unfold combine in Z. 
    replace (_ + _) with ((a * basis k 0%nat + b * basis k 1%nat + c * basis k 2%nat + d * basis k 3%nat) * basis k j) by ring. rewrite Z. ring. }
  pose proof (Q 0%nat ltac:(lia)). pose proof (Q 1%nat ltac:(lia)). pose proof (Q 2%nat ltac:(lia)). pose proof (Q 3%nat ltac:(lia)). cbn in *. lra.
Qed.

(** ** Essential matrices are solutions *)
Lemma essential_mtrans (E : rmat3) : essential E -> essential (mtrans E).
Proof.
  intros [H1 H2]. split; [rewrite <- H1; destruct E as [[? ? ?] [? ? ?] [? ? ?]]; lin|].
  transitivity (mtrans (mscale 2 (mmul (mmul E (mtrans E)) E))); [destruct E as [[? ? ?] [? ? ?] [? ? ?]]; clear; lin|]. rewrite H2. destruct E as [[? ? ?] [? ? ?] [? ? ?]]; clear; lin.
Qed.
Lemma essential_mscale c (E : rmat3) : essential E -> essential (mscale c E).
Proof.
  intros [H1 H2]. split; [transitivity (c * c * c * det E); [destruct E as [[? ? ?] [? ? ?] [? ? ?]]; clear; lin|rewrite H1; rnum; ring]|].
  transitivity (mscale (c * c * c) (mscale 2 (mmul (mmul E (mtrans E)) E))); [destruct E as [[? ? ?] [? ? ?] [? ? ?]]; clear; lin|]. rewrite H2. destruct E as [[? ? ?] [? ? ?] [? ? ?]]; clear; lin.
Qed.
Lemma essential_vanishes (E : rmat3) : essential E <-> Forall (fun r => r = 0) (essential_constraints E).
Proof.
  unfold essential_constraints. rewrite Forall_cons_iff. unfold essential. 
  assert (mscale 2 (mmul (mmul E (mtrans E)) E) = mscale (trace (mmul E (mtrans E))) E <->
    Forall (fun r => r = 0) (entries (msub (mmul (mmul E (mtrans E)) E) (mscale (trace (mmul E (mtrans E)) / 2) E)))) as <-; [|reflexivity].
  generalize (mmul (mmul E (mtrans E)) E), (trace (mmul E (mtrans E))). intros P t. destruct E as [[e1 e2 e3] [e4 e5 e6] [e7 e8 e9]], P as [[p1 p2 p3] [p4 p5 p6] [p7 p8 p9]].
  unfold entries, msub, mscale, vscale, vsub. cbn [row1 row2 row3 vx vy vz]. rnum. split.
  - intros [= H1 H2 H3 H4 H5 H6 H7 H8 H9]. repeat constructor; lra.
  - intros H. repeat match goal with H : Forall _ (_ :: _) |- _ => apply Forall_cons_iff in H as [? H] end. apply (f_equal3 M3); apply (f_equal3 V3); lra.
Qed.
Lemma by_rows_columns (v : nat -> R) : by_rows v = mtrans (of_columns (N := RNum) v). Proof. reflexivity. Qed.
Lemma solution_essential basis x y z : solution basis x y z <-> essential (of_columns (N := RNum) (combine basis x y z 1)).
Proof.
  rewrite solution_iff, <- essential_vanishes, by_rows_columns. split; [|apply essential_mtrans].
  intros H. apply essential_mtrans in H. destruct (of_columns _) as [[? ? ?] [? ? ?] [? ? ?]]. exact H.
Qed.

(** ** The whole algorithm on exact data *)
Lemma mscale_back (s : R) (A B : rmat3) : s <> 0 -> A = mscale s B -> mscale (/ s) A = B.
Proof.
  intros Hs ->. destruct B as [[a b c] [d e f] [g h i]]. unfold mscale, vscale. cbn [row1 row2 row3 vx vy vz]. apply (f_equal3 M3); apply (f_equal3 V3); rnum; field; exact Hs.
Qed.
Lemma five_point_exact eigen eigenvalues null solve (ms : list rmatch) (E : rmat3) d (basis m : nat -> nat -> R) :
  essential E -> (forall q, In q ms -> epipolar E q) ->
  eigen (gram 5 (encode5 (N := RNum) ms)) = Some d -> eigen_correct 9 (gram 5 (encode5 (N := RNum) ms)) d ->
  nullspace_basis (N := RNum) eigen ms = Some basis ->
  let c j := inner 9 (fun k => basis k j) (columns E) in
  let x := c 0%nat / c 3%nat in let y := c 1%nat / c 3%nat in let z := c 2%nat / c 3%nat in
  c 3%nat <> 0 ->
  solve (constraint_matrix (N := RNum) basis) (fun i j => constraint_matrix (N := RNum) basis i (10 + j)%nat) = Some m ->
  lu_correct (constraint_matrix (N := RNum) basis) (fun i j => constraint_matrix (N := RNum) basis i (10 + j)%nat) m ->
  eigenvalues_correct (action_matrix (N := RNum) m) (eigenvalues (action_matrix (N := RNum) m)) ->
  (forall B, null B <> None /\ forall d, null B = Some d -> null_correct B d) ->
  (forall v, (forall i, (i < 10)%nat -> apply 10 (action_matrix (N := RNum) m) v i = - x * v i) -> exists c, forall i, (i < 10)%nat -> v i = c * lower x y z i) ->
  E = mscale (c 3%nat) (of_columns (N := RNum) (combine basis x y z 1)) /\
  exists k, k <> 0 /\ In (of_columns (N := RNum) (fun r => k * misread basis x y z r)) (five_points_relative_pose (N := RNum) eigen eigenvalues null solve ms) /\
    ((exists s, s <> 0 /\ of_columns (N := RNum) (fun r => k * misread basis x y z r) = mscale s E) <-> (x = 1 /\ y = 1 /\ z = 1) \/ (x = -1 /\ y = 1 /\ z = -1)).
Proof.
  intros HE Hq He Hd Hb c x y z Hc3 Hsol Hm Hev Hn Hsimple. destruct (nullspace_spec eigen ms d basis He Hd Hb) as (Ho & _ & Hspan).
  assert (forall k, (k < 9)%nat -> columns E k = combine basis (c 0%nat) (c 1%nat) (c 2%nat) (c 3%nat) k) as HE2 by exact (Hspan (columns E) (fun i _ => row5 ms E Hq i)).
  assert (E = mscale (c 3%nat) (of_columns (N := RNum) (combine basis x y z 1))) as Ee.
  { rewrite <- (of_columns_columns E) at 1. rewrite (of_columns_ext _ _ HE2). unfold x, y, z. revert Hc3. generalize (c 0%nat) (c 1%nat) (c 2%nat) (c 3%nat). clear. intros c0 c1 c2 c3 Hc3.
    unfold of_columns, mscale, vscale, combine. cbn [row1 row2 row3 vx vy vz]. apply (f_equal3 M3); apply (f_equal3 V3); rnum; field; exact Hc3. }
  split; [exact Ee|].
  assert (essential (of_columns (N := RNum) (combine basis x y z 1))) as HE3.
  { rewrite <- (mscale_back _ _ _ Hc3 Ee).
    apply essential_mscale, HE. }
  apply solution_essential in HE3. destruct (candidate_found eigenvalues null solve basis m x y z HE3 Hsol Hm Hev Hn Hsimple) as (k & Hk & Hin).
  exists k. split; [exact Hk|]. split; [unfold five_points_relative_pose; rewrite Hb; exact Hin|].
  rewrite <- (misread_right basis x y z (orthonormal_independent basis Ho)).
  assert (of_columns (N := RNum) (fun r => k * misread basis x y z r) = mscale k (of_columns (N := RNum) (misread basis x y z))) as Em.
  { unfold of_columns, mscale, vscale. cbn [row1 row2 row3 vx vy vz]. f_equal; f_equal; rnum; ring. }
  rewrite Em, Ee. generalize (of_columns (N := RNum) (misread basis x y z)), (of_columns (N := RNum) (combine basis x y z 1)). intros [[p1 p2 p3] [p4 p5 p6] [p7 p8 p9]] [[q1 q2 q3] [q4 q5 q6] [q7 q8 q9]].
  unfold mscale, vscale. cbn [row1 row2 row3 vx vy vz]. rnum. split.
  - intros (s & Hs & [= H1 H2 H3 H4 H5 H6 H7 H8 H9]). exists (s * c 3%nat / k). split; [apply Rmult_integral_contrapositive_currified; [apply Rmult_integral_contrapositive_currified; assumption|apply Rinv_neq_0_compat, Hk]|].
    apply (f_equal3 M3); apply (f_equal3 V3); apply (Rmult_eq_reg_r k); try exact Hk; field_simplify; try exact Hk; lra.
  - intros (s & Hs & [= H1 H2 H3 H4 H5 H6 H7 H8 H9]). exists (k * s / c 3%nat). split; [apply Rmult_integral_contrapositive_currified; [apply Rmult_integral_contrapositive_currified; assumption|apply Rinv_neq_0_compat, Hc3]|].
    rewrite H1, H2, H3, H4, H5, H6, H7, H8, H9. apply (f_equal3 M3); apply (f_equal3 V3); rnum_eq; field; exact Hc3.
Qed.

(** ** The number of poses *)
Lemma flat_map_le {A B} (f : A -> list B) n l : (forall a, (length (f a) <= n)%nat) -> (length (flat_map f l) <= n * length l)%nat.
Proof. intros H. induction l as [|a l IH]; cbn [flat_map length]; [lia|]. rewrite app_length. specialize (H a). lia. Qed.
Lemma five_points_at_most_ten {N : Num} eigen eigenvalues null solve (ms : list (bearings N)) : (length (five_points_relative_pose eigen eigenvalues null solve ms) <= 10)%nat.
Proof.
  assert (forall A B, length (from_action eigenvalues null A B) <= 10)%nat as H.
  { intros A B. unfold from_action. etransitivity; [apply (flat_map_le _ 1)|cbn; lia]. intros i. destruct (eigenvalues A i) as [re im]. destruct (_ : bool); [|cbn; lia]. destruct (compute_eigenvector _ _ _); cbn; lia. }
  unfold five_points_relative_pose, five_points_from_basis. destruct (nullspace_basis eigen ms); [|apply H]. destruct (solve _ _); apply H.
Qed.
Lemma possible_at_most_four {N : Num} try_svd (e : mat3 N) : (length (match possible_unscaled_poses try_svd e with Some l => l | None => [] end) <= 4)%nat.
Proof. unfold possible_unscaled_poses. destruct (possible_rotations_unscaled_translation _ _) as [[[? ?] ?]|]; cbn; lia. Qed.
Lemma five_point_total {N : Num} eigen eigenvalues null solve try_svd (ms : list (bearings N)) : (5 <= length ms)%nat ->
  exists l, five_point_estimate eigen eigenvalues null solve try_svd ms = Ok l /\ (length l <= 40)%nat.
Proof.
  intros H. unfold five_point_estimate. rewrite firstn_length, Nat.min_l by exact H. cbn [Nat.eqb].
  set (l := flat_map _ _). assert (length l <= 40)%nat as L.
  { unfold l. etransitivity; [apply (flat_map_le _ 4); intros; apply possible_at_most_four|]. pose proof (five_points_at_most_ten eigen eigenvalues null solve (firstn 5 ms)). lia. }
  exists l. apply Nat.leb_le in L as L2. rewrite L2. auto.
Qed.
Lemma five_point_too_few {N : Num} eigen eigenvalues null solve try_svd (ms : list (bearings N)) : (length ms < 5)%nat ->
  five_point_estimate eigen eigenvalues null solve try_svd ms = Panic.
Proof. intros H. unfold five_point_estimate. rewrite firstn_length, Nat.min_r by lia. destruct (Nat.eqb_spec (length ms) 5); [lia|reflexivity]. Qed.

(** The fallback of a failed null space: the "essential matrices" of a zero action matrix. *)
Lemma failed_nullspace eigen eigenvalues null solve try_svd (ms : list rmatch) s v u sv vt :
  (5 <= length ms)%nat -> (forall A, eigen A = None) -> (forall i, (i < 10)%nat -> eigenvalues (zero_matrix (N := RNum)) i = (0, 0)) ->
  (forall B, null B = Some (s, v)) -> s < / 1000000000000 -> try_svd mzero = Some (u, sv, vt) ->
  exists l, five_point_estimate (N := RNum) eigen eigenvalues null solve try_svd ms = Ok l /\ length l = 40%nat.
Proof.
  intros Hms He Hev Hn Hs Hsvd. destruct (five_point_total eigen eigenvalues null solve try_svd ms Hms) as (l & El & _). exists l. split; [exact El|].
  unfold five_point_estimate in El. destruct (_ =? 5)%nat; [|discriminate]. destruct (_ <=? 40)%nat; [|discriminate]. injection El as <-.
  unfold five_points_relative_pose, nullspace_basis. rewrite He. unfold from_action.
  assert (forall lambda, compute_eigenvector (N := RNum) null zero_matrix lambda = Some v) as Hv.
  { intros lambda. unfold compute_eigenvector. rewrite Hn. change (svd_null_threshold (N := RNum)) with (eigen_threshold (N := RNum)). rewrite threshold_value. cbn [ltb RNum]. unfold Rltb. destruct (Rlt_dec _ _); [reflexivity|contradiction]. }
  assert (forall r, sum (N := RNum) 4 (fun j => mul (zero_matrix (N := RNum) r j) (v (5 + j)%nat)) = 0) as Hz.
  { intros r. rewrite sum_total. apply total_zero. intros. unfold zero_matrix. rnum. ring. }
  cbn [seq flat_map]. rewrite !Hev by lia. cbn [eqb RNum zero]. unfold Reqb. destruct (Req_EM_T 0 0); [|contradiction]. rewrite !Hv. cbn [app flat_map].
  unfold of_columns. rewrite !Hz. change (M3 (V3 0 0 0) (V3 0 0 0) (V3 0 0 0)) with (mzero (N := RNum)). unfold possible_unscaled_poses, possible_rotations_unscaled_translation. 
  rewrite Hsvd. reflexivity.
Qed.
