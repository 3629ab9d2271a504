(** Lemmas about the five-point algorithm. *)
From Coq Require Import Reals List Arith Lia Lra Psatz Permutation Sorted.
From Verif Require Import Num Outcome Lin LinSpec LinFacts Pinhole PinholeSpec PinholeFacts EssentialFacts Estimate EstimateSpec EstimateFacts.
Import ListNotations.
Open Scope R_scope.

(** ** Polynomials *)
Lemma coeff_map (f : nat -> R) i : (i < 20)%nat -> coeff (N := RNum) (map f (seq 0 20)) i = f i.
Proof. intros Hi. unfold coeff. erewrite nth_indep by (rewrite map_length, seq_length; exact Hi). rewrite map_nth, seq_nth by exact Hi. reflexivity. Unshelve. exact O. Qed.
Lemma peval_combine (f : R -> R -> R) (g : nat -> R) p q x y z :
  (forall u v w, f u v * w = f (u * w) (v * w)) -> (forall h k n, total n (fun i => f (h i) (k i)) = f (total n h) (total n k)) ->
  (forall i, (i < 20)%nat -> g i = f (coeff p i) (coeff q i)) -> peval (map g (seq 0 20)) x y z = f (peval p x y z) (peval q x y z).
Proof.
  intros H1 H2 H3. unfold peval. rewrite <- H2. apply total_ext. intros i Hi. rewrite coeff_map, H3, H1 by exact Hi. reflexivity.
Qed.
Lemma peval_add p q x y z : peval (padd (N := RNum) p q) x y z = peval p x y z + peval q x y z.
Proof. apply (peval_combine Rplus); [intros; ring|intros; apply total_plus|reflexivity]. Qed.
Lemma peval_sub p q x y z : peval (psub (N := RNum) p q) x y z = peval p x y z - peval q x y z.
Proof.
  apply (peval_combine Rminus); [intros; ring| |reflexivity]. intros h k n. unfold Rminus. rewrite total_plus. f_equal.
  rewrite <- (Rmult_1_l (total n k)), <- Ropp_mult_distr_l_reverse, <- total_scale. apply total_ext. intros. ring.
Qed.
Lemma peval_scale (s : R) p x y z : peval (pscale (N := RNum) s p) x y z = s * peval p x y z.
Proof. unfold peval, pscale. rewrite <- total_scale. apply total_ext. intros i Hi. rewrite coeff_map by exact Hi. rnum. ring. Qed.
Lemma quadratic_add p q : quadratic p -> quadratic q -> quadratic (padd (N := RNum) p q).
Proof. intros Hp Hq i Hi. unfold padd. rewrite coeff_map, Hp, Hq by lia. rnum. ring. Qed.
Lemma quadratic_sub p q : quadratic p -> quadratic q -> quadratic (psub (N := RNum) p q).
Proof. intros Hp Hq i Hi. unfold psub. rewrite coeff_map, Hp, Hq by lia. rnum. ring. Qed.
Lemma quadratic_scale (s : R) p : quadratic p -> quadratic (pscale (N := RNum) s p).
Proof. intros Hp i Hi. unfold pscale. rewrite coeff_map, Hp by lia. rnum. ring. Qed.
Lemma quadratic_o1 a b : quadratic (o1 (N := RNum) a b).
Proof. intros i Hi. do 10 (destruct i as [|i]; [reflexivity|]). lia. Qed.
Lemma peval_o1 a b x y z : peval (o1 (N := RNum) a b) x y z = leval a x y z * leval b x y z.
Proof. unfold peval, leval. destruct a as [a1 a2 a3 a4], b as [b1 b2 b3 b4]. cbn [total coeff o1 nth monomials cubic_monomials lower_monomials app hx hy hz hw]. rnum. ring. Qed.
Lemma peval_o2 p b x y z : quadratic p -> peval (o2 (N := RNum) p b) x y z = peval p x y z * leval b x y z.
Proof.
  intros H. unfold peval. cbn [total]. rewrite !(H _) by lia. unfold leval. destruct b as [bx by_ bz bw].
  unfold o2. cbv zeta. unfold coeff. cbn [nth monomials cubic_monomials lower_monomials app hx hy hz hw].
  unfold b_xx, b_xy, b_yy, b_xz, b_yz, b_zz, b_x, b_y, b_z, b_1. rnum. ring.
Qed.
Definition entry (e : nat -> nat -> rvec4) x y z i j : R := leval (e i j) x y z.
Lemma eet_quadratic e i j : quadratic (eet (N := RNum) e i j).
Proof. unfold eet, eet_upper. destruct (i <=? j)%nat; repeat apply quadratic_add; apply quadratic_o1. Qed.
Lemma eet_less_quadratic e i j : quadratic (eet_less (N := RNum) e i j).
Proof. unfold eet_less, half_trace. destruct (i =? j)%nat; [|apply eet_quadratic]. apply quadratic_sub; [apply eet_quadratic|]. apply quadratic_scale, quadratic_add; [apply quadratic_add|]; apply eet_quadratic. Qed.
Lemma eet_value e i j x y z : let E := entry e x y z in
  peval (eet (N := RNum) e i j) x y z = E i 0%nat * E j 0%nat + E i 1%nat * E j 1%nat + E i 2%nat * E j 2%nat.
Proof. cbv zeta. unfold eet, eet_upper, entry. destruct (i <=? j)%nat; rewrite !peval_add, !peval_o1; ring. Qed.
Lemma det_value e x y z : let E := entry e x y z in
  peval (det_row (N := RNum) e) x y z = (E 0%nat 1%nat * E 1%nat 2%nat - E 0%nat 2%nat * E 1%nat 1%nat) * E 2%nat 0%nat + (E 0%nat 2%nat * E 1%nat 0%nat - E 0%nat 0%nat * E 1%nat 2%nat) * E 2%nat 1%nat + (E 0%nat 0%nat * E 1%nat 1%nat - E 0%nat 1%nat * E 1%nat 0%nat) * E 2%nat 2%nat.
Proof. cbv zeta. unfold det_row, entry. rewrite !peval_add, !peval_o2 by (apply quadratic_sub; apply quadratic_o1). rewrite !peval_sub, !peval_o1. reflexivity. Qed.
Lemma cubic_value e i j x y z : let E := entry e x y z in
  let P i k := E i 0%nat * E k 0%nat + E i 1%nat * E k 1%nat + E i 2%nat * E k 2%nat in
  let t := (P 0%nat 0%nat + P 1%nat 1%nat + P 2%nat 2%nat) / 2 in
  let L i k := if (i =? k)%nat then P i k - t else P i k in
  peval (cubic_row (N := RNum) e i j) x y z = L i 0%nat * E 0%nat j + L i 1%nat * E 1%nat j + L i 2%nat * E 2%nat j.
Proof.
  cbv zeta. unfold cubic_row. rewrite !peval_add, !peval_o2 by apply eet_less_quadratic.
  assert (forall k, peval (eet_less (N := RNum) e i k) x y z = if (i =? k)%nat then peval (eet (N := RNum) e i k) x y z - peval (half_trace (N := RNum) e) x y z else peval (eet (N := RNum) e i k) x y z) as H.
  { intros k. unfold eet_less. destruct (i =? k)%nat; [apply peval_sub|reflexivity]. }
  rewrite !H. unfold half_trace. rewrite peval_scale, !peval_add, !eet_value. fold (entry e x y z 0%nat j) (entry e x y z 1%nat j) (entry e x y z 2%nat j).
  replace (half (N := RNum)) with (/ 2) by (unfold half, lit; rnum; lra). unfold Rdiv. rewrite (Rmult_comm (/ 2)). reflexivity.
Qed.
Lemma constraints_spec (basis : nat -> nat -> R) x y z :
  map (fun p => peval p x y z) (constraints (N := RNum) basis) = essential_constraints (by_rows (combine basis x y z 1)).
Proof.
  assert (forall i j, entry (e_poly (N := RNum) basis) x y z i j = combine basis x y z 1 (3 * i + j)%nat) as L.
  { intros i j. unfold entry, leval, combine, e_poly. cbn [hx hy hz hw]. ring. }
  unfold constraints. cbv zeta. cbn [map]. rewrite det_value, !cubic_value. rewrite !L. cbn [Nat.mul Nat.add Nat.eqb].
  generalize (combine basis x y z 1). clear. intros e. unfold essential_constraints, entries, by_rows.
  generalize (e 0%nat), (e 1%nat), (e 2%nat), (e 3%nat), (e 4%nat), (e 5%nat), (e 6%nat), (e 7%nat), (e 8%nat). clear. intros.
  repeat match goal with |- _ :: _ = _ :: _ => apply (f_equal2 cons) end; try reflexivity; lin_unfold; rnum_eq; field.
Qed.
