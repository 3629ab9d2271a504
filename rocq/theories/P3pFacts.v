(** Facts about the perspective-three-point solver (P3p.v). *)
From Coq Require Import Reals List Lia Lra Psatz Arith.
From Verif Require Import Num Outcome Lin LinSpec LinFacts Core P3p P3pSpec.
Import ListNotations.
Open Scope R_scope.

Lemma Rltb_true x y : Rltb x y = true <-> x < y.
Proof. unfold Rltb. destruct (Rlt_dec x y); split; intros; auto; discriminate || contradiction. Qed.
Lemma Rltb_false x y : Rltb x y = false <-> y <= x.
Proof. unfold Rltb. destruct (Rlt_dec x y); split; intros; auto; try discriminate; lra. Qed.
Lemma Rleb_true x y : Rleb x y = true <-> x <= y.
Proof. unfold Rleb. destruct (Rle_dec x y); split; intros; auto; discriminate || contradiction. Qed.

(** ** Quadratics *)
Lemma root2real_roots (b c : R) : 0 <= b * b - 4 * c -> b < 0 \/ c <> 0 ->
  exists r1 r2, root2real (N := RNum) b c = (true, r1, r2) /\ forall x, x * x + b * x + c = (x - r1) * (x - r2).
Proof.
  intros HD HC. unfold root2real, four, two, half, lit. rnum.
  destruct (Rltb (b * b - 4 * c) 0) eqn:E1; [apply Rltb_true in E1; lra|].
  set (y := sqrt (b * b - 4 * c)). assert (Hy : y * y = b * b - 4 * c) by (apply sqrt_def; exact HD).
  assert (Hp : 0 <= y) by apply sqrt_pos. clearbody y.
  destruct (Rltb b 0) eqn:E2.
  - eexists _, _. split; [reflexivity|]. intros x. nra.
  - apply Rltb_false in E2. assert (Hc : c <> 0) by (destruct HC; [lra|assumption]).
    assert (H1 : - b + y <> 0) by (intro Q; assert (Q' : y = b) by lra; rewrite Q' in Hy; lra).
    assert (H2 : - b - y <> 0) by (intro Q; assert (Q1 : y = 0) by lra; assert (Q2 : b = 0) by lra; rewrite Q1, Q2 in Hy; lra).
    eexists _, _. split; [reflexivity|]. intros x.
    assert (HH : (- b + y) * (- b - y) = 4 * c) by (ring_simplify; nra).
    assert (A : 2 * c / (- b + y) = (- b - y) / 2).
    { apply Rmult_eq_reg_r with (- b + y); [|assumption]. replace ((- b - y) / 2 * (- b + y)) with (((- b + y) * (- b - y)) / 2) by field. rewrite HH. field. lra. }
    assert (B : 2 * c / (- b - y) = (- b + y) / 2).
    { apply Rmult_eq_reg_r with (- b - y); [|assumption]. replace ((- b + y) / 2 * (- b - y)) with (((- b + y) * (- b - y)) / 2) by field. rewrite HH. field. lra. }
    rewrite A, B. nra.
Qed.
Lemma root2real_complex (b c : R) : b * b - 4 * c < 0 ->
  fst (fst (root2real (N := RNum) b c)) = false /\ forall x, x * x + b * x + c <> 0.
Proof.
  intros HD. unfold root2real, four, two, half, lit. rnum. apply Rltb_true in HD as E. rewrite E. split; [reflexivity|]. intros x Hx. pose proof (Rle_0_sqr (2 * x + b)). unfold Rsqr in *. lra.
Qed.

(** ** Refinement of the depths *)
Section refinement.
Variables a12 a13 a23 b12 b13 b23 : R.
Notation res := (residual (N := RNum) a12 a13 a23 b12 b13 b23).
Notation step := (refine_step (N := RNum) a12 a13 a23 b12 b13 b23).
Notation refine := (refine (N := RNum) a12 a13 a23 b12 b13 b23).

Lemma residual_law (l : rvec3) : res l = law_residual a12 a13 a23 b12 b13 b23 l.
Proof. destruct l as [x y z]. unfold residual, law_residual. cbn [vx vy vz]. apply (f_equal3 V3); rnum; ring. Qed.
Lemma l1_norm_manhattan (v : rvec3) : l1_norm v = manhattan v.
Proof. reflexivity. Qed.
Lemma refine_step_newton (l : rvec3) : det (law_jacobian b12 b13 b23 l) <> 0 -> newton_step a12 a13 a23 b12 b13 b23 l (step l).
Proof.
  intros H. unfold newton_step. rewrite <- residual_law. unfold refine_step. generalize (res l) as r. intros [r1 r2 r3].
  destruct l as [x y z]. revert H. unfold law_jacobian, two, det, dot, cross, mvec, dot, vsub, vscale, vneg. cbn [vx vy vz row1 row2 row3]. unfold dot. cbn [vx vy vz]. rnum.
  intros H.
  assert (D : - (2 * x + b12 * y) * (2 * z + b13 * x) * (2 * y + b23 * z) - (2 * y + b12 * x) * (2 * x + b13 * z) * (2 * z + b23 * y) <> 0) by (intro Q; apply H; etransitivity; [|exact Q]; rnum; ring).
  apply (f_equal3 V3); rnum; field; exact D.
Qed.
Lemma refine_zero n (l : rvec3) : law_residual a12 a13 a23 b12 b13 b23 l = vzero -> refine n l = l.
Proof.
  intros H. destruct n; [reflexivity|]. cbn [P3p.refine].
  replace (ltb (l1_norm (res l)) (lit 1 10000000000)) with true; [reflexivity|].
  symmetry. rewrite residual_law, H. cbn [ltb RNum]. apply Rltb_true. unfold l1_norm, vzero, lit. cbn [vx vy vz]. rnum. rewrite Rabs_R0. lra.
Qed.
Lemma refine_descends n : forall l : rvec3, exists k, (k <= n)%nat /\ descends a12 a13 a23 b12 b13 b23 k l (refine n l) /\
  (k = n \/ manhattan (law_residual a12 a13 a23 b12 b13 b23 (refine n l)) < / 10000000000 \/
   exists l', (det (law_jacobian b12 b13 b23 (refine n l)) <> 0 -> newton_step a12 a13 a23 b12 b13 b23 (refine n l) l') /\
     manhattan (law_residual a12 a13 a23 b12 b13 b23 (refine n l)) < manhattan (law_residual a12 a13 a23 b12 b13 b23 l')).
Proof.
  induction n as [|n IH]; intros l.
  - exists 0%nat. split; [lia|]. split; [constructor|left; reflexivity].
  - cbn [P3p.refine]. cbn [ltb RNum]. rewrite !residual_law. change (@l1_norm RNum) with manhattan.
    match goal with |- context [if ?x then l else (if ?y then l else _)] => destruct x eqn:E1; [|destruct y eqn:E2] end.
    + apply Rltb_true in E1. exists 0%nat. split; [lia|]. split; [constructor|]. right; left. unfold lit in E1. rnum. lra.
    + apply Rltb_true in E2. exists 0%nat. split; [lia|]. split; [constructor|]. right; right. exists (step l). split; [apply refine_step_newton|exact E2].
    + apply Rltb_false in E2. destruct (IH (step l)) as (k & Hk & HD & HS). exists (S k). split; [lia|]. split.
      * econstructor; [apply refine_step_newton|exact E2|exact HD].
      * destruct HS as [->|HS]; [left; reflexivity|right; exact HS].
Qed.
Lemma descends_le n (l l' : rvec3) : descends a12 a13 a23 b12 b13 b23 n l l' ->
  manhattan (law_residual a12 a13 a23 b12 b13 b23 l') <= manhattan (law_residual a12 a13 a23 b12 b13 b23 l).
Proof. induction 1; [right; reflexivity|]. eapply Rle_trans; eassumption. Qed.
Lemma refine_never_worse n (l : rvec3) :
  manhattan (law_residual a12 a13 a23 b12 b13 b23 (refine n l)) <= manhattan (law_residual a12 a13 a23 b12 b13 b23 l).
Proof. destruct (refine_descends n l) as (k & _ & H & _). eapply descends_le, H. Qed.
End refinement.

(** The residuals vanish exactly for congruent triangles. *)
Lemma sqrt_eq x y : 0 <= x -> 0 <= y -> (sqrt x = sqrt y <-> x = y).
Proof. intros; split; [apply sqrt_inj; assumption|intros ->; reflexivity]. Qed.
Lemma distance_law (u v a b : rvec3) : distance u v = distance a b <-> norm2 (vsub u v) = norm2 (vsub a b).
Proof. unfold distance, norm. rnum. apply sqrt_eq; apply norm2_nonneg. Qed.
Lemma scaled_distance (a b : R) (u v : rvec3) : norm2 u = 1 -> norm2 v = 1 ->
  norm2 (vsub (vscale a u) (vscale b v)) = a * a + b * b + (-2 * dot u v) * (a * b).
Proof. intros H1 H2. rewrite norm2_sub, !norm2_scale, H1, H2, dot_scale_l, dot_scale_r. rnum. ring. Qed.
Lemma law_congruent (w1 w2 w3 y1 y2 y3 l : rvec3) : unit_vec y1 -> unit_vec y2 -> unit_vec y3 ->
  (law_residual (norm2 (vsub w1 w2)) (norm2 (vsub w1 w3)) (norm2 (vsub w2 w3)) (-2 * dot y1 y2) (-2 * dot y3 y1) (-2 * dot y2 y3) l = vzero <->
   congruent w1 w2 w3 y1 y2 y3 l).
Proof.
  unfold unit_vec. intros H1 H2 H3. unfold congruent. rewrite !distance_law.
  rewrite (scaled_distance _ _ y1 y2 H1 H2), (scaled_distance _ _ y1 y3 H1 H3), (scaled_distance _ _ y2 y3 H2 H3), (dot_comm y3 y1).
  unfold law_residual, vzero. generalize (norm2 (vsub w1 w2)) (norm2 (vsub w1 w3)) (norm2 (vsub w2 w3)) (dot y1 y2) (dot y1 y3) (dot y2 y3). rnum. intros.
  split.
  - intros H. injection H as A B C. repeat split; lra.
  - intros (A & B & C). apply (f_equal3 V3); rnum; lra.
Qed.
