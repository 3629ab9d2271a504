(** The logarithm of a rotation, and poses as six numbers (C29, C30). *)
From Coq Require Import Reals List Lra.
From Verif Require Import Num Lin LinSpec LinFacts Core CoreSpec CoreFacts So3Facts.
Open Scope R_scope.

Definition skew_axis (A : rmat3) : rvec3 := V3 (vy (row3 A) - vz (row2 A)) (vz (row1 A) - vx (row3 A)) (vx (row2 A) - vy (row1 A)).

(** Cayley and Hamilton. *)
Lemma square_adjugate (A : rmat3) : mmul A A = madd (msub (mscale (trace A) A) (mscale (trace (adjugate A)) mid)) (adjugate A).
Proof. unfold adjugate. lin. Qed.
Lemma cross_matrix_axis (A : rmat3) : cross_matrix (skew_axis A) = msub A (mtrans A). Proof. unfold skew_axis. lin. Qed.
Lemma trace_mtrans (A : rmat3) : trace (mtrans A) = trace A. Proof. lin. Qed.
Lemma rotation_square (A : rmat3) : rotation A -> mmul A A = madd (msub (mscale (trace A) A) (mscale (trace A) mid)) (mtrans A).
Proof. intros H. rewrite square_adjugate, (rotation_adjugate A H), trace_mtrans. reflexivity. Qed.
Lemma axis_square (A : rmat3) : rotation A ->
  mmul (cross_matrix (skew_axis A)) (cross_matrix (skew_axis A)) = mscale (trace A + 1) (msub (madd A (mtrans A)) (mscale 2 mid)).
Proof.
  intros H. rewrite cross_matrix_axis. pose proof (rotation_square A H) as E1. pose proof (rotation_square _ (rotation_mtrans A H)) as E2. rewrite trace_mtrans, mtrans_mtrans in E2.
  assert (mmul (mtrans A) A = mid) as E3 by apply H. assert (mmul A (mtrans A) = mid) as E4 by (rewrite <- (rotation_adjugate A H), mmul_adjugate; destruct H as [_ ->]; apply mscale_one).
  transitivity (madd (msub (msub (mmul A A) (mmul A (mtrans A))) (mmul (mtrans A) A)) (mmul (mtrans A) (mtrans A))); [generalize A (mtrans A); lin|].
  rewrite E1, E2, E3, E4. generalize (trace A). intros t. generalize A (mtrans A). lin.
Qed.
Lemma axis_norm (A : rmat3) : rotation A -> norm2 (skew_axis A) = (3 - trace A) * (1 + trace A).
Proof.
  intros H. pose proof (f_equal trace (axis_square A H)) as E. assert (trace (mmul (cross_matrix (skew_axis A)) (cross_matrix (skew_axis A))) = -2 * norm2 (skew_axis A)) as E1 by (generalize (skew_axis A); lin).
  assert (trace (mscale (trace A + 1) (msub (madd A (mtrans A)) (mscale 2 mid))) = (trace A + 1) * (2 * trace A - 6)) as E2 by (generalize (trace A + 1); lin). rnum_eq. lra.
Qed.

Section log.
Context (nearest : rmat3 -> rmat3) (eps : R).
Let T := real_trig nearest eps.

Lemma exp_log (A : rmat3) : 0 <= eps -> rotation A -> eps < norm2 (so3_log T A) -> so3_exp T (so3_log T A) = A.
Proof.
  intros He HA. set (a := skew_axis A). set (th := acos ((trace A - 1) / 2)).
  assert (so3_log T A = if Rltb eps (norm a) then vscale th (vdiv a (norm a)) else vzero) as -> by reflexivity.
  destruct (Rltb eps (norm a)) eqn:E.
  2: { replace (norm2 (vzero : rvec3)) with 0 by lin. intros H. lra. }
  apply Rltb_spec in E. intros Hw. assert (0 < norm a) as Hn by lra. pose proof (axis_norm A HA) as Ha. fold a in Ha. pose proof (norm_sq a) as Hs. rewrite Ha in Hs.
  assert (vdiv a (norm a) = vscale (/ norm a) a) as Ev by apply vdiv_scale.
  assert (unit_vec (vdiv a (norm a))) as Hu by (apply vdiv_norm_unit, Hn).
  assert (-1 <= (trace A - 1) / 2 <= 1) as Hr. { assert (0 < norm a * norm a) by (apply Rmult_lt_0_compat; exact Hn). rewrite Hs in H. split; nra. }
  assert (th = acos ((trace A - 1) / 2)) as Eth by reflexivity. pose proof (acos_bound ((trace A - 1) / 2)) as Hb. rewrite <- Eth in Hb. pose proof (cos_acos _ Hr) as Hc. rewrite <- Eth in Hc. clearbody th.
  assert (norm (vscale th (vdiv a (norm a))) = th) as Hth by (rewrite norm_scale, (norm_unit _ Hu), Rabs_pos_eq, Rmult_1_r by lra; reflexivity).
  assert (0 < th) as Hpos. { rewrite norm2_scale in Hw. unfold unit_vec in Hu. rewrite Hu in Hw. destruct (Req_dec th 0) as [->|]; lra. }
  destruct (exp_large nearest eps _ He Hw) as [Hx _]. fold T in Hx. rewrite Hx. rewrite <- rodrigues_axis by (rewrite Hth; exact Hpos). rewrite Hth.
  assert (vdiv (vscale th (vdiv a (norm a))) th = vdiv a (norm a)) as -> by (rewrite (vdiv_scale _ th), vscale_scale, Rinv_l, vscale_one by lra; reflexivity).
  rewrite axis_angle_rodrigues by exact Hu. rewrite Ev. assert (forall (c : R) (v : rvec3), cross_matrix (vscale c v) = mscale c (cross_matrix v)) as Ecs by lin. rewrite Ecs, Hc. clear Ecs.
  assert (norm a = 2 * sin th) as En.
  { pose proof (sin_ge_0 th ltac:(lra) ltac:(lra)) as Hsin. pose proof (sin2_cos2 th) as Hp. unfold Rsqr in Hp. rewrite Hc in Hp. apply Rsqr_inj; [lra|lra|]. unfold Rsqr. nra. }
  assert (forall c : R, mmul (mscale c (cross_matrix a)) (mscale c (cross_matrix a)) = mscale (c * c) (mmul (cross_matrix a) (cross_matrix a))) as Em by (intros; generalize (cross_matrix a); lin).
  pose proof (axis_square A HA) as Ea. pose proof (cross_matrix_axis A) as Ec. fold a in Ea, Ec. rewrite Em, Ea, Ec.
  assert (sin th * / norm a = 1 / 2) as E1 by (rewrite En; field; lra).
  assert ((1 - (trace A - 1) / 2) * (/ norm a * / norm a) * (trace A + 1) = 1 / 2) as E2. { transitivity ((3 - trace A) * (1 + trace A) / (norm a * norm a) / 2); [field; lra|]. assert (0 < norm a * norm a) as Hq by (apply Rmult_lt_0_compat; exact Hn). rewrite Hs in Hq |- *. unfold Rdiv. rewrite Rinv_r by lra. ring. }
  transitivity (madd (madd mid (mscale (sin th * / norm a) (msub A (mtrans A)))) (mscale ((1 - (trace A - 1) / 2) * (/ norm a * / norm a) * (trace A + 1)) (msub (madd A (mtrans A)) (mscale 2 mid)))).
  - clear. generalize (sin th) (/ norm a) (1 - (trace A - 1) / 2) (trace A + 1). intros. generalize (msub A (mtrans A)) (msub (madd A (mtrans A)) (mscale 2 mid)). lin.
  - rewrite E1, E2. clear. destruct A as [[a1 a2 a3] [a4 a5 a6] [a7 a8 a9]]. lin_unfold. lin_split; rnum; field.
Qed.

(** Six numbers and a pose. *)
Lemma six_numbers (x : se3 RNum) (v : rvec3) : 0 <= eps -> (forall A, rotation (nearest A)) ->
  rigid (pose_from_se3 T x) /\ iso_point (pose_from_se3 T x) v = vadd (mvec (so3_exp T (se_r x)) v) (se_t x).
Proof. intros He Hn. split; [apply (exp_rotation nearest eps); assumption|reflexivity]. Qed.
Lemma six_numbers_back (x : se3 RNum) : 0 <= eps -> eps < norm2 (se_r x) -> norm (se_r x) < PI -> eps < 2 * sin (norm (se_r x)) ->
  pose_se3 T (pose_from_se3 T x) = x.
Proof. intros H1 H2 H3 H4. unfold pose_se3, pose_from_se3. cbn [trans rot]. rewrite (log_exp nearest eps) by assumption. destruct x. reflexivity. Qed.
Lemma six_numbers_pose (p : riso) : 0 <= eps -> rigid p -> eps < norm2 (so3_log T (rot p)) -> pose_from_se3 T (pose_se3 T p) = p.
Proof. intros H1 H2 H3. unfold pose_se3, pose_from_se3. cbn [se_t se_r]. rewrite exp_log by assumption. destruct p. reflexivity. Qed.
End log.

(** A half turn has no axis to find: its logarithm is lost. *)
Lemma exp_log_half_turn (nearest : rmat3 -> rmat3) (eps : R) : 0 <= eps -> nearest mid = mid ->
  exists A : rmat3, rotation A /\ so3_log (real_trig nearest eps) A = vzero /\ so3_exp (real_trig nearest eps) (so3_log (real_trig nearest eps) A) <> A.
Proof.
  intros He Hn. exists (M3 (V3 (-1) 0 0) (V3 0 (-1) 0) (V3 0 0 1)). split; [split; lin|].
  match goal with |- ?l = vzero /\ _ => assert (l = vzero) as H end.
  { match goal with |- so3_log _ ?A = _ => assert (so3_log (real_trig nearest eps) A = if Rltb eps (norm (skew_axis A)) then vscale (acos ((trace A - 1) / 2)) (vdiv (skew_axis A) (norm (skew_axis A))) else vzero) as -> by reflexivity; assert (skew_axis A = vzero) as -> by (unfold skew_axis; lin) end.
    assert (norm (vzero : rvec3) = 0) as -> by (unfold norm; replace (norm2 (vzero : rvec3)) with 0 by lin; exact sqrt_0). assert (Rltb eps 0 = false) as -> by (apply Rltb_false; exact He). reflexivity. }
  split; [exact H|]. rewrite H. unfold so3_exp, rotation_small. cbn [real_trig t_eps t_nearest]. replace (norm2 (vzero : rvec3)) with 0 by lin.
  assert (leb (0 : carrier RNum) eps = true) as -> by (apply Rleb_spec; exact He). replace (madd mid (hat (vzero : rvec3))) with (mid : rmat3) by (unfold hat; lin). rewrite Hn. intros E. apply (f_equal (fun A : rmat3 => vx (row1 A))) in E. revert E. lin_unfold. rnum. lra.
Qed.
