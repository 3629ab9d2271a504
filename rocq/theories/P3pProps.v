(** Witnesses for the perspective-three-point solver. *)
From Coq Require Import Reals List Lia Lra Psatz Arith SpecFloat BinInt.
From Verif Require Import Num Outcome Lin LinSpec LinFacts Core P3p P3pSpec P3pFacts P3pSolve P3pDepths P3pPose P3pCubic.
Import ListNotations.
Open Scope R_scope.

(** Three world points, three bearings and the pose between them. *)
Definition p3p_pose : riso := Iso (M3 (V3 0 (-1) 0) (V3 1 0 0) (V3 0 0 1)) (V3 1 2 3).
Definition p3p_w1 : rvec3 := V3 (-1 / 5) 1 (-3 / 5).
Definition p3p_w2 : rvec3 := V3 0 (-1) (-2).
Definition p3p_w3 : rvec3 := V3 (2 / 3) (4 / 3) (-5 / 3).
Definition p3p_y1 : rvec3 := V3 0 (3 / 5) (4 / 5).
Definition p3p_y2 : rvec3 := V3 (2 / 3) (2 / 3) (1 / 3).
Definition p3p_y3 : rvec3 := V3 (-1 / 9) (8 / 9) (4 / 9).

Lemma p3p_lengths : norm2 (vsub p3p_w1 p3p_w2) = 6 /\ norm2 (vsub p3p_w1 p3p_w3) = 2 /\ norm2 (vsub p3p_w2 p3p_w3) = 6 /\
  dot p3p_y1 p3p_y2 = 2 / 3 /\ dot p3p_y2 p3p_y3 = 2 / 3 /\ dot p3p_y3 p3p_y1 = 8 / 9.
Proof. unfold p3p_w1, p3p_w2, p3p_w3, p3p_y1, p3p_y2, p3p_y3. lin_unfold. rnum. repeat split; lra. Qed.
Lemma p3p_regular : regular 6 2 6 (2 / 3) (2 / 3) (8 / 9) 0.
Proof.
  assert (E : pencil 6 2 6 (2 / 3) (2 / 3) (8 / 9) 0 = M3 (V3 6 (-4) 0) (V3 (-4) 0 4) (V3 0 4 (-6))).
  { unfold pencil. apply (f_equal3 M3); apply (f_equal3 V3); lra. }
  split; rewrite ?E.
  - lin_unfold. rnum. lra.
  - exists (V3 0 0 1), (V3 1 0 0). unfold form. lin_unfold. rnum. lra.
  - lra.
  - lra.
  - intros e [x y z] He Hv H Z. cbn [vz] in Z. subst z. apply Hv. revert H. lin_unfold. rnum. intros H. injection H as H1 H2 H3.
    assert (y = 0) by lra. assert (x = 0) by nra. subst. reflexivity.
  - intros [x y z]. unfold form, side. lin_unfold. rnum. intros H1 H2 H3.
    assert (K : (x - z) * (3 * (x + z) - 4 * y) = 0) by lra. apply Rmult_integral in K.
    destruct H3 as [-> | ->]; destruct K as [K|K].
    + assert (x = z) by lra. subst x. split; [reflexivity|nra].
    + assert (x = - z) by lra. subst x. split; [reflexivity|nra].
    + assert (x = 0) by lra. subst x. split; [nra|reflexivity].
    + assert (x = 4 / 3 * y) by lra. subst x. split; [nra|reflexivity].
Qed.
Lemma p3p_case : unit_vec p3p_y1 /\ unit_vec p3p_y2 /\ unit_vec p3p_y3 /\ rigid p3p_pose /\ triangle p3p_w1 p3p_w2 p3p_w3 /\
  point (of_point p3p_w1) = Some p3p_w1 /\ point (of_point p3p_w2) = Some p3p_w2 /\ point (of_point p3p_w3) = Some p3p_w3 /\
  aligns p3p_pose p3p_w1 p3p_w2 p3p_w3 p3p_y1 p3p_y2 p3p_y3 (V3 3 3 3) /\
  regular (norm2 (vsub p3p_w1 p3p_w2)) (norm2 (vsub p3p_w1 p3p_w3)) (norm2 (vsub p3p_w2 p3p_w3)) (dot p3p_y1 p3p_y2) (dot p3p_y2 p3p_y3) (dot p3p_y3 p3p_y1)
    (root_of (fun _ _ _ => 0) p3p_y1 p3p_y2 p3p_y3 p3p_w1 p3p_w2 p3p_w3) /\
  exists B, mmul B (frame (vsub p3p_w1 p3p_w2) (vsub p3p_w1 p3p_w3)) = mid.
Proof.
  assert (PT : forall v : rvec3, point (of_point v) = Some v).
  { intros [x y z]. unfold point, of_point, xyz. cbn [hw hx hy hz vx vy vz]. cbn [eqb RNum zero one]. unfold Reqb. destruct (Req_EM_T 1 0); [lra|].
    unfold vdiv. cbn [vx vy vz]. f_equal. apply (f_equal3 V3); rnum_eq; field. }
  assert (U : unit_vec p3p_y1 /\ unit_vec p3p_y2 /\ unit_vec p3p_y3) by (unfold unit_vec, p3p_y1, p3p_y2, p3p_y3; lin_unfold; rnum; repeat split; lra).
  destruct U as (U1 & U2 & U3). repeat (split; [assumption|]).
  split; [unfold rigid, rotation, p3p_pose; lin_unfold; split; [lin_split; rlra|rlra]|].
  split. { unfold triangle, p3p_w1, p3p_w2, p3p_w3. lin_unfold. rnum. intro H. injection H as H _ _. lra. }
  repeat (split; [apply PT|]).
  split. { unfold aligns, iso_point, p3p_pose, p3p_w1, p3p_w2, p3p_w3, p3p_y1, p3p_y2, p3p_y3. lin_unfold. rnum. repeat split; apply (f_equal3 V3); rnum_eq; lra. }
  split.
  - destruct p3p_lengths as (L1 & L2 & L3 & L4 & L5 & L6). unfold root_of. destruct (cubic_coefficients _ _ _ _ _ _) as [[[? ?] ?] ?]. rewrite L1, L2, L3, L4, L5, L6. exact p3p_regular.
  - set (X := frame (vsub p3p_w1 p3p_w2) (vsub p3p_w1 p3p_w3)).
    assert (D : det X <> 0). { unfold X. rewrite frame_det_cross. unfold p3p_w1, p3p_w2, p3p_w3. lin_unfold. rnum. lra. }
    exists (mscale (/ det X) (adjugate X)). clearbody X.
    assert (H : mmul (adjugate X) X = mscale (det X) mid) by (clear; unfold adjugate; lin).
    transitivity (mscale (/ det X) (mmul (adjugate X) X)); [clear; unfold adjugate; generalize (/ det X); lin|].
    rewrite H. revert D. generalize (det X). intros x Hx. lin_unfold. lin_split; rnum_eq; field; exact Hx.
Qed.

(** ** Floating point *)
(** x^2 + x has the roots 0 and -1. *)
Lemma root2real_nan : exists b c : F64, isfin b = true /\ isfin c = true /\ leb zero (b * b - ofZ 4 * c)%num = true /\
  isnan (snd (fst (root2real b c))) = true.
Proof. exists (ofZ 1 : F64), (ofZ 0 : F64). vm_compute. repeat split. Qed.
(** x^3 - 1 has the root 1. *)
Lemma cube_root_nan : exists b c d : F64, isfin b = true /\ isfin c = true /\ isfin d = true /\
  eqb (cubic_at b c d (ofZ 1)) zero = true /\ isnan (cube_root b c d) = true.
Proof. exists (ofZ 0 : F64), (ofZ 0 : F64), (ofZ (-1) : F64). vm_compute. repeat split. Qed.

(** The smallest of the roots 0, 1 and 10 is found, although the slope is larger at 10. *)
Lemma cube_root_not_sharpest : exists b c d r : R, cubic_value b c d r = 0 /\ cube_root (N := RNum) b c d < r - 8 /\
  (forall x, cubic_value b c d x = 0 -> x <> r -> cubic_slope b c x < cubic_slope b c r).
Proof.
  exists (-11), 10, 0, 10.
  assert (F : forall x, cubic_value (-11) 10 0 x = x * ((x - 1) * (x - 10))) by (intros; unfold cubic_value; ring).
  split; [rewrite F; ring|]. split.
  - destruct (start_stationary (-11) 10 0) as (t & rho & G & T & S & D & _ & _); [lra|].
    destruct (cube_root_good (-11) 10 0 rho _ 0 ltac:(lia) eq_refl G) as (k & K & E & _).
    assert (ST : cube_root_start (N := RNum) (-11) 10 0 <= (11 - sqrt 91) / 3).
    { unfold cube_root_start, three. cbn [leb ltb RNum]. rnum. rewrite !cubic_at_value.
      assert (L : Rleb (3 * 10) (-11 * -11) = true) by (apply Rleb_true; lra). rewrite L.
      replace (-11 * -11 - 3 * 10) with 91 by ring. replace (- (-11) - sqrt 91) with (11 - sqrt 91) by ring.
      set (v := sqrt 91). assert (V : v * v = 91) by (apply sqrt_def; lra). assert (V0 : 0 <= v) by apply sqrt_pos.
      assert (V1 : 9 < v < 10) by (split; nra). clearbody v.
      assert (H : Rltb 0 (cubic_value (-11) 10 0 ((11 - v) / 3)) = true).
      { apply Rltb_true. rewrite F. apply Rmult_lt_0_compat; [lra|]. nra. }
      rewrite H. match goal with |- ?a - sqrt ?q <= _ => pose proof (sqrt_pos q); lra end. }
    assert (V1 : 9 < sqrt 91). { rewrite <- (sqrt_square 9) by lra. apply sqrt_lt_1; lra. }
    assert (L : rho <= 1).
    { destruct G as (G0 & G1 & G2). rewrite F in G0. unfold cubic_slope in G1.
      apply Rmult_integral in G0. destruct G0 as [G0|G0]; [lra|]. apply Rmult_integral in G0. destruct G0 as [G0|G0]; [lra|].
      assert (rho = 10) by lra. subst rho. nra. }
    assert (K1 : (2 / 3) ^ (7 - 0) <= 1) by (cbn; lra). change (Nat.iter 0 (newton (N := RNum) (-11) 10 0) (cube_root_start (N := RNum) (-11) 10 0)) with (cube_root_start (N := RNum) (-11) 10 0) in E.
    assert (cube_root (N := RNum) (-11) 10 0 <= 1); [|rnum_eq; lra].
    replace (cube_root (N := RNum) (-11) 10 0) with (rho + k * (cube_root_start (N := RNum) (-11) 10 0 - rho)) by (rnum_eq; lra). rnum_eq. nra.
  - intros x H N. rewrite F in H. unfold cubic_slope. apply Rmult_integral in H. destruct H as [->|H]; [lra|]. apply Rmult_integral in H. destruct H as [H|H]; [|lra].
    assert (x = 1) by lra. subst x. lra.
Qed.

(** Bearings for which there is no congruent triangle: the depths that are returned do not satisfy the cosine laws. *)
Definition bad_y (a b c : Z) (n : Z) : vec3 F64 := V3 (lit a n) (lit b n) (lit c n).
Definition bad_residual (w1 w2 w3 y1 y2 y3 : vec3 F64) (l : vec3 F64) : F64 :=
  let a12 := norm2 (vsub w1 w2) in let a13 := norm2 (vsub w1 w3) in let a23 := norm2 (vsub w2 w3) in
  let b12 := (- two * dot y1 y2)%num in let b13 := (- two * dot y3 y1)%num in let b23 := (- two * dot y2 y3)%num in
  l1_norm (residual a12 a13 a23 b12 b13 b23 (refine a12 a13 a23 b12 b13 b23 5 l)).
Definition bad_depths (w1 w2 w3 y1 y2 y3 : vec3 F64) : list (vec3 F64) :=
  let a12 := norm2 (vsub w1 w2) in let a13 := norm2 (vsub w1 w3) in let a23 := norm2 (vsub w2 w3) in
  let c12 := dot y1 y2 in let c23 := dot y2 y3 in let c31 := dot y3 y1 in
  let '(p3, p2, p1, p0) := cubic_coefficients a12 a13 a23 c12 c23 c31 in
  depths a12 a13 a23 c12 c23 c31 (cube_root (p2 / p3)%num (p1 / p3)%num (p0 / p3)%num).
Definition bad_w : vec3 F64 * vec3 F64 * vec3 F64 :=
  (V3 (ofZ 0) (ofZ 1) (ofZ 0) : vec3 F64, V3 (ofZ 0) (ofZ 0) (ofZ (-2)) : vec3 F64, V3 (ofZ 0) (ofZ 0) (ofZ 2) : vec3 F64).
Lemma bad_check : existsb (fun l => ltb (ofZ 7) (bad_residual (fst (fst bad_w)) (snd (fst bad_w)) (snd bad_w) (bad_y (-2) (-2) 1 3) (bad_y 2 (-1) 2 3) (bad_y (-4) 4 7 9) l))
  (bad_depths (fst (fst bad_w)) (snd (fst bad_w)) (snd bad_w) (bad_y (-2) (-2) 1 3) (bad_y 2 (-1) 2 3) (bad_y (-4) 4 7 9)) = true.
Proof. vm_compute. reflexivity. Qed.
Lemma garbage_depths : exists w1 w2 w3 y1 y2 y3 l : vec3 F64,
  (forall y, y = y1 \/ y = y2 \/ y = y3 -> ltb (abs_ (norm2 y - one)%num) (lit 1 1000000000000000) = true) /\
  In l (bad_depths w1 w2 w3 y1 y2 y3) /\ ltb (ofZ 7) (bad_residual w1 w2 w3 y1 y2 y3 l) = true.
Proof.
  pose proof bad_check as H. apply existsb_exists in H. destruct H as (l & H1 & H2).
  exists (fst (fst bad_w)), (snd (fst bad_w)), (snd bad_w), (bad_y (-2) (-2) 1 3), (bad_y 2 (-1) 2 3), (bad_y (-4) 4 7 9), l.
  split; [|split; assumption]. intros y [->|[->| ->]]; vm_compute; reflexivity.
Qed.
