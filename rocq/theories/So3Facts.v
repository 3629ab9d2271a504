(** Facts about so(3), se(3) and the Jacobians of poses, over the reals. *)
From Coq Require Import Reals Lra Psatz Nsatz List Permutation.
From Verif Require Import Num Lin LinSpec LinFacts Core CoreSpec CoreFacts.
Import ListNotations.
Open Scope R_scope.

Ltac so3 := intros; unfold bracket, hat2, hat, vee in *; lin.

Lemma vee_hat (w : rvec3) : vee (hat w) = w. Proof. so3. Qed.
Lemma hat_vee (A : rmat3) : mtrans A = mneg A -> hat (vee A) = A.
Proof. unfold hat, vee. lin_destruct. lin_unfold. intros H. injection H as ? ? ? ? ? ? ? ? ?. lin_split; rlra. Qed.
Lemma hat_cross (w v : rvec3) : mvec (hat w) v = cross w v. Proof. so3. Qed.
Lemma hat2_square (w : rvec3) : hat2 w = mmul (hat w) (hat w). Proof. so3. Qed.
Lemma bracket_cross (a b : rvec3) : bracket a b = cross a b. Proof. so3. Qed.
Lemma hat_bracket (a b : rvec3) : hat (bracket a b) = msub (mmul (hat a) (hat b)) (mmul (hat b) (hat a)). Proof. rewrite bracket_cross. unfold hat. lin. Qed.
Lemma bracket_add_l (a b c : rvec3) : bracket (vadd a b) c = vadd (bracket a c) (bracket b c). Proof. rewrite !bracket_cross. lin. Qed.
Lemma bracket_add_r (a b c : rvec3) : bracket a (vadd b c) = vadd (bracket a b) (bracket a c). Proof. rewrite !bracket_cross. lin. Qed.
Lemma bracket_scale_l (s : R) (a b : rvec3) : bracket (vscale s a) b = vscale s (bracket a b). Proof. rewrite !bracket_cross. lin. Qed.
Lemma bracket_scale_r (s : R) (a b : rvec3) : bracket a (vscale s b) = vscale s (bracket a b). Proof. rewrite !bracket_cross. lin. Qed.
Lemma bracket_anti (a b : rvec3) : bracket a b = vneg (bracket b a). Proof. rewrite !bracket_cross. lin. Qed.
Lemma bracket_jacobi (a b c : rvec3) : vadd (vadd (bracket a (bracket b c)) (bracket b (bracket c a))) (bracket c (bracket a b)) = vzero.
Proof. rewrite !bracket_cross. lin. Qed.

(** ** Exponential and logarithm *)
Lemma sin_cos (x : R) : sin x * sin x + cos x * cos x = 1.
Proof. pose proof (sin2_cos2 x) as H. unfold Rsqr in H. exact H. Qed.

Lemma vdiv_norm_unit (w : rvec3) : 0 < norm w -> unit_vec (vdiv w (norm w)).
Proof. intros H. apply (normalize_unit w). intros ->. unfold norm in H. replace (norm2 (vzero : rvec3)) with 0 in H by lin. change (@sqrt_ RNum) with sqrt in H. rewrite sqrt_0 in H. lra. Qed.

Lemma axis_angle_add (u : rvec3) (a b : R) : unit_vec u ->
  mmul (axis_angle u (sin a) (cos a)) (axis_angle u (sin b) (cos b)) = axis_angle u (sin (a + b)) (cos (a + b)).
Proof.
  intros Hu. rewrite sin_plus, cos_plus. generalize (sin a) (cos a) (sin b) (cos b). intros sa ca sb cb.
  destruct u as [x y z]. unfold unit_vec in Hu. lin_unfold. assert (z * z = 1 - x * x - y * y) as Hz by lra. lin_split; rnum; ring [Hz].
Qed.

Lemma axis_angle_axis (u : rvec3) (s c : R) : unit_vec u -> mvec (axis_angle u s c) u = u.
Proof. destruct u as [x y z]. unfold unit_vec. lin_unfold. intros Hu. assert (z * z = 1 - x * x - y * y) as Hz by lra. lin_split; rnum; ring [Hz]. Qed.

Lemma axis_angle_rodrigues (u : rvec3) (s c : R) : unit_vec u ->
  axis_angle u s c = madd (madd mid (mscale s (cross_matrix u))) (mscale (1 - c) (mmul (cross_matrix u) (cross_matrix u))).
Proof. destruct u as [x y z]. unfold unit_vec. lin_unfold. intros Hu. assert (z * z = 1 - x * x - y * y) as Hz by lra. lin_split; rnum; ring [Hz]. Qed.

Lemma rodrigues_axis (w : rvec3) : 0 < norm w -> axis_angle (vdiv w (norm w)) (sin (norm w)) (cos (norm w)) = rodrigues w.
Proof.
  intros H. rewrite (axis_angle_rodrigues _ _ _ (vdiv_norm_unit w H)). unfold rodrigues. set (t := norm w) in *. clearbody t. rewrite vdiv_scale.
  generalize (sin t) (cos t). intros s c. destruct w as [x y z]. lin_unfold. lin_split; rnum; field; lra.
Qed.

Section exp.
Context (nearest : rmat3 -> rmat3) (eps : R).
Let T := real_trig nearest eps.

Lemma exp_large (w : rvec3) : 0 <= eps -> eps < norm2 w -> so3_exp T w = rodrigues w /\ 0 < norm w.
Proof.
  intros He H. assert (0 < norm w) as Hn by (apply sqrt_lt_R0; rlra). split; [|exact Hn]. rewrite <- rodrigues_axis by exact Hn. unfold so3_exp, T, real_trig. cbn [t_eps t_sin t_cos leb RNum sqrt_].
  assert (Rleb (norm2 w) eps = false) as -> by (apply Rleb_false; exact H). reflexivity.
Qed.
Lemma rodrigues_rotation (w : rvec3) : 0 < norm w -> rotation (rodrigues w).
Proof. intros H. rewrite <- rodrigues_axis by exact H. apply axis_angle_rotation; [apply vdiv_norm_unit, H|apply sin_cos]. Qed.
Lemma exp_rotation (w : rvec3) : 0 <= eps -> (forall A, rotation (nearest A)) -> rotation (so3_exp T w).
Proof.
  intros He Hn. destruct (Rlt_dec eps (norm2 w)) as [H|H].
  - destruct (exp_large w He H) as [-> Hw]. apply rodrigues_rotation, Hw.
  - unfold so3_exp, T, real_trig. cbn [t_eps leb RNum]. assert (Rleb (norm2 w) eps = true) as -> by (apply Rleb_spec; rlra). apply Hn.
Qed.

(** The skew part and the trace of a rotation about an axis. *)
Lemma scaled_axis_angle (u : rvec3) (t : R) : unit_vec u -> 0 < t < PI ->
  scaled_axis T (axis_angle u (sin t) (cos t)) = if Rltb eps (2 * sin t) then vscale t u else vzero.
Proof.
  intros Hu Ht. unfold scaled_axis, T, real_trig. cbn [t_eps t_acos ltb RNum].
  rewrite (axis_angle_trace u _ _ Hu). rnum. replace ((1 + 2 * cos t - 1) / two) with (cos t) by (unfold two; rfield). rewrite acos_cos by lra.
  pose proof (sin_gt_0 t ltac:(lra) ltac:(lra)) as Hs.
  match goal with |- context [norm ?a] => assert (a = vscale (2 * sin t) u) as -> end.
  { generalize (sin t) (cos t). intros s c. clear. destruct u as [x y z]. lin_unfold. lin_split; rring. }
  rewrite norm_scale, (norm_unit u Hu), Rabs_pos_eq, Rmult_1_r by lra. destruct (Rltb eps (2 * sin t)); [|reflexivity].
  rewrite vdiv_scale, !vscale_scale. f_equal. field. lra.
Qed.
Lemma so3_log_scaled (A : rmat3) : so3_log T A = scaled_axis T A.
Proof. reflexivity. Qed.
Lemma log_exp (w : rvec3) : 0 <= eps -> eps < norm2 w -> norm w < PI -> eps < 2 * sin (norm w) -> so3_log T (so3_exp T w) = w.
Proof.
  intros He H1 H2 H3. destruct (exp_large w He H1) as [-> Hw]. rewrite <- rodrigues_axis by exact Hw. rewrite so3_log_scaled, scaled_axis_angle by (try apply vdiv_norm_unit; lra).
  assert (Rltb eps (2 * sin (norm w)) = true) as -> by (apply Rltb_spec; exact H3). rewrite vdiv_scale, vscale_scale, Rinv_r by lra. apply vscale_one.
Qed.
Lemma log_exp_lost (w : rvec3) : 0 <= eps -> eps < norm2 w -> norm w < PI -> 2 * sin (norm w) <= eps -> so3_log T (so3_exp T w) = vzero.
Proof.
  intros He H1 H2 H3. destruct (exp_large w He H1) as [-> Hw]. rewrite <- rodrigues_axis by exact Hw. rewrite so3_log_scaled, scaled_axis_angle by (try apply vdiv_norm_unit; lra).
  assert (Rltb eps (2 * sin (norm w)) = false) as -> by (apply Rltb_false; exact H3). reflexivity.
Qed.
End exp.

(** ** se(3) *)
Lemma se3_ext (a b : se3 RNum) : se_t a = se_t b -> se_r a = se_r b -> a = b.
Proof. destruct a, b. cbn. intros -> ->. reflexivity. Qed.
Lemma se3_add_comm (a b : se3 RNum) : se3_add a b = se3_add b a. Proof. apply se3_ext; cbn; apply vadd_comm. Qed.
Lemma se3_add_assoc (a b c : se3 RNum) : se3_add a (se3_add b c) = se3_add (se3_add a b) c. Proof. apply se3_ext; cbn; apply vadd_assoc. Qed.
Lemma se3_add_id (a : se3 RNum) : se3_add se3_id a = a. Proof. apply se3_ext; cbn; apply vadd_zero_l. Qed.
Lemma se3_sum_acc (l : list (se3 RNum)) acc : fold_left se3_add l acc = se3_add acc (se3_sum l).
Proof.
  unfold se3_sum. revert acc. induction l as [|x l IH]; intros acc; cbn [fold_left].
  - rewrite se3_add_comm, se3_add_id. reflexivity.
  - rewrite IH, (IH (se3_add se3_id x)), se3_add_id, se3_add_assoc. reflexivity.
Qed.
Lemma se3_sum_cons (x : se3 RNum) l : se3_sum (x :: l) = se3_add x (se3_sum l).
Proof. unfold se3_sum. cbn [fold_left]. rewrite se3_sum_acc, se3_add_id. reflexivity. Qed.
Lemma se3_sum_app (l m : list (se3 RNum)) : se3_sum (l ++ m) = se3_add (se3_sum l) (se3_sum m).
Proof. induction l as [|x l IH]; [symmetry; apply se3_add_id|]. cbn [app]. rewrite !se3_sum_cons, IH. apply se3_add_assoc. Qed.
Lemma se3_sum_perm (l m : list (se3 RNum)) : Permutation l m -> se3_sum l = se3_sum m.
Proof.
  induction 1 as [|x l m _ IH|x y l|l m n _ IH1 _ IH2]; [reflexivity| | |congruence].
  - rewrite !se3_sum_cons, IH. reflexivity.
  - rewrite !se3_sum_cons, !se3_add_assoc, (se3_add_comm y x). reflexivity.
Qed.
Lemma se3_scale_add (s : R) (a b : se3 RNum) : se3_scale (se3_add a b) s = se3_add (se3_scale a s) (se3_scale b s).
Proof. apply se3_ext; cbn; apply vscale_add. Qed.
Lemma se3_scale_sum (s : R) l : se3_scale (se3_sum l : se3 RNum) s = se3_sum (map (fun x => se3_scale x s) l).
Proof. induction l as [|x l IH]; [apply se3_ext; cbn; lin|]. cbn [map]. rewrite !se3_sum_cons, se3_scale_add, IH. reflexivity. Qed.
Lemma se3_scale_parts (s : R) (a : se3 RNum) : se3_scale a s = se3_scale_translation (se3_scale_rotation a s) s.
Proof. reflexivity. Qed.
Lemma se3_inverse_add (a : se3 RNum) : se3_add a (se3_inverse a) = se3_id.
Proof. apply se3_ext; cbn; apply vadd_neg_r. Qed.

Lemma se3_new_no_nan {N : Num} (t r : vec3 N) : isnan (zero : N) = false ->
  v_any_nan (se_t (se3_new t r)) = false /\ v_any_nan (se_r (se3_new t r)) = false.
Proof.
  intros H. cbn [se3_new se_t se_r]. split; [destruct (v_any_nan t) eqn:E|destruct (v_any_nan r) eqn:E]; try exact E; unfold v_any_nan, vzero; cbn [vx vy vz]; rewrite H; reflexivity.
Qed.
Lemma se3_new_keeps {N : Num} (t r : vec3 N) : v_any_nan t = false -> v_any_nan r = false -> se3_new t r = Se3 t r.
Proof. intros H1 H2. unfold se3_new. rewrite H1, H2. reflexivity. Qed.

Lemma so3_log_no_nan {N : Num} (T : trig N) (m : mat3 N) : isnan (zero : N) = false ->
  v_any_nan (so3_log T m) = false /\ (v_any_nan (scaled_axis T m) = false -> so3_log T m = scaled_axis T m).
Proof.
  intros H. unfold so3_log. destruct (v_any_nan (scaled_axis T m)) eqn:E; (split; [|try discriminate; reflexivity]); [|exact E].
  unfold v_any_nan, vzero. cbn [vx vy vz]. rewrite H. reflexivity.
Qed.

Lemma mtrans_madd (A B : rmat3) : mtrans (madd A B) = madd (mtrans A) (mtrans B). Proof. lin. Qed.
Lemma mtrans_mscale (s : R) (A : rmat3) : mtrans (mscale s A) = mscale s (mtrans A). Proof. lin. Qed.
Lemma cross_matrix_neg (w : rvec3) : cross_matrix (vneg w) = mtrans (cross_matrix w). Proof. lin. Qed.

Section isometry.
Context (nearest : rmat3 -> rmat3) (eps : R).
Let T := real_trig nearest eps.

Lemma from_scaled_axis_cases (w : rvec3) : (w = vzero /\ from_scaled_axis T w = mid) \/ (w <> vzero /\ from_scaled_axis T w = rodrigues w).
Proof.
  unfold from_scaled_axis, T, real_trig. cbn [t_sin t_cos eqb RNum zero]. destruct (Reqb (norm w) 0) eqn:E; [apply Reqb_spec in E|apply Reqb_false in E].
  - left. split; [apply norm_zero, E|reflexivity].
  - right. assert (w <> vzero) as Hw. { intros ->. apply E. unfold norm. replace (norm2 (vzero : rvec3)) with 0 by lin. exact sqrt_0. }
    split; [exact Hw|]. apply rodrigues_axis, norm_pos, Hw.
Qed.
Lemma from_scaled_axis_rotation (w : rvec3) : rotation (from_scaled_axis T w).
Proof. destruct (from_scaled_axis_cases w) as [[_ ->]|[Hw ->]]; [apply rotation_id|apply rodrigues_rotation, norm_pos, Hw]. Qed.
Lemma isometry_id : se3_isometry T se3_id = iso_id.
Proof.
  unfold se3_isometry. cbn [se3_id se_r se_t]. destruct (from_scaled_axis_cases vzero) as [[_ ->]|[H _]]; [|congruence]. rewrite mvec_id. reflexivity.
Qed.
Lemma isometry_rigid (x : se3 RNum) : rigid (se3_isometry T x).
Proof. apply from_scaled_axis_rotation. Qed.
(** First translate, then rotate. *)
Lemma isometry_point (x : se3 RNum) (v : rvec3) : iso_point (se3_isometry T x) v = mvec (from_scaled_axis T (se_r x)) (vadd v (se_t x)).
Proof. unfold se3_isometry, iso_point. cbn [rot trans]. symmetry. apply mvec_add. Qed.
Lemma rodrigues_neg (w : rvec3) : rodrigues (vneg w) = mtrans (rodrigues w).
Proof.
  unfold rodrigues. rewrite norm_neg, !mtrans_madd, !mtrans_mscale, mtrans_mmul, mtrans_id, <- cross_matrix_neg. reflexivity.
Qed.
Lemma inverse_rotation (x : se3 RNum) : rot (se3_isometry T (se3_inverse x)) = rot (iso_inv (se3_isometry T x)).
Proof.
  unfold se3_isometry, iso_inv. cbn [rot se3_inverse se_r]. destruct (from_scaled_axis_cases (se_r x)) as [[E ->]|[Hw ->]].
  - rewrite E. destruct (from_scaled_axis_cases (vneg vzero)) as [[_ ->]|[H _]]; [reflexivity|]. exfalso. apply H. lin.
  - destruct (from_scaled_axis_cases (vneg (se_r x))) as [[E _]|[_ ->]].
    + exfalso. apply Hw. rewrite <- (vneg_neg (se_r x)), E. lin.
    + apply rodrigues_neg.
Qed.
(** [inverse] undoes the isometry exactly when the rotation fixes the translation. *)
Lemma inverse_exact (x : se3 RNum) : se3_isometry T (se3_inverse x) = iso_inv (se3_isometry T x) <-> mvec (from_scaled_axis T (se_r x)) (se_t x) = se_t x.
Proof.
  pose proof (from_scaled_axis_rotation (se_r x)) as Hr. pose proof (inverse_rotation x) as Hi.
  assert (trans (se3_isometry T (se3_inverse x)) = vneg (mvec (mtrans (from_scaled_axis T (se_r x))) (se_t x))) as H1.
  { unfold se3_isometry in *. cbn [rot trans iso_inv se3_inverse se_r se_t] in *. rewrite Hi. apply mvec_neg. }
  assert (trans (iso_inv (se3_isometry T x)) = vneg (se_t x)) as H2.
  { unfold se3_isometry, iso_inv. cbn [rot trans]. rewrite mvec_neg, rotation_back by exact Hr. reflexivity. }
  split.
  - intros E. apply (f_equal trans) in E. rewrite H1, H2 in E. apply (f_equal vneg) in E. rewrite !vneg_neg in E. rewrite <- E at 1. apply rotation_forth, Hr.
  - intros E. destruct (se3_isometry T (se3_inverse x)) as [r1 t1], (iso_inv (se3_isometry T x)) as [r2 t2]. cbn in *. subst. f_equal. f_equal. rewrite <- E at 1. apply rotation_back, Hr.
Qed.
End isometry.

(** A quarter turn about z moves the x axis. *)
Lemma quarter_turn nearest eps : mvec (from_scaled_axis (real_trig nearest eps) (V3 0 0 (PI / 2) : rvec3)) (V3 1 0 0 : rvec3) <> V3 1 0 0.
Proof.
  pose proof PI_RGT_0 as Hpi. assert (norm (V3 0 0 (PI / 2) : rvec3) = PI / 2) as Hn.
  { unfold norm. replace (norm2 (V3 0 0 (PI / 2) : rvec3)) with (Rsqr (PI / 2)) by (unfold Rsqr; lin). apply sqrt_Rsqr. lra. }
  unfold from_scaled_axis, real_trig. cbn [t_sin t_cos eqb RNum zero]. rewrite Hn. assert (Reqb (PI / 2) 0 = false) as -> by (apply Reqb_false; lra).
  replace (vdiv (V3 0 0 (PI / 2) : rvec3) (PI / 2)) with (V3 0 0 1 : rvec3) by (rewrite vdiv_scale; lin_unfold; lin_split; rnum; field; lra).
  rewrite cos_PI2, sin_PI2. lin_unfold. intros [= H _ _]. lra.
Qed.

(** ** Jacobians *)
Lemma derive_ext (f g : R -> R) x l : (forall s, f s = g s) -> derivable_pt_lim f x l -> derivable_pt_lim g x l.
Proof. intros E H eps He. destruct (H eps He) as [d Hd]. exists d. intros h H0 H1. rewrite <- !E. apply Hd; assumption. Qed.
Lemma derive_affine (a b : R) : derivable_pt_lim (fun s => a + b * s) 0 b.
Proof.
  assert (derivable_pt_lim ((fun _ => a) + mult_real_fct b id)%F 0 (0 + b * 1)) as H by (apply derivable_pt_lim_plus; [apply derivable_pt_lim_const|apply derivable_pt_lim_scal, derivable_pt_lim_id]).
  replace (0 + b * 1) with b in H by ring. exact H.
Qed.
Lemma derive_trig (a b c : R) : derivable_pt_lim (fun s => a + b * sin s + c * cos s) 0 b.
Proof.
  assert (derivable_pt_lim ((fct_cte a + mult_real_fct b sin) + mult_real_fct c cos)%F 0 ((0 + b * cos 0) + c * - sin 0)) as H.
  { apply derivable_pt_lim_plus; [apply derivable_pt_lim_plus; [apply derivable_pt_lim_const|apply derivable_pt_lim_scal, derivable_pt_lim_sin]|apply derivable_pt_lim_scal, derivable_pt_lim_cos]. }
  replace (0 + b * cos 0 + c * - sin 0) with b in H by (rewrite cos_0, sin_0; ring). exact H.
Qed.

Lemma derive_line (f : R -> R) b : (forall s, f s = f 0 + b * s) -> derivable_pt_lim f 0 b.
Proof. intros H. eapply derive_ext; [intros s; symmetry; apply H|]. apply derive_affine. Qed.
Lemma derive_turn (f : R -> R) b : (forall s, f s = (f 0 + f PI) / 2 + b * sin s + (f 0 - f PI) / 2 * cos s) -> derivable_pt_lim f 0 b.
Proof. intros H. eapply derive_ext; [intros s; symmetry; apply H|]. apply derive_trig. Qed.

Lemma jacobian_input_correct (p : riso) (x : rvec4) i : (i < 4)%nat ->
  derivative4 (fun s => pose_output p (moved x (axis4 i) s)) (column4 (pose_jacobian_input p) i).
Proof.
  intros Hi. unfold pose_output, pose_jacobian_input, moved. destruct p as [[[r11 r12 r13] [r21 r22 r23] [r31 r32 r33]] [t1 t2 t3]], x as [a b c d].
  destruct i as [|[|[|[|]]]]; [..|lia]; unfold derivative4; cbn [axis4 column4]; lin_unfold;
    repeat split; apply derive_line; intros s; cbn beta; ring.
Qed.

(** The columns of the pose Jacobian. *)
Lemma jacobian_self_columns (p : riso) (x : rvec4) :
  let t := trans p in let y := mvec (rot p) (xyz x) in
  pose_jacobian_self p (fst (pose_rotated_output p x)) (snd (pose_rotated_output p x)) =
    [V4 (hw x) 0 0 0; V4 0 (hw x) 0 0; V4 0 0 (hw x) 0;
     V4 0 (- vz y) (vy y) (vx t); V4 (vz y) 0 (- vx y) (vy t); V4 (- vy y) (vx y) 0 (vz t)].
Proof.
  unfold pose_jacobian_self, pose_rotated_output, skew_jacobian_self. destruct p as [[[r11 r12 r13] [r21 r22 r23] [r31 r32 r33]] [t1 t2 t3]], x as [a b c d].
  lin_unfold. cbn [fst snd]. repeat (apply (f_equal2 cons); [lin_split; rring|]). reflexivity.
Qed.

Lemma translated_derivative (p : riso) (x : rvec4) i : (i < 3)%nat ->
  derivative4 (fun s => pose_output (translated p (axis3 i) s) x) (hscale (hw x) (axis4 i)).
Proof.
  intros Hi. unfold pose_output, translated. destruct p as [[[r11 r12 r13] [r21 r22 r23] [r31 r32 r33]] [t1 t2 t3]], x as [a b c d].
  destruct i as [|[|[|]]]; [..|lia]; unfold derivative4; cbn [axis3 axis4]; lin_unfold;
    repeat split; apply derive_line; intros s; cbn beta; ring.
Qed.
Lemma turned_derivative (p : riso) (x : rvec4) i : (i < 3)%nat ->
  let d := cross (axis3 i) (mvec (rot p) (xyz x)) in
  derivative4 (fun s => pose_output (turned p (axis3 i) s) x) (V4 (vx d) (vy d) (vz d) 0).
Proof.
  intros Hi. unfold turned. assert (forall s, pose_output (Iso (mmul (axis_angle (axis3 i) (sin s) (cos s)) (rot p)) (trans p)) x
    = let z := mvec (axis_angle (axis3 i) (sin s) (cos s)) (mvec (rot p) (xyz x)) in V4 (vx z + hw x * vx (trans p)) (vy z + hw x * vy (trans p)) (vz z + hw x * vz (trans p)) (hw x)) as E.
  { intros s. generalize (axis_angle (axis3 i) (sin s) (cos s)). intros B. unfold pose_output. cbn [rot trans]. cbv zeta. rewrite <- mvec_mmul. generalize (mmul B (rot p)). intros C. cbv zeta. destruct p as [A t]. cbn [trans]. clear. lin. }
  generalize dependent (mvec (rot p) (xyz x)). intros [y1 y2 y3] E. cbv zeta in E.
  unfold derivative4. repeat split; (eapply derive_ext; [intros s; rewrite E; reflexivity|]); clear E;
    destruct i as [|[|[|]]]; try lia; cbn [axis3]; lin_unfold; apply derive_turn; intros s; cbn beta; rewrite ?sin_0, ?cos_0, ?sin_PI, ?cos_PI; field.
Qed.
