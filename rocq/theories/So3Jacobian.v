(** The Jacobians of a rotation (so3.rs 212-245). *)
From Coq Require Import Reals Lra Lia.
From Verif Require Import Num Lin LinSpec LinFacts Core CoreSpec CoreFacts So3Facts So3JacobianSpec.
Open Scope R_scope.

Lemma rotation_input (T : trig RNum) (w : rvec3) (x : rvec4) i : (i < 4)%nat ->
  derivative4 (fun s => hmvec (mat_homogeneous (so3_exp T w)) (moved x (axis4 i) s)) (column4 (skew_jacobian_input T w) i).
Proof.
  intros Hi. unfold skew_jacobian_input, moved. destruct (so3_exp T w) as [[r11 r12 r13] [r21 r22 r23] [r31 r32 r33]], x as [a b c d].
  destruct i as [|[|[|[|]]]]; [..|lia]; unfold derivative4; cbn [axis4 column4]; lin_unfold;
    repeat split; apply derive_line; intros s; cbn beta; ring.
Qed.

Lemma rotation_self (y : rvec3) i : (i < 3)%nat ->
  derivative3 (fun s => mvec (axis_angle (axis3 i) (sin s) (cos s)) y) (row_of (skew_jacobian_self y) i) /\
  derivative3 (fun s => mvec (axis_angle (axis3 i) (sin s) (cos s)) y) (vneg (column3 (skew_jacobian_self y) i)).
Proof.
  intros Hi. unfold skew_jacobian_self. destruct y as [y1 y2 y3].
  destruct i as [|[|[|]]]; [..|lia]; unfold derivative3; cbn [axis3 column3 row_of]; lin_unfold;
    repeat split; apply derive_turn; intros s; cbn beta; rewrite ?sin_0, ?cos_0, ?sin_PI, ?cos_PI; field.
Qed.

Lemma derivative3_unique (f : R -> rvec3) a b : derivative3 f a -> derivative3 f b -> a = b.
Proof. intros (A1 & A2 & A3) (B1 & B2 & B3). destruct a, b. cbn in *. f_equal; eapply uniqueness_limite; eassumption. Qed.

Lemma rotation_self_column (y : rvec3) i : (i < 3)%nat ->
  derivative3 (fun s => mvec (axis_angle (axis3 i) (sin s) (cos s)) y) (column3 (skew_jacobian_self y) i) <->
  column3 (skew_jacobian_self y) i = vzero.
Proof.
  intros Hi. destruct (rotation_self y i Hi) as [_ H]. split.
  - intros H'. pose proof (derivative3_unique _ _ _ H H') as E. revert E. clear. destruct (column3 (skew_jacobian_self y) i) as [a b c]. lin_unfold. intros E. injection E as E1 E2 E3. f_equal; lra.
  - intros E. rewrite E in *. replace (vneg vzero : rvec3) with (vzero : rvec3) in H; [exact H|]. lin_unfold. f_equal; rring.
Qed.
Lemma rotation_self_wrong : exists (y : rvec3) (i : nat), (i < 3)%nat /\
  ~ derivative3 (fun s => mvec (axis_angle (axis3 i) (sin s) (cos s)) y) (column3 (skew_jacobian_self y) i).
Proof.
  exists (V3 0 0 1), 0%nat. split; [lia|]. intros H. apply rotation_self_column in H; [|lia]. revert H. unfold skew_jacobian_self. cbn [column3]. lin_unfold. intros E. injection E as E. lra.
Qed.

(** The two rotations of a tangent vector (so3.rs 69-73). *)
Lemma rodrigues_fixes (w : rvec3) : mvec (rodrigues w) w = w.
Proof. unfold rodrigues. cbv zeta. generalize (sin (norm w) / norm w), ((1 - cos (norm w)) / (norm w * norm w)). intros a b. destruct w as [x y z]. lin_unfold. f_equal; rring. Qed.

Section rotations.
Context (nearest : rmat3 -> rmat3) (eps : R).
Let T := real_trig nearest eps.

Lemma scaled_axis_fixes (w : rvec3) : mvec (from_scaled_axis T w) w = w.
Proof. destruct (from_scaled_axis_cases nearest eps w) as [[_ E]|[_ E]]; fold T in E; rewrite E; [apply mvec_id|apply rodrigues_fixes]. Qed.
Lemma scaled_axis_back (w : rvec3) : from_scaled_axis T (vneg w) = mtrans (from_scaled_axis T w).
Proof. exact (inverse_rotation nearest eps (Se3 vzero w)). Qed.

Lemma two_rotations (x : se3 RNum) (a b : rmat3) : se3_rotations T x = (a, b) ->
  rotation a /\ rotation b /\
  mvec a (se_t x) = se_t x /\ mvec b (se_r x) = se_r x /\
  (se_t x = vzero -> a = mid) /\ (se_t x <> vzero -> a = rodrigues (se_t x)) /\
  (se_r x = vzero -> b = mid) /\ (se_r x <> vzero -> b = rodrigues (se_r x)) /\
  se3_rotations T (se3_inverse x) = (mtrans a, mtrans b).
Proof.
  intros E. injection E as <- <-. split; [apply from_scaled_axis_rotation|]. split; [apply from_scaled_axis_rotation|].
  split; [apply scaled_axis_fixes|]. split; [apply scaled_axis_fixes|].
  destruct (from_scaled_axis_cases nearest eps (se_t x)) as [[E1 F1]|[E1 F1]], (from_scaled_axis_cases nearest eps (se_r x)) as [[E2 F2]|[E2 F2]];
    (repeat (split; [intros; (contradiction || assumption)|])); unfold se3_rotations; cbn [se3_inverse se_t se_r]; rewrite !scaled_axis_back; reflexivity.
Qed.
End rotations.
