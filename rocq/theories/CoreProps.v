(** cv-core lemmas in the form of the property theorems, and concrete cases. *)
From Coq Require Import Reals Lra Psatz List ZArith.
From Verif Require Import Num Lin LinSpec LinFacts Core CoreSpec CoreFacts So3Facts DesignFacts.
Import ListNotations.
Open Scope R_scope.

Lemma normal_form (v : rvec4) : xyz v <> vzero ->
  canonical (from_homogeneous v) /\ from_homogeneous (from_homogeneous v) = from_homogeneous v /\
  (exists c, c <> 0 /\ from_homogeneous v = hscale c v) /\
  (point (from_homogeneous v) = None <-> hw v = 0) /\
  (forall q, point (from_homogeneous v) = Some q ->
     xyz v = vscale (hw v) q /\ 0 < norm q /\ hw (from_homogeneous v) = / norm q /\ bearing (from_homogeneous v) = normalize q).
Proof.
  intros H. pose proof (from_homogeneous_canonical v H) as Hc. split; [exact Hc|]. split; [apply from_homogeneous_fixed, Hc|].
  split. { exists (canon_scale v). split; [|apply from_homogeneous_scale]. destruct (canon_scale_abs v H) as [Ha Hp]. intros E. rewrite E, Rabs_R0 in Ha. lra. }
  split; [rewrite point_from_homogeneous by exact H; apply point_none|].
  intros q E. destruct (canonical_inverse_distance _ q Hc E) as (H1 & H2 & H3). rewrite point_from_homogeneous in E by exact H. apply point_some in E as [_ E]. auto.
Qed.

Lemma unit_x : xyz (V4 1 0 0 0 : rvec4) <> vzero.
Proof. intros [= H]. lra. Qed.
Lemma infinity_sign : exists (v : rvec4) (c : R), xyz v <> vzero /\ c <> 0 /\ from_homogeneous (hscale c v) <> from_homogeneous v.
Proof.
  exists (V4 1 0 0 0), (-1). split; [apply unit_x|]. split; [lra|]. rewrite <- hneg_scale, from_homogeneous_infinity by reflexivity.
  rewrite (from_homogeneous_fixed (V4 1 0 0 0)) by (split; [unfold unit_vec; lin_unfold; lra|cbn; lra]). intros [= H _ _ _]. lra.
Qed.
Lemma origin_nan : exists q : vec3 F64, v_finite q = true /\ v_any_nan (bearing (from_point q)) = true.
Proof. exists vzero. split; vm_compute; reflexivity. Qed.

Lemma quarter_rotation : rotation (M3 (V3 0 (-1) 0) (V3 1 0 0) (V3 0 0 1)).
Proof. split; lin. Qed.
(** A quarter turn about the optical axis and a step to the side. *)
Definition demo_pose : riso := Iso (M3 (V3 0 (-1) 0) (V3 1 0 0) (V3 0 0 1)) (V3 1 0 0).
Definition demo_point : rvec3 := V3 1 2 4.
Lemma demo_pose_rigid : rigid demo_pose. Proof. apply quarter_rotation. Qed.
Lemma demo_point_image : iso_point demo_pose demo_point = V3 (-1) 1 4.
Proof. unfold demo_pose, demo_point. lin_unfold. lin_split; rring. Qed.
Lemma demo_not_zero : demo_point <> vzero /\ iso_point demo_pose demo_point <> vzero.
Proof. rewrite demo_point_image. split; intros [= H _ _]; lra. Qed.
Lemma demo_off_centre : off_centre demo_pose (from_point demo_point).
Proof. apply (off_centre_iff demo_pose _ demo_point demo_pose_rigid); [apply point_from_point|]; apply demo_not_zero. Qed.
Lemma demo_canonical : canonical (from_point demo_point : rvec4).
Proof. apply from_homogeneous_canonical. rewrite xyz_of_point. apply demo_not_zero. Qed.

Lemma poses_act (p : riso) (q q' : rvec3) : rigid p -> q <> vzero -> q' <> vzero -> iso_point p q <> vzero -> iso_point p q' <> vzero ->
  exists u u', point (transform p (from_point q)) = Some u /\ point (transform p (from_point q')) = Some u' /\
    u = vadd (mvec (rot p) q) (trans p) /\ distance u u' = distance q q'.
Proof.
  intros Hp Hq Hq' H1 H2. exists (iso_point p q), (iso_point p q'). rewrite !transform_from_point by assumption. rewrite !point_from_point by assumption.
  split; [reflexivity|]. split; [reflexivity|]. split; [reflexivity|]. apply iso_distance, Hp.
Qed.
Lemma scale_action (p : riso) (s : R) (q : rvec3) : iso_point (pose_scale p s) q = vadd (mvec (rot p) q) (vscale s (trans p)) /\
  rot (pose_scale p s) = rot p /\ pose_scale p 1 = p /\ forall s', pose_scale (pose_scale p s) s' = pose_scale p (s' * s).
Proof.
  split; [reflexivity|]. split; [reflexivity|]. split; [unfold pose_scale; rewrite vscale_one; destruct p; reflexivity|]. intros s'. unfold pose_scale. cbn [rot trans]. rewrite vscale_scale. reflexivity.
Qed.
Lemma from_camera_poses_correct (a b : riso) (x : rvec4) : rigid b -> canonical x -> off_centre a x ->
  transform (iso_inv b) (transform a x) = transform (from_camera_poses a b) x.
Proof. intros Hb Hx Ho. unfold from_camera_poses. symmetry. apply transform_mul; [apply Hx|exact Ho]. Qed.

Lemma exp_law (u : rvec3) (a b : R) (nearest : rmat3 -> rmat3) (eps : R) : 0 <= eps -> unit_vec u ->
  eps < a * a -> eps < b * b -> eps < (a + b) * (a + b) -> 0 < a -> 0 < b ->
  let T := real_trig nearest eps in
  mmul (so3_exp T (vscale a u)) (so3_exp T (vscale b u)) = so3_exp T (vscale (a + b) u).
Proof.
  intros He Hu Ha Hb Hab Hpa Hpb T. assert (forall t, 0 < t -> eps < t * t -> so3_exp T (vscale t u) = axis_angle u (sin t) (cos t)) as Hx.
  { intros t Ht Het. assert (norm (vscale t u) = t) as En by (rewrite norm_scale, (norm_unit u Hu), Rabs_pos_eq by lra; apply Rmult_1_r).
    destruct (exp_large nearest eps (vscale t u) He) as [E _]; [rewrite norm2_scale; unfold unit_vec in Hu; rewrite Hu; rlra|]. unfold T. rewrite E, <- rodrigues_axis by (rewrite En; exact Ht). rewrite En, vdiv_scale, vscale_scale, Rinv_l, vscale_one by lra. reflexivity. }
  rewrite !Hx by lra. apply axis_angle_add, Hu.
Qed.

Lemma near_pi (nearest : rmat3 -> rmat3) (eps : R) : 0 < eps < 1 -> exists w : rvec3, norm w < PI /\ so3_log (real_trig nearest eps) (so3_exp (real_trig nearest eps) w) <> w.
Proof.
  intros He. pose proof PI2_3_2 as Hpi. set (t := PI - eps / 2). exists (V3 t 0 0).
  assert (0 < t) as Ht by (unfold t; lra).
  assert (norm (V3 t 0 0 : rvec3) = t) as Hn. { unfold norm. replace (norm2 (V3 t 0 0 : rvec3)) with (Rsqr t) by (unfold Rsqr; lin). apply sqrt_Rsqr. lra. }
  split; [rewrite Hn; unfold t; lra|]. rewrite log_exp_lost; [intros [= E]; lra|lra| |rewrite Hn; unfold t; lra|].
  - replace (norm2 (V3 t 0 0 : rvec3)) with (t * t) by lin. unfold t. nra.
  - rewrite Hn. unfold t. rewrite <- (sin_PI_x (PI - eps / 2)). replace (PI - (PI - eps / 2)) with (eps / 2) by ring. pose proof (sin_lt_x (eps / 2)). lra.
Qed.

Lemma log_exp_case (nearest : rmat3 -> rmat3) : let w := V3 0 0 (PI / 2) : rvec3 in / 4 < norm2 w /\ norm w < PI /\ / 4 < 2 * sin (norm w).
Proof.
  pose proof PI2_3_2 as Hpi. cbv zeta. assert (norm (V3 0 0 (PI / 2) : rvec3) = PI / 2) as Hn.
  { unfold norm. replace (norm2 (V3 0 0 (PI / 2) : rvec3)) with (Rsqr (PI / 2)) by (unfold Rsqr; lin). apply sqrt_Rsqr. lra. }
  rewrite Hn, sin_PI2. replace (norm2 (V3 0 0 (PI / 2) : rvec3)) with (PI / 2 * (PI / 2)) by lin. split; [nra|]. split; lra.
Qed.

Lemma inverse_wrong (nearest : rmat3 -> rmat3) (eps : R) : exists x : se3 RNum, se3_isometry (real_trig nearest eps) (se3_inverse x) <> iso_inv (se3_isometry (real_trig nearest eps) x).
Proof. exists (Se3 (V3 1 0 0) (V3 0 0 (PI / 2))). rewrite inverse_exact. apply quarter_turn. Qed.

Lemma jacobian_self_partial (p : riso) (x : rvec4) i : (i < 3)%nat ->
  exists Jt Jr D, nth_error (snd (transform_jacobian_self p x)) i = Some Jt /\ nth_error (snd (transform_jacobian_self p x)) (3 + i) = Some Jr /\
    derivative4 (fun s => pose_output (translated p (axis3 i) s) x) Jt /\
    derivative4 (fun s => pose_output (turned p (axis3 i) s) x) D /\ xyz Jr = xyz D /\ hw D = 0 /\ hw Jr = dot (trans p) (axis3 i).
Proof.
  intros Hi. pose proof (translated_derivative p x i Hi) as Ht. pose proof (turned_derivative p x i Hi) as Hr. cbv zeta in Hr.
  unfold transform_jacobian_self. pose proof (jacobian_self_columns p x) as E. destruct (pose_rotated_output p x) as [ro ou]. cbn [fst snd] in *. rewrite E. cbv zeta.
  set (y := mvec (rot p) (xyz x)) in *. clearbody y.
  destruct i as [|[|[|]]]; [..|lia]; cbn [nth_error Nat.add axis3 axis4] in *; eexists _, _, _; (split; [reflexivity|]); (split; [reflexivity|]); (split; [|split; [exact Hr|]]).
  all: try (destruct p as [A [t1 t2 t3]], y as [y1 y2 y3]; lin_unfold; repeat split; lin_split; rring).
  all: (eapply (eq_ind _ (fun z => derivative4 _ z)); [exact Ht|]); destruct x; lin_unfold; lin_split; rring.
Qed.
Lemma derivative4_unique (f : R -> rvec4) a b : derivative4 f a -> derivative4 f b -> a = b.
Proof.
  intros (A1 & A2 & A3 & A4) (B1 & B2 & B3 & B4). destruct a, b. cbn in *. f_equal; eapply uniqueness_limite; eassumption.
Qed.
Lemma jacobian_self_wrong : exists (p : riso) (x : rvec4) (i : nat) J, rigid p /\ canonical x /\ (i < 3)%nat /\ nth_error (snd (transform_jacobian_self p x)) (3 + i) = Some J /\
  ~ derivative4 (fun s => pose_output (turned p (axis3 i) s) x) J.
Proof.
  destruct (jacobian_self_partial demo_pose (from_point demo_point) 0) as (Jt & Jr & D & _ & H2 & _ & H4 & _ & H6 & H7); [lia|].
  exists demo_pose, (from_point demo_point), 0%nat, Jr. split; [apply demo_pose_rigid|]. split; [apply demo_canonical|]. split; [lia|]. split; [exact H2|].
  intros H. assert (Jr = D) as E by (eapply derivative4_unique; eassumption). rewrite E, H6 in H7. revert H7. unfold demo_pose. cbn [axis3]. lin_unfold. lra.
Qed.
(** Without translation the Jacobian is exact. *)
Lemma jacobian_self_pure_rotation (p : riso) (x : rvec4) i : (i < 3)%nat -> trans p = vzero ->
  exists J, nth_error (snd (transform_jacobian_self p x)) (3 + i) = Some J /\ derivative4 (fun s => pose_output (turned p (axis3 i) s) x) J.
Proof.
  intros Hi E. destruct (jacobian_self_partial p x i Hi) as (Jt & Jr & D & _ & H2 & _ & H4 & H5 & H6 & H7). exists Jr. split; [exact H2|].
  replace Jr with D; [exact H4|]. rewrite E, dot_zero_l in H7. destruct Jr, D. cbn in *. injection H5 as -> -> ->. rewrite H6, H7. reflexivity.
Qed.

(** An epipole: the point found is the centre of the second camera. *)
Definition epipole_half : F64 := sqrt_ (lit 1 2).
Definition epipole_pose : iso F64 := Iso mid (V3 (opp one) zero zero).
Definition epipole_eigen (_ : mat4 F64) : option (list (eigenpair F64)) :=
  let h := epipole_half in
  Some [(two, V4 h zero zero (opp h)); (zero, V4 h zero zero h); (two, V4 zero one zero zero); (one, V4 zero zero one zero)].
Lemma epipole_nan : exists (eigen : mat4 F64 -> option (list (eigenpair F64))) (p : iso F64) (a b : vec3 F64),
  let D := design [(iso_id, a); (p, b)] in
  (exists l, eigen D = Some l /\ length l = 4%nat /\ forallb (fun e => h_finite (snd e)) l = true /\
     forallb (fun e => let r := hmvec D (snd e) in let k := hscale (fst e) (snd e) in (eqb (hx r) (hx k) && eqb (hy r) (hy k) && eqb (hz r) (hz k) && eqb (hw r) (hw k))%bool) l = true) /\
  isnan (camera_residual eigen p a b) = true.
Proof.
  exists epipole_eigen, epipole_pose, (V3 one zero zero), (V3 zero zero one). split.
  - eexists. split; [reflexivity|]. split; [reflexivity|]. split; vm_compute; reflexivity.
  - vm_compute. reflexivity.
Qed.

Lemma demo_residual_case : let a := normalize demo_point in let b := normalize (iso_point demo_pose demo_point) in cross (mvec (rot demo_pose) a) b <> vzero.
Proof.
  intros a b. pose proof demo_not_zero as [H1 H2]. unfold a, b, normalize. rewrite !vdiv_scale, mvec_scale, cross_scale_l, cross_scale_r, vscale_scale, demo_point_image.
  pose proof (norm_pos _ H1) as P1. pose proof (norm_pos _ H2) as P2. rewrite demo_point_image in P2. set (n := norm demo_point) in *. set (m := norm (V3 (-1) 1 4)) in *.
  assert (0 < / n * / m) as Hp by (apply Rmult_lt_0_compat; apply Rinv_0_lt_compat; assumption). set (k := / n * / m) in *. clearbody k. unfold demo_pose, demo_point. lin_unfold. intros [= E1 E2 E3]. nra.
Qed.

(** The residual of a camera pair in terms of what the eigensolver returned. *)
Lemma camera_residual_points eigen p a b : unit_vec a -> unit_vec b ->
  (forall l lam v, eigen (design [(iso_id, a); (p, b)]) = Some l -> In (lam, v) l -> xyz v <> vzero /\ off_centre p (from_homogeneous v)) ->
  0 <= camera_residual eigen p a b <= 2 /\
  (camera_residual eigen p a b = 0 -> exists l lam v, eigen (design [(iso_id, a); (p, b)]) = Some l /\ In (lam, v) l /\
     (forall lam' v', In (lam', v') l -> Rabs lam <= Rabs lam') /\
     a = bearing (from_homogeneous v) /\ b = bearing (transform p (from_homogeneous v))).
Proof.
  intros Ha Hb H. assert (forall x, residual_point eigen p a b = Some x -> exists l lam v, eigen (design [(iso_id, a); (p, b)]) = Some l /\ In (lam, v) l /\ (forall lam' v', In (lam', v') l -> Rabs lam <= Rabs lam') /\ x = from_homogeneous v) as Hx.
  { intros x. unfold residual_point. destruct (eigen _) as [l|] eqn:E; [|discriminate]. destruct l as [|e l']; [discriminate|].
    destruct (smallest_spec (e :: l')) as (lam & v & Hs & Hin & Hm); [discriminate|]. rewrite Hs. intros [= <-]. exists (e :: l'), lam, v. auto. }
  split.
  - apply camera_residual_range; [assumption..|]. intros x E. destruct (Hx x E) as (l & lam & v & El & Hin & _ & ->). destruct (H l lam v El Hin) as [H1 H2]. split; [apply from_homogeneous_canonical, H1|exact H2].
  - rewrite camera_residual_value. destruct (residual_point eigen p a b) as [x|]; [|intros; lra]. destruct (Hx x eq_refl) as (l & lam & v & El & Hin & Hm & ->). destruct (H l lam v El Hin) as [H1 H2].
    pose proof (proj1 (from_homogeneous_canonical v H1)) as Hu1. pose proof (proj1 (transform_canonical p _ H2)) as Hu2.
    pose proof (unit_dot_bounds a _ Ha Hu1). pose proof (unit_dot_bounds b _ Hb Hu2). unfold bearing in *. intros E. exists l, lam, v. split; [exact El|]. split; [exact Hin|]. split; [exact Hm|].
    split; [apply (unit_dot_one a _ Ha Hu1)|apply (unit_dot_one b _ Hb Hu2)]; rlra.
Qed.

(** ** The list of six numbers *)
Lemma listed_numbers (N : Num) (a b c d e f : N) :
  se3_to_vec (se3_from_vec a b c d e f) = [a; b; c; d; e; f] /\
  (forall x, se3_to_vec x = [a; b; c; d; e; f] -> x = se3_from_vec a b c d e f) /\
  se_t (se3_from_vec a b c d e f) = V3 a b c /\ se_r (se3_from_vec a b c d e f) = V3 d e f.
Proof.
  split; [reflexivity|]. split; [|split; reflexivity].
  intros [[x1 x2 x3] [y1 y2 y3]] H. unfold se3_to_vec in H. cbn [se_t se_r vx vy vz] in H. injection H as -> -> -> -> -> ->. reflexivity.
Qed.
