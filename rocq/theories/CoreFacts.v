(** Facts about the cv-core model over the reals: points and poses. *)
From Coq Require Import Reals Lra Psatz Nsatz List.
From Verif Require Import Num Lin LinSpec LinFacts Core CoreSpec.
Import ListNotations.
Open Scope R_scope.

Implicit Types (v x : rvec4) (q : rvec3).

Lemma Rltb_spec (x y : R) : Rltb x y = true <-> x < y.
Proof. unfold Rltb. destruct (Rlt_dec x y); split; intros; try discriminate; auto; contradiction. Qed.
Lemma Rltb_false (x y : R) : Rltb x y = false <-> y <= x.
Proof. unfold Rltb. destruct (Rlt_dec x y); split; intros; try discriminate; auto; lra. Qed.
Lemma Rleb_spec (x y : R) : Rleb x y = true <-> x <= y.
Proof. unfold Rleb. destruct (Rle_dec x y); split; intros; try discriminate; auto; contradiction. Qed.
Lemma Rleb_false (x y : R) : Rleb x y = false <-> y < x.
Proof. unfold Rleb. destruct (Rle_dec x y); split; intros; try discriminate; auto; lra. Qed.
Lemma Reqb_spec (x y : R) : Reqb x y = true <-> x = y.
Proof. unfold Reqb. destruct (Req_EM_T x y); split; intros; try discriminate; auto; contradiction. Qed.
Lemma Reqb_false (x y : R) : Reqb x y = false <-> x <> y.
Proof. unfold Reqb. destruct (Req_EM_T x y); split; intros; try discriminate; auto; contradiction. Qed.

(** ** Homogeneous points *)
Lemma hdiv_scale (h : rvec4) (s : R) : hdiv h s = hscale (/ s) h.
Proof. destruct h. reflexivity. Qed.
Lemma hscale_scale (a b : R) (h : rvec4) : hscale a (hscale b h) = hscale (a * b) h. Proof. lin. Qed.
Lemma hscale_one (h : rvec4) : hscale 1 h = h. Proof. lin. Qed.
Lemma hneg_scale (h : rvec4) : hneg h = hscale (-1) h. Proof. lin. Qed.
Lemma xyz_scale (s : R) (h : rvec4) : xyz (hscale s h) = vscale s (xyz h). Proof. lin. Qed.
Lemma hw_scale (s : R) (h : rvec4) : hw (hscale s h) = hw h * s. Proof. lin. Qed.

(** The scale [from_homogeneous] applies. *)
Definition canon_scale (v : rvec4) : R := if Rltb (hw v) 0 then - / norm (xyz v) else / norm (xyz v).
Lemma from_homogeneous_scale (v : rvec4) : from_homogeneous v = hscale (canon_scale v) v.
Proof.
  unfold from_homogeneous, canon_scale. cbn [signneg RNum]. destruct (Rltb (hw v) 0).
  - rewrite hdiv_scale, hneg_scale, xyz_scale, norm_scale, hscale_scale. f_equal. rewrite Rabs_left by lra. replace (- -1) with 1 by lra. rewrite Rmult_1_l. rring.
  - rewrite hdiv_scale. reflexivity.
Qed.
Lemma canon_scale_abs v : xyz v <> vzero -> Rabs (canon_scale v) = / norm (xyz v) /\ 0 < / norm (xyz v).
Proof.
  intros H. pose proof (Rinv_0_lt_compat _ (norm_pos _ H)) as Hp. split; [|exact Hp]. unfold canon_scale. destruct (Rltb (hw v) 0).
  - rewrite Rabs_Ropp. apply Rabs_pos_eq. lra.
  - apply Rabs_pos_eq. lra.
Qed.
Lemma canon_scale_sign v : xyz v <> vzero -> 0 <= hw v * canon_scale v.
Proof.
  intros H. pose proof (Rinv_0_lt_compat _ (norm_pos _ H)) as Hp. unfold canon_scale. destruct (Rltb (hw v) 0) eqn:E.
  - apply Rltb_spec in E. rnra.
  - apply Rltb_false in E. rnra.
Qed.

Lemma from_homogeneous_canonical v : xyz v <> vzero -> canonical (from_homogeneous v).
Proof.
  intros H. rewrite from_homogeneous_scale. destruct (canon_scale_abs v H) as [Ha Hp]. split.
  - unfold unit_vec. rewrite xyz_scale, norm2_scale. replace (canon_scale v * canon_scale v) with (Rabs (canon_scale v) * Rabs (canon_scale v)) by (rewrite <- Rabs_mult; apply Rabs_pos_eq; nra).
    rewrite Ha, <- norm_sq. pose proof (norm_pos _ H). rfield. rlra.
  - rewrite hw_scale. apply canon_scale_sign, H.
Qed.

Lemma from_homogeneous_fixed p : canonical p -> from_homogeneous p = p.
Proof.
  intros [Hu Hw]. rewrite from_homogeneous_scale. unfold canon_scale. destruct (Rltb (hw p) 0) eqn:E; [apply Rltb_spec in E; rlra|].
  rewrite (norm_unit _ Hu). rnum. rewrite Rinv_1. apply hscale_one.
Qed.

Lemma from_homogeneous_pos c v : 0 < c -> from_homogeneous (hscale c v) = from_homogeneous v.
Proof.
  intros Hc. rewrite !from_homogeneous_scale, hscale_scale. f_equal. unfold canon_scale. rewrite hw_scale, xyz_scale, norm_scale, Rabs_pos_eq by lra.
  assert (Rltb (hw v * c) 0 = Rltb (hw v) 0) as ->.
  { destruct (Rltb (hw v) 0) eqn:E; [apply Rltb_spec in E|apply Rltb_false in E]; [apply Rltb_spec|apply Rltb_false]; rnra. }
  rewrite Rinv_mult. destruct (Rltb (hw v) 0).
  - replace (- (/ c * / norm (xyz v)) * c) with (- / norm (xyz v) * (/ c * c)) by rring. rewrite Rinv_l by lra. rring.
  - replace (/ c * / norm (xyz v) * c) with (/ norm (xyz v) * (/ c * c)) by rring. rewrite Rinv_l by lra. rring.
Qed.
Lemma from_homogeneous_neg v : hw v <> 0 -> from_homogeneous (hneg v) = from_homogeneous v.
Proof.
  intros Hw. unfold from_homogeneous. cbn [signneg RNum]. replace (hw (hneg v)) with (- hw v) by (destruct v; reflexivity).
  replace (hneg (hneg v)) with v by lin. destruct (Rltb (hw v) 0) eqn:E; [apply Rltb_spec in E|apply Rltb_false in E].
  - assert (Rltb (- hw v) 0 = false) as -> by (apply Rltb_false; rlra). reflexivity.
  - assert (Rltb (- hw v) 0 = true) as -> by (apply Rltb_spec; rlra). reflexivity.
Qed.
Lemma from_homogeneous_multiple c v : c <> 0 -> hw v <> 0 \/ 0 < c -> from_homogeneous (hscale c v) = from_homogeneous v.
Proof.
  intros Hc H. destruct (Rlt_dec 0 c) as [Hp|Hp]; [apply from_homogeneous_pos, Hp|]. destruct H as [H|H]; [|lra].
  replace (hscale c v) with (hneg (hscale (- c) v)) by lin. rewrite from_homogeneous_neg by (rewrite hw_scale; nra). apply from_homogeneous_pos. lra.
Qed.
(** At infinity the sign of the input survives. *)
Lemma from_homogeneous_infinity v : hw v = 0 -> from_homogeneous (hneg v) = hneg (from_homogeneous v).
Proof.
  intros H. rewrite !from_homogeneous_scale. unfold canon_scale. replace (hw (hneg v)) with (- hw v) by (destruct v; reflexivity). rewrite H.
  replace (- 0) with 0 by ring. assert (Rltb 0 0 = false) as -> by (apply Rltb_false; lra). replace (xyz (hneg v)) with (vneg (xyz v)) by lin. rewrite norm_neg. lin.
Qed.

Lemma point_none (p : rvec4) : point p = None <-> hw p = 0.
Proof. unfold point. cbn [eqb RNum zero]. destruct (Reqb (hw p) 0) eqn:E; [apply Reqb_spec in E|apply Reqb_false in E]; split; intros; try discriminate; auto; contradiction. Qed.
Lemma point_some (p : rvec4) q : point p = Some q <-> hw p <> 0 /\ xyz p = vscale (hw p) q.
Proof.
  unfold point. cbn [eqb RNum zero]. destruct (Reqb (hw p) 0) eqn:E; [apply Reqb_spec in E|apply Reqb_false in E].
  - split; [discriminate|]. intros [H _]. contradiction.
  - split.
    + intros [= <-]. split; [exact E|]. rewrite vdiv_scale, vscale_scale, Rinv_r by exact E. symmetry. apply vscale_one.
    + intros [_ ->]. rewrite vdiv_scale, vscale_scale, Rinv_l by exact E. f_equal. apply vscale_one.
Qed.
Lemma point_of_multiple v (c : R) : c <> 0 -> point (hscale c v) = point v.
Proof.
  intros Hc. destruct (point v) as [q|] eqn:E.
  - apply point_some in E as [H1 H2]. apply point_some. rewrite hw_scale, xyz_scale, H2, vscale_scale. split; [intros H; apply Rmult_integral in H as [H|H]; contradiction|]. f_equal. rring.
  - apply point_none in E. apply point_none. rewrite hw_scale, E. rring.
Qed.
Lemma point_from_homogeneous v : xyz v <> vzero -> point (from_homogeneous v) = point v.
Proof.
  intros H. rewrite from_homogeneous_scale. apply point_of_multiple. destruct (canon_scale_abs v H) as [Ha Hp]. intros E. rewrite E, Rabs_R0 in Ha. lra.
Qed.
Lemma point_of_point q : point (of_point q : rvec4) = Some q.
Proof. apply point_some. split; [cbn; lra|]. replace (xyz (of_point q)) with q by lin. cbn [of_point hw]. symmetry. apply vscale_one. Qed.
Lemma xyz_of_point (q : rvec3) : xyz (of_point q) = q. Proof. lin. Qed.
Lemma point_from_point q : q <> vzero -> point (from_point q : rvec4) = Some q.
Proof. intros H. unfold from_point. rewrite point_from_homogeneous by (rewrite xyz_of_point; exact H). apply point_of_point. Qed.
Lemma from_point_coords (q : rvec3) : q <> vzero -> xyz (from_point q) = normalize q /\ hw (from_point q) = / norm q.
Proof.
  intros H. unfold from_point. rewrite from_homogeneous_scale. unfold canon_scale. rewrite xyz_of_point. cbn [of_point hw].
  assert (Rltb 1 0 = false) as E by (apply Rltb_false; lra). rnum. rewrite E, xyz_scale, xyz_of_point, hw_scale. split; [unfold normalize; rewrite vdiv_scale; reflexivity|].
  cbn [of_point hw]. rring.
Qed.
(** A canonical point is determined by its Euclidean point. *)
Lemma canonical_point (p : rvec4) q : canonical p -> point p = Some q -> p = from_point q /\ q <> vzero.
Proof.
  intros Hc E. apply point_some in E as [Hw E]. assert (q <> vzero) as Hq.
  { intros ->. destruct Hc as [Hu _]. apply (unit_not_zero _ Hu). rewrite E. lin. }
  split; [|exact Hq]. rewrite <- (from_homogeneous_fixed p Hc). unfold from_point.
  replace p with (hscale (hw p) (of_point q)).
  - apply from_homogeneous_multiple; [exact Hw|]. left. cbn. lra.
  - destruct p as [a b c d], q as [x y z]. lin_unfold. injection E as -> -> ->. lin_split; rring.
Qed.
Lemma canonical_inverse_distance (p : rvec4) q : canonical p -> point p = Some q -> hw p = / norm q /\ bearing p = normalize q /\ 0 < norm q.
Proof.
  intros Hc E. destruct (canonical_point p q Hc E) as [-> Hq]. destruct (from_point_coords q Hq) as [H1 H2]. split; [exact H2|]. split; [exact H1|]. apply norm_pos, Hq.
Qed.

(** ** Poses *)
Lemma pose_output_coords (p : riso) (x : rvec4) : xyz (pose_output p x) = vadd (mvec (rot p) (xyz x)) (vscale (hw x) (trans p)) /\ hw (pose_output p x) = hw x.
Proof. unfold pose_output. split; lin. Qed.
Lemma pose_output_point (p : riso) (q : rvec3) : pose_output p (of_point q) = of_point (iso_point p q).
Proof. unfold pose_output. lin. Qed.
Lemma pose_output_scale (p : riso) (s : R) (x : rvec4) : pose_output p (hscale s x) = hscale s (pose_output p x).
Proof. unfold pose_output. lin. Qed.
Lemma pose_output_mul (a b : riso) (x : rvec4) : pose_output (iso_mul a b) x = pose_output a (pose_output b x).
Proof. unfold pose_output. lin. Qed.
Lemma pose_output_id (x : rvec4) : pose_output (iso_id : riso) x = x.
Proof. unfold pose_output. lin. Qed.

Lemma transform_canonical (p : riso) (x : rvec4) : off_centre p x -> canonical (transform p x).
Proof. apply from_homogeneous_canonical. Qed.
Lemma transform_point (p : riso) (x : rvec4) (q : rvec3) : off_centre p x -> point x = Some q -> point (transform p x) = Some (iso_point p q).
Proof.
  intros Ho E. unfold transform. rewrite point_from_homogeneous by exact Ho. apply point_some in E as [Hw E]. apply point_some.
  destruct (pose_output_coords p x) as [H1 H2]. rewrite H1, H2, E. split; [exact Hw|]. lin.
Qed.
Lemma from_point_scale (q : rvec3) : from_point q = hscale (/ norm q) (of_point q).
Proof.
  unfold from_point. rewrite from_homogeneous_scale. unfold canon_scale. cbn [of_point hw].
  assert (Rltb 1 0 = false) as E by (apply Rltb_false; lra). rnum. rewrite E, xyz_of_point. reflexivity.
Qed.
Lemma transform_from_point (p : riso) (q : rvec3) : q <> vzero -> transform p (from_point q) = from_point (iso_point p q).
Proof.
  intros Hq. unfold transform. rewrite from_point_scale, pose_output_scale, pose_output_point. apply from_homogeneous_pos, Rinv_0_lt_compat, norm_pos, Hq.
Qed.
Lemma transform_infinity (p : riso) (x : rvec4) : rigid p -> canonical x -> hw x = 0 -> off_centre p x /\ xyz (transform p x) = mvec (rot p) (xyz x) /\ hw (transform p x) = 0.
Proof.
  intros Hp [Hu _] Hw. destruct (pose_output_coords p x) as [H1 H2]. rewrite Hw, vscale_zero, vadd_zero_r in H1. rewrite Hw in H2.
  assert (off_centre p x) as Ho. { unfold off_centre. rewrite H1. apply unit_not_zero, rotation_unit; assumption. }
  split; [exact Ho|]. unfold transform. rewrite from_homogeneous_scale, xyz_scale, hw_scale, H1, H2. unfold canon_scale. rewrite H1, H2.
  assert (Rltb 0 0 = false) as -> by (apply Rltb_false; lra). rewrite (norm_unit _ (rotation_unit _ _ Hp Hu)), Rinv_1, vscale_one. split; [reflexivity|rring].
Qed.
Lemma transform_id (x : rvec4) : canonical x -> transform (iso_id : riso) x = x.
Proof. intros H. unfold transform. rewrite pose_output_id. apply from_homogeneous_fixed, H. Qed.
Lemma transform_scale_in (p : riso) (x : rvec4) (s : R) : 0 < s -> transform p (hscale s x) = transform p x.
Proof. intros Hs. unfold transform. rewrite pose_output_scale. apply from_homogeneous_pos, Hs. Qed.
Lemma transform_pos (p : riso) (x : rvec4) : 0 <= hw x -> off_centre p x -> exists s, 0 < s /\ transform p x = hscale s (pose_output p x).
Proof.
  intros Hw Ho. exists (/ norm (xyz (pose_output p x))). split; [apply Rinv_0_lt_compat, norm_pos, Ho|]. unfold transform. rewrite from_homogeneous_scale. unfold canon_scale.
  destruct (pose_output_coords p x) as [_ ->]. assert (Rltb (hw x) 0 = false) as -> by (apply Rltb_false; exact Hw). reflexivity.
Qed.
Lemma transform_mul (a b : riso) (x : rvec4) : 0 <= hw x -> off_centre b x -> transform (iso_mul a b) x = transform a (transform b x).
Proof.
  intros Hw Ho. destruct (transform_pos b x Hw Ho) as (s & Hs & ->). rewrite transform_scale_in by exact Hs. unfold transform. rewrite pose_output_mul. reflexivity.
Qed.
Lemma transform_inv (p : riso) (x : rvec4) : rigid p -> canonical x -> off_centre p x -> transform (iso_inv p) (transform p x) = x.
Proof. intros Hp Hx Ho. rewrite <- transform_mul by (try apply Hx; exact Ho). rewrite iso_inv_l by exact Hp. apply transform_id, Hx. Qed.
Lemma off_centre_iff (p : riso) (x : rvec4) q : rigid p -> point x = Some q -> (off_centre p x <-> iso_point p q <> vzero).
Proof.
  intros Hp E. apply point_some in E as [Hw E]. unfold off_centre. destruct (pose_output_coords p x) as [-> _]. rewrite E.
  replace (vadd (mvec (rot p) (vscale (hw x) q)) (vscale (hw x) (trans p))) with (vscale (hw x) (iso_point p q)) by lin.
  split; intros H H0; apply H.
  - rewrite H0. lin.
  - apply norm2_zero. apply (f_equal norm2) in H0. rewrite norm2_scale in H0. replace (norm2 (vzero : rvec3)) with 0 in H0 by lin.
    apply Rmult_integral in H0 as [H0|H0]; [|exact H0]. apply Rmult_integral in H0 as [H0|H0]; contradiction.
Qed.
