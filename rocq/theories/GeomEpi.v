(** Facts about epipolar losses and gradients. *)
From Coq Require Import Reals Lra Psatz List ZArith Bool.
From Verif Require Import Num Lin LinSpec LinFacts Core CoreSpec CoreFacts DesignFacts Geom GeomSpec GeomFacts.
Import ListNotations.
Open Scope R_scope.

(** ** [loss] *)
Lemma Rabs_zero (x : R) : Rabs x = 0 -> x = 0.
Proof. intros H. destruct (Req_dec x 0) as [E|E]; [exact E|]. apply Rabs_pos_lt in E. lra. Qed.
Lemma unit_inverse_bound (a u : rvec3) : unit_vec a -> Rabs (dot a (vscale (1 / sqrt (norm2 u)) u)) <= 1.
Proof.
  intros Ha. rewrite dot_scale_r. change (sqrt (norm2 u)) with (norm u). destruct (Req_dec (norm u) 0) as [E|Hn].
  - apply norm_zero in E. rewrite E, dot_zero_r, Rmult_0_r, Rabs_R0. lra.
  - pose proof (norm_nonneg u). pose proof (cauchy a u) as H1. unfold unit_vec in Ha. rewrite Ha, <- norm_sq in H1. set (n := norm u) in *. set (x := dot a u) in *.
    rewrite Rabs_mult, (Rabs_right (1 / n)) by (apply Rle_ge; unfold Rdiv; rewrite Rmult_1_l; left; apply Rinv_0_lt_compat; lra).
    apply Rmult_le_reg_l with n; [lra|]. replace (n * (1 / n * Rabs x)) with (Rabs x) by (field; lra). rewrite Rmult_1_r. apply Rsqr_incr_0_var; [|lra]. unfold Rsqr. rewrite <- Rabs_mult, Rabs_right by nra. nra.
Qed.
Lemma unit_inverse_zero (a u : rvec3) : u <> vzero -> (Rabs (dot a (vscale (1 / sqrt (norm2 u)) u)) = 0 <-> dot a u = 0).
Proof.
  intros Hu. rewrite dot_scale_r. pose proof (norm_pos u Hu) as Hn. change (sqrt (norm2 u)) with (norm u). split.
  - intros E. apply Rabs_zero in E. apply Rmult_integral in E as [E|E]; [|exact E]. exfalso. unfold Rdiv in E. rewrite Rmult_1_l in E. apply (Rinv_neq_0_compat (norm u)); lra.
  - intros ->. rewrite Rmult_0_r. apply Rabs_R0.
Qed.
Lemma triple_swap (t a b : rvec3) : dot b (cross a t) = - dot a (cross b t). Proof. lin. Qed.

Lemma loss_value (t a b : rvec3) : epipolar_loss t a b =
  if Rltb (dot a b) 0 then 1
  else if Rltb (norm2 (cross a t)) (norm2 (cross b t)) then Rabs (dot a (vscale (1 / sqrt (norm2 (cross b t))) (cross b t)))
  else Rabs (dot b (vscale (1 / sqrt (norm2 (cross a t))) (cross a t))).
Proof. unfold epipolar_loss. cbn [isnan RNum orb]. change (signneg (dot a b)) with (Rltb (dot a b) 0). destruct (Rltb (dot a b) 0); reflexivity. Qed.
Lemma loss_range (t a b : rvec3) : unit_vec a -> unit_vec b -> 0 <= epipolar_loss t a b <= 1.
Proof.
  intros Ha Hb. rewrite loss_value. destruct (Rltb (dot a b) 0); [lra|]. destruct (Rltb _ _); (split; [apply Rabs_pos|apply unit_inverse_bound; assumption]).
Qed.
Lemma loss_zero (t a b : rvec3) : cross a t <> vzero \/ cross b t <> vzero ->
  (epipolar_loss t a b = 0 <-> dot a (cross b t) = 0 /\ 0 <= dot a b).
Proof.
  intros H. rewrite loss_value. destruct (Rltb (dot a b) 0) eqn:Es; [apply Rltb_spec in Es; split; [lra|intros [_ ?]; lra]|apply Rltb_false in Es].
  destruct (Rltb (norm2 (cross a t)) _) eqn:E; [apply Rltb_spec in E|apply Rltb_false in E].
  - rewrite unit_inverse_zero. { split; [auto|intros [? _]; assumption]. }
    intros Ez. rewrite Ez in E. replace (norm2 (vzero : rvec3)) with 0 in E by lin. pose proof (norm2_nonneg (cross a t)). lra.
  - rewrite unit_inverse_zero. { rewrite triple_swap. split; [intros; split; [lra|exact Es]|intros [? _]; lra]. }
    intros Ez. rewrite Ez in E. replace (norm2 (vzero : rvec3)) with 0 in E by lin. destruct H as [H|H]; [contradiction|]. apply norm2_pos in H. lra.
Qed.
(** The value: the sine of the angle between the less oblique bearing and the epipolar plane of
    the other. *)
Lemma unit_inverse_value (a u : rvec3) : Rabs (dot a (vscale (1 / sqrt (norm2 u)) u)) = Rabs (dot a u) / norm u.
Proof.
  rewrite dot_scale_r. change (sqrt (norm2 u)) with (norm u). rewrite Rabs_mult. destruct (Req_dec (norm u) 0) as [E|Hn].
  - pose proof (norm_zero u E) as Ez. rewrite Ez, dot_zero_r, Rabs_R0. unfold Rdiv. ring.
  - pose proof (norm_nonneg u). rewrite (Rabs_right (1 / norm u)) by (apply Rle_ge; unfold Rdiv; rewrite Rmult_1_l; left; apply Rinv_0_lt_compat; lra). field. exact Hn.
Qed.
Lemma norm_le (u v : rvec3) : norm2 u <= norm2 v -> norm u <= norm v.
Proof. intros H. apply sqrt_le_1; [apply norm2_nonneg|apply norm2_nonneg|exact H]. Qed.
Lemma loss_max (t a b : rvec3) : 0 <= dot a b -> epipolar_loss t a b = Rabs (dot a (cross b t)) / Rmax (norm (cross a t)) (norm (cross b t)).
Proof.
  intros H. rewrite loss_value. replace (Rltb (dot a b) 0) with false by (symmetry; apply Rltb_false; exact H).
  destruct (Rltb (norm2 (cross a t)) _) eqn:E; [apply Rltb_spec in E|apply Rltb_false in E]; rewrite unit_inverse_value.
  - rewrite Rmax_right by (apply norm_le; lra). reflexivity.
  - rewrite Rmax_left by (apply norm_le; lra). rewrite triple_swap, Rabs_Ropp. reflexivity.
Qed.
Lemma loss_behind (t a b : rvec3) : dot a b < 0 -> epipolar_loss t a b = 1.
Proof. intros H. rewrite loss_value. replace (Rltb (dot a b) 0) with true by (symmetry; apply Rltb_spec; exact H). reflexivity. Qed.
Lemma loss_symmetric (t a b : rvec3) : epipolar_loss t a b = epipolar_loss t b a.
Proof.
  destruct (Rlt_dec (dot a b) 0) as [H|H]; [rewrite !loss_behind; [reflexivity|rewrite dot_comm; exact H|exact H]|].
  apply Rnot_lt_le in H. rewrite !loss_max by (try exact H; rewrite dot_comm; exact H). rewrite Rmax_comm, triple_swap, Rabs_Ropp. reflexivity.
Qed.
Lemma loss_scale (t a b : rvec3) (s : R) : s <> 0 -> epipolar_loss (vscale s t) a b = epipolar_loss t a b.
Proof.
  intros Hs. destruct (Rlt_dec (dot a b) 0) as [H|H]; [rewrite !loss_behind by exact H; reflexivity|apply Rnot_lt_le in H].
  rewrite !loss_max by exact H. rewrite !cross_scale_r, !norm_scale, dot_scale_r, Rabs_mult. pose proof (Rabs_pos_lt s Hs) as Hp. set (k := Rabs s) in *. set (x := norm (cross a t)). set (y := norm (cross b t)).
  rewrite (RmaxRmult x y k) by lra. destruct (Req_dec (Rmax x y) 0) as [E|E]; [rewrite E; unfold Rdiv; rewrite Rmult_0_r, Rinv_0; rring|]. rfield. split; [exact E|lra].
Qed.

(** ** Gradients *)
Lemma point_gradient_orth (t b : rvec3) : unit_vec b -> dot (point_gradient t b) b = 0.
Proof. intros Hb. unfold point_gradient. rewrite dot_sub_l, dot_scale_l. unfold unit_vec in Hb. rewrite norm2_dot in Hb. rewrite Hb. rring. Qed.
Lemma point_gradient_norm2 (t b : rvec3) : unit_vec b -> norm2 (point_gradient t b) = norm2 (cross t b).
Proof.
  intros Hb. unfold point_gradient. rewrite lagrange, norm2_sub, norm2_scale, dot_scale_r. unfold unit_vec in Hb. rewrite Hb. rring.
Qed.
Lemma parallel_iff (t b : rvec3) : unit_vec b -> (cross t b = vzero <-> exists s : R, t = vscale s b).
Proof.
  intros Hb. split.
  - intros E. exists (dot t b). apply vsub_zero. apply norm2_zero. change (norm2 (point_gradient t b) = 0). rewrite point_gradient_norm2 by exact Hb. rewrite E. lin.
  - intros [s ->]. rewrite cross_scale_l, cross_self. lin.
Qed.
Lemma point_gradient_zero (t b : rvec3) : unit_vec b -> (point_gradient t b = vzero <-> exists s : R, t = vscale s b).
Proof.
  intros Hb. rewrite <- parallel_iff by exact Hb. split; intros E.
  - apply norm2_zero. rewrite <- point_gradient_norm2 by exact Hb. rewrite E. lin.
  - apply norm2_zero. rewrite point_gradient_norm2 by exact Hb. rewrite E. lin.
Qed.
(** Adding the gradient puts the origin on the ray: [t - g] is a multiple of the bearing. *)
Lemma point_gradient_moves (t b : rvec3) : exists s : R, vsub t (point_gradient t b) = vscale s b.
Proof. exists (dot t b). unfold point_gradient. generalize (vscale (dot t b) b). intros; lin. Qed.

Lemma se3_new_R (t r : rvec3) : se3_new t r = Se3 t r. Proof. reflexivity. Qed.
Lemma world_pose_gradient_zero (t b : rvec3) : unit_vec b -> t <> vzero -> (world_pose_gradient t b = se3_id <-> exists s : R, t = vscale s b).
Proof.
  intros Hb Ht. unfold world_pose_gradient. rewrite se3_new_R. split.
  - intros E. apply (f_equal se_t) in E. cbn [se_t se3_id] in E. apply (point_gradient_zero t b Hb). unfold point_gradient. apply vsub_zero in E. rewrite E. apply vsub_self.
  - intros [s E]. unfold se3_id. f_equal.
    + rewrite E, dot_scale_l. unfold unit_vec in Hb. rewrite norm2_dot in Hb. rewrite Hb. generalize b; intros; lin.
    + unfold normalize. rewrite vdiv_scale, cross_scale_l, E, cross_scale_l, cross_self. generalize (/ norm (vscale s b)). intros; lin.
Qed.
Lemma world_pose_gradient_parts (t b : rvec3) : unit_vec b -> t <> vzero ->
  dot (se_t (world_pose_gradient t b)) b = 0 /\ norm (se_t (world_pose_gradient t b)) = norm (cross t b) /\
  dot (se_r (world_pose_gradient t b)) t = 0 /\ norm (se_r (world_pose_gradient t b)) = norm (cross t b) / norm t.
Proof.
  intros Hb Ht. unfold world_pose_gradient. rewrite se3_new_R. cbn [se_t se_r]. split; [|split; [|split]].
  - rewrite dot_sub_l, dot_scale_l. unfold unit_vec in Hb. rewrite norm2_dot in Hb. rewrite Hb. rring.
  - unfold norm. f_equal. rewrite <- (point_gradient_norm2 t b Hb). unfold point_gradient. generalize (vscale (dot t b) b). intros; lin.
  - unfold normalize. rewrite vdiv_scale, cross_scale_l, dot_scale_l. replace (dot (cross t b) t) with 0 by (symmetry; lin). rring.
  - unfold normalize. rewrite vdiv_scale, cross_scale_l, norm_scale. pose proof (norm_pos t Ht). rewrite Rabs_right by (apply Rle_ge; left; apply Rinv_0_lt_compat; lra). unfold Rdiv. rring.
Qed.

Lemma double_cross (t a b : rvec3) : cross (cross b t) (cross a t) = vscale (- dot a (cross b t)) t.
Proof. lin. Qed.
Lemma rotation_gradient_value (t a b : rvec3) : rotation_gradient t a b = vscale (- dot a (cross b t) / (norm (cross a t) * norm (cross b t))) t.
Proof.
  unfold rotation_gradient, normalize. rewrite !vdiv_scale, cross_scale_l, cross_scale_r, double_cross, !vscale_scale. f_equal. rnum. unfold Rdiv. rewrite Rinv_mult. rring.
Qed.
Lemma rotation_gradient_zero (t a b : rvec3) : cross a t <> vzero -> cross b t <> vzero -> (rotation_gradient t a b = vzero <-> dot a (cross b t) = 0).
Proof.
  intros Ha Hb. rewrite rotation_gradient_value. pose proof (norm_pos _ Ha). pose proof (norm_pos _ Hb). set (k := norm (cross a t) * norm (cross b t)). assert (0 < k) by (unfold k; nra). split.
  - intros E. apply (f_equal norm2) in E. rewrite norm2_scale in E. replace (norm2 (vzero : rvec3)) with 0 in E by lin.
    assert (t <> vzero) as Ht by (intros ->; apply Ha, cross_zero_r). apply norm2_pos in Ht. apply Rmult_integral in E as [E|E]; [|lra].
    assert (- dot a (cross b t) / k = 0) as E' by nra. apply (f_equal (fun z => z * k)) in E'. unfold Rdiv in E'. rewrite Rmult_assoc, Rinv_l, Rmult_1_r in E' by lra. lra.
  - intros ->. unfold Rdiv. rewrite Ropp_0, Rmult_0_l. apply vscale_zero.
Qed.

(** ** Three views *)
Lemma meet_coplanar (t a b q : rvec3) : meet_at t a b q -> dot a (cross b t) = 0.
Proof.
  intros (lam & mu & Hl & Hm & E1 & E2). assert (t = vsub (vscale lam a) (vscale mu b)) as -> by (rewrite <- E1, E2; generalize t; intros; lin). lin.
Qed.
(** The caller passes the translation with the opposite sign: rays which meet in front of both
    cameras are never triangulated. *)
Lemma same_space_none (t a b q : rvec3) : unit_vec a -> unit_vec b -> meet_at t a b q -> same_space_triangulate (vneg t) a b = None.
Proof.
  intros Ha Hb Hm. pose proof (meet_coplanar t a b q Hm) as Hc. unfold same_space_triangulate. rewrite correct_l1_none; [|exact Ha|exact Hb|rewrite cross_neg_r, dot_neg_r, Hc; rring].
  destruct Hm as (lam & mu & Hl & Hm & E1 & E2).
  assert (vscale (- lam) a = vadd (vneg t) (vscale (- mu) b)) as E. { replace (vscale (- lam) a) with (vneg (vscale lam a)) by lin. rewrite <- E1, E2. lin. }
  destruct (Req_dec (norm2 (cross a b)) 0) as [Ez|Ez].
  - apply norm2_zero in Ez. unfold intersect. rewrite Ez. set (w := div _ _). assert (w = 0) as -> by (unfold w; replace (norm2 (vzero : rvec3)) with 0 by lin; rnum; unfold Rdiv; ring).
    destruct (h_finite _); [|reflexivity]. destruct (_ && _)%bool; [|reflexivity]. apply point_none. rewrite from_homogeneous_scale, hw_scale. cbn [hw]. rring.
  - rewrite (intersect_meet (vneg t) a b (- lam) (- mu) Ha) ; [|intros Z; apply Ez; rewrite Z; lin|exact E|lra]. replace (Rltb (- lam) 0) with true by (symmetry; apply Rltb_spec; lra). reflexivity.
Qed.
Lemma rotation_gradient_meet (t a b q : rvec3) : meet_at t a b q -> rotation_gradient t a b = vzero.
Proof. intros Hm. rewrite rotation_gradient_value, (meet_coplanar t a b q Hm). unfold Rdiv. rewrite Ropp_0, Rmult_0_l. apply vscale_zero. Qed.

Lemma three_view_pairwise (c f ftoc s stoc qcf qcs qfs : rvec3) : unit_vec c -> unit_vec f -> unit_vec s ->
  meet_at ftoc c f qcf -> meet_at stoc c s qcs -> meet_at (vsub stoc ftoc) f s qfs ->
  three_view_gradients c f ftoc s stoc = (se3_id, se3_id).
Proof.
  intros Hc Hf Hs H1 H2 H3. unfold three_view_gradients.
  rewrite (same_space_none stoc c s qcs Hc Hs H2), (same_space_none ftoc c f qcf Hc Hf H1), (same_space_none _ f s qfs Hf Hs H3).
  rewrite (rotation_gradient_meet _ _ _ _ H1), (rotation_gradient_meet _ _ _ _ H2), (rotation_gradient_meet _ _ _ _ H3). rewrite !se3_new_R.
  assert (forall k l : R, vadd (vscale k (vzero : rvec3)) (vscale l (vzero : rvec3)) = vzero /\ vadd (vscale k (vzero : rvec3)) (vscale l (vneg (vzero : rvec3))) = vzero) as Hz by (intros; split; lin).
  rewrite !(proj1 (Hz _ _)), !(proj2 (Hz _ _)). reflexivity.
Qed.
(** The rotations, for all rays. *)
Lemma three_view_rotations (c f ftoc s stoc : rvec3) :
  let (first, second) := three_view_gradients c f ftoc s stoc in
  se_r first = vsub (vscale (2 / 3 * turning ftoc c f) ftoc) (vscale (1 / 3 * turning (vsub stoc ftoc) f s) (vsub stoc ftoc)) /\
  se_r second = vadd (vscale (2 / 3 * turning stoc c s) stoc) (vscale (1 / 3 * turning (vsub stoc ftoc) f s) (vsub stoc ftoc)).
Proof.
  unfold three_view_gradients. rewrite !rotation_gradient_value, !se3_new_R. cbn [se_r]. unfold turning. generalize (vsub stoc ftoc). intros d.
  set (x := - dot c (cross f ftoc) / (norm (cross c ftoc) * norm (cross f ftoc))). set (y := - dot c (cross s stoc) / (norm (cross c stoc) * norm (cross s stoc))). set (z := - dot f (cross s d) / (norm (cross f d) * norm (cross s d))).
  clearbody x y z. change (@lit RNum 2 3) with (2 / 3). change (@lit RNum 1 3) with (1 / 3). generalize (2 / 3) (1 / 3). intros k l. split; lin.
Qed.
(** Rays which meet in pairs when the cameras are mirrored in the centre one. *)
Lemma same_space_meet (t a b q : rvec3) : unit_vec a -> unit_vec b -> cross a b <> vzero -> 0 <= dot a b -> meet_at t a b q -> same_space_triangulate t a b = Some q.
Proof.
  intros Ha Hb Hz Hd Hm. pose proof (meet_coplanar t a b q Hm) as Hc. unfold same_space_triangulate. rewrite correct_l1_none by assumption. destruct Hm as (lam & mu & Hl & Hu & E1 & E2).
  rewrite (intersect_meet t a b lam mu Ha Hz) by (try lra; rewrite <- E1; exact E2). assert (Rltb lam 0 = false) as -> by (apply Rltb_false; lra). assert (Rltb (dot a b) 0 = false) as -> by (apply Rltb_false; exact Hd).
  rewrite <- E1. apply point_from_point. intros Z. rewrite E1 in Z. apply (f_equal norm2) in Z. rewrite norm2_scale in Z. unfold unit_vec in Ha. rewrite Ha in Z. replace (norm2 (vzero : rvec3)) with 0 in Z by lin. nra.
Qed.
Lemma meet_neg_coplanar (t a b q : rvec3) : meet_at (vneg t) a b q -> rotation_gradient t a b = vzero.
Proof.
  intros Hm. rewrite rotation_gradient_value. pose proof (meet_coplanar _ a b q Hm) as H. rewrite cross_neg_r, dot_neg_r in H. assert (dot a (cross b t) = 0) as -> by (rnum_eq; lra). unfold Rdiv. rewrite Ropp_0, Rmult_0_l. apply vscale_zero.
Qed.
Lemma three_view_mirrored (c f ftoc s stoc qcf qcs qfs : rvec3) : unit_vec c -> unit_vec f -> unit_vec s ->
  cross c f <> vzero -> cross c s <> vzero -> cross f s <> vzero -> 0 <= dot c f -> 0 <= dot c s -> 0 <= dot f s ->
  meet_at (vneg ftoc) c f qcf -> meet_at (vneg stoc) c s qcs -> meet_at (vneg (vsub stoc ftoc)) f s qfs ->
  three_view_gradients c f ftoc s stoc =
    (Se3 (vadd (vscale (2/3) (offset (vsub qcs ftoc) f)) (vscale (-(1/3)) (offset (vadd qfs ftoc) c))) vzero,
     Se3 (vadd (vscale (2/3) (offset (vsub qcf stoc) s)) (vscale (-(1/3)) (offset (vadd qfs ftoc) c))) vzero).
Proof.
  intros Hc Hf Hs Z1 Z2 Z3 D1 D2 D3 H1 H2 H3. unfold three_view_gradients.
  rewrite (same_space_meet _ c s qcs Hc Hs Z2 D2 H2), (same_space_meet _ c f qcf Hc Hf Z1 D1 H1), (same_space_meet _ f s qfs Hf Hs Z3 D3 H3).
  rewrite (meet_neg_coplanar _ _ _ _ H1), (meet_neg_coplanar _ _ _ _ H2), (meet_neg_coplanar _ _ _ _ H3). rewrite !se3_new_R. unfold across, offset.
  f_equal; f_equal; try lin; generalize (vsub qcs ftoc) (vsub qcf stoc) (vadd qfs ftoc); intros; lin_unfold; lin_split; unfold lit; rnum; cbn [IZR]; unfold Rdiv; field.
Qed.
(** Perfect data: all three bearings point at one point. *)
Lemma three_view_perfect (q ftoc stoc : rvec3) : q <> vzero -> q <> ftoc -> q <> stoc ->
  three_view_gradients (normalize q) (normalize (vsub q ftoc)) ftoc (normalize (vsub q stoc)) stoc = (se3_id, se3_id).
Proof.
  intros Hq Hf Hs. assert (vsub q ftoc <> vzero) as Hf' by (intros E; apply Hf, vsub_zero, E). assert (vsub q stoc <> vzero) as Hs' by (intros E; apply Hs, vsub_zero, E).
  apply (three_view_pairwise _ _ _ _ _ q q (vsub q ftoc)); try (apply normalize_unit; assumption).
  - exists (norm q), (norm (vsub q ftoc)). rewrite !normalize_scale by assumption. repeat split; try (apply norm_pos; assumption). lin.
  - exists (norm q), (norm (vsub q stoc)). rewrite !normalize_scale by assumption. repeat split; try (apply norm_pos; assumption). lin.
  - exists (norm (vsub q ftoc)), (norm (vsub q stoc)). rewrite !normalize_scale by assumption. repeat split; try (apply norm_pos; assumption). lin.
Qed.
Lemma mirrored_case : exists c f ftoc s stoc qcf qcs qfs : rvec3, unit_vec c /\ unit_vec f /\ unit_vec s /\
  cross c f <> vzero /\ cross c s <> vzero /\ cross f s <> vzero /\ 0 <= dot c f /\ 0 <= dot c s /\ 0 <= dot f s /\
  meet_at (vneg ftoc) c f qcf /\ meet_at (vneg stoc) c s qcs /\ meet_at (vneg (vsub stoc ftoc)) f s qfs.
Proof.
  exists (V3 0 0 1), (V3 (-3/5) 0 (4/5)), (V3 (-3) 0 0), (V3 0 (-3/5) (4/5)), (V3 0 (-3) 0), (V3 0 0 4), (V3 0 0 4), (V3 (-3) 0 4).
  repeat match goal with |- _ /\ _ => split end; try (unfold unit_vec; lin_unfold; rlra); try (lin_unfold; intros [= H1 H2 H3]; lra).
  - exists 4, 5. repeat split; try lra; lin_unfold; lin_split; rlra.
  - exists 4, 5. repeat split; try lra; lin_unfold; lin_split; rlra.
  - exists 5, 5. repeat split; try lra; lin_unfold; lin_split; rlra.
Qed.
