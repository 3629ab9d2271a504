(** Facts about exact linear algebra. *)
From Coq Require Import Reals Lra Psatz Nsatz.
From Verif Require Import Num Lin LinSpec.
Open Scope R_scope.

Ltac lin_unfold :=
  cbv beta iota zeta delta [iso_point iso_homogeneous iso_inv iso_mul iso_id axis_angle trans_homogeneous mat_homogeneous
    hmmul hmadd hmvec hmzero hid hcol1 hcol2 hcol3 hcol4 cross_matrix mdiag outer det trace
    mneg mscale msub madd mmul mvec mtrans col1 col2 col3 mid mzero
    of_point xyz hdot hdiv hadd hscale hneg hzero norm2 cross dot vdiv vscale vneg vsub vadd vzero
    vx vy vz hx hy hz hw row1 row2 row3 hrow1 hrow2 hrow3 hrow4 rot trans] in *;
  rnum.
Ltac lin_destruct :=
  repeat match goal with
  | x : vec3 _ |- _ => destruct x
  | x : rvec3 |- _ => destruct x
  | x : vec4 _ |- _ => destruct x
  | x : rvec4 |- _ => destruct x
  | x : mat3 _ |- _ => destruct x
  | x : rmat3 |- _ => destruct x
  | x : mat4 _ |- _ => destruct x
  | x : iso _ |- _ => destruct x
  | x : riso |- _ => destruct x
  end.
Ltac lin_split :=
  repeat match goal with
  | |- V3 _ _ _ = V3 _ _ _ => apply (f_equal3 V3)
  | |- V4 _ _ _ _ = V4 _ _ _ _ => apply (f_equal4 V4)
  | |- M3 _ _ _ = M3 _ _ _ => apply (f_equal3 M3)
  | |- M4 _ _ _ _ = M4 _ _ _ _ => apply (f_equal4 M4)
  | |- Iso _ _ = Iso _ _ => apply (f_equal2 Iso)
  end.
Ltac rnum_eq := rnum; try change (carrier RNum) with R in *.
Ltac rring := rnum_eq; first [ring | apply Rminus_diag_uniq; ring].
Ltac rfield := rnum_eq; field.
Ltac rnsatz := rnum_eq; nsatz.
Ltac rlra := rnum_eq; lra.
Ltac rnra := rnum_eq; nra.
Ltac lin := intros; lin_destruct; lin_unfold; lin_split; rring.

Lemma mmul_assoc (A B C : rmat3) : mmul A (mmul B C) = mmul (mmul A B) C.
Proof. lin. Qed.
Lemma mmul_id_l (A : rmat3) : mmul mid A = A. Proof. lin. Qed.
Lemma mmul_id_r (A : rmat3) : mmul A mid = A. Proof. lin. Qed.
Lemma mvec_mmul (A B : rmat3) (v : rvec3) : mvec (mmul A B) v = mvec A (mvec B v). Proof. lin. Qed.
Lemma mvec_id (v : rvec3) : mvec mid v = v. Proof. lin. Qed.
Lemma mtrans_mmul (A B : rmat3) : mtrans (mmul A B) = mmul (mtrans B) (mtrans A). Proof. lin. Qed.
Lemma mtrans_mtrans (A : rmat3) : mtrans (mtrans A) = A. Proof. lin. Qed.
Lemma mtrans_id : mtrans (mid : rmat3) = mid. Proof. reflexivity. Qed.
Lemma det_mmul (A B : rmat3) : det (mmul A B) = det A * det B. Proof. lin. Qed.
Lemma det_mtrans (A : rmat3) : det (mtrans A) = det A. Proof. lin. Qed.
Lemma det_id : det (mid : rmat3) = 1. Proof. lin. Qed.
Lemma dot_comm (u v : rvec3) : dot u v = dot v u. Proof. lin. Qed.
Lemma dot_mvec (A : rmat3) (u v : rvec3) : dot (mvec A u) v = dot u (mvec (mtrans A) v). Proof. lin. Qed.
Lemma mvec_add (A : rmat3) (u v : rvec3) : mvec A (vadd u v) = vadd (mvec A u) (mvec A v). Proof. lin. Qed.
Lemma mvec_sub (A : rmat3) (u v : rvec3) : mvec A (vsub u v) = vsub (mvec A u) (mvec A v). Proof. lin. Qed.
Lemma mvec_neg (A : rmat3) (u : rvec3) : mvec A (vneg u) = vneg (mvec A u). Proof. lin. Qed.
Lemma mvec_scale (A : rmat3) (s : R) (u : rvec3) : mvec A (vscale s u : rvec3) = vscale s (mvec A u). Proof. lin. Qed.
Lemma mvec_zero (A : rmat3) : mvec A (vzero : rvec3) = vzero. Proof. lin. Qed.
Lemma vadd_comm (u v : rvec3) : vadd u v = vadd v u. Proof. lin. Qed.
Lemma vadd_assoc (u v w : rvec3) : vadd u (vadd v w) = vadd (vadd u v) w. Proof. lin. Qed.
Lemma vadd_zero_l (u : rvec3) : vadd vzero u = u. Proof. lin. Qed.
Lemma vadd_zero_r (u : rvec3) : vadd u vzero = u. Proof. lin. Qed.
Lemma vadd_neg_r (u : rvec3) : vadd u (vneg u) = vzero. Proof. lin. Qed.
Lemma vadd_neg_l (u : rvec3) : vadd (vneg u) u = vzero. Proof. lin. Qed.
Lemma vsub_neg (u v : rvec3) : vsub u v = vadd u (vneg v). Proof. lin. Qed.
Lemma vneg_neg (u : rvec3) : vneg (vneg u) = u. Proof. lin. Qed.
Lemma vneg_scale (u : rvec3) : vneg u = vscale (-1 : R) u. Proof. lin. Qed.
Lemma vdiv_scale (u : rvec3) (s : R) : vdiv u s = vscale (/ s : R) u.
Proof. destruct u. reflexivity. Qed.
Lemma vscale_scale (a b : R) (u : rvec3) : vscale a (vscale b u) = vscale (a * b : R) u. Proof. lin. Qed.
Lemma vscale_one (u : rvec3) : vscale (1 : R) u = u. Proof. lin. Qed.
Lemma vscale_zero (u : rvec3) : vscale (0 : R) u = vzero. Proof. lin. Qed.
Lemma vscale_add (s : R) (u v : rvec3) : vscale s (vadd u v) = vadd (vscale s u) (vscale s v). Proof. lin. Qed.
Lemma vscale_sub (s : R) (u v : rvec3) : vscale s (vsub u v) = vsub (vscale s u) (vscale s v). Proof. lin. Qed.
Lemma dot_scale_l (s : R) (u v : rvec3) : dot (vscale s u) v = s * dot u v. Proof. lin. Qed.
Lemma dot_scale_r (s : R) (u v : rvec3) : dot u (vscale s v) = s * dot u v. Proof. lin. Qed.
Lemma dot_add_l (u v w : rvec3) : dot (vadd u v) w = dot u w + dot v w. Proof. lin. Qed.
Lemma dot_add_r (u v w : rvec3) : dot u (vadd v w) = dot u v + dot u w. Proof. lin. Qed.
Lemma dot_sub_l (u v w : rvec3) : dot (vsub u v) w = dot u w - dot v w. Proof. lin. Qed.
Lemma dot_sub_r (u v w : rvec3) : dot u (vsub v w) = dot u v - dot u w. Proof. lin. Qed.
Lemma dot_neg_l (u v : rvec3) : dot (vneg u) v = - dot u v. Proof. lin. Qed.
Lemma dot_neg_r (u v : rvec3) : dot u (vneg v) = - dot u v. Proof. lin. Qed.
Lemma dot_zero_l (u : rvec3) : dot vzero u = 0. Proof. lin. Qed.
Lemma dot_zero_r (u : rvec3) : dot u vzero = 0. Proof. lin. Qed.
Lemma cross_self (u : rvec3) : cross u u = vzero. Proof. lin. Qed.
Lemma cross_anti (u v : rvec3) : cross u v = vneg (cross v u). Proof. lin. Qed.
Lemma cross_scale_l (s : R) (u v : rvec3) : cross (vscale s u) v = vscale s (cross u v). Proof. lin. Qed.
Lemma cross_scale_r (s : R) (u v : rvec3) : cross u (vscale s v) = vscale s (cross u v). Proof. lin. Qed.
Lemma cross_add_l (u v w : rvec3) : cross (vadd u v) w = vadd (cross u w) (cross v w). Proof. lin. Qed.
Lemma cross_add_r (u v w : rvec3) : cross u (vadd v w) = vadd (cross u v) (cross u w). Proof. lin. Qed.
Lemma dot_cross_l (u v : rvec3) : dot u (cross u v) = 0. Proof. lin. Qed.
Lemma dot_cross_r (u v : rvec3) : dot v (cross u v) = 0. Proof. lin. Qed.
Lemma dot_cross_swap (u v w : rvec3) : dot u (cross v w) = dot (cross u v) w. Proof. lin. Qed.
Lemma lagrange (u v : rvec3) : norm2 (cross u v) = norm2 u * norm2 v - dot u v * dot u v. Proof. lin. Qed.
Lemma triple_cross (u v w : rvec3) : cross u (cross v w) = vsub (vscale (dot u w) v) (vscale (dot u v) w). Proof. lin. Qed.
Lemma mvec_cross_matrix (u v : rvec3) : mvec (cross_matrix u) v = cross u v. Proof. lin. Qed.
Lemma norm2_scale (s : R) (u : rvec3) : norm2 (vscale s u) = s * s * norm2 u. Proof. lin. Qed.
Lemma norm2_neg (u : rvec3) : norm2 (vneg u) = norm2 u. Proof. lin. Qed.
Lemma norm2_sub (u v : rvec3) : norm2 (vsub u v) = norm2 u - 2 * dot u v + norm2 v. Proof. lin. Qed.
Lemma norm2_add (u v : rvec3) : norm2 (vadd u v) = norm2 u + 2 * dot u v + norm2 v. Proof. lin. Qed.
Lemma norm2_dot (u : rvec3) : norm2 u = dot u u. Proof. reflexivity. Qed.

(** ** Lengths *)
Lemma norm2_nonneg (u : rvec3) : 0 <= norm2 u.
Proof. lin_destruct. lin_unfold. rnra. Qed.
Lemma norm2_zero (u : rvec3) : norm2 u = 0 -> u = vzero.
Proof. lin_destruct. lin_unfold. intros H. lin_split; rnra. Qed.
Lemma norm2_pos (u : rvec3) : u <> vzero -> 0 < norm2 u.
Proof. intros H. pose proof (norm2_nonneg u) as H0. destruct (Req_dec (norm2 u) 0) as [E|E]; [|rlra]. apply norm2_zero in E. contradiction. Qed.
Lemma norm_nonneg (u : rvec3) : 0 <= norm u.
Proof. apply sqrt_pos. Qed.
Lemma norm_sq (u : rvec3) : norm u * norm u = norm2 u.
Proof. apply sqrt_sqrt, norm2_nonneg. Qed.
Lemma norm_zero (u : rvec3) : norm u = 0 -> u = vzero.
Proof. intros H. apply norm2_zero. rewrite <- norm_sq, H. rring. Qed.
Lemma norm_pos (u : rvec3) : u <> vzero -> 0 < norm u.
Proof. intros H. apply sqrt_lt_R0, norm2_pos, H. Qed.
Lemma norm_unit (u : rvec3) : unit_vec u -> norm u = 1.
Proof. intros H. unfold norm, unit_vec in *. rewrite H. exact sqrt_1. Qed.
Lemma norm_scale (s : R) (u : rvec3) : norm (vscale s u) = Rabs s * norm u.
Proof.
  unfold norm. rewrite norm2_scale. change (@sqrt_ RNum) with sqrt. rewrite sqrt_mult; [|rnra|apply norm2_nonneg]. f_equal.
  rewrite <- sqrt_Rsqr_abs. reflexivity.
Qed.
Lemma norm_neg (u : rvec3) : norm (vneg u) = norm u.
Proof. unfold norm. rewrite norm2_neg. reflexivity. Qed.
Lemma normalize_unit (u : rvec3) : u <> vzero -> unit_vec (normalize u).
Proof.
  intros H. unfold unit_vec, normalize. rewrite vdiv_scale, norm2_scale, <- norm_sq. pose proof (norm_pos u H). rfield. rlra.
Qed.
Lemma normalize_of_unit (u : rvec3) : unit_vec u -> normalize u = u.
Proof. intros H. unfold normalize. rewrite (norm_unit u H), vdiv_scale, Rinv_1. apply vscale_one. Qed.
Lemma normalize_scale (u : rvec3) : u <> vzero -> vscale (norm u) (normalize u) = u.
Proof. intros H. unfold normalize. rewrite vdiv_scale, vscale_scale, Rinv_r; [apply vscale_one|]. pose proof (norm_pos u H). rlra. Qed.
Lemma normalize_pos_scale (s : R) (u : rvec3) : 0 < s -> normalize (vscale s u) = normalize u.
Proof.
  intros Hs. unfold normalize. rewrite norm_scale, Rabs_pos_eq by rlra. rewrite !vdiv_scale, vscale_scale.
  destruct (Req_dec (norm u) 0) as [E|E].
  - apply norm_zero in E as ->. lin.
  - f_equal. rfield. rlra.
Qed.
Lemma unit_not_zero (u : rvec3) : unit_vec u -> u <> vzero.
Proof. intros H ->. unfold unit_vec in H. lin_unfold. rlra. Qed.

(** Cauchy-Schwarz and its equality cases. *)
Lemma cauchy (u v : rvec3) : dot u v * dot u v <= norm2 u * norm2 v.
Proof. pose proof (lagrange u v). pose proof (norm2_nonneg (cross u v)). rlra. Qed.
Lemma unit_dot_bounds (u v : rvec3) : unit_vec u -> unit_vec v -> -1 <= dot u v <= 1.
Proof. intros Hu Hv. pose proof (cauchy u v) as H. unfold unit_vec in *. rewrite Hu, Hv in H. rnra. Qed.
Lemma vsub_zero (u v : rvec3) : vsub u v = vzero -> u = v.
Proof. lin_destruct. lin_unfold. intros [= H1 H2 H3]. lin_split; rlra. Qed.
Lemma unit_dot_one (u v : rvec3) : unit_vec u -> unit_vec v -> (dot u v = 1 <-> u = v).
Proof.
  intros Hu Hv. unfold unit_vec in *. split.
  - intros H. apply vsub_zero, norm2_zero. rewrite norm2_sub, Hu, Hv, H. rring.
  - intros <-. exact Hu.
Qed.
Lemma unit_neg (u : rvec3) : unit_vec u -> unit_vec (vneg u).
Proof. unfold unit_vec. rewrite norm2_neg. auto. Qed.

(** ** Rotations *)
Definition adjugate (A : rmat3) : rmat3 :=
  mtrans (M3 (cross (row2 A) (row3 A)) (cross (row3 A) (row1 A)) (cross (row1 A) (row2 A))).
Lemma mmul_adjugate (A : rmat3) : mmul A (adjugate A) = mscale (det A) mid.
Proof. unfold adjugate. lin. Qed.
Lemma mscale_mmul_r (s : R) (A B : rmat3) : mmul A (mscale s B) = mscale s (mmul A B).
Proof. lin. Qed.
Lemma mscale_one (A : rmat3) : mscale (1 : R) A = A.
Proof. lin. Qed.

Lemma rotation_adjugate (A : rmat3) : rotation A -> adjugate A = mtrans A.
Proof.
  intros [H1 H2]. rewrite <- (mmul_id_l (adjugate A)), <- H1, <- mmul_assoc, mmul_adjugate, H2, mscale_one. apply mmul_id_r.
Qed.
Lemma rotation_right (A : rmat3) : rotation A -> mmul A (mtrans A) = mid.
Proof. intros H. rewrite <- (rotation_adjugate A H), mmul_adjugate. destruct H as [_ ->]. apply mscale_one. Qed.
Lemma rotation_id : rotation mid.
Proof. split; [apply mmul_id_r|apply det_id]. Qed.
Lemma rotation_mmul (A B : rmat3) : rotation A -> rotation B -> rotation (mmul A B).
Proof.
  intros [HA1 HA2] [HB1 HB2]. split.
  - rewrite mtrans_mmul, <- mmul_assoc, (mmul_assoc (mtrans A)), HA1, mmul_id_l. exact HB1.
  - rewrite det_mmul, HA2, HB2. rring.
Qed.
Lemma rotation_mtrans (A : rmat3) : rotation A -> rotation (mtrans A).
Proof. intros H. split; [rewrite mtrans_mtrans; apply rotation_right, H|rewrite det_mtrans; apply H]. Qed.
Lemma rotation_back (A : rmat3) (v : rvec3) : rotation A -> mvec (mtrans A) (mvec A v) = v.
Proof. intros [H _]. rewrite <- mvec_mmul, H. apply mvec_id. Qed.
Lemma rotation_forth (A : rmat3) (v : rvec3) : rotation A -> mvec A (mvec (mtrans A) v) = v.
Proof. intros H. rewrite <- mvec_mmul, (rotation_right A H). apply mvec_id. Qed.
Lemma rotation_dot (A : rmat3) (u v : rvec3) : rotation A -> dot (mvec A u) (mvec A v) = dot u v.
Proof. intros H. rewrite dot_mvec, (rotation_back A v H). reflexivity. Qed.
Lemma rotation_norm2 (A : rmat3) (u : rvec3) : rotation A -> norm2 (mvec A u) = norm2 u.
Proof. intros H. apply rotation_dot, H. Qed.
Lemma rotation_norm (A : rmat3) (u : rvec3) : rotation A -> norm (mvec A u) = norm u.
Proof. intros H. unfold norm. rewrite (rotation_norm2 A u H). reflexivity. Qed.
Lemma rotation_unit (A : rmat3) (u : rvec3) : rotation A -> unit_vec u -> unit_vec (mvec A u).
Proof. intros H. unfold unit_vec. rewrite (rotation_norm2 A u H). auto. Qed.
Lemma rotation_zero (A : rmat3) (u : rvec3) : rotation A -> mvec A u = vzero -> u = vzero.
Proof. intros H E. apply norm2_zero. rewrite <- (rotation_norm2 A u H), E. lin. Qed.
Lemma cross_mvec (A : rmat3) (u v : rvec3) : mvec (mtrans (adjugate A)) (cross u v) = cross (mvec A u) (mvec A v).
Proof. unfold adjugate. lin. Qed.
Lemma rotation_cross (A : rmat3) (u v : rvec3) : rotation A -> mvec A (cross u v) = cross (mvec A u) (mvec A v).
Proof. intros H. rewrite <- cross_mvec, (rotation_adjugate A H), mtrans_mtrans. reflexivity. Qed.
Lemma normalize_rotation (A : rmat3) (u : rvec3) : rotation A -> normalize (mvec A u) = mvec A (normalize u).
Proof. intros H. unfold normalize. rewrite (rotation_norm A u H), !vdiv_scale, mvec_scale. reflexivity. Qed.

Lemma axis_angle_rotation (u : rvec3) (s c : R) : unit_vec u -> s * s + c * c = 1 -> rotation (axis_angle u s c).
Proof.
  destruct u as [x y z]. unfold unit_vec, rotation. lin_unfold. intros Hu Hsc.
  assert (z * z = 1 - x * x - y * y) as Hz by rlra. assert (s * s = 1 - c * c) as Hs by rlra. split; [lin_split|]; rnsatz.
Qed.
Lemma axis_angle_trace (u : rvec3) (s c : R) : unit_vec u -> trace (axis_angle u s c) = 1 + 2 * c.
Proof. destruct u as [x y z]. unfold unit_vec. lin_unfold. intros Hu. rnsatz. Qed.

(** ** Isometries *)
Lemma iso_mul_assoc (a b c : riso) : iso_mul a (iso_mul b c) = iso_mul (iso_mul a b) c. Proof. lin. Qed.
Lemma iso_mul_id_l (a : riso) : iso_mul iso_id a = a. Proof. lin. Qed.
Lemma iso_mul_id_r (a : riso) : iso_mul a iso_id = a. Proof. lin. Qed.
Lemma iso_inv_l (a : riso) : rigid a -> iso_mul (iso_inv a) a = iso_id.
Proof.
  intros [H _]. unfold iso_mul, iso_inv, iso_id. cbn [rot trans]. f_equal; [exact H|]. rewrite mvec_neg. apply vadd_neg_l.
Qed.
Lemma iso_inv_r (a : riso) : rigid a -> iso_mul a (iso_inv a) = iso_id.
Proof.
  intros H. unfold iso_mul, iso_inv, iso_id. cbn [rot trans]. f_equal; [apply rotation_right, H|]. rewrite rotation_forth by exact H. apply vadd_neg_r.
Qed.
Lemma rigid_id : rigid iso_id. Proof. apply rotation_id. Qed.
Lemma rigid_mul (a b : riso) : rigid a -> rigid b -> rigid (iso_mul a b). Proof. apply rotation_mmul. Qed.
Lemma rigid_inv (a : riso) : rigid a -> rigid (iso_inv a). Proof. apply rotation_mtrans. Qed.
Lemma iso_point_mul (a b : riso) (v : rvec3) : iso_point (iso_mul a b) v = iso_point a (iso_point b v). Proof. lin. Qed.
Lemma iso_point_id (v : rvec3) : iso_point iso_id v = v. Proof. lin. Qed.
Lemma iso_point_inv_l (a : riso) (v : rvec3) : rigid a -> iso_point (iso_inv a) (iso_point a v) = v.
Proof. intros H. rewrite <- iso_point_mul, (iso_inv_l a H). apply iso_point_id. Qed.
Lemma iso_point_inv_r (a : riso) (v : rvec3) : rigid a -> iso_point a (iso_point (iso_inv a) v) = v.
Proof. intros H. rewrite <- iso_point_mul, (iso_inv_r a H). apply iso_point_id. Qed.
Lemma iso_distance (a : riso) (u v : rvec3) : rigid a -> distance (iso_point a u) (iso_point a v) = distance u v.
Proof.
  intros H. unfold distance. replace (vsub (iso_point a u) (iso_point a v)) with (mvec (rot a) (vsub u v)) by lin. apply rotation_norm, H.
Qed.
Lemma iso_unique (a b : riso) : (forall v, iso_point a v = iso_point b v) -> a = b.
Proof.
  intros H. pose proof (H vzero) as H0. pose proof (H (V3 1 0 0 : rvec3)) as H1. pose proof (H (V3 0 1 0 : rvec3)) as H2. pose proof (H (V3 0 0 1 : rvec3)) as H3.
  lin_destruct. lin_unfold. injection H0 as ? ? ?. injection H1 as ? ? ?. injection H2 as ? ? ?. injection H3 as ? ? ?. lin_split; rlra.
Qed.
