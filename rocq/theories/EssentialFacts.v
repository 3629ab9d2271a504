(** Facts about the decomposition of essential matrices. *)
From Coq Require Import Reals Lra Psatz List ZArith Lia.
From Verif Require Import Num Lin LinSpec LinFacts Core CoreSpec CoreFacts Pinhole PinholeSpec PinholeFacts.
Import ListNotations.
Open Scope R_scope.

Lemma mat_ext (A B : rmat3) : (forall v, mvec A v = mvec B v) -> A = B.
Proof.
  intros H. pose proof (H (V3 1 0 0)) as H1. pose proof (H (V3 0 1 0)) as H2. pose proof (H (V3 0 0 1)) as H3. clear H.
  destruct A as [[a1 a2 a3] [a4 a5 a6] [a7 a8 a9]], B as [[b1 b2 b3] [b4 b5 b6] [b7 b8 b9]]. lin_unfold. injection H1 as H11 H12 H13. injection H2 as H21 H22 H23. injection H3 as H31 H32 H33.
  lin_split; rlra.
Qed.
Lemma trace_comm (A B : rmat3) : trace (mmul A B) = trace (mmul B A). Proof. lin. Qed.
Lemma mneg_mneg (A : rmat3) : mneg (mneg A) = A. Proof. lin. Qed.
Lemma orthogonal_det (A : rmat3) : orthogonal A -> det A = 1 \/ det A = -1.
Proof. intros H. apply (f_equal det) in H. rewrite det_mmul, det_mtrans, det_id in H. assert ((det A - 1) * (det A + 1) = 0) as H2 by rlra. apply Rmult_integral in H2 as [H2|H2]; [left|right]; rlra. Qed.
Lemma orthogonal_right (A : rmat3) : orthogonal A -> mmul A (mtrans A) = mid.
Proof.
  intros H. destruct (orthogonal_det A H) as [D|D]; [apply rotation_right; split; assumption|].
  assert (rotation (mneg A)) as Hr. { split; [rewrite <- H; lin|]. transitivity (- det A); [lin|rlra]. }
  apply rotation_right in Hr. rewrite <- Hr. lin.
Qed.
Lemma orthogonal_mtrans (A : rmat3) : orthogonal A -> orthogonal (mtrans A).
Proof. intros H. unfold orthogonal. rewrite mtrans_mtrans. apply orthogonal_right, H. Qed.

Definition fix_u (u : rmat3) : rmat3 := if Rltb (det u) 0 then negate_col3 u else u.
Definition fix_v (v : rmat3) : rmat3 := if Rltb (det v) 0 then negate_row3 v else v.
Lemma negate_col3_mul (u : rmat3) : negate_col3 u = mmul u (mdiag (V3 1 1 (-1))).
Proof. unfold negate_col3. destruct u as [[a1 a2 a3] [a4 a5 a6] [a7 a8 a9]]. lin_unfold. lin_split; rring. Qed.
Lemma negate_row3_mul (u : rmat3) : negate_row3 u = mmul (mdiag (V3 1 1 (-1))) u.
Proof. unfold negate_row3. destruct u as [[a1 a2 a3] [a4 a5 a6] [a7 a8 a9]]. lin_unfold. lin_split; rring. Qed.
Lemma flip_square : mmul (mdiag (V3 1 1 (-1))) (mdiag (V3 1 1 (-1))) = (mid : rmat3). Proof. lin. Qed.
Lemma flip_trans : mtrans (mdiag (V3 1 1 (-1)) : rmat3) = mdiag (V3 1 1 (-1)). Proof. lin. Qed.
Lemma flip_det : det (mdiag (V3 1 1 (-1)) : rmat3) = -1. Proof. lin. Qed.
Lemma fix_u_rotation u : orthogonal u -> rotation (fix_u u).
Proof.
  intros H. unfold fix_u. destruct (Rltb (det u) 0) eqn:E; [apply Rltb_spec in E|apply Rltb_false in E]; destruct (orthogonal_det u H) as [D|D]; try rlra; [|split; assumption].
  rewrite negate_col3_mul. split; [|rewrite det_mmul, flip_det; rlra].
  rewrite mtrans_mmul, flip_trans, <- mmul_assoc, (mmul_assoc (mtrans u) u), H, mmul_id_l. apply flip_square.
Qed.
Lemma fix_v_rotation u : orthogonal u -> rotation (fix_v u).
Proof.
  intros H. unfold fix_v. destruct (Rltb (det u) 0) eqn:E; [apply Rltb_spec in E|apply Rltb_false in E]; destruct (orthogonal_det u H) as [D|D]; try rlra; [|split; assumption].
  rewrite negate_row3_mul. split; [|rewrite det_mmul, flip_det; rlra].
  rewrite mtrans_mmul, flip_trans, <- mmul_assoc, (mmul_assoc _ _ u), flip_square, mmul_id_l. exact H.
Qed.
Lemma flip_free_u (u : rmat3) (a b : R) : mmul (fix_u u) (mdiag (V3 a b 0)) = mmul u (mdiag (V3 a b 0)).
Proof. unfold fix_u. destruct (Rltb _ _); [|reflexivity]. rewrite negate_col3_mul, <- mmul_assoc. f_equal. lin. Qed.
Lemma flip_free_v (u v : rmat3) (a b : R) : mmul (mmul u (mdiag (V3 a b 0))) (fix_v v) = mmul (mmul u (mdiag (V3 a b 0))) v.
Proof. unfold fix_v. destruct (Rltb _ _); [|reflexivity]. rewrite negate_row3_mul, mmul_assoc. f_equal. rewrite <- mmul_assoc. f_equal. lin. Qed.

(** The singular values of an essential matrix, and conversely. *)
Lemma orth_cancel_l (u A : rmat3) : orthogonal u -> mmul (mtrans u) (mmul u A) = A.
Proof. intros H. rewrite mmul_assoc, H. apply mmul_id_l. Qed.
Lemma orth_cancel_l' (u A : rmat3) : orthogonal u -> mmul u (mmul (mtrans u) A) = A.
Proof. intros H. rewrite mmul_assoc, orthogonal_right by exact H. apply mmul_id_l. Qed.
Lemma orth_cancel_r (u A : rmat3) : orthogonal u -> mmul (mmul A u) (mtrans u) = A.
Proof. intros H. rewrite <- mmul_assoc, orthogonal_right by exact H. apply mmul_id_r. Qed.
Lemma orth_cancel_r' (u A : rmat3) : orthogonal u -> mmul (mmul A (mtrans u)) u = A.
Proof. intros H. rewrite <- mmul_assoc, H. apply mmul_id_r. Qed.
Lemma mdiag_trans (s : rvec3) : mtrans (mdiag s) = mdiag s. Proof. lin. Qed.
Lemma svd_gram (u vt : rmat3) (s : rvec3) : orthogonal vt ->
  mmul (mmul (mmul u (mdiag s)) vt) (mtrans (mmul (mmul u (mdiag s)) vt)) = mmul (mmul u (mmul (mdiag s) (mdiag s))) (mtrans u).
Proof.
  intros Hv. rewrite !mtrans_mmul, mdiag_trans, mmul_assoc, orth_cancel_r by exact Hv. rewrite !mmul_assoc. reflexivity.
Qed.
Lemma svd_trace (u vt : rmat3) (s : rvec3) : orthogonal u -> orthogonal vt ->
  trace (mmul (mmul (mmul u (mdiag s)) vt) (mtrans (mmul (mmul u (mdiag s)) vt))) = norm2 s.
Proof. intros Hu Hv. rewrite svd_gram by exact Hv. rewrite trace_comm, orth_cancel_l by exact Hu. lin. Qed.
Lemma svd_cube (u vt : rmat3) (s : rvec3) : orthogonal u -> orthogonal vt ->
  let E := mmul (mmul u (mdiag s)) vt in
  mmul (mmul E (mtrans E)) E = mmul (mmul u (mmul (mdiag s) (mmul (mdiag s) (mdiag s)))) vt.
Proof.
  intros Hu Hv E. unfold E at 1 2. rewrite svd_gram by exact Hv. unfold E. rewrite !mmul_assoc. rewrite orth_cancel_r' by exact Hu. reflexivity.
Qed.
Lemma svd_det (u vt : rmat3) (s : rvec3) : det (mmul (mmul u (mdiag s)) vt) = det u * (vx s * vy s * vz s) * det vt.
Proof. rewrite !det_mmul. assert (det (mdiag s) = vx s * vy s * vz s) as -> by lin. reflexivity. Qed.
Lemma mscale_conj (c : R) (u A vt : rmat3) : mscale c (mmul (mmul u A) vt) = mmul (mmul u (mscale c A)) vt. Proof. lin. Qed.
Lemma conj_inj (u vt A B : rmat3) : orthogonal u -> orthogonal vt -> mmul (mmul u A) vt = mmul (mmul u B) vt -> A = B.
Proof.
  intros Hu Hv H. rewrite <- (orth_cancel_l u A Hu), <- (orth_cancel_l u B Hu). f_equal. rewrite <- (orth_cancel_r vt (mmul u A) Hv), H. apply orth_cancel_r, Hv.
Qed.
Lemma essential_svd (u vt : rmat3) (s : rvec3) : orthogonal u -> orthogonal vt ->
  essential (mmul (mmul u (mdiag s)) vt) <->
  vx s * vy s * vz s = 0 /\ 2 * (vx s * vx s * vx s) = norm2 s * vx s /\ 2 * (vy s * vy s * vy s) = norm2 s * vy s /\ 2 * (vz s * vz s * vz s) = norm2 s * vz s.
Proof.
  intros Hu Hv. unfold essential. rewrite svd_det, svd_cube, svd_trace by assumption. rewrite !mscale_conj.
  assert (det u * (vx s * vy s * vz s) * det vt = 0 <-> vx s * vy s * vz s = 0) as ->.
  { destruct (orthogonal_det u Hu) as [-> | ->], (orthogonal_det vt Hv) as [-> | ->]; split; intros; rlra. }
  assert (mmul (mmul u (mscale 2 (mmul (mdiag s) (mmul (mdiag s) (mdiag s))))) vt = mmul (mmul u (mscale (norm2 s) (mdiag s))) vt <->
    2 * (vx s * vx s * vx s) = norm2 s * vx s /\ 2 * (vy s * vy s * vy s) = norm2 s * vy s /\ 2 * (vz s * vz s * vz s) = norm2 s * vz s) as Hc.
  { split.
    - intros H. apply conj_inj in H; [|assumption..]. destruct s as [a b c]. lin_unfold. injection H as H1 _ _ _ H2 _ _ _ H3. repeat split; rlra.
    - intros (H1 & H2 & H3). do 2 f_equal. destruct s as [a b c]. lin_unfold. lin_split; try rring; rlra. }
  rewrite Hc. reflexivity.
Qed.
Lemma essential_singular_values E u s vt : essential E -> svd_correct E (u, s, vt) -> vx s = vy s /\ vz s = 0.
Proof.
  intros HE (Hu & Hv & -> & [H0 H1] & H2). apply essential_svd in HE; [|assumption..]. destruct HE as (Hd & Hx & Hy & _). destruct s as [a b c]. cbn [vx vy vz] in *.
  unfold norm2, dot in *. cbn [vx vy vz] in *. rnum.
  assert (c = 0) as ->. { destruct (Rle_lt_or_eq_dec 0 c H0) as [Hc|Hc]; [|auto]. assert (0 < a * b * c) by (apply Rmult_lt_0_compat; [apply Rmult_lt_0_compat|]; lra). lra. }
  split; [|reflexivity]. destruct (Req_dec a 0) as [->|Ha]; [lra|].
  assert (a * a = b * b). { apply Rmult_eq_reg_r with a; [|exact Ha]. nra. }
  assert ((a - b) * (a + b) = 0) as H3 by nra. apply Rmult_integral in H3 as [H3|H3]; lra.
Qed.

(** ** Reconditioning *)
Lemma recondition_essential try_svd E u s vt : try_svd E = Some (u, s, vt) -> orthogonal u -> orthogonal vt ->
  exists E', recondition try_svd E = Some E' /\ essential E'.
Proof.
  intros H Hu Hv. unfold recondition. rewrite H. eexists. split; [reflexivity|]. apply essential_svd; [assumption..|]. cbn [vx vy vz]. unfold norm2, dot. cbn [vx vy vz]. rnum. repeat split; ring.
Qed.
Lemma recondition_fixed try_svd E d : try_svd E = Some d -> svd_correct E d -> essential E -> recondition try_svd E = Some E.
Proof.
  intros H Hd HE. destruct d as [[u s] vt]. destruct (essential_singular_values E u s vt HE Hd) as [H1 H2]. destruct Hd as (_ & _ & Ed & _). unfold recondition. rewrite H. f_equal. rewrite Ed.
  destruct s as [a b c]. cbn [vx vy vz] in *. subst. unfold two. rnum. do 3 f_equal. apply (f_equal3 V3); [| |reflexivity]; rfield.
Qed.

(** ** Recovering the pose *)
Lemma rotation_orthogonal A : rotation A -> orthogonal A. Proof. intros [H _]. exact H. Qed.
Lemma cross_matrix_conj (u : rmat3) (v : rvec3) : rotation u -> cross_matrix (mvec u v) = mmul (mmul u (cross_matrix v)) (mtrans u).
Proof. intros Hu. apply mat_ext. intros w. rewrite !mvec_mmul, !mvec_cross_matrix, rotation_cross, rotation_forth by exact Hu. reflexivity. Qed.
Lemma cross_matrix_scale (c : R) (v : rvec3) : cross_matrix (vscale c v) = mscale c (cross_matrix v). Proof. lin. Qed.
Lemma col3_mvec (u : rmat3) : col3 u = mvec u (V3 0 0 1). Proof. lin. Qed.
Lemma rotation_row3 (A : rmat3) : rotation A -> row3 A = cross (row1 A) (row2 A).
Proof. intros H. apply rotation_adjugate in H. apply (f_equal mtrans) in H. rewrite mtrans_mtrans in H. rewrite <- H at 1. unfold adjugate. destruct A as [[a1 a2 a3] [a4 a5 a6] [a7 a8 a9]]. lin_unfold. lin_split; rring. Qed.

(** A rotation whose product with the generator about the third axis is diagonal. *)
Lemma quarter_turn (Q : rmat3) (c m : R) : rotation Q -> m <> 0 -> mscale c (mmul (cross_matrix (V3 0 0 1)) Q) = mdiag (V3 m m 0) ->
  (c = m /\ Q = mtrans w_matrix) \/ (c = - m /\ Q = w_matrix) \/ (c <> m /\ c <> - m).
Proof.
  intros HQ Hm H. destruct (Req_dec c m) as [->|N1]; [left|destruct (Req_dec c (- m)) as [->|N2]; [right; left|right; right; auto]]; (split; [reflexivity|]).
  all: pose proof (rotation_row3 Q HQ) as H3; destruct Q as [[a1 a2 a3] [a4 a5 a6] [a7 a8 a9]]; unfold w_matrix; lin_unfold; injection H as E1 E2 E3 E4 E5 E6 _ _ _; injection H3 as F1 F2 F3;
    assert (forall x y : R, x * m = y * m -> x = y) as Hc by (intros x y Hxy; apply (Rmult_eq_reg_r m); [exact Hxy|exact Hm]).
  - assert (a4 = -1) as -> by (apply Hc; lra). assert (a5 = 0) as -> by (apply Hc; lra). assert (a6 = 0) as -> by (apply Hc; lra). assert (a1 = 0) as -> by (apply Hc; lra). assert (a2 = 1) as -> by (apply Hc; lra). assert (a3 = 0) as -> by (apply Hc; lra).
    subst. lin_split; rring.
  - assert (a4 = 1) as -> by (apply Hc; lra). assert (a5 = 0) as -> by (apply Hc; lra). assert (a6 = 0) as -> by (apply Hc; lra). assert (a1 = 0) as -> by (apply Hc; lra). assert (a2 = -1) as -> by (apply Hc; lra). assert (a3 = 0) as -> by (apply Hc; lra).
    subst. lin_split; rring.
Qed.

Lemma pose_recovery (p : riso) (u vt : rmat3) (m : R) : rigid p -> trans p <> vzero -> rotation u -> rotation vt -> 0 <= m ->
  essential_of p = mmul (mmul u (mdiag (V3 m m 0))) vt ->
  (trans p = vscale (norm (trans p)) (col3 u) /\ rot p = mmul (mmul u (mtrans w_matrix)) vt) \/
  (trans p = vscale (- norm (trans p)) (col3 u) /\ rot p = mmul (mmul u w_matrix) vt).
Proof.
  intros Hp Ht Hu Hv Hm HE. set (t := trans p) in *. pose proof (rotation_orthogonal u Hu) as Ou. pose proof (rotation_orthogonal vt Hv) as Ov.
  assert (m * m = norm2 t) as Hmt.
  { pose proof (svd_trace u vt (V3 m m 0) Ou Ov) as Htr. rewrite <- HE, essential_gram in Htr by exact Hp.
    assert (trace (mmul (cross_matrix (trans p)) (mtrans (cross_matrix (trans p)))) = 2 * norm2 t) as E2 by (unfold t; lin). assert (norm2 (V3 m m 0 : rvec3) = 2 * (m * m)) as E3 by lin. rlra. }
  pose proof (norm2_pos t Ht) as Hpos.
  assert (norm t = m) as Hn. { unfold norm. cbn [sqrt_ RNum]. rewrite <- Hmt. apply sqrt_square. exact Hm. }
  assert (m <> 0) as Hm0 by (intros ->; lra).
  assert (unit_vec (col3 u)) as Huu. { rewrite col3_mvec. apply rotation_unit; [exact Hu|]. unfold unit_vec. lin. }
  assert (cross t (col3 u) = vzero) as Hc.
  { assert (mvec (mtrans (essential_of p)) (col3 u) = vzero) as H0.
    { rewrite HE, !mtrans_mmul, mdiag_trans, !mvec_mmul, col3_mvec, rotation_back by exact Hu. assert (mvec (mdiag (V3 m m 0)) (V3 0 0 1) = (vzero : rvec3)) as -> by lin. apply mvec_zero. }
    unfold essential_of in H0. rewrite mtrans_mmul, mvec_mmul in H0. apply rotation_zero in H0; [|apply rotation_mtrans, Hp].
    fold t in H0. assert (mtrans (cross_matrix t) = mneg (cross_matrix t)) as E by (clear; lin). rewrite E in H0.
    assert (cross t (col3 u) = vneg (mvec (mneg (cross_matrix t)) (col3 u))) as -> by (clear; lin). rewrite H0. lin. }
  set (c := dot t (col3 u)). assert (t = vscale c (col3 u)) as Et.
  { pose proof (triple_cross (col3 u) t (col3 u)) as H3. rewrite Hc in H3. assert (cross (col3 u) vzero = (vzero : rvec3)) as E by lin. rewrite E, <- norm2_dot, Huu, vscale_one in H3. symmetry in H3. apply vsub_zero in H3. rewrite (dot_comm (col3 u) t) in H3. exact H3. }
  assert (c * c = m * m) as Hcm. { rewrite Hmt, Et, norm2_scale, Huu. unfold c. rring. }
  set (Q := mmul (mmul (mtrans u) (rot p)) (mtrans vt)).
  assert (rotation Q) as HQ by (unfold Q; apply rotation_mmul; [apply rotation_mmul; [apply rotation_mtrans, Hu|exact Hp]|apply rotation_mtrans, Hv]).
  assert (rot p = mmul (mmul u Q) vt) as ER.
  { unfold Q. rewrite !mmul_assoc, orthogonal_right, mmul_id_l, orth_cancel_r' by assumption. reflexivity. }
  assert (mscale c (mmul (cross_matrix (V3 0 0 1)) Q) = mdiag (V3 m m 0)) as HZ.
  { apply (conj_inj u vt); [assumption..|]. rewrite <- HE. unfold essential_of. fold t. rewrite Et, cross_matrix_scale, col3_mvec, cross_matrix_conj, ER by exact Hu.
    rewrite mscale_mmul_l, !mmul_assoc, orth_cancel_r', <- mscale_conj by assumption. rewrite !mmul_assoc. reflexivity. }
  rewrite Hn. destruct (quarter_turn Q c m HQ Hm0 HZ) as [[E1 E2]|[[E1 E2]|[N1 N2]]].
  - left. split; [rewrite <- E1; exact Et|rewrite <- E2; exact ER].
  - right. split; [rewrite <- E1; exact Et|rewrite <- E2; exact ER].
  - exfalso. assert ((c - m) * (c + m) = 0) as H by lra. apply Rmult_integral in H as [H|H]; lra.
Qed.
Lemma w_rotation : rotation (w_matrix : rmat3).
Proof. unfold w_matrix. split; lin. Qed.
Lemma possible_rotations_spec try_svd (p : riso) d : rigid p -> trans p <> vzero -> try_svd (essential_of p) = Some d -> svd_correct (essential_of p) d ->
  exists ra rb t, possible_rotations_unscaled_translation try_svd (essential_of p) = Some (ra, rb, t) /\ rotation ra /\ rotation rb /\ unit_vec t /\
    ((rot p = rb /\ t = normalize (trans p)) \/ (rot p = ra /\ t = vneg (normalize (trans p)))).
Proof.
  intros Hp Ht Hs Hd. destruct d as [[u s] vt]. destruct (essential_singular_values _ u s vt (essential_of_essential p Hp) Hd) as [H1 H2]. destruct Hd as (Hu & Hv & Ed & H3 & H4).
  unfold possible_rotations_unscaled_translation. rewrite Hs. eexists _, _, _. split; [reflexivity|]. cbn [ltb RNum zero]. fold (fix_u u). fold (fix_v vt).
  pose proof (fix_u_rotation u Hu) as Ru. pose proof (fix_v_rotation vt Hv) as Rv. destruct s as [a b c]. cbn [vx vy vz] in *. subst b c.
  rewrite <- flip_free_v, <- flip_free_u in Ed. split; [exact (rotation_mmul _ _ (rotation_mmul _ _ Ru w_rotation) Rv)|]. split; [exact (rotation_mmul _ _ (rotation_mmul _ _ Ru (rotation_mtrans _ w_rotation)) Rv)|].
  split. { rewrite col3_mvec. apply rotation_unit; [exact Ru|]. unfold unit_vec. lin. }
  pose proof (norm_pos _ Ht) as Hn. unfold normalize. rewrite vdiv_scale.
  destruct (pose_recovery p _ _ a Hp Ht Ru Rv ltac:(lra) Ed) as [[E1 E2]|[E1 E2]]; [left|right]; (split; [exact E2|]); rewrite E1 at 2; rewrite vscale_scale.
  - rewrite Rinv_l, vscale_one by lra. reflexivity.
  - rewrite vneg_scale, vscale_scale. replace (-1 * (/ norm (trans p) * - norm (trans p))) with 1 by (rfield; lra). symmetry. apply vscale_one.
Qed.

Lemma possible_poses_spec try_svd (p : riso) d : rigid p -> trans p <> vzero -> try_svd (essential_of p) = Some d -> svd_correct (essential_of p) d ->
  exists l, possible_unscaled_poses try_svd (essential_of p) = Some l /\ length l = 4%nat /\ (forall q, In q l -> rigid q /\ unit_vec (trans q)) /\
    In (Iso (rot p) (normalize (trans p))) l.
Proof.
  intros Hp Ht Hs Hd. destruct (possible_rotations_spec try_svd p d Hp Ht Hs Hd) as (ra & rb & t & E & Ra & Rb & Hu & H). unfold possible_unscaled_poses. rewrite E. eexists. split; [reflexivity|]. split; [reflexivity|]. split.
  - pose proof (unit_neg t Hu). intros q [<-|[<-|[<-|[<-|[]]]]]; split; assumption.
  - destruct H as [[-> ->]|[-> ->]]; [right; left; reflexivity|right; right; left]. rewrite vneg_neg. reflexivity.
Qed.
Lemma possible_bearing_spec try_svd (p : riso) d : rigid p -> trans p <> vzero -> try_svd (essential_of p) = Some d -> svd_correct (essential_of p) d ->
  exists a b, possible_unscaled_poses_bearing try_svd (essential_of p) = Some [a; b] /\ rigid a /\ rigid b /\ trans a = trans b /\
    possible_rotations try_svd (essential_of p) = Some [rot a; rot b] /\ (rot a = rot p \/ rot b = rot p) /\ (trans a = normalize (trans p) \/ trans a = vneg (normalize (trans p))).
Proof.
  intros Hp Ht Hs Hd. destruct (possible_rotations_spec try_svd p d Hp Ht Hs Hd) as (ra & rb & t & E & Ra & Rb & Hu & H). unfold possible_unscaled_poses_bearing, possible_rotations. rewrite E.
  exists (Iso ra t), (Iso rb t). repeat (split; [first [reflexivity|assumption]|]). cbn [rot trans]. destruct H as [[-> ->]|[-> ->]]; split; auto.
Qed.
Lemma possible_none try_svd (E : rmat3) : try_svd E = None ->
  possible_rotations_unscaled_translation try_svd E = None /\ possible_rotations try_svd E = None /\ possible_unscaled_poses try_svd E = None /\
  possible_unscaled_poses_bearing try_svd E = None /\ recondition try_svd E = None.
Proof. intros H. unfold possible_unscaled_poses, possible_unscaled_poses_bearing, possible_rotations, possible_rotations_unscaled_translation, recondition. rewrite H. repeat split. Qed.

(** *** The four poses are all there are *)
Lemma w_generator : mmul (cross_matrix (V3 0 0 1)) w_matrix = (mdiag (V3 (-1) (-1) 0) : rmat3). Proof. unfold w_matrix. lin. Qed.
Lemma w_generator' : mmul (cross_matrix (V3 0 0 1)) (mtrans w_matrix) = (mdiag (V3 1 1 0) : rmat3). Proof. unfold w_matrix. lin. Qed.
Lemma essential_turned (u Q vt : rmat3) (c : R) : rotation u ->
  essential_of (Iso (mmul (mmul u Q) vt) (vscale c (col3 u))) = mmul (mmul u (mscale c (mmul (cross_matrix (V3 0 0 1)) Q))) vt.
Proof.
  intros Hu. unfold essential_of. cbn [trans rot]. rewrite cross_matrix_scale, col3_mvec, cross_matrix_conj by exact Hu. rewrite mscale_mmul_l, !mmul_assoc, orth_cancel_r', <- mscale_conj by (apply rotation_orthogonal, Hu). rewrite !mmul_assoc. reflexivity.
Qed.
Lemma essential_neg (r : rmat3) (t : rvec3) : essential_of (Iso r (vneg t)) = mscale (-1) (essential_of (Iso r t)). Proof. unfold essential_of. cbn [rot trans]. lin. Qed.
Lemma mdiag_scale (c a b : R) : mscale c (mdiag (V3 a b 0)) = (mdiag (V3 (c * a) (c * b) 0) : rmat3). Proof. lin. Qed.

Lemma four_poses (u vt : rmat3) (m : R) (q : riso) : rotation u -> rotation vt -> m <> 0 ->
  let e := mmul (mmul u (mdiag (V3 m m 0))) vt in
  let ra := mmul (mmul u w_matrix) vt in
  let rb := mmul (mmul u (mtrans w_matrix)) vt in
  let t := col3 u in
  In q [Iso ra t; Iso rb t; Iso ra (vneg t); Iso rb (vneg t)] <-> rigid q /\ unit_vec (trans q) /\ exists c : R, essential_of q = mscale c e.
Proof.
  intros Hu Hv Hm e ra rb t. assert (unit_vec t) as Ht. { unfold t. rewrite col3_mvec. apply rotation_unit; [exact Hu|]. unfold unit_vec. lin. }
  assert (rotation ra) as Ra by exact (rotation_mmul _ _ (rotation_mmul _ _ Hu w_rotation) Hv). assert (rotation rb) as Rb by exact (rotation_mmul _ _ (rotation_mmul _ _ Hu (rotation_mtrans _ w_rotation)) Hv).
  assert (essential_of (Iso ra t) = mscale (- / m) e) as Ea.
  { unfold ra, t, e. rewrite <- (vscale_one (col3 u)), essential_turned, w_generator, mscale_conj, !mdiag_scale by exact Hu. assert (1 * -1 = - / m * m) as E by (field; exact Hm). rewrite E. reflexivity. }
  assert (essential_of (Iso rb t) = mscale (/ m) e) as Eb.
  { unfold rb, t, e. rewrite <- (vscale_one (col3 u)), essential_turned, w_generator', mscale_conj, !mdiag_scale by exact Hu. assert (1 * 1 = / m * m) as E by (field; exact Hm). rewrite E. reflexivity. }
  assert (forall c d : R, mscale c (mscale d e) = mscale (c * d) e) as Hs by (intros; generalize e; lin).
  split.
  - pose proof (unit_neg t Ht). intros [<-|[<-|[<-|[<-|[]]]]]; (split; [assumption|]); (split; [assumption|]); eexists; [exact Ea|exact Eb|rewrite essential_neg, Ea, Hs; reflexivity|rewrite essential_neg, Eb, Hs; reflexivity].
  - intros (Hq & Hqu & c & Eq). assert (norm (trans q) = 1) as Hn by (apply norm_unit, Hqu). pose proof (unit_not_zero _ Hqu) as Hz.
    assert (mscale c e = mmul (mmul u (mdiag (V3 (c * m) (c * m) 0))) vt) as Ec by (unfold e; rewrite mscale_conj, mdiag_scale; reflexivity).
    destruct q as [r tq]. cbn [trans rot] in *. destruct (Rle_dec 0 (c * m)) as [Hc|Hc].
    + destruct (pose_recovery (Iso r tq) u vt (c * m) Hq Hz Hu Hv Hc ltac:(rewrite Eq; exact Ec)) as [[E1 E2]|[E1 E2]]; cbn [trans rot] in E1, E2; rewrite Hn in E1.
      * rewrite vscale_one in E1. right. left. rewrite E1, E2. reflexivity.
      * rewrite <- vneg_scale in E1. right. right. left. rewrite E1, E2. reflexivity.
    + assert (essential_of (Iso r (vneg tq)) = mmul (mmul u (mdiag (V3 (- (c * m)) (- (c * m)) 0))) vt) as En.
      { rewrite essential_neg, Eq, Ec, mscale_conj, mdiag_scale. assert (-1 * (c * m) = - (c * m)) as E by ring. rewrite E. reflexivity. }
      assert (vneg tq <> vzero) as Hz'. { apply unit_not_zero, unit_neg, Hqu. }
      destruct (pose_recovery (Iso r (vneg tq)) u vt (- (c * m)) Hq Hz' Hu Hv ltac:(lra) En) as [[E1 E2]|[E1 E2]]; cbn [trans rot] in E1, E2; rewrite (norm_unit _ (unit_neg _ Hqu)) in E1.
      * rewrite vscale_one in E1. right. right. right. left. rewrite E2. f_equal. rewrite <- (vneg_neg tq), E1. reflexivity.
      * rewrite <- vneg_scale in E1. left. rewrite E2. f_equal. rewrite <- (vneg_neg tq), E1, vneg_neg. reflexivity.
Qed.
Lemma four_distinct (u vt : rmat3) : rotation u -> rotation vt ->
  let ra := mmul (mmul u w_matrix) vt in let rb := mmul (mmul u (mtrans w_matrix)) vt in let t := col3 u in
  NoDup [Iso ra t; Iso rb t; Iso ra (vneg t); Iso rb (vneg t)].
Proof.
  intros Hu Hv ra rb t. assert (ra <> rb) as Hr.
  { intros E. apply conj_inj in E; [|apply rotation_orthogonal; assumption..]. revert E. intros E. apply (f_equal (fun A : rmat3 => vy (row1 A))) in E. revert E. unfold w_matrix. lin_unfold. rnum. lra. }
  assert (t <> vneg t) as Ht.
  { intros E. assert (unit_vec t) as Hn. { unfold t. rewrite col3_mvec. apply rotation_unit; [exact Hu|]. unfold unit_vec. lin. } apply (unit_not_zero _ Hn). revert E. generalize t. intros [x y z]. lin_unfold. rnum. intros [= E1 E2 E3]. lin_split; rnum_eq; lra. }
  repeat apply NoDup_cons; cbn [In]; try apply NoDup_nil; intros H; repeat destruct H as [H|H]; try contradiction; pose proof (f_equal rot H) as H1; pose proof (f_equal trans H) as H2; cbn [rot trans] in H1, H2; clearbody ra rb t; first [exact (Hr H1)|exact (Hr (eq_sym H1))|exact (Ht H2)|exact (Ht (eq_sym H2))].
Qed.
Lemma possible_poses_exactly try_svd (p : riso) d : rigid p -> trans p <> vzero -> try_svd (essential_of p) = Some d -> svd_correct (essential_of p) d ->
  exists l, possible_unscaled_poses try_svd (essential_of p) = Some l /\ NoDup l /\
    forall q, In q l <-> rigid q /\ unit_vec (trans q) /\ exists c : R, essential_of q = mscale c (essential_of p).
Proof.
  intros Hp Ht Hs Hd. destruct d as [[u s] vt]. destruct (essential_singular_values _ u s vt (essential_of_essential p Hp) Hd) as [H1 H2]. destruct Hd as (Hu & Hv & Ed & H3 & H4).
  unfold possible_unscaled_poses, possible_rotations_unscaled_translation. rewrite Hs. eexists. split; [reflexivity|]. cbn [ltb RNum zero]. fold (fix_u u). fold (fix_v vt).
  pose proof (fix_u_rotation u Hu) as Ru. pose proof (fix_v_rotation vt Hv) as Rv. destruct s as [a b c]. cbn [vx vy vz] in *. subst b c.
  split; [apply four_distinct; assumption|]. intros q. rewrite <- flip_free_v, <- flip_free_u in Ed. rewrite Ed. apply four_poses; [assumption..|]. intros ->.
  assert (essential_of p = mzero) as E0 by (rewrite Ed; generalize (fix_u u) (fix_v vt); lin). unfold essential_of in E0.
  assert (cross_matrix (trans p) = (mzero : rmat3)) as E1. { rewrite <- (orth_cancel_r (rot p) (cross_matrix (trans p))) by (apply rotation_orthogonal, Hp). rewrite E0. generalize (mtrans (rot p)). lin. }
  apply Ht. revert E1. destruct (trans p) as [x y z]. lin_unfold. rnum. intros [= E1 E2 E3]. lin_split; rnum_eq; lra.
Qed.
