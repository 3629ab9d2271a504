(** Facts about the pinhole camera models and essential matrices over the reals. *)
From Coq Require Import Reals Lra Psatz List ZArith Lia.
From Verif Require Import Num Lin LinSpec LinFacts Core CoreSpec CoreFacts Pinhole PinholeSpec.
Import ListNotations.
Open Scope R_scope.

(** ** Intrinsics *)
Lemma plane_back k p : regular k -> from_plane k (to_plane k p) = p.
Proof. intros [Hx Hy]. destruct k as [[fx fy] [cx cy] s], p as [x y]. unfold from_plane, to_plane, sub_2. cbn [px py focals principal_point skew] in *. rnum. f_equal; field; auto. Qed.
Lemma plane_forth k v : regular k -> to_plane k (from_plane k v) = v.
Proof. intros [Hx Hy]. destruct k as [[fx fy] [cx cy] s], v as [x y]. unfold from_plane, to_plane, sub_2. cbn [px py focals principal_point skew] in *. rnum. f_equal; field; auto. Qed.
Lemma homogeneous2_not_zero (v : rvec2) : homogeneous2 v <> vzero.
Proof. intros [= _ _ H]. lra. Qed.
Lemma normalize_h_z (v : rvec2) : 0 < vz (normalize (homogeneous2 v)).
Proof.
  pose proof (norm_pos _ (homogeneous2_not_zero v)). unfold normalize. rewrite vdiv_scale. destruct v as [x y]. unfold homogeneous2. cbn [vz vscale px py]. rnum.
  rewrite Rmult_1_l. apply Rinv_0_lt_compat. assumption.
Qed.
Lemma dehomogenize_scale (s : R) (v : rvec3) : s <> 0 -> vz v <> 0 -> dehomogenize (vscale s v) = dehomogenize v.
Proof. intros Hs Hv. destruct v as [x y z]. unfold dehomogenize. cbn [vx vy vz vscale] in *. rnum. f_equal; field; auto. Qed.
Lemma dehomogenize_h (v : rvec2) : dehomogenize (homogeneous2 v) = v.
Proof. destruct v as [x y]. unfold dehomogenize, homogeneous2. cbn [vx vy vz px py]. rnum. f_equal; field. Qed.
Lemma dehomogenize_normalize (v : rvec3) : v <> vzero -> vz v <> 0 -> dehomogenize (normalize v) = dehomogenize v.
Proof. intros H Hz. unfold normalize. rewrite vdiv_scale. apply dehomogenize_scale; [|exact Hz]. apply Rinv_neq_0_compat. pose proof (norm_pos v H). lra. Qed.
Lemma dehomogenize_calibrated (v : rvec2) : dehomogenize (normalize (homogeneous2 v)) = v.
Proof. rewrite dehomogenize_normalize, dehomogenize_h; [reflexivity|apply homogeneous2_not_zero|]. destruct v. cbn. lra. Qed.
(** A unit vector in front of the camera is the normalisation of its dehomogenised form. *)
Lemma homogenize_back (b : rvec3) : unit_vec b -> 0 < vz b -> normalize (homogeneous2 (dehomogenize b)) = b.
Proof.
  intros Hu Hz. replace (homogeneous2 (dehomogenize b)) with (vscale (/ vz b : R) b).
  - rewrite normalize_pos_scale by (apply Rinv_0_lt_compat, Hz). apply normalize_of_unit, Hu.
  - destruct b as [x y z]. unfold homogeneous2, dehomogenize, vscale. cbn [vx vy vz px py] in *. rnum. apply (f_equal3 V3); [reflexivity|reflexivity|rfield; lra].
Qed.
Lemma signneg_R (x : R) : signneg (n := RNum) x = Rltb x 0. Proof. reflexivity. Qed.
Lemma signneg_front (x : R) : 0 <= x -> signneg (n := RNum) x = false.
Proof. intros H. apply Rltb_false, H. Qed.

Lemma calibrate_front k p : unit_vec (calibrate k p) /\ 0 < vz (calibrate k p).
Proof. split; [apply normalize_unit, homogeneous2_not_zero|apply normalize_h_z]. Qed.
Lemma pixel_round_trip k p : regular k -> uncalibrate k (calibrate k p) = Some p.
Proof.
  intros Hk. unfold uncalibrate. destruct (calibrate_front k p) as [_ Hz]. rewrite signneg_front by lra. unfold calibrate. rewrite dehomogenize_calibrated, plane_back by exact Hk. reflexivity.
Qed.
Lemma bearing_round_trip k b : regular k -> unit_vec b -> 0 < vz b -> exists p, uncalibrate k b = Some p /\ calibrate k p = b.
Proof.
  intros Hk Hu Hz. exists (from_plane k (dehomogenize b)). unfold uncalibrate. rewrite signneg_front by lra. split; [reflexivity|].
  unfold calibrate. rewrite plane_forth by exact Hk. apply homogenize_back; assumption.
Qed.
Lemma uncalibrate_none k b : uncalibrate k b = None <-> vz b < 0.
Proof. unfold uncalibrate. rewrite signneg_R. destruct (Rltb (vz b) 0) eqn:E; [apply Rltb_spec in E|apply Rltb_false in E]; split; intros H; try discriminate; auto; lra. Qed.
Lemma matrix_plane k v : mvec (intrinsic_matrix k) (homogeneous2 v) = pixel_h (from_plane k v).
Proof. destruct k as [[fx fy] [cx cy] s], v as [x y]. unfold intrinsic_matrix, homogeneous2, pixel_h, from_plane. cbn [px py focals principal_point skew]. lin_unfold. lin_split; rring. Qed.
Lemma calibrate_projects k p : regular k -> projects k (calibrate k p) p.
Proof.
  intros Hk. exists (/ norm (homogeneous2 (to_plane k p))). pose proof (norm_pos _ (homogeneous2_not_zero (to_plane k p))). split; [apply Rinv_neq_0_compat; lra|].
  unfold calibrate, normalize. rewrite vdiv_scale, mvec_scale, matrix_plane, plane_back by exact Hk. reflexivity.
Qed.
Lemma uncalibrate_projects k b p : 0 < vz b -> uncalibrate k b = Some p <-> projects k b p.
Proof.
  intros Hz.
  assert (b = vscale (vz b) (homogeneous2 (dehomogenize b))) as Eb.
  { destruct b as [x y z]. unfold homogeneous2, dehomogenize, vscale. cbn [vx vy vz px py] in *. rnum. apply (f_equal3 V3); rfield; lra. }
  assert (mvec (intrinsic_matrix k) b = vscale (vz b) (pixel_h (from_plane k (dehomogenize b)))) as Em by (rewrite <- matrix_plane, <- mvec_scale, <- Eb; reflexivity).
  unfold uncalibrate. rewrite signneg_front by lra. split.
  - intros [= <-]. exists (vz b). split; [lra|exact Em].
  - intros (d & Hd & E). rewrite Em in E. f_equal. destruct (from_plane k (dehomogenize b)) as [x y], p as [x' y']. unfold pixel_h, vscale in E. cbn [vx vy vz px py] in E. rnum.
    injection E as E1 E2 E3. assert (vz b = d) as E4 by lra. rewrite E4 in E1, E2. f_equal; apply Rmult_eq_reg_r with d; auto.
Qed.

(** ** Distortion *)
Lemma norm2_2_nonneg (v : rvec2) : 0 <= norm2_2 v.
Proof. destruct v as [x y]. unfold norm2_2. cbn [px py]. rnum. nra. Qed.
Lemma norm2_2_div (v : rvec2) (s : R) : s <> 0 -> norm2_2 (V2 (px v / s) (py v / s) : rvec2) = norm2_2 v / (s * s).
Proof. intros Hs. destruct v as [x y]. unfold norm2_2. cbn [px py]. rnum. field. exact Hs. Qed.
Lemma norm2_2_mul (v : rvec2) (s : R) : norm2_2 (V2 (px v * s) (py v * s) : rvec2) = norm2_2 v * (s * s).
Proof. destruct v as [x y]. unfold norm2_2. cbn [px py]. rnum. ring. Qed.

Lemma calibrate_k1_front k k1 p : unit_vec (calibrate_k1 k k1 p) /\ 0 < vz (calibrate_k1 k k1 p).
Proof. split; [apply normalize_unit, homogeneous2_not_zero|apply normalize_h_z]. Qed.
Lemma k1_pixel_round_trip k k1 p : regular k -> let kr := k1 * norm2_2 (to_plane k p) in -1 < kr <= 1 -> kr <> 0 ->
  uncalibrate_k1 k k1 (calibrate_k1 k k1 p) = Some p.
Proof.
  intros Hk kr Hkr H0. unfold uncalibrate_k1. destruct (calibrate_k1_front k k1 p) as [_ Hz]. rewrite signneg_front by lra.
  unfold calibrate_k1. rewrite dehomogenize_calibrated. rnum. fold kr. rewrite norm2_2_div by lra.
  set (r2 := norm2_2 (to_plane k p)) in *. set (u2 := r2 / ((1 + kr) * (1 + kr))). unfold two. rnum.
  assert (k1 * u2 = kr / ((1 + kr) * (1 + kr))) as Eu by (unfold u2, kr; field; fold kr; lra).
  assert (R_sqrt.sqrt (1 - 4 * k1 * u2) = (1 - kr) / (1 + kr)) as Es.
  { replace (1 - 4 * k1 * u2) with (Rsqr ((1 - kr) / (1 + kr))).
    - apply sqrt_Rsqr. apply Rmult_le_pos; [lra|]. apply Rlt_le, Rinv_0_lt_compat. lra.
    - rewrite Rmult_assoc, Eu. unfold Rsqr. field. lra. }
  rewrite Es. replace (2 * k1 * u2) with (2 * (kr / ((1 + kr) * (1 + kr)))) by (rewrite Rmult_assoc, Eu; reflexivity).
  assert (- (2 * (kr / ((1 + kr) * (1 + kr))) + (1 - kr) / (1 + kr) - 1) / (2 * (kr / ((1 + kr) * (1 + kr)))) = kr) as -> by (field; lra).
  cbn [px py]. f_equal. rewrite <- (plane_back k p Hk) at 3. f_equal. destruct (to_plane k p) as [x y]. cbn [px py]. f_equal; field; lra.
Qed.
Lemma k1_bearing_round_trip k k1 b : regular k -> unit_vec b -> 0 < vz b -> let ku := k1 * norm2_2 (dehomogenize b) in 4 * ku <= 1 -> ku <> 0 ->
  exists p, uncalibrate_k1 k k1 b = Some p /\ calibrate_k1 k k1 p = b /\ k1 * norm2_2 (to_plane k p) <> 0 /\ -1 < k1 * norm2_2 (to_plane k p) <= 1.
Proof.
  intros Hk Hu Hz ku H1 H0. unfold uncalibrate_k1. rewrite signneg_front by lra. set (v := dehomogenize b) in *. set (u2 := norm2_2 v) in *. unfold two. rnum.
  set (rho := - (2 * k1 * u2 + R_sqrt.sqrt (1 - 4 * k1 * u2) - 1) / (2 * k1 * u2)).
  set (s := R_sqrt.sqrt (1 - 4 * k1 * u2)) in *.
  assert (s * s = 1 - 4 * ku) as Hs by (unfold s; rewrite sqrt_sqrt; [unfold ku; ring|unfold ku in H1; lra]). assert (0 <= s) as Hs0 by apply sqrt_pos.
  assert (rho = (1 - s - 2 * ku) / (2 * ku)) as Er. { unfold rho, ku. field. unfold ku in H0. split; intros E; apply H0; rewrite E; ring. }
  assert (2 * ku * rho = 1 - s - 2 * ku) as Hr by (rewrite Er; field; exact H0).
  assert (rho = ku * ((1 + rho) * (1 + rho))) as Hq.
  { apply Rmult_eq_reg_l with (4 * ku); [|lra]. replace (4 * ku * (ku * ((1 + rho) * (1 + rho)))) with ((2 * ku + 2 * ku * rho) * (2 * ku + 2 * ku * rho)) by ring. replace (4 * ku * rho) with (2 * (2 * ku * rho)) by ring. rewrite Hr. nra. }
  assert (1 + rho <> 0) as Hn. { intros E. assert (rho = 0) by (rewrite Hq, E; ring). lra. }
  assert (k1 * norm2_2 (V2 (px v * (1 + rho)) (py v * (1 + rho)) : rvec2) = rho) as Hk1.
  { rewrite norm2_2_mul. fold u2. rewrite Hq at 3. unfold ku. ring. }
  assert (rho <> 0) as Hr0. { intros E. rewrite E in Hq. rewrite Rplus_0_r in Hq. lra. }
  (* (1+rho) * 2ku = 1 - s, and 1 - s has the sign of ku *)
  assert (2 * ku * (1 + rho) = 1 - s) as H2 by lra.
  assert (0 < 1 + rho /\ rho <= 1) as [Hp Hle].
  { assert ((1 + rho) * (1 + s) = 2) as H3. { apply Rmult_eq_reg_l with (2 * ku); [|lra]. replace (2 * ku * ((1 + rho) * (1 + s))) with ((1 - s) * (1 + s)) by (rewrite <- H2; ring). nra. }
    split; nra. }
  exists (from_plane k (V2 (px v * (1 + rho)) (py v * (1 + rho)))). split; [reflexivity|].
  unfold calibrate_k1. rewrite plane_forth by exact Hk. cbn [px py]. rnum. rewrite Hk1. split; [|split; [exact Hr0|lra]].
  assert (forall x : R, x * (1 + rho) / (1 + rho) = x) as Hd by (intros x; field; exact Hn). rewrite !Hd.
  assert (forall w : rvec2, V2 (px w) (py w) = w) as -> by (intros []; reflexivity). apply homogenize_back; assumption.
Qed.

(** ** Camera specifications *)
Lemma from_sensor_size (w h : Z) (s : rvec2) : (w <> 0)%Z -> (h <> 0)%Z ->
  let d := pixel_dimensions (from_sensor (w, h) s) in px d * IZR w = px s /\ py d * IZR h = py s.
Proof. intros Hw Hh. apply not_0_IZR in Hw, Hh. destruct s as [x y]. cbn. split; field; assumption. Qed.
Lemma from_sensor_square_size (w h : Z) (sw : R) : (w <> 0)%Z ->
  let d := pixel_dimensions (from_sensor_square (N := RNum) (w, h) sw) in px d * IZR w = sw /\ py d = px d.
Proof. intros Hw. apply not_0_IZR in Hw. cbn. split; [field; assumption|reflexivity]. Qed.
Lemma centered_intrinsics (s : specification RNum) (f : R) :
  let k := intrinsics_centered s f in
  focals k = V2 f f /\ skew k = 0 /\
  (principal_point k = V2 ((IZR (fst (pixels s)) - 1) / 2) ((IZR (snd (pixels s)) - 1) / 2) <->
   pixel_dimensions s = V2 (IZR (fst (pixels s))) (IZR (snd (pixels s)))).
Proof.
  destruct s as [[w h] [x y]]. unfold intrinsics_centered, set_principal_point, set_focal, intrinsics_id. cbn [focals skew principal_point pixel_dimensions pixels fst snd px py]. split; [reflexivity|]. split; [reflexivity|].
  unfold two, half, lit. rnum. split; intros [= H1 H2]; f_equal; lra.
Qed.

(** ** Essential matrices *)
Lemma essential_bilinear (p : riso) (a b : rvec3) : dot b (mvec (essential_of p) a) = dot b (cross (trans p) (mvec (rot p) a)).
Proof. unfold essential_of. rewrite mvec_mmul, mvec_cross_matrix. reflexivity. Qed.
Lemma residual_bilinear (E : rmat3) (a b : rvec3) : vz a <> 0 -> vz b <> 0 ->
  essential_residual E a b = Rabs (dot b (mvec E a) / (vz a * vz b)).
Proof.
  intros Ha Hb. unfold essential_residual. cbn [abs_ RNum]. f_equal. destruct E as [[a1 a2 a3] [b1 b2 b3] [c1 c2 c3]], a as [x y z], b as [x' y' z']. lin_unfold. cbn [vz] in *. rfield. auto.
Qed.
Lemma residual_zero (E : rmat3) (a b : rvec3) : vz a <> 0 -> vz b <> 0 -> essential_residual E a b = 0 <-> dot b (mvec E a) = 0.
Proof.
  intros Ha Hb. rewrite residual_bilinear by assumption. assert (vz a * vz b <> 0) as Hn by (apply Rmult_integral_contrapositive_currified; assumption). split; intros H.
  - destruct (Req_dec (dot b (mvec E a) / (vz a * vz b)) 0) as [E0|E0]; [|apply Rabs_no_R0 in E0; contradiction].
    apply Rmult_eq_reg_r with (/ (vz a * vz b)); [|apply Rinv_neq_0_compat, Hn]. unfold Rdiv in E0. rewrite E0. ring.
  - rewrite H. unfold Rdiv. rewrite Rmult_0_l. apply Rabs_R0.
Qed.
Lemma residual_scale (E : rmat3) (a b : rvec3) (s t : R) : s <> 0 -> t <> 0 -> vz a <> 0 -> vz b <> 0 ->
  essential_residual E (vscale s a) (vscale t b) = essential_residual E a b.
Proof.
  intros Hs Ht Ha Hb. assert (vz (vscale s a) = vz a * s) as E1 by reflexivity. assert (vz (vscale t b) = vz b * t) as E2 by reflexivity.
  rewrite !residual_bilinear; [|assumption|assumption|rewrite E1; apply Rmult_integral_contrapositive_currified; assumption|rewrite E2; apply Rmult_integral_contrapositive_currified; assumption].
  f_equal. rewrite mvec_scale, dot_scale_l, dot_scale_r, E1, E2. rfield. auto.
Qed.
Lemma essential_correspondence (p : riso) (q : rvec3) : dot (iso_point p q) (mvec (essential_of p) q) = 0.
Proof. unfold essential_of. lin. Qed.
Lemma essential_direction (p : riso) (d : rvec3) : dot (mvec (rot p) d) (mvec (essential_of p) d) = 0.
Proof. unfold essential_of. lin. Qed.
Lemma essential_det (p : riso) : det (essential_of p) = 0.
Proof. unfold essential_of. rewrite det_mmul. assert (det (cross_matrix (trans p)) = 0) as -> by lin. rring. Qed.
Lemma cross_matrix_cube (t : rvec3) : mscale 2 (mmul (mmul (cross_matrix t) (mtrans (cross_matrix t))) (cross_matrix t)) = mscale (trace (mmul (cross_matrix t) (mtrans (cross_matrix t)))) (cross_matrix t).
Proof. lin. Qed.
Lemma mscale_mmul_l (s : R) (A B : rmat3) : mmul (mscale s A) B = mscale s (mmul A B). Proof. lin. Qed.
Lemma essential_gram (p : riso) : rigid p -> mmul (essential_of p) (mtrans (essential_of p)) = mmul (cross_matrix (trans p)) (mtrans (cross_matrix (trans p))).
Proof.
  intros Hp. unfold essential_of. rewrite mtrans_mmul, <- mmul_assoc, (mmul_assoc (rot p) (mtrans (rot p))), rotation_right, mmul_id_l by exact Hp. reflexivity.
Qed.
Lemma essential_of_essential (p : riso) : rigid p -> essential (essential_of p).
Proof.
  intros Hp. split; [apply essential_det|]. rewrite essential_gram by exact Hp. unfold essential_of at 1 2. rewrite mmul_assoc, <- (mscale_mmul_l 2), <- (mscale_mmul_l (trace _)), cross_matrix_cube. reflexivity.
Qed.

(** The residual is zero iff the rays are coplanar with the baseline; then they meet, unless
    they are parallel. *)
Lemma span_meet (d b t : rvec3) : cross d b <> vzero -> dot t (cross d b) = 0 -> exists x y : R, vadd (vscale x d) t = vscale y b.
Proof.
  intros Hn Ht. set (n := cross d b) in *. pose proof (norm2_pos n Hn) as Hp.
  exists (- (dot t (cross b n)) / norm2 n), (dot t (cross n d) / norm2 n).
  assert (vscale (norm2 n) t = vadd (vscale (dot t (cross b n)) d) (vadd (vscale (dot t (cross n d)) b) (vscale (dot t n) n))) as E by (unfold n; lin).
  rewrite Ht in E. assert (t = vscale (/ norm2 n) (vscale (norm2 n) t)) as Et by (rewrite vscale_scale, Rinv_l, vscale_one by lra; reflexivity).
  rewrite Et at 2. rewrite E. generalize (dot t (cross b n)) (dot t (cross n d)) (norm2 n) Hp. intros u v m Hm. destruct d, b, n. lin_unfold. lin_split; rfield; lra.
Qed.
Lemma residual_meet (p : riso) (a b : rvec3) : vz a <> 0 -> vz b <> 0 -> essential_residual (essential_of p) a b = 0 ->
  cross (mvec (rot p) a) b <> vzero -> exists x y : R, iso_point p (vscale x a) = vscale y b.
Proof.
  intros Ha Hb H Hn. apply residual_zero in H; [|assumption..]. rewrite essential_bilinear in H.
  destruct (span_meet (mvec (rot p) a) b (trans p) Hn) as (x & y & E).
  - rewrite <- H, dot_cross_swap. apply dot_comm.
  - exists x, y. unfold iso_point. rewrite mvec_scale. exact E.
Qed.
