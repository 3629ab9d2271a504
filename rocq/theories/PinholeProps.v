(** Lemmas behind the property theorems about cv-pinhole, and concrete cases. *)
From Coq Require Import Reals Lra Psatz List ZArith Lia Bool.
From Verif Require Import Num Lin LinSpec LinFacts Core CoreSpec CoreFacts Pinhole PinholeSpec PinholeFacts EssentialFacts.
Import ListNotations.
Open Scope R_scope.

(** ** Floating-point cases *)
Definition nan2 {N : Num} (v : vec2 N) : bool := (isnan (px v) && isnan (py v))%bool.
Definition finite2 {N : Num} (v : vec2 N) : bool := (isfin (px v) && isfin (py v))%bool.
Definition doc_intrinsics {N : Num} : intrinsics N := Intrinsics (V2 (ofZ 800) (ofZ 900)) (V2 (ofZ 500) (ofZ 600)) (lit 17 10).
Lemma some_test {A} (o : option A) (f : A -> bool) : match o with Some x => f x | None => false end = true -> exists x, o = Some x /\ f x = true.
Proof. destruct o as [x|]; [intros H; exists x; split; [reflexivity|exact H]|discriminate]. Qed.
Lemma principal_point_nan : exists (k : intrinsics F64) (k1 : F64) (p q : vec2 F64),
  finite2 (focals k) = true /\ finite2 (principal_point k) = true /\ isfin (skew k) = true /\ isfin k1 = true /\ p = principal_point k /\
  v_finite (calibrate_k1 k k1 p) = true /\ uncalibrate_k1 k k1 (calibrate_k1 k k1 p) = Some q /\ nan2 q = true.
Proof.
  set (k := doc_intrinsics : intrinsics F64). set (k1 := lit (-164624) 1000000 : F64). set (p := principal_point k).
  destruct (some_test (uncalibrate_k1 k k1 (calibrate_k1 k k1 p)) nan2) as (q & E & Hq); [vm_compute; reflexivity|].
  exists k, k1, p, q. do 4 (split; [vm_compute; reflexivity|]). split; [reflexivity|]. split; [vm_compute; reflexivity|]. split; [exact E|exact Hq].
Qed.
Lemma zero_k1_nan : exists (k : intrinsics F64) (p q : vec2 F64),
  finite2 (focals k) = true /\ finite2 (principal_point k) = true /\ isfin (skew k) = true /\ finite2 p = true /\
  v_finite (calibrate_k1 k zero p) = true /\ uncalibrate_k1 k zero (calibrate_k1 k zero p) = Some q /\ nan2 q = true.
Proof.
  set (k := doc_intrinsics : intrinsics F64). set (p := V2 (ofZ 471) (ofZ 322) : vec2 F64).
  destruct (some_test (uncalibrate_k1 k zero (calibrate_k1 k zero p)) nan2) as (q & E & Hq); [vm_compute; reflexivity|].
  exists k, p, q. do 5 (split; [vm_compute; reflexivity|]). split; [exact E|exact Hq].
Qed.
(** A bearing across the optical axis yields an answer which is not a number. *)
Lemma sideways_nan : exists (k : intrinsics F64) (b : vec3 F64) q, finite2 (focals k) = true /\ v_finite b = true /\ eqb (norm2 b) one = true /\ eqb (vz b) zero = true /\
  uncalibrate k b = Some q /\ finite2 q = false.
Proof.
  set (k := doc_intrinsics : intrinsics F64). set (b := V3 one zero zero : vec3 F64).
  destruct (some_test (uncalibrate k b) (fun q => negb (finite2 q))) as (q & E & Hq); [vm_compute; reflexivity|].
  exists k, b, q. do 4 (split; [vm_compute; reflexivity|]). split; [exact E|apply negb_true_iff, Hq].
Qed.
(** A point beside a camera has residual NaN although it is consistent with the pose. *)
Lemma sideways_residual : exists (p : iso F64) (q : vec3 F64), v_finite q = true /\ v_finite (iso_point p q) = true /\ rot p = mid /\
  eqb (norm2 q) one = true /\ isnan (essential_residual (essential_of p) q (iso_point p q)) = true.
Proof. exists (Iso mid (V3 zero zero one)), (V3 one zero zero). do 2 (split; [vm_compute; reflexivity|]). split; [reflexivity|]. split; vm_compute; reflexivity. Qed.

(** ** C35 *)
Lemma centre_wrong : exists (s : specification RNum) (f : R), s = from_sensor (640, 480)%Z (V2 (64 / 10) (48 / 10)) /\
  principal_point (intrinsics_centered s f) <> V2 ((IZR (fst (pixels s)) - 1) / 2) ((IZR (snd (pixels s)) - 1) / 2) /\
  px (focals (intrinsics_centered s f)) <> f / px (pixel_dimensions s).
Proof.
  eexists _, 1. split; [reflexivity|]. split.
  - intros H. apply centered_intrinsics in H. cbn in H. injection H as H _. lra.
  - cbn. intros H. revert H. replace (1 / (64 / 10 / 640)) with 100 by field. lra.
Qed.

(** ** Reprojection errors *)
Lemma point_depth (q : rvec3) : q <> vzero -> vz (bearing (from_point q)) = vz q * / norm q /\ 0 < / norm q.
Proof.
  intros H. pose proof (norm_pos q H). split; [|apply Rinv_0_lt_compat; assumption]. unfold bearing. destruct (from_point_coords q H) as [-> _]. unfold normalize. rewrite vdiv_scale. destruct q. reflexivity.
Qed.
Lemma point_plane (q : rvec3) : q <> vzero -> vz q <> 0 -> dehomogenize (bearing (from_point q)) = dehomogenize q.
Proof. intros H Hz. unfold bearing. destruct (from_point_coords q H) as [-> _]. apply dehomogenize_normalize; assumption. Qed.
Lemma behind_sign (q : rvec3) : q <> vzero -> signneg (n := RNum) (vz (bearing (from_point q))) = Rltb (vz q) 0.
Proof.
  intros H. destruct (point_depth q H) as [E Hp]. rewrite signneg_R, E. destruct (Rltb (vz q) 0) eqn:E2; [apply Rltb_spec in E2; apply Rltb_spec|apply Rltb_false in E2; apply Rltb_false]; rnra.
Qed.
Lemma not_zero_z (q : rvec3) : vz q <> 0 -> q <> vzero.
Proof. intros H E. apply H. rewrite E. reflexivity. Qed.
Lemma reprojection_spec tri (p : riso) (a b q : rvec3) : tri p a b = Some (from_point q) -> vz q <> 0 -> vz (iso_point p q) <> 0 ->
  pose_reprojection_error tri p a b =
    if (Rltb (vz q) 0 || Rltb (vz (iso_point p q)) 0)%bool then None
    else Some (sub_2 (dehomogenize a) (dehomogenize q), sub_2 (dehomogenize b) (dehomogenize (iso_point p q))).
Proof.
  intros Ht Hq Hpq. unfold pose_reprojection_error. rewrite Ht. apply not_zero_z in Hq as Hq0. apply not_zero_z in Hpq as Hpq0.
  rewrite transform_from_point by exact Hq0. rewrite !behind_sign by assumption. rewrite !point_plane by assumption.
  destruct (Rltb (vz q) 0); [reflexivity|]. destruct (Rltb (vz (iso_point p q)) 0); reflexivity.
Qed.
Lemma norm_2_zero (v : rvec2) : norm_2 v = 0 <-> v = V2 0 0.
Proof.
  unfold norm_2, norm2_2. destruct v as [x y]. cbn [px py sqrt_ RNum add mul]. split.
  - intros H. apply sqrt_eq_0 in H; [|nra]. assert (x = 0) by nra. assert (y = 0) by nra. subst. reflexivity.
  - intros [= -> ->]. replace (0 * 0 + 0 * 0) with 0 by ring. apply sqrt_0.
Qed.
Lemma average_spec tri (p : riso) (a b q : rvec3) : tri p a b = Some (from_point q) -> 0 < vz q -> 0 < vz (iso_point p q) ->
  exists ea eb e, pose_reprojection_error tri p a b = Some (ea, eb) /\ ea = sub_2 (dehomogenize a) (dehomogenize q) /\ eb = sub_2 (dehomogenize b) (dehomogenize (iso_point p q)) /\
    average_pose_reprojection_error tri p a b = Some e /\ e = (norm_2 ea + norm_2 eb) / 2 /\ 0 <= e /\
    (e = 0 <-> dehomogenize a = dehomogenize q /\ dehomogenize b = dehomogenize (iso_point p q)).
Proof.
  intros Ht Hq Hpq. pose proof (reprojection_spec tri p a b q Ht ltac:(lra) ltac:(lra)) as E.
  assert (Rltb (vz q) 0 = false) as E1 by (apply Rltb_false; lra). assert (Rltb (vz (iso_point p q)) 0 = false) as E2 by (apply Rltb_false; lra). rewrite E1, E2 in E. cbn [orb] in E.
  eexists _, _, _. split; [exact E|]. split; [reflexivity|]. split; [reflexivity|]. unfold average_pose_reprojection_error. rewrite E. split; [reflexivity|].
  set (x := sub_2 (dehomogenize a) _). set (y := sub_2 (dehomogenize b) _). unfold half, lit. rnum. assert (0 <= norm_2 x) by apply sqrt_pos. assert (0 <= norm_2 y) by apply sqrt_pos.
  split; [lra|]. split; [lra|].
  assert (forall u v : rvec2, sub_2 u v = V2 0 0 <-> u = v) as Hs.
  { intros [u1 u2] [v1 v2]. unfold sub_2. cbn [px py]. rnum. split; [intros [= H1 H2]; f_equal; lra|intros [= -> ->]; f_equal; ring]. }
  rewrite <- (Hs (dehomogenize a)), <- (Hs (dehomogenize b)). fold x y. rewrite <- !norm_2_zero. split; [intros; split; lra|intros [-> ->]; lra].
Qed.

(** ** Concrete cases *)
Definition demo_svd_pose : riso := Iso mid (V3 0 0 1).
Definition demo_svd : svd RNum := (M3 (V3 0 (-1) 0) (V3 1 0 0) (V3 0 0 1), V3 1 1 0, mid).
Lemma demo_svd_case : rigid demo_svd_pose /\ trans demo_svd_pose <> vzero /\ svd_correct (essential_of demo_svd_pose) demo_svd.
Proof.
  split; [apply rotation_id|]. split; [intros [= H]; lra|]. unfold svd_correct, demo_svd, demo_svd_pose, essential_of, orthogonal. cbn [vx vy vz trans rot]. repeat split; try lra; lin.
Qed.
Lemma demo_intrinsics_case : regular doc_intrinsics /\ -1 < -164624 / 1000000 * norm2_2 (to_plane doc_intrinsics (V2 471 322 : rvec2)) <= 1 /\
  -164624 / 1000000 * norm2_2 (to_plane doc_intrinsics (V2 471 322 : rvec2)) <> 0.
Proof.
  unfold regular, norm2_2, to_plane, sub_2, doc_intrinsics, lit. cbn [focals principal_point skew px py RNum ofZ add sub mul div]. lra.
Qed.
Lemma demo_residual_case : rigid demo_svd_pose /\ vz (V3 0 0 1 : rvec3) <> 0 /\ vz (iso_point demo_svd_pose (V3 0 0 1)) <> 0.
Proof. split; [apply rotation_id|]. split; [cbn; lra|]. unfold demo_svd_pose. lin_unfold. lra. Qed.

(** ** C36, C37 *)
Lemma correspondence_residual (p : riso) (q : rvec3) (s t : R) : s <> 0 -> t <> 0 -> vz q <> 0 -> vz (iso_point p q) <> 0 ->
  essential_residual (essential_of p) (vscale s q) (vscale t (iso_point p q)) = 0.
Proof. intros Hs Ht H1 H2. rewrite residual_scale by assumption. apply residual_zero; [assumption..|]. apply essential_correspondence. Qed.
Lemma direction_residual (p : riso) (d : rvec3) : vz d <> 0 -> vz (mvec (rot p) d) <> 0 -> essential_residual (essential_of p) d (mvec (rot p) d) = 0.
Proof. intros H1 H2. apply residual_zero; [assumption..|]. apply essential_direction. Qed.
Lemma recondition_spec try_svd (E : rmat3) d : try_svd E = Some d -> svd_correct E d ->
  exists E', recondition try_svd E = Some E' /\ essential E' /\ (essential E -> E' = E).
Proof.
  intros H Hd. destruct d as [[u s] vt]. pose proof Hd as (Hu & Hv & _). destruct (recondition_essential try_svd E u s vt H Hu Hv) as (E' & HE & He). exists E'. split; [exact HE|]. split; [exact He|].
  intros He0. rewrite (recondition_fixed try_svd E _ H Hd He0) in HE. congruence.
Qed.

(** ** Setters *)
Lemma setter_matrices (N : Num) (k : intrinsics N) (fx fy x y s : N) (a b c d e f g h i : N) :
  intrinsic_matrix k = M3 (V3 a b c) (V3 d e f) (V3 g h i) ->
  intrinsic_matrix (set_focals k (V2 fx fy)) = M3 (V3 fx b c) (V3 d fy f) (V3 g h i) /\
  intrinsic_matrix (set_focal k fx) = M3 (V3 fx b c) (V3 d fx f) (V3 g h i) /\
  intrinsic_matrix (set_principal_point k (V2 x y)) = M3 (V3 a b x) (V3 d e y) (V3 g h i) /\
  intrinsic_matrix (set_skew k s) = M3 (V3 a s c) (V3 d e f) (V3 g h i) /\
  intrinsic_matrix (intrinsics_id (N := N)) = M3 (V3 one zero zero) (V3 zero one zero) (V3 zero zero one).
Proof. unfold intrinsic_matrix. intros [= <- <- <- <- <- <- <- <- <-]. repeat split. Qed.
