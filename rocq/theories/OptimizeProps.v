(** Bounds on the steps of the optimisers, the NaN counterexample and concrete cases. *)
From Coq Require Import Reals Lra Psatz List ZArith Bool Lia SpecFloat.
From Verif Require Import Num Lin LinSpec LinFacts Core CoreSpec CoreFacts So3Facts Geom GeomSpec GeomFacts GeomEpi GeomProps Optimize OptimizeSpec OptimizeFacts.
Import ListNotations.
Open Scope R_scope.

(** ** Bounds *)
Lemma norm_triangle (u v : rvec3) : norm (vadd u v) <= norm u + norm v.
Proof.
  pose proof (norm_nonneg u) as Hu. pose proof (norm_nonneg v) as Hv. unfold norm at 1. apply Rsqr_incr_0_var; [|lra]. unfold Rsqr. change (sqrt_ (norm2 (vadd u v))) with (sqrt (norm2 (vadd u v))). rewrite sqrt_sqrt by (rewrite <- norm_sq; apply Rle_0_sqr).
  assert (dot u v <= norm u * norm v) as Hc. { apply Rsqr_incr_0_var; [|apply Rmult_le_pos; assumption]. unfold Rsqr. pose proof (cauchy u v) as H. rewrite <- !norm_sq in H. lra. }
  assert (norm2 (vadd u v) = norm2 u + norm2 v + 2 * dot u v) as -> by lin. rewrite <- !norm_sq. lra.
Qed.
Lemma norm_vzero : norm (vzero : rvec3) = 0.
Proof. unfold norm. replace (norm2 (vzero : rvec3)) with 0 by lin. exact sqrt_0. Qed.
Lemma vtotal_norm {A} (f : A -> rvec3) l B : (forall a, In a l -> norm (f a) <= B) -> norm (vtotal f l) <= INR (length l) * B.
Proof.
  intros H. induction l as [|a l IH]; [cbn [vtotal fold_right length INR]; rewrite norm_vzero; lra|]. change (length (a :: l)) with (S (length l)). rewrite S_INR. cbn [vtotal fold_right].
  eapply Rle_trans; [apply norm_triangle|]. unfold vtotal in IH. specialize (IH (fun a' H' => H a' (or_intror H'))). specialize (H a (or_introl eq_refl)). lra.
Qed.
Lemma normalize_norm (v : rvec3) : norm (normalize v) <= 1.
Proof. destruct (normalize_cases v) as [H|H]; [rewrite (norm_unit _ H); lra|rewrite H, norm_vzero; lra]. Qed.
Lemma Rtotal_ge {A} (f : A -> R) l b : (forall a, In a l -> b <= f a) -> INR (length l) * b <= Rtotal f l.
Proof.
  intros H. induction l as [|a l IH]; [cbn; lra|]. change (length (a :: l)) with (S (length l)). rewrite S_INR. cbn [Rtotal fold_right]. unfold Rtotal in IH. specialize (IH (fun a' H' => H a' (or_intror H'))). specialize (H a (or_introl eq_refl)). lra.
Qed.
Lemma Rtotal_le {A} (f : A -> R) l b : (forall a, In a l -> f a <= b) -> Rtotal f l <= INR (length l) * b.
Proof.
  intros H. induction l as [|a l IH]; [cbn; lra|]. change (length (a :: l)) with (S (length l)). rewrite S_INR. cbn [Rtotal fold_right]. unfold Rtotal in IH. specialize (IH (fun a' H' => H a' (or_intror H'))). specialize (H a (or_introl eq_refl)). lra.
Qed.
Lemma harmonic_bound {A} (f : A -> rvec3) l rate k B : 0 <= rate -> 0 < k -> 0 <= B -> (forall a, In a l -> norm (f a) <= B) ->
  norm (vscale (rate / Rtotal (fun a => 1 / (norm (f a) + k)) l) (vtotal (fun a => normalize (f a)) l)) <= rate * (B + k).
Proof.
  intros Hr Hk HB H. destruct l as [|a0 l0].
  - cbn [vtotal fold_right]. assert (vscale (rate / Rtotal (fun a => 1 / (norm (f a) + k)) []) (vzero : rvec3) = vzero) as -> by (generalize (rate / Rtotal (fun a => 1 / (norm (f a) + k)) []); lin). rewrite norm_vzero. apply Rmult_le_pos; lra.
  - set (l := a0 :: l0) in *. assert (0 < INR (length l)) as Hn by (apply lt_0_INR; cbn; lia).
    assert (INR (length l) * (1 / (B + k)) <= Rtotal (fun a => 1 / (norm (f a) + k)) l) as Ht.
    { apply Rtotal_ge. intros a Ha. specialize (H a Ha). pose proof (norm_nonneg (f a)). unfold Rdiv. rewrite !Rmult_1_l. apply Rinv_le_contravar; lra. }
    set (t := Rtotal _ l) in *. assert (0 < INR (length l) * (1 / (B + k))) as Hp by (apply Rmult_lt_0_compat; [exact Hn|apply Rdiv_lt_0_compat; lra]).
    rewrite norm_scale, Rabs_pos_eq by (unfold Rdiv; apply Rmult_le_pos; [exact Hr|apply Rlt_le, Rinv_0_lt_compat; lra]).
    pose proof (vtotal_norm (fun a => normalize (f a)) l 1 (fun a _ => normalize_norm (f a))) as Hv. set (v := norm _) in *. pose proof (norm_nonneg (vtotal (fun a => normalize (f a)) l)) as Hv0. fold v in Hv0.
    assert (v <= t * (B + k)) as Hvt. { eapply Rle_trans; [exact Hv|]. apply (Rmult_le_compat_r (B + k)) in Ht; [|lra]. assert (INR (length l) * (1 / (B + k)) * (B + k) = INR (length l)) as E by (field; lra). lra. }
    unfold Rdiv. rewrite Rmult_assoc. apply Rmult_le_compat_l; [exact Hr|]. apply (Rmult_le_reg_l t); [lra|]. rewrite <- Rmult_assoc, Rinv_r, Rmult_1_l by lra. exact Hvt.
Qed.
Lemma weiszfeld_bound rate kt kr (gl : list (se3 RNum)) Bt Br : 0 <= rate -> 0 < kt -> 0 < kr -> 0 <= Bt -> 0 <= Br -> (forall g, In g gl -> norm (se_t g) <= Bt /\ norm (se_r g) <= Br) ->
  norm (se_t (weiszfeld_step rate kt kr gl)) <= rate * (Bt + kt) /\ norm (se_r (weiszfeld_step rate kt kr gl)) <= rate * (Br + kr).
Proof.
  intros Hr Hkt Hkr Ht Hrr H. unfold weiszfeld_step. cbn [se_t se_r]. split; apply harmonic_bound; try assumption; intros g Hg; apply (H g Hg).
Qed.
Lemma mean_bound_one {A} (f : A -> rvec3) l rate n B : 0 <= rate -> 0 <= B -> (length l <= n)%nat -> (forall a, In a l -> norm (f a) <= B) -> norm (vscale (rate / INR n) (vtotal f l)) <= rate * B.
Proof.
  intros Hr HB Hn H. destruct n as [|n].
  - destruct l; [|cbn in Hn; lia]. cbn [vtotal fold_right]. assert (vscale (rate / INR 0) (vzero : rvec3) = vzero) as -> by (generalize (rate / INR 0); lin). rewrite norm_vzero. apply Rmult_le_pos; assumption.
  - assert (0 < INR (S n)) as Hp by (apply lt_0_INR; lia). pose proof (vtotal_norm f l B H) as Hv. apply le_INR in Hn.
    rewrite norm_scale, Rabs_pos_eq by (unfold Rdiv; apply Rmult_le_pos; [exact Hr|apply Rlt_le, Rinv_0_lt_compat; lra]). set (v := norm (vtotal f l)) in *.
    unfold Rdiv. rewrite Rmult_assoc. apply Rmult_le_compat_l; [exact Hr|]. apply (Rmult_le_reg_l (INR (S n))); [lra|]. rewrite <- Rmult_assoc, Rinv_r, Rmult_1_l by lra. nra.
Qed.
Lemma mean_bound rate n (gl : list (se3 RNum)) Bt Br : 0 <= rate -> 0 <= Bt -> 0 <= Br -> (length gl <= n)%nat -> (forall g, In g gl -> norm (se_t g) <= Bt /\ norm (se_r g) <= Br) ->
  norm (se_t (mean_step rate n gl)) <= rate * Bt /\ norm (se_r (mean_step rate n gl)) <= rate * Br.
Proof.
  intros Hr Ht Hrr Hn H. unfold mean_step. cbn [se_t se_r]. split; apply mean_bound_one; try assumption; intros g Hg; apply (H g Hg).
Qed.
Lemma vtotal_norm_total {A} (f : A -> rvec3) l : norm (vtotal f l) <= Rtotal (fun a => norm (f a)) l.
Proof.
  induction l as [|a l IH]; [cbn [vtotal Rtotal fold_right]; rewrite norm_vzero; lra|]. cbn [vtotal Rtotal fold_right]. eapply Rle_trans; [apply norm_triangle|]. unfold vtotal, Rtotal in IH. lra.
Qed.
Lemma shortened_one {A} (f : A -> rvec3) l n B : 0 <= B -> (length l <= n)%nat -> (forall a, In a l -> norm (f a) <= B) ->
  let t := vscale (1 / INR n) (vtotal f l) in norm (vscale (norm t / (Rtotal (fun a => norm (f a)) l / INR n)) t) <= norm t /\ norm t <= B.
Proof.
  intros HB Hn H t. split.
  - rewrite norm_scale. set (k := norm t / _). assert (0 <= k <= 1) as Hk.
    { unfold k. clear k. pose proof (norm_nonneg t) as Ht. destruct n as [|n].
      - destruct l; [|cbn in Hn; lia]. unfold t. cbn [vtotal fold_right]. assert (vscale (1 / INR 0) (vzero : rvec3) = vzero) as -> by (generalize (1 / INR 0); lin). rewrite norm_vzero. unfold Rdiv. rewrite Rmult_0_l. lra.
      - assert (0 < INR (S n)) as Hp by (apply lt_0_INR; lia). set (s := Rtotal (fun a => norm (f a)) l / INR (S n)).
        assert (norm t <= s) as Hs. { unfold t, s. rewrite norm_scale, Rabs_pos_eq by (apply Rlt_le, Rdiv_lt_0_compat; lra). pose proof (vtotal_norm_total f l) as Hv. unfold Rdiv. rewrite Rmult_1_l, Rmult_comm. apply Rmult_le_compat_r; [apply Rlt_le, Rinv_0_lt_compat, Hp|exact Hv]. }
        destruct (Req_dec s 0) as [E|E]; [rewrite E; assert (norm t = 0) as -> by lra; unfold Rdiv; rewrite Rmult_0_l; lra|]. assert (0 < s) as Hs0 by lra. split.
        + unfold Rdiv. apply Rmult_le_pos; [exact Ht|apply Rlt_le, Rinv_0_lt_compat, Hs0].
        + apply (Rmult_le_reg_r s); [exact Hs0|]. unfold Rdiv. rewrite Rmult_assoc, Rinv_l by lra. lra. }
    rewrite Rabs_pos_eq by apply Hk. pose proof (norm_nonneg t). nra.
  - unfold t. rewrite <- (Rmult_1_l B). apply mean_bound_one; try assumption; lra.
Qed.
Lemma shortened_bound n (gl : list (se3 RNum)) Bt Br : 0 <= Bt -> 0 <= Br -> (length gl <= n)%nat -> (forall g, In g gl -> norm (se_t g) <= Bt /\ norm (se_r g) <= Br) ->
  norm (se_t (shortened_step n gl)) <= Bt /\ norm (se_r (shortened_step n gl)) <= Br.
Proof.
  intros Ht Hr Hn H. unfold shortened_step. cbv zeta. cbn [se_t se_r]. split.
  - destruct (shortened_one se_t gl n Bt Ht Hn) as [A B]; [intros g Hg; apply (H g Hg)|]. cbv zeta in A, B. lra.
  - destruct (shortened_one se_r gl n Br Hr Hn) as [A B]; [intros g Hg; apply (H g Hg)|]. cbv zeta in A, B. lra.
Qed.

(** ** Landmarks at infinity only *)
Lemma mul_nan (a x : F64) : isnan x = true -> isnan (mul a x) = true.
Proof. destruct x as [s|s| |s m e]; try discriminate. intros _. destruct a as [s|s| |s m e]; reflexivity. Qed.
Lemma add_nan_l (a x : F64) : isnan x = true -> isnan (add x a) = true.
Proof. destruct x as [s|s| |s m e]; try discriminate. intros _. destruct a as [s|s| |s m e]; reflexivity. Qed.
Lemma add_nan_r (a x : F64) : isnan x = true -> isnan (add a x) = true.
Proof. destruct x as [s|s| |s m e]; try discriminate. intros _. destruct a as [s|s| |s m e]; reflexivity. Qed.
Lemma zero_inf_nan (rate : F64) : isnan (mul (mul zero rate) (div one zero)) = true.
Proof. destruct rate as [s|s| |s m e]; try destruct s; reflexivity. Qed.
Definition far_landmark : vec3 F64 * vec4 F64 := (V3 zero zero one, V4 zero zero one zero).
Definition start_pose : iso F64 := Iso mid (V3 one zero zero).
Lemma far_skipped : deltas start_pose [far_landmark] = [].
Proof.
  unfold deltas. cbn [flat_map]. assert (landmark_delta start_pose far_landmark = None) as ->; [|reflexivity]. unfold landmark_delta. assert (point (transform start_pose (snd far_landmark)) = None) as ->; [|reflexivity]. apply none_test. vm_compute. reflexivity.
Qed.
Lemma single_view_nan : exists (pose : iso F64) (ls : list (vec3 F64 * vec4 F64)), v_finite (trans pose) = true /\ pose = Iso mid (trans pose) /\
  (forall l, In l ls -> v_finite (fst l) = true /\ h_finite (snd l) = true) /\
  forall (T : trig F64) (epsilon rate : F64), isnan (vx (trans (single_view_l1 T pose epsilon rate 1 ls))) = true.
Proof.
  exists start_pose, [far_landmark]. split; [vm_compute; reflexivity|]. split; [reflexivity|]. split; [intros l [<-|[]]; split; vm_compute; reflexivity|].
  intros T epsilon rate. unfold single_view_l1, descend. unfold single_l1_net. rewrite far_skipped. cbn [fold_left fst snd combine existsb map].
  assert (improved (None, None) (se3_id : se3 F64) = true) as -> by (vm_compute; reflexivity). cbn [orb Nat.leb]. unfold iso_mul, se3_isometry, l1_delta. cbn [trans rot vx vadd se3_scale_rotation se3_scale_translation se3_scale se3_id se_t se_r mvec].
  apply add_nan_l. unfold dot. cbn [vx vy vz vscale vzero]. apply add_nan_l, add_nan_l, mul_nan, zero_inf_nan.
Qed.

(** ** No gradients *)
Lemma eqb_zero (x : F64) : eqb x zero = true <-> exists s, x = S754_zero s.
Proof. split; [|intros (s & ->); reflexivity]. destruct x as [s|s| |s m e]; cbn; try discriminate; [eauto|destruct s; discriminate|destruct s; discriminate]. Qed.
Lemma add_zeros (a b : F64) : eqb a zero = true -> eqb b zero = true -> eqb (add a b) zero = true.
Proof. rewrite !eqb_zero. intros (s & ->) (t & ->). exists (s && t)%bool. now destruct s, t. Qed.
Lemma mul_zero (a b : F64) : eqb a zero = true -> isfin b = true -> eqb (mul a b) zero = true.
Proof. rewrite !eqb_zero. intros (s & ->) F. destruct b as [t|t| |t m e]; try discriminate; eexists; reflexivity. Qed.
Lemma zero_fin (a : F64) : eqb a zero = true -> isfin a = true.
Proof. rewrite eqb_zero. now intros (s & ->). Qed.
Lemma sqrt_zero (a : F64) : eqb a zero = true -> eqb (sqrt_ a) zero = true.
Proof. rewrite !eqb_zero. intros (s & ->). now exists s. Qed.
Lemma div_zeros (a b : F64) : eqb a zero = true -> eqb b zero = true -> isfin (div a b) = false.
Proof. rewrite !eqb_zero. intros (s & ->) (t & ->). reflexivity. Qed.
Lemma norm_zero (v : vec3 F64) : at_rest v -> eqb (norm v) zero = true.
Proof. intros (X & Y & Z). apply sqrt_zero. unfold norm2, dot. apply add_zeros; [apply add_zeros|]; apply mul_zero; auto using zero_fin. Qed.
Lemma scale_rest (s : F64) v : isfin s = true -> at_rest v -> at_rest (vscale s v).
Proof. intros F (X & Y & Z). unfold at_rest, vscale. cbn [vx vy vz]. auto using mul_zero. Qed.
Lemma sum_rest (part : se3 F64 -> vec3 F64) (P : forall a b, part (se3_add a b) = vadd (part a) (part b)) gs : forall s, at_rest (part s) -> (forall g, In g gs -> at_rest (part g)) -> at_rest (part (fold_left se3_add gs s)).
Proof.
  induction gs as [|g gs IH]; intros s Hs H; [exact Hs|]. cbn [fold_left]. apply IH; [|intros; apply H; now right]. rewrite P. destruct Hs as (A & B & C), (H g) as (D & E & F); [now left|]. unfold at_rest, vadd. cbn [vx vy vz]. auto using add_zeros. Qed.
Lemma lengths_rest (part : se3 F64 -> vec3 F64) gs : forall s, eqb s zero = true -> (forall g, In g gs -> at_rest (part g)) -> eqb (fold_left (fun acc g => add acc (norm (part g))) gs s) zero = true.
Proof. induction gs as [|g gs IH]; intros s Hs H; [exact Hs|]. cbn [fold_left]. apply IH; [|intros; apply H; now right]. apply add_zeros; [exact Hs|]. apply norm_zero, H. now left. Qed.
Lemma adaptive_rest (inv : F64) gs : isfin inv = true ->
  ((forall g, In g gs -> at_rest (se_t g)) -> at_rest (se_t (adaptive_gradient inv gs))) /\ ((forall g, In g gs -> at_rest (se_r g)) -> at_rest (se_r (adaptive_gradient inv gs))).
Proof.
  intros F. split; intros H; unfold adaptive_gradient; cbn [se_t se_r se3_scale_rotation se3_scale_translation se3_scale]; cbv zeta.
  - assert (R : at_rest (se_t (se3_sum gs))) by (apply sum_rest; [reflexivity|repeat split; reflexivity|exact H]). apply scale_rest; [|now apply scale_rest].
    rewrite div_zeros; [reflexivity|apply norm_zero; now apply scale_rest|]. apply mul_zero; [|exact F]. apply (lengths_rest se_t); [reflexivity|exact H].
  - assert (R : at_rest (se_r (se3_sum gs))) by (apply sum_rest; [reflexivity|repeat split; reflexivity|exact H]). apply scale_rest; [|now apply scale_rest].
    rewrite div_zeros; [reflexivity|apply norm_zero; now apply scale_rest|]. apply mul_zero; [|exact F]. apply (lengths_rest se_r); [reflexivity|exact H]. Qed.

(** ** Concrete cases *)
Definition demo_landmark : rvec3 * rvec4 := (V3 0 0 1, from_point (V3 3 0 1)).
Lemma demo_agrees : agrees left_camera demo_landmark.
Proof.
  left. exists (V3 3 0 1). split; [intros [= H]; lra|]. split; [reflexivity|]. assert (iso_point left_camera (V3 3 0 1) = V3 0 0 6) as E by (unfold left_camera; lin_unfold; lin_split; rlra).
  unfold sees, demo_landmark. cbn [fst]. rewrite E. split; [intros [= H]; lra|symmetry; apply (normalize_is _ _ 6); [lra|apply unit_345; lra|lin_unfold; lin_split; rlra]].
Qed.
Lemma demo_three : three_agree (near_camera, far_camera) (between, away_bearing, far_bearing).
Proof.
  exists seen_point. cbn [fst snd]. split; [|split].
  - unfold sees. rewrite iso_point_id. unfold seen_point. split; [intros [= H]; lra|symmetry; apply (normalize_is _ _ 4); [lra|apply between_unit|unfold between; lin_unfold; lin_split; rlra]].
  - apply (uneven_sees near_camera away_bearing). left. reflexivity.
  - apply (uneven_sees far_camera far_bearing). right. left. reflexivity.
Qed.
Lemma no_landmarks {N : Num} (T : trig N) (pose : iso N) (poses : iso N * iso N) epsilon rate n :
  single_view_l1 T pose epsilon rate n [] = pose /\ single_view_l2 T pose rate n [] = pose /\
  three_view_l1 T poses epsilon rate n [] = poses /\ three_view_l2 T poses rate n [] = poses /\ three_view_adaptive T poses n [] = poses.
Proof. repeat split. Qed.
Lemma all_rigid nearest eps (pose : riso) (poses : riso * riso) epsilon rate n ls ls' : rigid pose -> rigid2 poses -> let T := real_trig nearest eps in
  rigid (single_view_l1 T pose epsilon rate n ls) /\ rigid (single_view_l2 T pose rate n ls) /\
  rigid2 (three_view_l1 T poses epsilon rate n ls') /\ rigid2 (three_view_l2 T poses rate n ls') /\ rigid2 (three_view_adaptive T poses n ls').
Proof. intros H1 H2. destruct (single_rigid nearest eps pose epsilon rate n ls H1). split; [assumption|]. split; [assumption|]. apply three_rigid, H2. Qed.
