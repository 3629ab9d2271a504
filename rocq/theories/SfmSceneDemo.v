(** A noise-free scene: four cameras in a row look at three points; three of them form a
    reconstruction, the fourth is registered (C63-C65). *)
From stdpp Require Import gmap list.
From Coq Require Import Reals Lra Lia FunctionalExtensionality.
From Verif Require Import Outcome OutcomeFacts Num Lin LinSpec LinFacts Core CoreSpec CoreFacts Geom GeomSpec GeomFacts Optimize OptimizeSpec.
From Verif Require Import Sfm SfmSpec SfmUse SfmEffects SfmRec SfmHist SfmProps SfmDemo SfmPose SfmPoseSpec SfmPoseFacts SfmGeom SfmGeomSpec SfmGeomFacts SfmGeomThms SfmGeomRigid SfmGeomReg SfmGeomExact.
Open Scope nat_scope.

(** ** A triangulator which intersects two rays, and is exact *)
Definition meet (x y : riso * rvec3) : rvec3 :=
  let u := direction x in
  let v := direction y in
  let n := cross u v in
  vadd (centre x.1) (vscale (dot (cross (vsub (centre y.1) (centre x.1)) v) n / norm2 n)%R u).
Definition crossing (x y : riso * rvec3) : bool := if Req_EM_T (norm2 (cross (direction x) (direction y))) 0 then false else true.
Definition two_ray (xs : list (riso * rvec3)) : option (vec4 RNum) :=
  match xs with
  | [] => None
  | x :: _ => match filter (fun y => crossing x y = true) xs with [] => None | y :: _ => Some (from_point (meet x y)) end
  end.
Lemma crossing_spec x y : crossing x y = true <-> cross (direction x) (direction y) <> vzero.
Proof.
  unfold crossing. destruct (Req_EM_T _ _) as [E|E].
  - split; [discriminate|]. intros H. exfalso. apply H, norm2_zero, E.
  - split; [|reflexivity]. intros _ H. apply E. rewrite H. lin.
Qed.
Lemma meet_exact q xs x y : exact_rays q xs -> x ∈ xs -> y ∈ xs -> cross (direction x) (direction y) <> vzero -> meet x y = q.
Proof.
  intros H Hx Hy Hc. destruct (exact_ray q xs x H Hx) as (_ & s & _ & Es). destruct (exact_ray q xs y H Hy) as (_ & t & _ & Et). unfold meet. cbv zeta. set (u := direction x) in *. set (v := direction y) in *.
  assert (vsub (centre y.1) (centre x.1) = vsub (vscale s u) (vscale t v)) as -> by (rewrite <- Es, <- Et; generalize (centre x.1) (centre y.1); intros; lin).
  assert (dot (cross (vsub (vscale s u) (vscale t v)) v) (cross u v) = s * norm2 (cross u v))%R as -> by (generalize u v; intros; lin).
  apply norm2_pos in Hc. replace (s * norm2 (cross u v) / norm2 (cross u v))%R with s by (revert Hc; generalize (norm2 (cross u v) : R); intros; field; apply Rgt_not_eq; assumption).
  rewrite <- Es. generalize (centre x.1). intros. lin.
Qed.
Lemma parallel_trans (u v w : rvec3) : unit_vec u -> cross u v = vzero -> cross u w = vzero -> cross v w = vzero.
Proof.
  intros Hu Hv0 Hw0. assert (cross v u = vzero) as Hv by (transitivity (vneg (cross u v)); [|rewrite Hv0]; lin). assert (cross w u = vzero) as Hw by (transitivity (vneg (cross u w)); [|rewrite Hw0]; lin). pose proof (triple_cross u v u) as H1. pose proof (triple_cross u w u) as H2. rewrite Hv, cross_zero_r, <- norm2_dot in H1. rewrite Hw, cross_zero_r, <- norm2_dot in H2. unfold unit_vec in Hu. rewrite Hu, vscale_one in H1, H2. symmetry in H1, H2. apply vsub_zero in H1, H2.
  rewrite H1, H2, cross_scale_l, cross_scale_r, cross_self. lin.
Qed.
Lemma two_ray_exact : exact_triangulator two_ray.
Proof.
  intros q xs H (a & b & Ha & Hb & Hab). destruct xs as [|x xs]; [apply elem_of_nil in Ha as []|]. unfold two_ray.
  destruct (filter (fun y => crossing x y = true) (x :: xs)) as [|y ys] eqn:E.
  - exfalso. assert (forall z, z ∈ x :: xs -> cross (direction x) (direction z) = vzero) as Hz.
    { intros z Hz. destruct (crossing x z) eqn:Ez; [exfalso; apply (elem_of_nil z); rewrite <- E; apply elem_of_list_filter; auto|]. unfold crossing in Ez. destruct (Req_EM_T _ _) as [E0|]; [apply norm2_zero, E0|discriminate Ez]. }
    apply Hab. apply (parallel_trans (direction x)); [apply (exact_ray q _ x H); left|apply Hz, Ha|apply Hz, Hb].
  - assert (y ∈ filter (fun y => crossing x y = true) (x :: xs)) as Hy by (rewrite E; left). apply elem_of_list_filter in Hy as [Hc Hy]. apply crossing_spec in Hc. rewrite (meet_exact q (x :: xs) x y H); [reflexivity|left|exact Hy|exact Hc].
Qed.

(** ** The database *)
Definition scene_feats (k : nat) : list nat := [10 + k; 20 + k; 30 + k].
Definition scene_knn (fs : list nat) (f n : nat) : list (nat * nat) := demo_knn ((fun x => Nat.div x 10) <$> fs) (Nat.div f 10) n.
Definition scene_settings : settings := Settings 8 10 0 8 10 3 10 1 4 1 1 1.

Section generic.
Context {P : Type} (one : P) (mul : P -> P -> P) (inv : P -> P) (p1 p2 : P).
Context (three : vdata P nat -> key -> (key * (P * list (nat * nat))) -> (key * (P * list (nat * nat))) -> three_view_verdict P)
  (reg : vdata P nat -> key -> key -> list (list key * nat) -> option (P * (list key * nat -> bool)))
  (robust bi : vdata P nat -> key -> key -> bool) (dis : vdata P nat -> key -> key -> option (key * nat -> bool)) (few : vdata P nat -> key -> bool)
  (opt : vdata P nat -> key -> key * key * key -> list key -> option (P * P)) (upd : P -> list (P * P) -> option P)
  (worse : vdata P nat -> key -> key -> nat -> nat -> bool) (rescale : vdata P nat -> key -> key -> option (P -> P)).
Definition scene_env : env P nat := {|
  e_ord := demo_orders; e_similar := fun _ _ _ => []; e_knn := scene_knn; e_two_view := fun _ _ _ _ => None; e_three_view := three; e_register := reg;
  e_robust := robust; e_bi_robust := bi; e_disagree := dis; e_too_few := few; e_optimize3 := opt; e_sort := fun l => l; e_update := upd; e_second_worse := worse; e_rescale := rescale; e_fuel := 100 |}.
Definition scene_ops (e : env P nat) : list (op P nat) :=
  OpAddFeed :: ((fun k => OpAddFrame e 0 (scene_feats k)) <$> seq 0 4) ++ [OpAddReconstruction e 0 1 2 p1 p2 [(0, 0, 0); (1, 1, 1); (2, 2, 2)] [] []].
Definition scene_data (e : env P nat) : vdata P nat := match run one mul inv scene_settings (scene_ops e) with Ok d => d | _ => vdata_init end.
Definition scene_rc (e : env P nat) : recon P := default recon_empty (sm_map (d_recs (scene_data e)) !! 0).

Lemma scene_run : run one mul inv scene_settings (scene_ops scene_env) = Ok (scene_data scene_env).
Proof. assert (is_ok (run one mul inv scene_settings (scene_ops scene_env)) = true) as H by (vm_compute; reflexivity). unfold scene_data. destruct (run one mul inv scene_settings (scene_ops scene_env)); [reflexivity|discriminate..]. Qed.
Lemma scene_recon : has_recon (scene_data scene_env) 0 (scene_rc scene_env).
Proof. assert (is_some (sm_map (d_recs (scene_data scene_env)) !! 0) = true) as H by (vm_compute; reflexivity). unfold has_recon, scene_rc. destruct (sm_map (d_recs (scene_data scene_env)) !! 0); [reflexivity|discriminate]. Qed.
Lemma scene_views : map (fun x : key * view P => (x.1, v_frame x.2, v_pose x.2, v_lms x.2)) (map_to_list (sm_map (r_views (scene_rc scene_env)))) =
  [(0, 0, one, [0; 1; 2]); (1, 1, p1, [0; 1; 2]); (2, 2, p2, [0; 1; 2])].
Proof. vm_compute. reflexivity. Qed.
Lemma scene_landmarks : map (fun x : key * gmap nat nat => (x.1, obs_list demo_orders x.1 x.2)) (map_to_list (sm_map (r_lms (scene_rc scene_env)))) =
  (fun l => (l, [(0, l); (1, l); (2, l)])) <$> [0; 1; 2].
Proof. vm_compute. reflexivity. Qed.
Lemma scene_frames : map (fun x : key * frame nat => (x.1, f_feats x.2, f_view x.2)) (map_to_list (sm_map (d_frames (scene_data scene_env)))) =
  [(0, scene_feats 0, Some (0, 0)); (1, scene_feats 1, Some (0, 1)); (3, scene_feats 3, None); (2, scene_feats 2, Some (0, 2))].
Proof. vm_compute. reflexivity. Qed.

Definition scene_start : outcome (vdata P nat) := run one mul inv scene_settings (OpAddFeed :: ((fun k => OpAddFrame scene_env 0 (scene_feats k)) <$> seq 0 4)).
Lemma scene_start_free d k : scene_start = Ok d -> k < 4 -> free_frame d k.
Proof.
  intros E Hk. assert (match scene_start with Ok d => (size (sm_map (d_recs d)) =? 0) && forallb (fun k => is_some (sm_map (d_frames d) !! k)) (seq 0 4) | _ => false end = true) as H by (vm_compute; reflexivity). rewrite E in H.
  apply andb_true_iff in H as [H1 H2]. apply Nat.eqb_eq, map_size_empty_inv in H1. split.
  - rewrite forallb_forall in H2. assert (In k (seq 0 4)) as Hin by (apply in_seq; lia). specialize (H2 k Hin). unfold has_frame. destruct (sm_map (d_frames d) !! k) as [fr|]; [exists fr; reflexivity|discriminate H2].
  - intros r v (rc & w & Hr & _). unfold has_recon in Hr. rewrite H1, lookup_empty in Hr. discriminate Hr.
Qed.
Lemma scene_used : env_ok scene_env -> used_well one mul inv scene_settings vdata_init (scene_ops scene_env).
Proof.
  intros He. assert (forall d, op_args d (OpAddReconstruction scene_env 0 1 2 p1 p2 [(0, 0, 0); (1, 1, 1); (2, 2, 2)] [] []) <-> free_frame d 0 /\ free_frame d 1 /\ free_frame d 2) as Hargs.
  { intros d. cbn [op_args]. split; [intros (_ & _ & _ & H1 & H2 & H3 & _); auto|]. intros (H1 & H2 & H3). do 3 (split; [lia|]). do 3 (split; [assumption|]).
    assert (one_other [(0, 0); (1, 1); (2, 2)]) as Ho by (intros c f f'; rewrite !elem_of_cons, !elem_of_nil; intros [[= -> ->]|[[= -> ->]|[[= -> ->]|[]]]] [[= ->]|[[= ->]|[[= ->]|[]]]]; reflexivity). exact (conj Ho Ho). }
  unfold scene_ops. cbn [fmap list_fmap seq app used_well]. split; [split; [intros e [=]|exact I]|]. intros d1 E1.
  split; [split; [intros e [= <-]; exact He|exact I]|]. intros d2 E2. split; [split; [intros e [= <-]; exact He|exact I]|]. intros d3 E3. split; [split; [intros e [= <-]; exact He|exact I]|]. intros d4 E4. split; [split; [intros e [= <-]; exact He|exact I]|]. intros d5 E5.
  assert (scene_start = Ok d5) as Hs. { unfold scene_start, run. cbn [fmap list_fmap seq foldM]. rewrite E1. cbn [bind]. rewrite E2. cbn [bind]. rewrite E3. cbn [bind]. rewrite E4. cbn [bind]. rewrite E5. reflexivity. }
  split; [|auto]. split; [intros e [= <-]; exact He|]. apply Hargs. split; [|split]; (eapply scene_start_free; [exact Hs|lia]).
Qed.
End generic.

(** ** The scene *)
Definition scene_pose (k : nat) : riso := Iso (N := RNum) mid (V3 (- INR k) 0 0 : rvec3)%R.
Definition scene_place (i : nat) : rvec3 := (V3 (INR i) 0 10 : rvec3)%R.
Definition scene_ray (i k : nat) : rvec3 := (V3 (INR i - INR k) 0 10 : rvec3)%R.
Definition scene_bearing (f : nat) : rvec3 := normalize (scene_ray (Nat.div f 10) (Nat.modulo f 10)).
Definition scene_tools : tools RNum nat :=
  Tools (N := RNum) scene_bearing two_ray (fun _ => None) (fun l => Some (scene_pose 3, seq 0 (length l))) asin (fun x => if Req_EM_T x 0 then false else true) (fun _ n => seq 0 n).
Definition scene_gs : gsettings RNum :=
  GSettings (N := RNum) (1 / 2)%R (1 / 2)%R 0%R 1 3 3 0%R 10 2 5 (1 / 10)%R 3 3 3 5 1 2 10 3 3 10 5 (1 / 10)%R.

Lemma scene_rigid k : rigid (scene_pose k).
Proof. apply rotation_id. Qed.
Lemma scene_tools_ok : tools_ok scene_tools.
Proof.
  split; [discriminate| |reflexivity]. intros l p ixs. cbn [t_single_view scene_tools]. intros E.
  assert (forall (x y : riso) (f g : list nat), Some (x, f) = Some (y, g) -> y = x /\ g = f) as Hinj by (split; congruence). destruct (Hinj _ _ _ _ E) as [-> ->]. split; [apply scene_rigid|]. intros i Hi. apply elem_of_seq in Hi. lia.
Qed.
Lemma scene_pose_0 : scene_pose 0 = iso_id.
Proof. unfold scene_pose, iso_id. f_equal. cbn [INR]. lin. Qed.
Lemma scene_ray_not_zero i k : scene_ray i k <> vzero.
Proof. unfold scene_ray, vzero. intros [= _ H]. lra. Qed.
Lemma scene_bearing_value i k : k < 10 -> scene_bearing (10 * i + k) = normalize (scene_ray i k).
Proof.
  intros Hk. unfold scene_bearing. replace (10 * i + k) with (k + i * 10) by lia. rewrite Nat.div_add, Nat.mod_add, Nat.div_small, Nat.mod_small by lia. reflexivity.
Qed.
Lemma scene_direction k (b : rvec3) : direction (scene_pose k, b) = b.
Proof. unfold direction, scene_pose. cbn [fst snd rot]. lin. Qed.
Lemma scene_sees i k : k < 10 -> sees (scene_pose k) (scene_place i) (scene_bearing (10 * i + k)).
Proof.
  intros Hk. rewrite scene_bearing_value by exact Hk. assert (iso_point (scene_pose k) (scene_place i) = scene_ray i k) as E by (unfold iso_point, scene_pose, scene_place, scene_ray; cbn [rot trans]; lin).
  split; rewrite E; [apply scene_ray_not_zero|reflexivity].
Qed.
Lemma normalize_dot (u v : rvec3) : dot (normalize u) (normalize v) = (dot u v * (/ norm u * / norm v))%R.
Proof. unfold normalize. rewrite !vdiv_scale, dot_scale_l, dot_scale_r. rnum. ring. Qed.
Lemma scene_inv_pos i k : (0 < / norm (scene_ray i k))%R.
Proof. apply Rinv_0_lt_compat, norm_pos, scene_ray_not_zero. Qed.

Definition scene_view (i k : nat) : riso * rvec3 := (scene_pose k, scene_bearing (10 * i + k)).
Lemma scene_exact i ks : i <= 3 -> (forall k, k ∈ ks -> k <= 3) -> exact_rays (scene_place i) (scene_view i <$> ks).
Proof.
  intros Hi Hks. assert (INR i <= 3)%R as HI by (replace 3%R with (INR 3) by (cbn; ring); apply le_INR, Hi). pose proof (pos_INR i) as HI0.
  assert (forall k, k ∈ ks -> 0 <= INR k <= 3)%R as HK by (intros k Hk; split; [apply pos_INR|replace 3%R with (INR 3) by (cbn; ring); apply le_INR, Hks, Hk]). split.
  - unfold scene_place, vzero. intros [= _ H]. lra.
  - intros x Hx. apply elem_of_list_fmap in Hx as (k & -> & Hk). cbn [fst snd scene_view]. split; [apply scene_rigid|]. split; [apply scene_sees; specialize (Hks k Hk); lia|].
    unfold scene_view. rewrite scene_direction, scene_bearing_value by (specialize (Hks k Hk); lia). unfold normalize. rewrite vdiv_scale, dot_scale_l. apply Rmult_le_pos; [apply Rlt_le, scene_inv_pos|].
    assert (dot (scene_ray i k) (scene_place i) = (INR i - INR k) * INR i + 100)%R as -> by (unfold scene_ray, scene_place; lin). specialize (HK k Hk). nra.
  - intros x y Hx Hy. apply elem_of_list_fmap in Hx as (k & -> & Hk). apply elem_of_list_fmap in Hy as (j & -> & Hj). unfold scene_view. rewrite !scene_direction, !scene_bearing_value by (first [specialize (Hks k Hk); lia|specialize (Hks j Hj); lia]). rewrite normalize_dot.
    apply Rmult_le_pos; [|apply Rmult_le_pos; apply Rlt_le, scene_inv_pos]. assert (dot (scene_ray i k) (scene_ray i j) = (INR i - INR k) * (INR i - INR j) + 100)%R as -> by (unfold scene_ray; lin).
    assert (-3 <= INR i - INR k <= 3)%R as [A1 A2] by (pose proof (HK k Hk); lra). assert (-3 <= INR i - INR j <= 3)%R as [B1 B2] by (pose proof (HK j Hj); lra).
    pose proof (Rmult_le_pos (INR i - INR k + 3) (INR i - INR j + 3) ltac:(lra) ltac:(lra)). pose proof (Rmult_le_pos (3 - (INR i - INR k)) (3 - (INR i - INR j)) ltac:(lra) ltac:(lra)). lra.
Qed.
Lemma scene_crossing i k j : k < 10 -> j < 10 -> k <> j -> cross (direction (scene_view i k)) (direction (scene_view i j)) <> vzero.
Proof.
  intros Hk Hj Hne. unfold scene_view. rewrite !scene_direction, !scene_bearing_value by assumption. unfold normalize. rewrite !vdiv_scale, cross_scale_l, cross_scale_r.
  assert (cross (scene_ray i k) (scene_ray i j) = V3 0 (10 * (INR k - INR j)) 0)%R as -> by (unfold scene_ray; lin). intros E. apply (f_equal vy) in E. cbn [vscale vy vzero] in E.
  pose proof (scene_inv_pos i k) as Pk. pose proof (scene_inv_pos i j) as Pj. apply not_INR in Hne. revert E Pk Pj. generalize (/ norm (scene_ray i k))%R (/ norm (scene_ray i j))%R. intros x y E Px Py.
  assert (10 * (INR k - INR j) * y * x = 0)%R as E' by exact E. clear E. apply Rmult_integral in E' as [E|E]; [|lra]. apply Rmult_integral in E as [E|E]; lra.
Qed.
Lemma scene_resolved i k j ks : k < 10 -> j < 10 -> k <> j -> k ∈ ks -> j ∈ ks -> resolved (scene_view i <$> ks).
Proof. intros Hk Hj Hne Ik Ij. exists (scene_view i k), (scene_view i j). split; [apply elem_of_list_fmap_1, Ik|]. split; [apply elem_of_list_fmap_1, Ij|]. apply scene_crossing; assumption. Qed.
Lemma scene_apart i k j : i <= 3 -> k <= 3 -> j <= 3 -> k <> j -> (0 < cosd (direction (scene_view i k)) (direction (scene_view i j)))%R.
Proof.
  intros Hi Hk Hj Hne. pose proof (scene_exact i [k; j] Hi) as H. assert (exact_rays (scene_place i) (scene_view i <$> [k; j])) as H' by (apply H; intros x; rewrite !elem_of_cons, elem_of_nil; intros [->|[->|[]]]; assumption). clear H.
  destruct (exact_ray _ _ (scene_view i k) H') as [Uk _]; [left|]. destruct (exact_ray _ _ (scene_view i j) H') as [Uj _]; [right; left|].
  assert (cross (direction (scene_view i k)) (direction (scene_view i j)) <> vzero) as Hc by (apply scene_crossing; lia). apply norm2_pos in Hc. rewrite lagrange in Hc. unfold unit_vec in Uk, Uj. rewrite Uk, Uj in Hc. unfold cosd.
  revert Hc. generalize (dot (direction (scene_view i k)) (direction (scene_view i j)) : R). intros z Hc. assert (0 < 1 * 1 - z * z)%R as Hc' by exact Hc. clear Hc. destruct (Rlt_or_le z 1) as [L|L]; [lra|exfalso; nra].
Qed.

(** ** Registration of the fourth camera *)
Section scene.
Context (nearest : rmat3 -> rmat3) (eps : R).
Notation T := (real_trig nearest eps).
Definition scene_e : env riso nat := geometric T scene_gs scene_tools demo_orders (fun _ _ _ => []) scene_knn (fun l => l) 100.
Notation d := (scene_data iso_id iso_mul iso_inv (scene_pose 1) (scene_pose 2) scene_e).
Notation rc := (scene_rc iso_id iso_mul iso_inv (scene_pose 1) (scene_pose 2) scene_e).

Lemma scene_knn_ok fs f n : length (scene_knn fs f n) = Nat.min n (length fs) /\ NoDup (scene_knn fs f n).*1 /\ forall i x, (i, x) ∈ scene_knn fs f n -> i < length fs.
Proof. pose proof (eo_knn _ (demo_env_ok demo_keep) ((fun x => Nat.div x 10) <$> fs) (Nat.div f 10) n) as H. rewrite fmap_length in H. exact H. Qed.
Lemma scene_e_ok : env_ok scene_e.
Proof.
  apply geometric_ok; [apply scene_tools_ok|apply (eo_orders _ (demo_env_ok demo_keep))| |exact scene_knn_ok|reflexivity].
  intros d k n. split; [constructor|]. intros x Hx. apply elem_of_nil in Hx as [].
Qed.
Lemma scene_numerical : numerical T scene_e.
Proof. exists scene_gs, scene_tools, demo_orders, (fun _ _ _ => []), scene_knn, (fun l => l), 100. split; [apply scene_tools_ok|reflexivity]. Qed.
Lemma scene_two_view : two_view (F := nat) scene_gs scene_tools = fun _ _ _ _ => None.
Proof.
  extensionality d. extensionality a. extensionality b. extensionality ms. unfold two_view. destruct (sm_get _ a); [|reflexivity]. destruct (sm_get _ b); reflexivity.
Qed.
Lemma scene_e_env : scene_e = scene_env (e_three_view scene_e) (e_register scene_e) (e_robust scene_e) (e_bi_robust scene_e) (e_disagree scene_e) (e_too_few scene_e) (e_optimize3 scene_e) (e_update scene_e) (e_second_worse scene_e) (e_rescale scene_e).
Proof. unfold scene_env. pose proof scene_two_view as H. unfold scene_e at 1, geometric at 1. rewrite H. reflexivity. Qed.

Lemma scene_run_ok : run iso_id iso_mul iso_inv scene_settings (scene_ops (scene_pose 1) (scene_pose 2) scene_e) = Ok d.
Proof. rewrite scene_e_env. apply scene_run. Qed.
Lemma scene_has_recon : has_recon d 0 rc.
Proof. rewrite scene_e_env. apply scene_recon. Qed.
Lemma scene_data_ok : data_ok d.
Proof.
  eapply (history_ok riso nat iso_id iso_mul iso_inv scene_settings); [|exact scene_run_ok]. pose proof scene_e_ok as H. rewrite scene_e_env in *. apply scene_used. exact H.
Qed.
Lemma scene_allowed x : x ∈ scene_ops (scene_pose 1) (scene_pose 2) scene_e -> (forall e, uses x = Some e -> numerical T e) /\ Forall rigid (given x).
Proof.
  unfold scene_ops. cbn [fmap list_fmap seq app]. intros H. repeat (apply elem_of_cons in H as [->|H]; [split; [intros e; cbn [uses]; intros E; assert (forall (A : Type) (x y : A), Some x = Some y -> y = x) as Hinj by congruence; first [discriminate E|rewrite (Hinj _ _ _ E); apply scene_numerical]|cbn [given]; repeat constructor; apply scene_rigid]|]). apply elem_of_nil in H as [].
Qed.
Lemma scene_view_value v w : has_view rc v w -> v < 3 /\ v_frame w = v /\ v_pose w = scene_pose v /\ v_lms w = [0; 1; 2].
Proof.
  intros H. assert ((v, v_frame w, v_pose w, v_lms w) ∈ [(0, 0, iso_id, [0; 1; 2]); (1, 1, scene_pose 1, [0; 1; 2]); (2, 2, scene_pose 2, [0; 1; 2])]) as Hin.
  { rewrite scene_e_env in H. pose proof (scene_views iso_id iso_mul iso_inv (scene_pose 1) (scene_pose 2) (e_three_view scene_e) (e_register scene_e) (e_robust scene_e) (e_bi_robust scene_e) (e_disagree scene_e) (e_too_few scene_e) (e_optimize3 scene_e) (e_update scene_e) (e_second_worse scene_e) (e_rescale scene_e)) as E.
    rewrite <- E. apply elem_of_list_In, in_map_iff. exists (v, w). split; [reflexivity|]. apply elem_of_list_In, elem_of_map_to_list. exact H. }
  assert (forall (a a' : key) (b b' : key) (p p' : riso) (l l' : list key), (a, b, p, l) = (a', b', p', l') -> a = a' /\ b = b' /\ p = p' /\ l = l') as Hinj by (intros; repeat split; congruence).
  rewrite <- scene_pose_0 in Hin. repeat (apply elem_of_cons in Hin as [Hin|Hin]; [apply Hinj in Hin as (-> & -> & -> & ->); split; [lia|auto]|]). apply elem_of_nil in Hin as [].
Qed.
Lemma scene_view_exists v : v < 3 -> exists w, has_view rc v w.
Proof.
  intros Hv. assert (v ∈ (map_to_list (sm_map (r_views rc))).*1) as Hin.
  { rewrite scene_e_env. pose proof (scene_views iso_id iso_mul iso_inv (scene_pose 1) (scene_pose 2) (e_three_view scene_e) (e_register scene_e) (e_robust scene_e) (e_bi_robust scene_e) (e_disagree scene_e) (e_too_few scene_e) (e_optimize3 scene_e) (e_update scene_e) (e_second_worse scene_e) (e_rescale scene_e)) as E.
    apply (f_equal (map (fun x : key * key * riso * list key => x.1.1.1))) in E. rewrite map_map in E. cbn [fst snd map] in E. match type of E with ?a = _ => match goal with |- v ∈ ?b => change (v ∈ a) end end. rewrite E. rewrite !elem_of_cons, elem_of_nil. lia. }
  apply elem_of_list_fmap in Hin as ([v' w] & -> & Hin). exists w. apply elem_of_map_to_list. exact Hin.
Qed.
Lemma scene_frame_value k fr : has_frame d k fr -> f_feats fr = scene_feats k.
Proof.
  intros H. assert ((k, f_feats fr, f_view fr) ∈ [(0, scene_feats 0, Some (0, 0)); (1, scene_feats 1, Some (0, 1)); (3, scene_feats 3, None); (2, scene_feats 2, Some (0, 2))]) as Hin.
  { rewrite scene_e_env in H. pose proof (scene_frames iso_id iso_mul iso_inv (scene_pose 1) (scene_pose 2) (e_three_view scene_e) (e_register scene_e) (e_robust scene_e) (e_bi_robust scene_e) (e_disagree scene_e) (e_too_few scene_e) (e_optimize3 scene_e) (e_update scene_e) (e_second_worse scene_e) (e_rescale scene_e)) as E.
    rewrite <- E. apply elem_of_list_In, in_map_iff. exists (k, fr). split; [reflexivity|]. apply elem_of_list_In, elem_of_map_to_list. exact H. }
  repeat (apply elem_of_cons in Hin as [[= -> -> _]|Hin]; [reflexivity|]). apply elem_of_nil in Hin as [].
Qed.
Lemma scene_frame_exists k : k < 4 -> exists fr, has_frame d k fr.
Proof.
  intros Hk. assert (k ∈ (map_to_list (sm_map (d_frames d))).*1) as Hin.
  { rewrite scene_e_env. pose proof (scene_frames iso_id iso_mul iso_inv (scene_pose 1) (scene_pose 2) (e_three_view scene_e) (e_register scene_e) (e_robust scene_e) (e_bi_robust scene_e) (e_disagree scene_e) (e_too_few scene_e) (e_optimize3 scene_e) (e_update scene_e) (e_second_worse scene_e) (e_rescale scene_e)) as E.
    apply (f_equal (map (fun x : key * list nat * option (key * key) => x.1.1))) in E. rewrite map_map in E. cbn [fst snd map] in E. match type of E with ?a = _ => match goal with |- k ∈ ?b => change (k ∈ a) end end. rewrite E. rewrite !elem_of_cons, elem_of_nil. lia. }
  apply elem_of_list_fmap in Hin as ([k' fr] & -> & Hin). exists fr. apply elem_of_map_to_list. exact Hin.
Qed.
Lemma scene_landmark_value l m : has_landmark rc l m -> l < 3 /\ obs_list demo_orders l m = [(0, l); (1, l); (2, l)].
Proof.
  intros H. assert ((l, obs_list demo_orders l m) ∈ (fun l => (l, [(0, l); (1, l); (2, l)])) <$> [0; 1; 2]) as Hin.
  { rewrite scene_e_env in H. pose proof (scene_landmarks iso_id iso_mul iso_inv (scene_pose 1) (scene_pose 2) (e_three_view scene_e) (e_register scene_e) (e_robust scene_e) (e_bi_robust scene_e) (e_disagree scene_e) (e_too_few scene_e) (e_optimize3 scene_e) (e_update scene_e) (e_second_worse scene_e) (e_rescale scene_e)) as E.
    rewrite <- E. apply elem_of_list_In, in_map_iff. exists (l, m). split; [reflexivity|]. apply elem_of_list_In, elem_of_map_to_list. exact H. }
  apply elem_of_list_fmap in Hin as (l' & [= -> ->] & Hl'). split; [|reflexivity]. rewrite !elem_of_cons, elem_of_nil in Hl'. lia.
Qed.
Lemma scene_landmark_exists l : l < 3 -> exists m, has_landmark rc l m.
Proof.
  intros Hl. destruct (scene_view_exists 0) as [w Hw]; [lia|]. destruct (scene_view_value 0 w Hw) as (_ & _ & _ & Hlms).
  assert (assigned rc 0 l l) as Ha by (exists w; split; [exact Hw|rewrite Hlms; destruct l as [|[|[|l]]]; [reflexivity..|lia]]).
  apply (ok_mirrored _ _ (ok_recons _ scene_data_ok _ _ scene_has_recon)) in Ha as (m & Hm & _). exists m. exact Hm.
Qed.

Lemma scene_feats_lookup k i x : scene_feats k !! i = Some x -> i < 3 /\ x = 10 * (i + 1) + k.
Proof. unfold scene_feats. destruct i as [|[|[|i]]]; cbn; intros H; [injection H as <-; lia..|discriminate H]. Qed.
Lemma scene_feats_index k i : i < 3 -> scene_feats k !! i = Some (10 * (i + 1) + k).
Proof. intros Hi. unfold scene_feats. destruct i as [|[|[|i]]]; [cbn [lookup list_lookup]; f_equal; lia..|lia]. Qed.
Lemma scene_observed v i px : observed scene_bearing d rc (v, i) px -> v < 3 /\ i < 3 /\ px = scene_view (i + 1) v.
Proof.
  intros (w & fr & f & Hw & Hfr & Hf & ->). cbn [fst snd] in *. destruct (scene_view_value v w Hw) as (Hv & Ev & Ep & _). rewrite Ev in Hfr. rewrite (scene_frame_value v fr Hfr) in Hf. apply scene_feats_lookup in Hf as [Hi ->].
  split; [exact Hv|]. split; [exact Hi|]. unfold scene_view. rewrite Ep. reflexivity.
Qed.
Lemma scene_listed l ps : listed scene_bearing demo_orders d rc l ps -> l < 3 /\ ps = scene_view (l + 1) <$> [0; 1; 2].
Proof.
  intros (m & Hm & Hall). destruct (scene_landmark_value l m Hm) as [Hl El]. split; [exact Hl|]. rewrite El in Hall.
  apply Forall2_cons_inv_l in Hall as (p0 & ps0 & H0 & Hall & ->). apply Forall2_cons_inv_l in Hall as (p1 & ps1 & H1 & Hall & ->). apply Forall2_cons_inv_l in Hall as (p2 & ps2 & H2 & Hall & ->). apply Forall2_nil_inv_l in Hall as ->.
  apply scene_observed in H0 as (_ & _ & ->). apply scene_observed in H1 as (_ & _ & ->). apply scene_observed in H2 as (_ & _ & ->). reflexivity.
Qed.
Lemma scene_lists l : l < 3 -> listed_all scene_bearing demo_orders d rc [l] (scene_view (l + 1) <$> [0; 1; 2]).
Proof.
  intros Hl. destruct (scene_landmark_exists l Hl) as [m Hm]. pose proof (landmark_listed scene_tools demo_orders d rc l m (eo_orders _ scene_e_ok) (ok_recons _ scene_data_ok _ _ scene_has_recon) Hm) as H.
  pose proof (scene_listed l _ H) as [_ E]. eexists [_]. split; [constructor; [|constructor]; exact H|]. cbn [mjoin list_join]. rewrite app_nil_r. symmetry. exact E.
Qed.
Lemma scene_recon_exact : exact_recon scene_bearing demo_orders d rc.
Proof.
  intros l ps H. apply scene_listed in H as [Hl ->]. exists (scene_place (l + 1)). split.
  - apply scene_exact; [lia|]. intros k. rewrite !elem_of_cons, elem_of_nil. lia.
  - right. apply (scene_resolved (l + 1) 0 1); [lia..|left|right; left].
Qed.
Lemma scene_rigid_views : rigid_views rc.
Proof. intros v w Hw. destruct (scene_view_value v w Hw) as (_ & _ & -> & _). apply scene_rigid. Qed.

Lemma scene_match f fr : f < 3 -> has_frame d 3 fr -> exact_match scene_bearing demo_orders d rc fr (scene_pose 3) ([f], f).
Proof.
  intros Hf Hfr. exists (10 * (f + 1) + 3), (scene_place (f + 1)), (scene_view (f + 1) <$> [0; 1; 2]). split; [rewrite (scene_frame_value 3 fr Hfr); apply scene_feats_index, Hf|]. split; [apply scene_lists, Hf|].
  assert ((scene_view (f + 1) <$> [0; 1; 2]) ++ [(scene_pose 3, scene_bearing (10 * (f + 1) + 3))] = scene_view (f + 1) <$> [0; 1; 2; 3]) as -> by reflexivity. split.
  - apply scene_exact; [lia|]. intros k. rewrite !elem_of_cons, elem_of_nil. lia.
  - right. split; [cbn; lia|]. apply (scene_resolved (f + 1) 0 1); [lia..|left|right; left].
Qed.
Lemma scene_triangulated f fr : f < 3 -> has_frame d 3 fr -> exists bh, triangulated scene_bearing two_ray demo_orders 3 0 d rc fr ([f], f) bh.
Proof.
  intros Hf Hfr. exists (scene_bearing (10 * (f + 1) + 3), from_point (scene_place (f + 1))). exists (10 * (f + 1) + 3), (scene_view (f + 1) <$> [0; 1; 2]). split; [rewrite (scene_frame_value 3 fr Hfr); apply scene_feats_index, Hf|]. split; [apply scene_lists, Hf|]. split; [|split; [|reflexivity]].
  - split; [left; cbn; lia|]. exists 0, 1, (scene_view (f + 1) 0), (scene_view (f + 1) 1). split; [lia|]. split; [reflexivity|]. split; [reflexivity|]. apply scene_apart; lia.
  - apply two_ray_exact; [apply scene_exact; [lia|]; intros k; rewrite !elem_of_cons, elem_of_nil; lia|]. apply (scene_resolved (f + 1) 0 1); [lia..|left|right; left].
Qed.

Lemma scene_nearest v i : v < 3 -> i < 3 -> forall j x, (j, x) ∈ scene_knn (scene_feats v) (10 * (i + 1) + 3) 3 <-> j < 3 /\ x = if j =? i then 0 else 100.
Proof.
  intros Hv Hi j x. assert (scene_knn (scene_feats v) (10 * (i + 1) + 3) 3 = (i, 0) :: filter (fun y => y.1 <> i) [(0, 100); (1, 100); (2, 100)]) as ->.
  { destruct v as [|[|[|v]]]; [..|lia]; (destruct i as [|[|[|i]]]; [reflexivity..|lia]). }
  rewrite elem_of_cons, elem_of_list_filter, !elem_of_cons, elem_of_nil. cbn [fst]. destruct (Nat.eqb_spec j i) as [->|Hne].
  - split; [intros [[= ->]|[H _]]; [split; [exact Hi|reflexivity]|contradiction]|]. intros [_ ->]. left. reflexivity.
  - split; [intros [[= -> _]|[_ [[= -> ->]|[[= -> ->]|[[= -> ->]|[]]]]]]; [contradiction|split; [lia|reflexivity]..]|]. intros [Hj ->]. right. split; [exact Hne|]. destruct j as [|[|[|j]]]; auto. lia.
Qed.
Lemma scene_offers i l x : i < 3 -> offered scene_e d rc [0; 1; 2] (10 * (i + 1) + 3) l x <-> l < 3 /\ x = if l =? i then 0 else 100.
Proof.
  intros Hi. split.
  - intros (v & w & fr & j & _ & Hw & Hfr & Hk & Hl). destruct (scene_view_value v w Hw) as (Hv & Ev & _ & El). rewrite Ev in Hfr. rewrite (scene_frame_value v fr Hfr) in Hk. cbn [e_knn scene_e geometric] in Hk. apply scene_nearest in Hk as [Hj ->]; [|assumption..].
    rewrite El in Hl. assert (l = j) as -> by (destruct j as [|[|[|j]]]; [cbn in Hl; congruence..|lia]). auto.
  - intros [Hl ->]. destruct (scene_view_exists 0) as [w Hw]; [lia|]. destruct (scene_view_value 0 w Hw) as (_ & Ev & _ & El). destruct (scene_frame_exists 0) as [fr Hfr]; [lia|]. exists 0, w, fr, l. split; [left|]. split; [exact Hw|]. rewrite Ev. split; [exact Hfr|].
    rewrite (scene_frame_value 0 fr Hfr). cbn [e_knn scene_e geometric]. split; [apply scene_nearest; [lia|exact Hi|auto]|]. rewrite El. destruct l as [|[|[|l]]]; [reflexivity..|lia].
Qed.
Lemma scene_clear i ls : i < 3 -> clear_match scene_e scene_settings d rc [0; 1; 2] (10 * (i + 1) + 3) ls <-> ls = [i].
Proof.
  intros Hi. assert (offered scene_e d rc [0; 1; 2] (10 * (i + 1) + 3) i 0) as Hoi by (apply scene_offers; [exact Hi|]; rewrite Nat.eqb_refl; auto). split.
  - intros [a x [Ha _] Ho|a b x y ma mb Hab [Ha _] [Hb _] Hxy Hby Ho _ _ _]; apply (scene_offers i a x Hi) in Ha as [Ha ->].
    + destruct (Nat.eqb_spec a i) as [->|Hne]; [reflexivity|]. specialize (Ho i 0 ltac:(congruence) Hoi). cbn in Ho. lia.
    + apply (scene_offers i b y Hi) in Hb as [Hb ->]. cbn [single_view_match_better_by scene_settings] in Hby, Ho. destruct (Nat.eqb_spec a i) as [->|Hai].
      * destruct (Nat.eqb_spec b i) as [->|_]; [contradiction|lia].
      * destruct (Nat.eqb_spec b i) as [->|Hbi]; [lia|]. specialize (Ho i 0 ltac:(congruence) ltac:(congruence) Hoi). lia.
  - intros ->. apply (clear_one _ _ _ _ _ _ i 0).
    + split; [exact Hoi|]. intros y _. lia.
    + intros l y Hl Hy. apply (scene_offers i l y Hi) in Hy as [_ ->]. destruct (Nat.eqb_spec l i) as [->|_]; [contradiction|]. cbn. lia.
Qed.

Lemma scene_usable hi ms fr : has_frame d 3 fr -> usable_matches scene_e scene_settings d rc (f_feats fr) [0; 1; 2] hi ms -> forall m, m ∈ ms -> exists f, f < 3 /\ m = ([f], f).
Proof.
  intros Hfr Hum [ls f] Hm. destruct (um_clear _ _ _ _ _ _ _ _ Hum ls f Hm) as (_ & desc & Hd & Hc). rewrite (scene_frame_value 3 fr Hfr) in Hd. apply scene_feats_lookup in Hd as [Hf ->]. exists f. split; [exact Hf|]. apply (scene_clear f ls Hf) in Hc as ->. reflexivity.
Qed.
Lemma scene_all_usable ms fr f : has_frame d 3 fr -> usable_matches scene_e scene_settings d rc (f_feats fr) [0; 1; 2] 3 ms -> f < 3 -> ([f], f) ∈ ms.
Proof.
  intros Hfr Hum Hf. destruct (proj2 (um_exact _ _ _ _ _ _ _ _ Hum f (10 * (f + 1) + 3) ltac:(rewrite (scene_frame_value 3 fr Hfr); apply scene_feats_index, Hf) Hf [f] ltac:(apply scene_clear; [exact Hf|reflexivity]))) as (ls & Hp & Hin).
  - intros (f' & desc & ls & l & Hne & Hf' & Hd & Hc & Hl & Hl'). rewrite (scene_frame_value 3 fr Hfr) in Hd. apply scene_feats_lookup in Hd as [_ ->]. apply (scene_clear f' ls Hf') in Hc as ->. apply elem_of_list_singleton in Hl, Hl'. congruence.
  - apply Permutation_sym, Permutation_length_1_inv in Hp as ->. exact Hin.
Qed.

Lemma scene_enough ms fr : has_frame d 3 fr -> usable_matches scene_e scene_settings d rc (f_feats fr) [0; 1; 2] 3 ms ->
  3 <= length ms /\ exists n, exactly n (fun m => m ∈ ms /\ exists bh, triangulated scene_bearing two_ray demo_orders 3 0 d rc fr m bh) /\ 0 < n /\ 3 <= n.
Proof.
  intros Hfr Hum. assert (forall m, m ∈ ms <-> m ∈ [([0], 0); ([1], 1); ([2], 2)]) as Hin.
  { intros m. split.
    - intros Hm. destruct (scene_usable 3 ms fr Hfr Hum m Hm) as (f & Hf & ->). rewrite !elem_of_cons, elem_of_nil. destruct f as [|[|[|f]]]; auto. lia.
    - rewrite !elem_of_cons, elem_of_nil. intros [->|[->|[->|[]]]]; apply (scene_all_usable ms fr _ Hfr Hum); lia. }
  assert (NoDup [([0], 0); ([1], 1); ([2], 2)]) as Hnd by (repeat constructor; rewrite ?elem_of_cons, ?elem_of_nil; intuition congruence). split.
  - assert (submseteq [([0], 0); ([1], 1); ([2], 2)] ms) as Hs by (apply NoDup_submseteq; [exact Hnd|]; intros m Hm; apply Hin, Hm). apply submseteq_length in Hs. exact Hs.
  - exists 3. split; [|lia]. exists [([0], 0); ([1], 1); ([2], 2)]. split; [exact Hnd|]. split; [|reflexivity]. intros m. rewrite Hin. split; [|tauto]. intros Hm. split; [exact Hm|].
    rewrite !elem_of_cons, elem_of_nil in Hm. destruct Hm as [->|[->|[->|[]]]]; apply scene_triangulated; try exact Hfr; lia.
Qed.

Lemma scene_consensus points : t_single_view scene_tools points = Some (scene_pose 3, seq 0 (length points)).
Proof. reflexivity. Qed.
Lemma scene_views_exist v : v ∈ [0; 1; 2] -> exists w, has_view rc v w.
Proof. rewrite !elem_of_cons, elem_of_nil. intros Hv. apply scene_view_exists. lia. Qed.
Lemma scene_registered : exists found, register_frame scene_e scene_settings d 0 3 [0; 1; 2] = Ok (Some (scene_pose 3, found)).
Proof.
  destruct (scene_frame_exists 3) as [fr Hfr]; [lia|]. pose proof (ok_recons _ scene_data_ok _ _ scene_has_recon) as Hok.
  assert (exists res, register_frame scene_e scene_settings d 0 3 [0; 1; 2] = Ok res) as [res E].
  { pose proof (SfmReg.register_frame_post False scene_e scene_settings d 0 3 [0; 1; 2] rc fr scene_e_ok scene_has_recon Hok Hfr scene_views_exist) as H.
    destruct (register_frame scene_e scene_settings d 0 3 [0; 1; 2]) as [res| |]; [exists res; reflexivity|exfalso; apply H..];
      (right; split; [rewrite (scene_frame_value 3 fr Hfr); split; [cbn; lia|left; cbn; lia]|right; exists 0; split; [left|]; destruct (scene_view_exists 0) as [w Hw]; [lia|]; destruct (scene_view_value 0 w Hw) as (_ & Ev & _); destruct (scene_frame_exists 0) as [fr' Hfr']; [lia|]; exists w, fr'; rewrite Ev, (scene_frame_value 0 fr' Hfr'); auto]). }
  destruct (register_frame_exact nearest eps scene_gs scene_tools demo_orders two_ray_exact ltac:(cbn; lra) ltac:(cbn; lra) ltac:(cbn; lra) (fun _ _ _ => []) scene_knn (fun l => l) 100 scene_settings d 0 3 [0; 1; 2] rc fr (scene_pose 3) res
    scene_tools_ok scene_e_ok scene_has_recon Hok scene_rigid_views Hfr scene_views_exist) as (found & hi & ms & -> & _).
  - cbn. lia.
  - intros hi ms Hum m Hm. destruct (scene_usable hi ms fr Hfr Hum m Hm) as (f & Hf & ->). apply scene_match; assumption.
  - intros points _ _. apply scene_consensus.
  - cbn. lia.
  - intros ms Hum. rewrite (scene_frame_value 3 fr Hfr) in Hum at 2. apply scene_enough; assumption.
  - exact E.
  - exists found. exact E.
Qed.

Lemma scene_exact_case : exists rc fr, exact_triangulator (t_triangulate scene_tools) /\ exact_recon scene_bearing demo_orders d rc /\ has_recon d 0 rc /\ has_frame d 3 fr /\
    (forall hi ms, usable_matches scene_e scene_settings d rc (f_feats fr) [0; 1; 2] hi ms -> forall m, m ∈ ms -> exact_match scene_bearing demo_orders d rc fr (scene_pose 3) m) /\
    (forall ms, usable_matches scene_e scene_settings d rc (f_feats fr) [0; 1; 2] 3 ms -> 3 <= length ms /\
      exists n, exactly n (fun m => m ∈ ms /\ exists bh, triangulated scene_bearing two_ray demo_orders 3 0 d rc fr m bh) /\ 0 < n /\ 3 <= n).
Proof.
  destruct (scene_frame_exists 3) as [fr Hfr]; [lia|]. exists rc, fr. split; [exact two_ray_exact|]. split; [exact scene_recon_exact|]. split; [exact scene_has_recon|]. split; [exact Hfr|]. split.
  - intros hi ms Hum m Hm. destruct (scene_usable hi ms fr Hfr Hum m Hm) as (f & Hf & ->). apply scene_match; assumption.
  - intros ms. apply scene_enough, Hfr.
Qed.
End scene.
