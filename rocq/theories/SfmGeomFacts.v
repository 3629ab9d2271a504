(** Facts about the verdicts of SfmGeom.v over the reals (C60-C62). *)
From stdpp Require Import gmap list.
From Coq Require Import Reals Lra Lia.
From Verif Require Import Outcome OutcomeFacts Num Lin LinSpec LinFacts Core CoreSpec CoreFacts Geom GeomSpec GeomFacts GeomEpi.
From Verif Require Import Sfm SfmSpec SfmUse SfmEffects SfmRec SfmOps SfmThms SfmPose SfmPoseSpec SfmPoseFacts SfmGeom SfmGeomSpec.
Open Scope nat_scope.

(** ** Lists *)
Lemma elem_of_pairs {A} (l : list A) x y : (x, y) ∈ pairs l <-> exists i j, i < j /\ l !! i = Some x /\ l !! j = Some y.
Proof.
  induction l as [|z l IH]; cbn [pairs].
  - split; [intros H; apply elem_of_nil in H as []|intros (i & j & _ & H & _); rewrite lookup_nil in H; congruence].
  - rewrite elem_of_app, elem_of_list_fmap, IH. split.
    + intros [(y' & [= -> ->] & Hy)|(i & j & Hij & Hi & Hj)].
      * apply elem_of_list_lookup in Hy as [j Hj]. exists 0, (S j). split; [lia|]. auto.
      * exists (S i), (S j). split; [lia|]. auto.
    + intros ([|i] & [|j] & Hij & Hi & Hj); try lia; cbn in Hi, Hj.
      * injection Hi as ->. left. exists y. split; [reflexivity|]. eapply elem_of_list_lookup_2, Hj.
      * right. exists i, j. split; [lia|]. auto.
Qed.
Lemma existsb_pairs {A} (f : A -> A -> bool) (l : list A) :
  existsb (fun ab => f ab.1 ab.2) (pairs l) = true <-> exists i j x y, i < j /\ l !! i = Some x /\ l !! j = Some y /\ f x y = true.
Proof.
  rewrite existsb_exists. split.
  - intros ([x y] & Hin & H). apply elem_of_list_In, elem_of_pairs in Hin as (i & j & Hij & Hi & Hj). exists i, j, x, y. auto.
  - intros (i & j & x & y & Hij & Hi & Hj & H). exists (x, y). split; [|exact H]. apply elem_of_list_In, elem_of_pairs. eauto.
Qed.
Lemma existsb_pairs_sym {A} (f : A -> A -> bool) (l : list A) : (forall x y, f x y = f y x) ->
  existsb (fun ab => f ab.1 ab.2) (pairs l) = true <-> exists i j x y, i <> j /\ l !! i = Some x /\ l !! j = Some y /\ f x y = true.
Proof.
  intros Hf. rewrite existsb_pairs. split.
  - intros (i & j & x & y & Hij & H). exists i, j, x, y. split; [lia|exact H].
  - intros (i & j & x & y & Hij & Hi & Hj & H). destruct (Nat.lt_ge_cases i j) as [L|L].
    + exists i, j, x, y. auto.
    + exists j, i, y, x. split; [lia|]. rewrite Hf. auto.
Qed.

Section facts.
Context {F : Type} (st : gsettings RNum) (G : tools RNum F).
Implicit Types (rc : recon riso) (d : vdata riso F).

(** ** Reading observations *)
Lemma pose_bearing_iff d rc x pb : pose_bearing G d rc x = Some pb <-> observed (t_bearing G) d rc x pb.
Proof.
  unfold pose_bearing, observation_bearing, frame_bearing, observed, has_view, has_frame, sm_get. split.
  - destruct (sm_map (r_views rc) !! x.1) as [w|]; [|congruence]. destruct (sm_map (d_frames d) !! v_frame w) as [fr|] eqn:Efr; [|congruence].
    destruct (f_feats fr !! x.2) as [f|] eqn:Ef; [|cbn; congruence]. cbn. intros [= <-]. exists w, fr, f. auto.
  - intros (w & fr & f & -> & -> & -> & ->). reflexivity.
Qed.
Lemma observed_fun d rc x p q : observed (t_bearing G) d rc x p -> observed (t_bearing G) d rc x q -> p = q.
Proof. rewrite <- !pose_bearing_iff. congruence. Qed.
Lemma assigned_observed d rc v f l : one_entry_per_feature d rc -> assigned rc v f l -> exists p, observed (t_bearing G) d rc (v, f) p.
Proof.
  intros Hone (w & Hw & Hl). destruct (Hone v w Hw) as (fr & Hfr & Hlen). apply lookup_lt_Some in Hl. rewrite Hlen in Hl. apply lookup_lt_is_Some in Hl as [y Hy].
  eexists. exists w, fr, y. eauto.
Qed.
Lemma pose_bearings_all d rc l ps : pose_bearings G d rc l = ps -> (forall x, x ∈ l -> exists p, observed (t_bearing G) d rc x p) -> Forall2 (observed (t_bearing G) d rc) l ps.
Proof.
  revert ps. induction l as [|x l IH]; intros ps <- H; [constructor|]. destruct (H x) as [p Hp]; [left|]. unfold pose_bearings. cbn [omap list_omap].
  pose proof Hp as E. apply pose_bearing_iff in E. rewrite E. constructor; [exact Hp|]. apply IH; [reflexivity|]. intros y Hy. apply H. right. exact Hy.
Qed.
Lemma all_pose_bearings d rc l ps : Forall2 (observed (t_bearing G) d rc) l ps -> pose_bearings G d rc l = ps.
Proof. induction 1 as [|x p l ps Hx _ IH]; [reflexivity|]. unfold pose_bearings in *. cbn [omap list_omap]. apply pose_bearing_iff in Hx. rewrite Hx, IH. reflexivity. Qed.

(** Only the poses, the frames of the views and the features matter. *)
Lemma observed_same d rc d' rc' x : same_images d d' -> (forall v, view_facts <$> sm_map (r_views rc') !! v = view_facts <$> sm_map (r_views rc) !! v) ->
  pose_bearing G d' rc' x = pose_bearing G d rc x.
Proof.
  intros (_ & _ & Hf) Hv. specialize (Hv x.1). unfold pose_bearing, observation_bearing, sm_get.
  destruct (sm_map (r_views rc') !! x.1) as [w'|], (sm_map (r_views rc) !! x.1) as [w|]; cbn in Hv; try congruence.
  unfold view_facts in Hv. injection Hv as E1 E2 _. rewrite E1, E2. specialize (Hf (v_frame w)). unfold frame_bearing.
  destruct (sm_map (d_frames d') !! v_frame w) as [fr'|], (sm_map (d_frames d) !! v_frame w) as [fr|]; cbn in Hf; try congruence.
  injection Hf as _ _ E. rewrite E. reflexivity.
Qed.
Lemma pose_bearings_same d rc d' rc' l : same_images d d' -> (forall v, view_facts <$> sm_map (r_views rc') !! v = view_facts <$> sm_map (r_views rc) !! v) ->
  pose_bearings G d' rc' l = pose_bearings G d rc l.
Proof. intros H1 H2. unfold pose_bearings. induction l as [|x l IH]; [reflexivity|]. cbn [omap list_omap]. rewrite (observed_same d rc d' rc' x H1 H2), IH. reflexivity. Qed.

Lemma landmark_list o rc l m : has_landmark rc l m -> landmark_observations o rc l = obs_list o l m.
Proof. intros H. unfold landmark_observations, sm_get. rewrite H. reflexivity. Qed.
Lemma landmark_list1 o rc l : landmarks_observations o rc [l] = landmark_observations o rc l.
Proof. unfold landmarks_observations. cbn. apply app_nil_r. Qed.

Lemma landmark_observed o d rc l m : orders_ok o -> recon_ok d rc -> has_landmark rc l m ->
  Forall2 (observed (t_bearing G) d rc) (obs_list o l m) (pose_bearings G d rc (obs_list o l m)).
Proof.
  intros Ho Hok Hm. apply pose_bearings_all; [reflexivity|]. intros [v f] Hx. apply (elem_of_obs_list o l m v f Ho) in Hx.
  destruct (assigned_observed d rc v f l) as [p Hp]; [apply Hok| |eauto]. apply (ok_mirrored _ _ Hok). exists m. auto.
Qed.
Lemma landmark_listed o d rc l m : orders_ok o -> recon_ok d rc -> has_landmark rc l m ->
  listed (t_bearing G) o d rc l (pose_bearings G d rc (obs_list o l m)).
Proof. intros Ho Hok Hm. exists m. split; [exact Hm|]. apply landmark_observed; assumption. Qed.
Lemma listed_fun o d rc l ps qs : listed (t_bearing G) o d rc l ps -> listed (t_bearing G) o d rc l qs -> ps = qs.
Proof.
  intros (m & Hm & Hp) (m' & Hm' & Hq). assert (m' = m) as -> by (unfold has_landmark in *; congruence). apply all_pose_bearings in Hp, Hq. congruence.
Qed.

(** ** Robust landmarks *)
Lemma cosd_comm (u v : rvec3) : cosd u v = cosd v u.
Proof. unfold cosd. rewrite dot_comm. reflexivity. Qed.
Lemma incident_spec (x : R) (u v : rvec3) : incident (N := RNum) x u v = true <-> (x < cosd u v)%R.
Proof. unfold incident, cosine_distance. cbn [ltb RNum]. apply Rltb_spec. Qed.

Lemma robust_iff o d rc l m : orders_ok o -> recon_ok d rc -> has_landmark rc l m ->
  landmarks_robust st G o d rc [l] = true <->
  robust_landmark (t_bearing G) (robust_minimum_observations st) (robust_observation_incidence_minimum_cosine_distance st) d rc l.
Proof.
  intros Ho Hok Hm. unfold landmarks_robust, observations_robust. rewrite landmark_list1, (landmark_list o rc l m Hm), (obs_list_length o l m Ho), andb_true_iff, Nat.leb_le.
  pose proof (landmark_observed o d rc l m Ho Hok Hm) as Hall. set (xs := obs_list o l m) in *. set (ps := pose_bearings G d rc xs) in *.
  assert (forall x, x ∈ xs <-> assigned rc x.1 x.2 l) as Hxs.
  { intros [v f]. cbn. unfold xs. rewrite (elem_of_obs_list o l m v f Ho), (ok_mirrored _ _ Hok v f l). split; [intros H; exists m; auto|intros (m' & Hm' & H)]. assert (m' = m) as -> by (unfold has_landmark in *; congruence). exact H. }
  rewrite (existsb_pairs_sym (incident (N := RNum) (robust_observation_incidence_minimum_cosine_distance st))).
  2: { intros a b. apply eq_bool_prop_intro. rewrite !Is_true_true, !incident_spec, cosd_comm. reflexivity. }
  unfold robust_landmark. split.
  - intros [H1 (i & j & a & b & Hij & Ha & Hb & H)]. split; [exists m; split; [exact Hm|]; unfold sm_size in *; lia|].
    rewrite list_lookup_fmap in Ha, Hb. apply fmap_Some in Ha as (px & Hpx & ->). apply fmap_Some in Hb as (py & Hpy & ->).
    destruct (Forall2_lookup_r _ _ _ _ _ Hall Hpx) as (x & Hx & Hox). destruct (Forall2_lookup_r _ _ _ _ _ Hall Hpy) as (y & Hy & Hoy).
    exists x, y, px, py. split.
    { intros ->. apply Hij. eapply NoDup_lookup; [|exact Hx|exact Hy]. eapply NoDup_fmap_1, (NoDup_obs_list o l m Ho). }
    split; [apply Hxs; eapply elem_of_list_lookup_2; exact Hx|]. split; [apply Hxs; eapply elem_of_list_lookup_2; exact Hy|]. split; [exact Hox|]. split; [exact Hoy|].
    apply incident_spec. exact H.
  - intros [(m' & Hm' & H1) (x & y & px & py & Hne & Hx & Hy & Hox & Hoy & H)]. assert (m' = m) as -> by (unfold has_landmark in *; congruence). split; [unfold sm_size; lia|].
    apply Hxs, elem_of_list_lookup in Hx as [i Hi]. apply Hxs, elem_of_list_lookup in Hy as [j Hj].
    destruct (Forall2_lookup_l _ _ _ _ _ Hall Hi) as (px' & Hpx & Hox'). destruct (Forall2_lookup_l _ _ _ _ _ Hall Hj) as (py' & Hpy & Hoy').
    assert (px' = px) as -> by (eapply observed_fun; eassumption). assert (py' = py) as -> by (eapply observed_fun; eassumption).
    exists i, j, (world_ray px), (world_ray py). split; [intros ->; congruence|]. split; [rewrite list_lookup_fmap; apply fmap_Some; exists px; split; [exact Hpx|reflexivity]|]. split; [rewrite list_lookup_fmap; apply fmap_Some; exists py; split; [exact Hpy|reflexivity]|]. apply incident_spec. exact H.
Qed.

(** ** The epipolar error *)
Lemma loss_rotation (A : rmat3) (t a b : rvec3) : rotation A -> epipolar_loss (mvec A t) (mvec A a) (mvec A b) = epipolar_loss t a b.
Proof.
  intros H. destruct (Rlt_dec (dot a b) 0) as [Hl|Hl]; [rewrite !loss_behind by (rewrite ?(rotation_dot A a b H); exact Hl); reflexivity|apply Rnot_lt_le in Hl].
  rewrite !loss_max by (rewrite ?(rotation_dot A a b H); exact Hl). rewrite <- !(rotation_cross A _ _ H), !(rotation_norm A _ H), (rotation_dot A _ _ H). reflexivity.
Qed.
Lemma pair_error_loss (p q : riso) (a b : rvec3) : rigid q -> bi_loss (iso_mul q (iso_inv p)) a b = pair_error (p, a) (q, b).
Proof.
  intros Hq. unfold bi_loss. transitivity (epipolar_loss (vsub (centre p) (centre q)) (direction (p, a)) (direction (q, b))).
  - rewrite <- (loss_rotation (rot q) (vsub (centre p) (centre q)) (direction (p, a)) (direction (q, b)) Hq). unfold direction, turn, centre. cbn [fst snd rot trans iso_mul iso_inv]. rewrite mvec_sub, !(rotation_forth (rot q) _ Hq), mvec_mmul. f_equal.
    generalize (mvec (rot q) (mvec (mtrans (rot p)) (vneg (trans p)))). intros u. lin.
  - unfold pair_error. cbn [fst snd]. destruct (Rlt_dec _ _) as [H|H]; [apply loss_behind; exact H|]. apply loss_max, Rnot_lt_le, H.
Qed.
Lemma pair_error_sym x y : pair_error x y = pair_error y x.
Proof.
  unfold pair_error. set (a := direction x). set (b := direction y). rewrite (dot_comm b a). destruct (Rlt_dec (dot a b) 0); [reflexivity|].
  replace (vsub (centre y.1) (centre x.1)) with (vneg (vsub (centre x.1) (centre y.1))) by (generalize (centre x.1) (centre y.1); intros; lin).
  set (t := vsub (centre x.1) (centre y.1)). rewrite !cross_neg_r, !norm_neg, dot_neg_r, Rabs_Ropp, (triple_swap t a b), Rabs_Ropp, Rmax_comm. reflexivity.
Qed.

(** ** Counting *)
Lemma count_exact o d rc : orders_ok o -> recon_ok d rc ->
  exactly (robust_landmark_count st G o d rc)
    (robust_landmark (t_bearing G) (robust_minimum_observations st) (robust_observation_incidence_minimum_cosine_distance st) d rc).
Proof.
  intros Ho Hok. unfold robust_landmark_count. eexists. split; [|split; [|reflexivity]].
  - apply NoDup_filter, NoDup_elements.
  - intros l. rewrite elem_of_list_filter, elem_of_elements. unfold sm_keys. rewrite elem_of_dom. split.
    + intros [H [m Hm]]. eapply robust_iff; eassumption.
    + intros H. assert (exists m, has_landmark rc l m) as [m Hm] by (destruct H as [(m & Hm & _) _]; eauto). split; [|eauto]. eapply robust_iff; eassumption.
Qed.
End facts.
