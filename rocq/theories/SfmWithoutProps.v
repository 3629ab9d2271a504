(** Proofs for C82 and C83. *)
From stdpp Require Import gmap list.
From Coq Require Import Reals Lra Lia.
From Verif Require Import Outcome OutcomeFacts Num Lin LinSpec LinFacts Core CoreSpec CoreFacts Geom GeomSpec GeomFacts GeomEpi.
From Verif Require Import Sfm SfmSpec SfmUse SfmEffects SfmRec SfmOps SfmThms SfmHist SfmDemo SfmProps SfmPose SfmPoseSpec SfmPoseFacts SfmPoseDemo.
From Verif Require Import SfmGeom SfmGeomSpec SfmGeomFacts SfmGeomThms SfmGeomDemo SfmWithout SfmWithoutSpec.
Open Scope nat_scope.

Section facts.
Context {F : Type} (st : gsettings RNum) (G : tools RNum F).
Implicit Types (rc : recon riso) (d : vdata riso F).

Lemma without_list o rc l m v : has_landmark rc l m -> observations_without o rc l v = filter (fun x : key * nat => x.1 <> v) (obs_list o l m).
Proof. intros H. unfold observations_without. rewrite (landmark_list o rc l m H). reflexivity. Qed.

Lemma without_observed o d rc l m v : orders_ok o -> recon_ok d rc -> has_landmark rc l m ->
  Forall2 (observed (t_bearing G) d rc) (observations_without o rc l v) (pose_bearings G d rc (observations_without o rc l v)).
Proof.
  intros Ho Hok Hm. apply pose_bearings_all; [reflexivity|]. rewrite (without_list o rc l m v Hm). intros [u f] Hx. apply elem_of_list_filter in Hx as [_ Hx].
  apply (elem_of_obs_list o l m u f Ho) in Hx. destruct (assigned_observed G d rc u f l) as [p Hp]; [apply Hok| |eauto]. apply (ok_mirrored _ _ Hok). exists m. auto.
Qed.

Lemma without_iff o d rc l m v : orders_ok o -> recon_ok d rc -> has_landmark rc l m ->
  robust_without st G o d rc l v = true <-> wide_without (t_bearing G) (robust_observation_incidence_minimum_cosine_distance st) d rc l v.
Proof.
  intros Ho Hok Hm. unfold robust_without. pose proof (without_observed o d rc l m v Ho Hok Hm) as Hall.
  assert (forall x, x ∈ observations_without o rc l v <-> x.1 <> v /\ assigned rc x.1 x.2 l) as Hxs.
  { intros [u f]. cbn. rewrite (without_list o rc l m v Hm), elem_of_list_filter, (elem_of_obs_list o l m u f Ho), (ok_mirrored _ _ Hok u f l). cbn [fst].
    split; intros [H1 H]; (split; [exact H1|]); [exists m; auto|]. destruct H as (m' & Hm' & H). assert (m' = m) as -> by (unfold has_landmark in *; congruence). exact H. }
  assert (NoDup (observations_without o rc l v)) as Hnd. { rewrite (without_list o rc l m v Hm). apply NoDup_filter. eapply NoDup_fmap_1, (NoDup_obs_list o l m Ho). }
  set (xs := observations_without o rc l v) in *. set (ps := pose_bearings G d rc xs) in *.
  rewrite (existsb_pairs_sym (incident (N := RNum) (robust_observation_incidence_minimum_cosine_distance st))).
  2: { intros a b. apply eq_bool_prop_intro. rewrite !Is_true_true, !incident_spec, cosd_comm. reflexivity. }
  unfold wide_without. split.
  - intros (i & j & a & b & Hij & Ha & Hb & H).
    rewrite list_lookup_fmap in Ha, Hb. apply fmap_Some in Ha as (px & Hpx & ->). apply fmap_Some in Hb as (py & Hpy & ->).
    destruct (Forall2_lookup_r _ _ _ _ _ Hall Hpx) as (x & Hx & Hox). destruct (Forall2_lookup_r _ _ _ _ _ Hall Hpy) as (y & Hy & Hoy).
    exists x, y, px, py. split. { intros ->. apply Hij. eapply NoDup_lookup; [exact Hnd|exact Hx|exact Hy]. }
    apply elem_of_list_lookup_2 in Hx, Hy. apply Hxs in Hx as [Hx1 Hx2]. apply Hxs in Hy as [Hy1 Hy2].
    repeat (split; [assumption|]). apply incident_spec. exact H.
  - intros (x & y & px & py & Hne & Hx1 & Hy1 & Hx & Hy & Hox & Hoy & H).
    destruct (proj1 (elem_of_list_lookup _ _) (proj2 (Hxs x) (conj Hx1 Hx))) as [i Hi]. destruct (proj1 (elem_of_list_lookup _ _) (proj2 (Hxs y) (conj Hy1 Hy))) as [j Hj].
    destruct (Forall2_lookup_l _ _ _ _ _ Hall Hi) as (px' & Hpx & Hox'). destruct (Forall2_lookup_l _ _ _ _ _ Hall Hj) as (py' & Hpy & Hoy').
    assert (px' = px) as -> by (eapply observed_fun; eassumption). assert (py' = py) as -> by (eapply observed_fun; eassumption).
    exists i, j, (world_ray px), (world_ray py). split; [intros ->; congruence|].
    split; [rewrite list_lookup_fmap; apply fmap_Some; exists px; split; [exact Hpx|reflexivity]|]. split; [rewrite list_lookup_fmap; apply fmap_Some; exists py; split; [exact Hpy|reflexivity]|].
    apply incident_spec. exact H.
Qed.

Lemma without_point o d rc l m v h : orders_ok o -> recon_ok d rc -> has_landmark rc l m ->
  triangulate_without st G o d rc l v = Some h <->
  wide_without (t_bearing G) (robust_observation_incidence_minimum_cosine_distance st) d rc l v /\
  exists ps, listed_without (t_bearing G) o d rc l v ps /\ t_triangulate G ps = Some h.
Proof.
  intros Ho Hok Hm. rewrite <- (without_iff o d rc l m v Ho Hok Hm). unfold triangulate_without. destruct (robust_without st G o d rc l v); [|split; [congruence|intros [[=] _]]].
  pose proof (without_observed o d rc l m v Ho Hok Hm) as Hall. split.
  - intros H. split; [reflexivity|]. eexists. split; [|exact H]. exists m. split; [exact Hm|]. rewrite <- (without_list o rc l m v Hm). exact Hall.
  - intros (_ & ps & (m' & Hm' & Hps) & H). assert (m' = m) as -> by (unfold has_landmark in *; congruence). rewrite <- (without_list o rc l m v Hm) in Hps.
    apply all_pose_bearings in Hps. rewrite Hps. exact H.
Qed.

Lemma without_any_order o o' d rc l m v : orders_ok o -> orders_ok o' -> recon_ok d rc -> has_landmark rc l m ->
  robust_without st G o d rc l v = robust_without st G o' d rc l v.
Proof. intros Ho Ho' Hok Hm. apply eq_bool_prop_intro. rewrite !Is_true_true, (without_iff o d rc l m v Ho Hok Hm), (without_iff o' d rc l m v Ho' Hok Hm). reflexivity. Qed.

Lemma without_weaker o d rc l m v : orders_ok o -> recon_ok d rc -> has_landmark rc l m ->
  robust_ignoring (t_bearing G) (robust_minimum_observations st) (robust_observation_incidence_minimum_cosine_distance st) d rc l v ->
  robust_without st G o d rc l v = true.
Proof. intros Ho Hok Hm [_ H]. apply (without_iff o d rc l m v Ho Hok Hm), H. Qed.
End facts.

(** The view ignored has no influence. *)
Lemma without_same {N : Num} {F : Type} (st : gsettings N) (G : tools N F) o (d : vdata (iso N) F) (rc rc' : recon (iso N)) l v : same_but v rc rc' ->
  robust_without st G o d rc' l v = robust_without st G o d rc l v /\ triangulate_without st G o d rc' l v = triangulate_without st G o d rc l v.
Proof.
  intros [Hl Hv]. assert (observations_without o rc' l v = observations_without o rc l v) as E by (unfold observations_without, landmark_observations; rewrite Hl; reflexivity).
  assert (pose_bearings G d rc' (observations_without o rc l v) = pose_bearings G d rc (observations_without o rc l v)) as E2.
  { assert (forall x, x ∈ observations_without o rc l v -> x.1 <> v) as H by (intros x Hx; apply elem_of_list_filter in Hx; apply Hx).
    revert H. generalize (observations_without o rc l v). clear E. intros xs. induction xs as [|x xs IH]; intros H; [reflexivity|]. unfold pose_bearings in *. cbn [omap list_omap].
    rewrite IH by (intros y Hy; apply H; right; exact Hy). assert (pose_bearing G d rc' x = pose_bearing G d rc x) as ->; [|reflexivity].
    unfold pose_bearing, observation_bearing, sm_get. rewrite (Hv x.1) by (apply H; left). reflexivity. }
  assert (robust_without st G o d rc' l v = robust_without st G o d rc l v) as E3 by (unfold robust_without; rewrite E, E2; reflexivity).
  split; [exact E3|]. unfold triangulate_without. rewrite E3, E, E2. reflexivity.
Qed.

(** ** The debugging check *)
Lemma check_feature_in {P} (rc : recon P) v f l x : x ∈ check_feature rc v f l <->
  (x = NoLandmark v f l /\ ~ exists m, has_landmark rc l m) \/ (exists m, has_landmark rc l m /\ m !! v <> Some f /\ x = NotListed v f l (m !! v)).
Proof.
  unfold check_feature, has_landmark, sm_get. destruct (sm_map (r_lms rc) !! l) as [m|].
  - destruct (bool_decide (m !! v = Some f)) eqn:E.
    + apply bool_decide_eq_true in E. split; [intros H; apply elem_of_nil in H as []|]. intros [[_ H]|(m' & [= <-] & H & _)]; [exfalso; apply H; eauto|contradiction].
    + apply bool_decide_eq_false in E. rewrite elem_of_list_singleton. split; [intros ->; right; eauto|]. intros [[_ H]|(m' & [= <-] & _ & H)]; [exfalso; apply H; eauto|exact H].
  - rewrite elem_of_list_singleton. split; [intros ->; left; split; [reflexivity|intros [m [=]]]|]. intros [[H _]|(m' & [=] & _)]. exact H.
Qed.
Lemma sanity_in {P} (rc : recon P) x : x ∈ sanity_check rc <-> exists v f l, assigned rc v f l /\ x ∈ check_feature rc v f l.
Proof.
  unfold sanity_check. rewrite elem_of_list_join. split.
  - intros (ys & Hx & Hys). apply elem_of_list_fmap in Hys as ([v w] & -> & Hw). apply elem_of_map_to_list in Hw. cbn [fst snd] in Hx.
    apply elem_of_list_join in Hx as (zs & Hx & Hzs). apply elem_of_lookup_imap in Hzs as (f & l & -> & Hl). exists v, f, l. split; [exists w; auto|exact Hx].
  - intros (v & f & l & (w & Hw & Hl) & Hx). eexists. split; [|apply elem_of_list_fmap; exists (v, w); split; [reflexivity|apply elem_of_map_to_list; exact Hw]].
    apply elem_of_list_join. exists (check_feature rc v f l). split; [exact Hx|]. apply elem_of_lookup_imap. exists f, l. auto.
Qed.
Lemma sanity_reports {P} (rc : recon P) x : x ∈ sanity_check rc <-> justified rc x.
Proof.
  rewrite sanity_in. split.
  - intros (v & f & l & Ha & Hx). apply check_feature_in in Hx as [[-> Hn]|(m & Hm & Hne & ->)]; [split; assumption|]. split; [exact Ha|]. exists m. auto.
  - destruct x as [v f l|v f l found]; cbn [justified].
    + intros [Ha Hn]. exists v, f, l. split; [exact Ha|]. apply check_feature_in. auto.
    + intros [Ha (m & Hm & <- & Hne)]. exists v, f, l. split; [exact Ha|]. apply check_feature_in. right. eauto.
Qed.
Lemma sanity_silent {P} (rc : recon P) : sanity_check rc = [] <-> forall v f l, assigned rc v f l -> observes rc l v f.
Proof.
  split.
  - intros E v f l Ha. destruct (sm_map (r_lms rc) !! l) as [m|] eqn:Em.
    + exists m. split; [exact Em|]. destruct (decide (m !! v = Some f)) as [H|H]; [exact H|exfalso].
      assert (NotListed v f l (m !! v) ∈ sanity_check rc) as Hin by (apply sanity_reports; split; [exact Ha|exists m; auto]). rewrite E in Hin. apply elem_of_nil in Hin as [].
    + exfalso. assert (NoLandmark v f l ∈ sanity_check rc) as Hin by (apply sanity_reports; split; [exact Ha|intros [m Hm]; unfold has_landmark in Hm; congruence]). rewrite E in Hin. apply elem_of_nil in Hin as [].
  - intros H. destruct (sanity_check rc) as [|x xs] eqn:E; [reflexivity|exfalso]. assert (justified rc x) as Hx by (apply sanity_reports; rewrite E; left).
    destruct x as [v f l|v f l found]; cbn [justified] in Hx.
    + destruct Hx as [Ha Hn]. destruct (H v f l Ha) as (m & Hm & _). apply Hn. eauto.
    + destruct Hx as [Ha (m & Hm & <- & Hne)]. destruct (H v f l Ha) as (m' & Hm' & Hv). assert (m' = m) as -> by (unfold has_landmark in *; congruence). contradiction.
Qed.
Lemma sanity_history {P F} (one : P) (mul : P -> P -> P) (inv : P -> P) (s : settings) (ops : list (op P F)) (d : vdata P F) :
  used_well one mul inv s vdata_init ops -> run one mul inv s ops = Ok d -> forall r rc, has_recon d r rc -> sanity_check rc = [].
Proof. intros Hu Hr r rc Hrc. apply sanity_silent. intros v f l Ha. edestruct history_mirrored as [Hm _]; [exact Hu|exact Hr|exact Hrc|]. apply Hm, Ha. Qed.

(** It says nothing about landmarks which list observations no view knows of. *)
Definition stray_rc : recon nat := set_lms (@recon_empty nat) (sm_ins ({[0 := 0]} : landmark) (r_lms (@recon_empty nat))).
Lemma sanity_stray : sanity_check stray_rc = [] /\ observes stray_rc 0 0 0 /\ ~ mirrored stray_rc.
Proof.
  split; [vm_compute; reflexivity|]. assert (observes stray_rc 0 0 0) as H by (exists {[0 := 0]}; split; [vm_compute; reflexivity|apply lookup_singleton]). split; [exact H|].
  intros Hm. apply Hm in H as (w & Hw & _). unfold has_view in Hw. vm_compute in Hw. discriminate.
Qed.
Lemma sanity_blind : exists rc : recon nat, sanity_check rc = [] /\ ~ mirrored rc.
Proof. exists stray_rc. split; apply sanity_stray. Qed.
Lemma sanity_double : exists (ops : list (op Z nat)) d rc, demo_run (demo_settings 0 1) ops = Ok d /\ has_recon d 0 rc /\ sanity_check rc <> [].
Proof.
  destruct double_match_breaks as (ops & d & rc & v & f & l & Hr & Hrc & Ha & Hn). exists ops, d, rc. split; [exact Hr|]. split; [exact Hrc|]. intros E. apply Hn. apply (proj1 (sanity_silent rc) E), Ha.
Qed.

(** ** Too few other observations *)
Definition screw_gs : gsettings RNum :=
  GSettings (N := RNum) (1 / 2)%R (1 / 2)%R 0%R 1 3 4 (1 / 2)%R 10 2 5 (1 / 10)%R 3 3 3 5 1 2 10 3 3 10 5 (1 / 10)%R.

Lemma screw_rays px py : observed screw_bearing screw_data screw_rc (0, 1) px -> observed screw_bearing screw_data screw_rc (3, 1) py -> (1 / 2 < cosd (direction px) (direction py))%R.
Proof.
  intros Hpx Hpy. destruct (screw_observed 0 1) as (w & Hw & _ & Hx); [lia..|]. destruct (screw_observed 3 1) as (w' & Hw' & _ & Hy); [lia..|].
  rewrite (observed_fun screw_tools _ _ _ _ _ Hpx Hx), (observed_fun screw_tools _ _ _ _ _ Hpy Hy). clear Hpx Hpy Hx Hy.
  apply screw_view_poses in Hw, Hw'. assert (v_pose w = iso_id) as ->.
  { repeat (apply elem_of_cons in Hw as [Hw|Hw]; [injection Hw as Hw; first [discriminate Hw|exact Hw]|]; try discriminate). apply elem_of_nil in Hw as []. }
  assert (v_pose w' = screw 3) as ->.
  { repeat (apply elem_of_cons in Hw' as [Hw'|Hw']; [injection Hw' as Hw'; first [discriminate Hw'|exact Hw']|]; try discriminate). apply elem_of_nil in Hw' as []. }
  cbn [Nat.eqb]. unfold cosd, direction, screw. cbn [fst snd rot iso_id].
  assert (cos (INR 3) < 0)%R as Hc. { replace (INR 3) with 3%R by (cbn; ring). apply cos_lt_0; pose proof PI_4; pose proof PI2_3_2; lra. }
  revert Hc. generalize (sin (INR 3)) (cos (INR 3)). intros s c Hc. assert (dot (mvec (mtrans mid) (V3 1 0 0 : rvec3)) (mvec (mtrans (axis_angle (V3 0 0 1 : rvec3) s c)) (V3 1 0 0)) = c)%R as -> by lin. lra.
Qed.

(** Landmark 1 with its observation in view 1 split off is seen by views 0, 2 and 3. *)
Lemma screw_split : exists rc' m, recon_ok screw_data rc' /\ has_landmark rc' 1 m /\ dom m ⊆ ({[0; 2; 3]} : gset nat) /\
  dom (sm_map (r_views rc')) = ({[0; 1; 2; 3]} : gset nat) /\
  (forall x p, observed screw_bearing screw_data screw_rc x p <-> observed screw_bearing screw_data rc' x p) /\
  assigned rc' 0 1 1 /\ assigned rc' 3 1 1.
Proof.
  destruct screw_case as (Hd & Hr & _). pose proof (ok_recons _ Hd _ _ Hr) as Hok. destruct (screw_observed 1 1) as (w1 & _ & Ha1 & _); [lia..|].
  destruct (split_observation_thm screw_data screw_rc 1 1 1 Hok Ha1) as (rc' & b & _ & Hok' & Hsep & Halone & Hrest).
  destruct (screw_observed 0 1) as (w0 & _ & Ha0 & _); [lia..|]. destruct (screw_observed 3 1) as (w3 & _ & Ha3 & _); [lia..|].
  assert (assigned rc' 0 1 1) as Hb0 by (apply Hrest; [congruence|exact Ha0]). assert (assigned rc' 3 1 1) as Hb3 by (apply Hrest; [congruence|exact Ha3]).
  destruct (proj1 (ok_mirrored _ _ Hok' 0 1 1) Hb0) as (m & Hm & _). exists rc', m. split; [exact Hok'|]. split; [exact Hm|]. split; [|split; [|split; [|split; assumption]]].
  - intros v Hv. apply elem_of_dom in Hv as [f Hf]. assert (assigned rc' v f 1) as Hb by (apply (ok_mirrored _ _ Hok'); exists m; auto).
    destruct (decide ((v, f) = (1, 1))) as [E|E].
    + injection E as -> ->. exfalso. assert ((0, 1) = (1, 1)) as E by (apply Halone; exists 1; auto). discriminate E.
    + pose proof (proj1 (Hrest v f 1 E) Hb) as Hc. clear Hb. destruct (exact_landmark iso_id iso_mul iso_inv screw 1) as (m0 & Hm0 & El & _); [lia|].
      destruct (proj1 (ok_mirrored _ _ Hok v f 1) Hc) as (m' & Hm' & Hv). assert (m' = m0) as -> by (eapply landmark_fun; eassumption).
      assert (orders_ok demo_orders) as Ho by exact (eo_orders _ (demo_env_ok demo_keep)). apply (SfmRec.elem_of_obs_list demo_orders 1 m0 v f Ho) in Hv. rewrite El in Hv.
      rewrite !elem_of_cons, elem_of_nil in Hv. rewrite !elem_of_union, !elem_of_singleton. destruct Hv as [[= -> ->]|[[= -> ->]|[[= -> ->]|[[= -> ->]|[]]]]]; [auto|contradiction|auto..].
  - apply set_eq. intros v. rewrite elem_of_dom. assert (is_Some (sm_map (r_views rc') !! v) <-> is_Some (sm_map (r_views screw_rc) !! v)) as ->.
    { pose proof (sep_views _ _ Hsep v) as E. destruct (sm_map (r_views rc') !! v), (sm_map (r_views screw_rc) !! v); cbn in E; try discriminate E; split; intros [? [=]]; eauto. }
    rewrite !elem_of_union, !elem_of_singleton. split.
    + intros [w Hw]. apply screw_view_poses in Hw. rewrite !elem_of_cons, elem_of_nil in Hw. destruct Hw as [[= -> _]|[[= -> _]|[[= -> _]|[[= -> _]|[]]]]]; auto.
    + intros Hv. destruct (screw_observed v 0) as (w & Hw & _); [lia..|]. exists w. exact Hw.
  - intros x p. rewrite <- (pose_bearing_iff screw_tools screw_data screw_rc x p), <- (pose_bearing_iff screw_tools screw_data rc' x p).
    rewrite (observed_same screw_tools screw_data screw_rc screw_data rc' x); [reflexivity|split; [reflexivity|split; reflexivity]|apply (sep_views _ _ Hsep)].
Qed.

Lemma without_too_few : exists (st : gsettings RNum) (G : tools RNum nat) (o : orders) (d : vdata riso nat) (rc : recon riso) (l v : key) m,
  orders_ok o /\ recon_ok d rc /\ has_landmark rc l m /\ robust_without st G o d rc l v = true /\
  ~ robust_ignoring (t_bearing G) (robust_minimum_observations st) (robust_observation_incidence_minimum_cosine_distance st) d rc l v /\
  landmarks_robust st G o d rc [l] = false.
Proof.
  destruct screw_split as (rc & m & Hok & Hm & Hdom & Hviews & Hobs & Ha0 & Ha3). assert (orders_ok demo_orders) as Ho by exact (eo_orders _ (demo_env_ok demo_keep)).
  exists screw_gs, screw_tools, demo_orders, screw_data, rc, 1, 2, m. split; [exact Ho|]. split; [exact Hok|]. split; [exact Hm|].
  assert (size m <= 3) as Hs. { rewrite <- (size_dom (D := gset nat)). transitivity (size ({[0; 2; 3]} : gset nat)); [apply subseteq_size, Hdom|vm_compute; lia]. }
  assert (size (delete 2 m) <= 2) as Hs2.
  { rewrite <- (size_dom (D := gset nat)), dom_delete_L. transitivity (size (({[0; 2; 3]} : gset nat) ∖ {[2]})); [apply subseteq_size; set_solver +Hdom|vm_compute; lia]. }
  assert (size (sm_map (r_views rc)) = 4) as Hn by (rewrite <- (size_dom (D := gset nat)), Hviews; vm_compute; reflexivity).
  assert (size (delete 2 (sm_map (r_views rc))) = 3) as Hn2 by (rewrite <- (size_dom (D := gset nat)), dom_delete_L, Hviews; vm_compute; reflexivity).
  split; [|split].
  - apply (without_iff screw_gs screw_tools demo_orders screw_data rc 1 m 2 Ho Hok Hm).
    assert (exists px, observed screw_bearing screw_data screw_rc (0, 1) px) as [px Hx] by (destruct (screw_observed 0 1) as (w & _ & _ & Hx); [lia..|]; exact (ex_intro _ _ Hx)).
    assert (exists py, observed screw_bearing screw_data screw_rc (3, 1) py) as [py Hy] by (destruct (screw_observed 3 1) as (w & _ & _ & Hy); [lia..|]; exact (ex_intro _ _ Hy)).
    exists (0, 1), (3, 1), px, py. split; [discriminate|]. split; [discriminate|]. split; [discriminate|]. split; [exact Ha0|]. split; [exact Ha3|].
    split; [exact (proj1 (Hobs _ _) Hx)|]. split; [exact (proj1 (Hobs _ _) Hy)|]. exact (screw_rays _ _ Hx Hy).
  - intros [(m' & Hm' & H) _]. assert (m' = m) as -> by (eapply landmark_fun; eassumption). rewrite Hn2 in H. cbn [robust_minimum_observations screw_gs] in H. lia.
  - destruct (landmarks_robust screw_gs screw_tools demo_orders screw_data rc [1]) eqn:E; [exfalso|reflexivity].
    apply (robust_iff screw_gs screw_tools demo_orders screw_data rc 1 m Ho Hok Hm) in E as [(m' & Hm' & H) _]. assert (m' = m) as -> by (eapply landmark_fun; eassumption).
    rewrite Hn in H. cbn [robust_minimum_observations screw_gs] in H. lia.
Qed.

Lemma screw_ignoring : orders_ok demo_orders /\ recon_ok screw_data screw_rc /\ (exists m, has_landmark screw_rc 1 m) /\ robust_ignoring screw_bearing 3 (1 / 2) screw_data screw_rc 1 1.
Proof.
  split; [exact (eo_orders _ (demo_env_ok demo_keep))|]. destruct screw_case as (Hd & Hr & _). split; [exact (ok_recons _ Hd _ _ Hr)|].
  destruct (exact_landmark iso_id iso_mul iso_inv screw 1) as (m & Hm & _ & Es); [lia|]. split; [exists m; exact Hm|]. split.
  - exists m. split; [exact Hm|]. left. rewrite map_size_delete, Es. destruct (m !! 1); cbn; lia.
  - destruct (screw_observed 0 1) as (w & _ & Ha0 & Hx); [lia..|]. destruct (screw_observed 3 1) as (w' & _ & Ha3 & Hy); [lia..|]. pose proof (screw_rays _ _ Hx Hy) as H. revert Hx Hy H.
    match goal with |- observed _ _ _ _ ?p -> observed _ _ _ _ ?q -> _ => generalize p q end. intros px py Hx Hy H.
    exists (0, 1), (3, 1), px, py. split; [discriminate|]. split; [discriminate|]. split; [discriminate|]. split; [exact Ha0|]. split; [exact Ha3|]. split; [exact Hx|]. split; [exact Hy|]. exact H.
Qed.
