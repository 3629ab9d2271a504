(** The verdicts of the mapping code, put together with its operations (C60-C62). *)
From stdpp Require Import gmap list.
From Coq Require Import Reals Lra Lia.
From Verif Require Import Outcome OutcomeFacts Num Lin LinSpec LinFacts Core CoreSpec CoreFacts Geom GeomSpec GeomFacts GeomProps GeomEpi.
From Verif Require Import Sfm SfmSpec SfmUse SfmEffects SfmRec SfmOps SfmThms SfmDedup SfmPose SfmPoseSpec SfmPoseFacts SfmGeom SfmGeomSpec SfmGeomFacts.
Open Scope nat_scope.

Section facts.
Context {F : Type} (T : trig RNum) (st : gsettings RNum) (G : tools RNum F).
Implicit Types (rc : recon riso) (d : vdata riso F).
Notation bo := (t_bearing G).

(** ** Another gauge *)
Lemma gauge_direction (p p0 : riso) (s : R) (b : rvec3) : direction (pose_scale (SfmPoseSpec.relative p p0) s, b) = mvec (rot p0) (direction (p, b)).
Proof. unfold direction. cbn [fst snd]. rewrite <- mvec_mmul. f_equal. unfold pose_scale, SfmPoseSpec.relative. cbn [rot iso_mul iso_inv]. rewrite mtrans_mmul, mtrans_mtrans. reflexivity. Qed.
Lemma gauge_centre (p p0 : riso) (s : R) : rigid p -> rigid p0 -> centre (pose_scale (SfmPoseSpec.relative p p0) s) = vscale s (vadd (mvec (rot p0) (centre p)) (trans p0)).
Proof.
  intros Hp H0. unfold centre, pose_scale, SfmPoseSpec.relative. cbn [rot trans iso_mul iso_inv]. rewrite mtrans_mmul, mtrans_mtrans, mvec_mmul.
  rewrite !vneg_scale, !mvec_scale, !mvec_add, !mvec_scale, (rotation_back (rot p) _ Hp), (rotation_forth (rot p0) _ H0).
  generalize (mvec (rot p0) (mvec (mtrans (rot p)) (trans p))). intros u. lin.
Qed.
Lemma gauge_pair_error (p q p0 : riso) (s : R) (a b : rvec3) : rigid p -> rigid q -> rigid p0 -> s <> 0%R ->
  pair_error (pose_scale (SfmPoseSpec.relative p p0) s, a) (pose_scale (SfmPoseSpec.relative q p0) s, b) = pair_error (p, a) (q, b).
Proof.
  intros Hp Hq H0 Hs.
  assert (forall x y : riso * rvec3, pair_error x y = epipolar_loss (vsub (centre x.1) (centre y.1)) (direction x) (direction y)) as E.
  { intros x y. unfold pair_error. destruct (Rlt_dec _ _) as [H|H]; [symmetry; apply loss_behind; exact H|]. symmetry. apply loss_max, Rnot_lt_le, H. }
  rewrite !E. cbn [fst snd]. rewrite !gauge_direction, !gauge_centre by assumption. rewrite <- (loss_rotation (rot p0) (vsub (centre p) (centre q)) _ _ H0), <- (loss_scale (mvec (rot p0) (vsub (centre p) (centre q))) _ _ s Hs). f_equal.
  rewrite mvec_sub. generalize (mvec (rot p0) (centre p)) (mvec (rot p0) (centre q)) (trans p0). intros u v w. lin.
Qed.

Lemma gauge_observed (bearing_of : F -> rvec3) d rc rc' p0 m x : gauge_changed rc rc' p0 m -> forall pb', observed bearing_of d rc' x pb' <->
  exists pb, observed bearing_of d rc x pb /\ pb' = (pose_scale (SfmPoseSpec.relative pb.1 p0) (/ m), pb.2).
Proof.
  intros Hg pb'. unfold observed. split.
  - intros (w' & fr & f & Hw' & Hfr & Hf & ->). apply (gc_views _ _ _ _ Hg) in Hw' as (w & Hw & E1 & E2 & E3). exists (v_pose w, bearing_of f). split; [exists w, fr, f; rewrite <- E1; auto|]. cbn. rewrite E3. reflexivity.
  - intros (pb & (w & fr & f & Hw & Hfr & Hf & ->) & ->). exists (View (v_frame w) (pose_scale (SfmPoseSpec.relative (v_pose w) p0) (/ m)) (v_lms w)), fr, f.
    split; [apply (gc_views _ _ _ _ Hg); exists w; auto|]. auto.
Qed.
Lemma gauge_assigned rc rc' p0 m v f l : gauge_changed rc rc' p0 m -> assigned rc' v f l <-> assigned rc v f l.
Proof.
  intros Hg. split.
  - intros (w' & Hw' & Hl). apply (gc_views _ _ _ _ Hg) in Hw' as (w & Hw & E1 & E2 & E3). exists w. rewrite <- E2. auto.
  - intros (w & Hw & Hl). exists (View (v_frame w) (pose_scale (SfmPoseSpec.relative (v_pose w) p0) (/ m)) (v_lms w)). split; [apply (gc_views _ _ _ _ Hg); exists w; auto|]. exact Hl.
Qed.
Lemma gauge_robust (bearing_of : F -> rvec3) d rc rc' p0 m minimum incidence l : rigid p0 -> gauge_changed rc rc' p0 m ->
  robust_landmark bearing_of minimum incidence d rc' l <-> robust_landmark bearing_of minimum incidence d rc l.
Proof.
  intros H0 Hg. unfold robust_landmark. assert (size (sm_map (r_views rc')) = size (sm_map (r_views rc))) as ->.
  { rewrite <- !size_dom. f_equal. apply set_eq. intros v. rewrite !elem_of_dom. split.
    - intros [w' Hw']. apply (gc_views _ _ _ _ Hg) in Hw' as (w & Hw & _). eauto.
    - intros [w Hw]. exists (View (v_frame w) (pose_scale (SfmPoseSpec.relative (v_pose w) p0) (/ m)) (v_lms w)). apply (gc_views _ _ _ _ Hg). exists w. auto. }
  assert (forall m, has_landmark rc' l m <-> has_landmark rc l m) as Hl by (unfold has_landmark; rewrite (gc_lms _ _ _ _ Hg); reflexivity).
  assert (forall px py : riso * rvec3, cosd (direction (pose_scale (SfmPoseSpec.relative px.1 p0) (/ m), px.2)) (direction (pose_scale (SfmPoseSpec.relative py.1 p0) (/ m), py.2)) = cosd (direction px) (direction py)) as Hcos.
  { intros [p a] [q b]. cbn [fst snd]. unfold cosd. rewrite !gauge_direction, (rotation_dot _ _ _ H0). reflexivity. }
  split; intros [(m0 & Hm0 & Hs) (x & y & px & py & Hne & Hx & Hy & Hox & Hoy & H)].
  - split; [exists m0; split; [apply Hl, Hm0|exact Hs]|]. apply (gauge_observed bearing_of d rc rc' p0 m x Hg) in Hox as (qx & Hqx & ->). apply (gauge_observed bearing_of d rc rc' p0 m y Hg) in Hoy as (qy & Hqy & ->).
    exists x, y, qx, qy. rewrite Hcos in H. apply (gauge_assigned rc rc' p0 m _ _ _ Hg) in Hx, Hy. auto 10.
  - split; [exists m0; split; [apply Hl, Hm0|exact Hs]|]. exists x, y, (pose_scale (SfmPoseSpec.relative px.1 p0) (/ m), px.2), (pose_scale (SfmPoseSpec.relative py.1 p0) (/ m), py.2).
    split; [exact Hne|]. split; [apply (gauge_assigned rc rc' p0 m _ _ _ Hg), Hx|]. split; [apply (gauge_assigned rc rc' p0 m _ _ _ Hg), Hy|].
    split; [apply (gauge_observed bearing_of d rc rc' p0 m x Hg); eauto|]. split; [apply (gauge_observed bearing_of d rc rc' p0 m y Hg); eauto|]. rewrite Hcos. exact H.
Qed.

Lemma gauge_pairs (bearing_of : F -> rvec3) d rc rc' (p0 : riso) (m : R) x y px py qx qy : rigid p0 -> rigid_views rc -> m <> 0%R -> gauge_changed rc rc' p0 m ->
  observed bearing_of d rc x px -> observed bearing_of d rc y py -> observed bearing_of d rc' x qx -> observed bearing_of d rc' y qy ->
  pair_error qx qy = pair_error px py.
Proof.
  intros H0 Hrig Hm Hg Hpx Hpy Hqx Hqy. assert (forall x p q, observed bearing_of d rc x p -> observed bearing_of d rc' x q -> rigid p.1 /\ q = (pose_scale (SfmPoseSpec.relative p.1 p0) (/ m), p.2)) as Hpq.
  { clear - Hg Hrig. intros x p q (w & fr & f & Hw & Hfr & Hf & ->) (w' & fr' & f' & Hw' & Hfr' & Hf' & ->). split; [eapply Hrig, Hw|]. cbn [fst snd].
    apply (gc_views _ _ _ _ Hg) in Hw' as (w0 & Hw0 & E1 & E2 & E3). assert (w0 = w) as -> by (unfold has_view in *; congruence). rewrite E1 in Hfr'. assert (fr' = fr) as -> by (unfold has_frame in *; congruence). assert (f' = f) as -> by congruence. rewrite E3. reflexivity. }
  destruct (Hpq x px qx Hpx Hqx) as [Rx ->]. destruct (Hpq y py qy Hpy Hqy) as [Ry ->]. destruct px as [p a], py as [q b]. cbn [fst snd] in *. apply gauge_pair_error; [assumption..|]. apply Rinv_neq_0_compat, Hm.
Qed.
Lemma robust_any_order o o' d rc l m : orders_ok o -> orders_ok o' -> recon_ok d rc -> has_landmark rc l m ->
  landmarks_robust st G o d rc [l] = landmarks_robust st G o' d rc [l].
Proof. intros Ho Ho' Hok Hm. apply eq_bool_prop_intro. rewrite !Is_true_true, (robust_iff st G o d rc l m Ho Hok Hm), (robust_iff st G o' d rc l m Ho' Hok Hm). reflexivity. Qed.

(** ** Filtering *)
Lemma observed_rigid d rc x pb : rigid_views rc -> observed bo d rc x pb -> rigid pb.1.
Proof. intros Hr (w & fr & f & Hw & _ & _ & ->). eapply Hr, Hw. Qed.
Lemma pair_agrees_spec o d rc l x y px py m : orders_ok o -> recon_ok d rc -> rigid_views rc -> has_landmark rc l m -> size m = 2 -> x <> y ->
  m !! x.1 = Some x.2 -> m !! y.1 = Some y.2 -> observed bo d rc x px -> observed bo d rc y py ->
  pair_agrees st G o d rc l = true <-> (pair_error px py < maximum_sine_distance st)%R.
Proof.
  intros Ho Hok Hrig Hm Hs Hne Hx Hy Hox Hoy. unfold pair_agrees. rewrite (landmark_list o rc l m Hm). pose proof (landmark_observed G o d rc l m Ho Hok Hm) as Hall. set (ps := pose_bearings G d rc (obs_list o l m)) in *.
  pose proof (obs_list_length o l m Ho) as Hlen. rewrite Hs in Hlen.
  assert (x ∈ obs_list o l m) as Hix by (destruct x; apply (elem_of_obs_list o l m _ _ Ho); exact Hx). assert (y ∈ obs_list o l m) as Hiy by (destruct y; apply (elem_of_obs_list o l m _ _ Ho); exact Hy).
  destruct (obs_list o l m) as [|x1 [|x2 [|]]]; try discriminate Hlen. inversion Hall as [|? p1 ? ps1 H1 Hall1 E1 E2]; subst. inversion Hall1 as [|? p2 ? ps2 H2 Hall2 E3 E4]; subst. inversion Hall2; subst.
  destruct p1 as [p a], p2 as [q b]. unfold bi_robust.
  assert (ltb (bi_loss (iso_mul q (iso_inv p)) a b) (maximum_sine_distance st) = true <-> (pair_error (p, a) (q, b) < maximum_sine_distance st)%R) as E.
  { rewrite (pair_error_loss p q a b); [apply Rltb_spec|]. apply (observed_rigid d rc x2 (q, b) Hrig H2). }
  assert (x1 = x /\ x2 = y \/ x1 = y /\ x2 = x) as [[-> ->]|[-> ->]].
  { rewrite !elem_of_cons, elem_of_nil in Hix, Hiy. destruct Hix as [->|[->|[]]], Hiy as [->|[->|[]]]; auto; contradiction. }
  - assert (px = (p, a)) as -> by (eapply observed_fun; eassumption). assert (py = (q, b)) as -> by (eapply observed_fun; eassumption). exact E.
  - assert (py = (p, a)) as -> by (eapply observed_fun; eassumption). assert (px = (q, b)) as -> by (eapply observed_fun; eassumption). rewrite pair_error_sym. exact E.
Qed.

Section filtering.
Context (o : orders) (similar : vdata riso F -> key -> nat -> list key) (knn : list F -> F -> nat -> list (nat * nat))
  (sort : list (key * key * key * list key) -> list (key * key * key * list key)) (fuel : nat).
Notation e := (geometric T st G o similar knn sort fuel).
Notation kept := (kept_together bo (t_triangulate G) o (maximum_sine_distance st) (maximum_cosine_distance st)).
Notation robust := (robust_landmark bo (robust_minimum_observations st) (robust_observation_incidence_minimum_cosine_distance st)).

Lemma separated_facts rc rc' : separated rc rc' -> forall v, view_facts <$> sm_map (r_views rc') !! v = view_facts <$> sm_map (r_views rc) !! v.
Proof. intros H v. apply (sep_views _ _ H). Qed.
Lemma separated_observed d rc d' rc' x pb : same_images d d' -> separated rc rc' -> observed bo d' rc' x pb <-> observed bo d rc x pb.
Proof. intros Hi Hs. rewrite <- !pose_bearing_iff, (observed_same G d rc d' rc' x Hi (separated_facts _ _ Hs)). reflexivity. Qed.

Lemma outliers_spec d rc l m x px : orders_ok o -> has_landmark rc l m -> 3 <= size m -> observed bo d rc x px ->
  match outliers st G o d rc l with
  | None => t_triangulate G (pose_bearings G d rc (obs_list o l m)) = None
  | Some bad => exists h, t_triangulate G (pose_bearings G d rc (obs_list o l m)) = Some h /\ (bad x = false <-> (miss h px <= maximum_cosine_distance st)%R)
  end.
Proof.
  intros Ho Hm Hs Hx. unfold outliers, triangulate_landmark. rewrite (landmark_list o rc l m Hm), (obs_list_length o l m Ho).
  assert (2 <=? size m = true) as -> by (apply Nat.leb_le; lia). destruct (t_triangulate G _) as [h|]; [|reflexivity]. exists h. split; [reflexivity|].
  apply pose_bearing_iff in Hx. rewrite Hx. unfold point_distance, cosine_distance, miss, cosd. cbn [ltb RNum]. rewrite Rltb_false. reflexivity.
Qed.

Lemma filter_tracks d r rc rc' : orders_ok o -> recon_ok d rc -> rigid_views rc -> filtered (fun d l m => filter_verdict e d r l m) d r rc rc' ->
  forall x y l, x <> y -> assigned rc x.1 x.2 l -> assigned rc y.1 y.2 l -> (same_track rc' x y <-> kept d rc l x y).
Proof.
  intros Ho Hok Hrig [Hok' Hsep Heach] x y l Hne Hx Hy.
  assert (exists m, has_landmark rc l m /\ m !! x.1 = Some x.2 /\ m !! y.1 = Some y.2) as (m & Hm & Hmx & Hmy).
  { apply (ok_mirrored _ _ Hok) in Hx as (m & Hm & Hmx). apply (ok_mirrored _ _ Hok) in Hy as (m' & Hm' & Hmy). assert (m' = m) as -> by (unfold has_landmark in *; congruence). eauto. }
  destruct (Heach l m Hm) as (dl & rcl & Honly & Hrl & Hokl & Hsepl & Hml & Hv).
  assert (2 <= size m) as Hsize.
  { rewrite <- size_dom. transitivity (size ({[x.1; y.1]} : gset nat)).
    - rewrite size_union; [rewrite !size_singleton; reflexivity|]. apply disjoint_singleton_l. rewrite elem_of_singleton. intros E. apply Hne. destruct x, y. cbn in *. congruence.
    - apply subseteq_size. intros v Hv'. apply elem_of_union in Hv' as [Hv'|Hv']; apply elem_of_singleton in Hv' as ->; apply elem_of_dom; eauto. }
  assert (rigid_views rcl) as Hrigl.
  { intros v w Hw. pose proof (separated_facts _ _ Hsepl v) as E. unfold has_view in Hw. rewrite Hw in E. cbn in E. symmetry in E. apply fmap_Some in E as (w0 & Hw0 & E). unfold view_facts in E. assert (v_pose w = v_pose w0) as -> by congruence. eapply Hrig, Hw0. }
  destruct (assigned_observed G d rc x.1 x.2 l) as [px Hox]; [apply Hok|exact Hx|]. rewrite <- surjective_pairing in Hox.
  destruct (assigned_observed G d rc y.1 y.2 l) as [py Hoy]; [apply Hok|exact Hy|]. rewrite <- surjective_pairing in Hoy.
  assert (observed bo dl rcl x px) as Hoxl by (apply (separated_observed d rc dl rcl x px); [apply Honly|exact Hsepl|exact Hox]).
  assert (observed bo dl rcl y py) as Hoyl by (apply (separated_observed d rc dl rcl y py); [apply Honly|exact Hsepl|exact Hoy]).
  assert (assigned rcl x.1 x.2 l) as Hxl by (apply (ok_mirrored _ _ Hokl); exists m; auto). assert (assigned rcl y.1 y.2 l) as Hyl by (apply (ok_mirrored _ _ Hokl); exists m; auto).
  pose proof (landmark_listed G o d rc l m Ho Hok Hm) as Hli. pose proof (Forall2_length _ _ _ (landmark_observed G o d rc l m Ho Hok Hm)) as Hlen. rewrite (obs_list_length o l m Ho) in Hlen.
  assert (pose_bearings G dl rcl (obs_list o l m) = pose_bearings G d rc (obs_list o l m)) as Hpb by (apply pose_bearings_same; [apply Honly|apply separated_facts, Hsepl]).
  set (ps := pose_bearings G d rc (obs_list o l m)) in *.
  assert (kept d rc l x y <-> if length ps =? 2 then (pair_error px py < maximum_sine_distance st)%R
            else exists h, t_triangulate G ps = Some h /\ (miss h px <= maximum_cosine_distance st)%R /\ (miss h py <= maximum_cosine_distance st)%R) as ->.
  { split; [|intros H; exists px, py, ps; auto]. intros (px' & py' & ps' & H1 & H2 & H3 & H). assert (px' = px) as -> by (eapply observed_fun; eassumption). assert (py' = py) as -> by (eapply observed_fun; eassumption).
    assert (ps' = ps) as -> by (eapply listed_fun; eassumption). exact H. }
  assert (scattered rcl rc' l -> ~ same_track rc' x y) as Hscat by (intros Hsc Hst; apply Hne; symmetry; apply (Hsc x Hxl y Hst)).
  assert (forall a b, same_track rc' a b -> same_track rc' b a) as Hsym by (intros a b (k & ? & ?); exists k; auto).
  unfold filter_verdict in Hv. match goal with |- context[if ?n =? 2 then _ else _] => assert (n = size m) as -> by (symmetry; exact Hlen) end. destruct (size m =? 1) eqn:E1; [apply Nat.eqb_eq in E1; lia|]. destruct (size m =? 2) eqn:E2.
  - apply Nat.eqb_eq in E2. cbn [e_bi_robust geometric] in Hv. unfold on_recon, sm_get in Hv. unfold has_recon in Hrl. rewrite Hrl in Hv.
    pose proof (pair_agrees_spec o dl rcl l x y px py m Ho Hokl Hrigl Hml E2 Hne Hmx Hmy Hoxl Hoyl) as Hpa. destruct (pair_agrees st G o dl rcl l).
    + split; [intros _; apply Hpa; reflexivity|intros _]. exists l. split; apply (ok_mirrored _ _ Hok'); exists m; auto.
    + split; [intros H; exfalso; exact (Hscat Hv H)|]. intros H. apply Hpa in H. discriminate H.
  - apply Nat.eqb_neq in E1, E2. assert (3 <= size m) as H3 by lia. cbn [e_disagree geometric] in Hv. unfold on_recon, sm_get in Hv. unfold has_recon in Hrl. rewrite Hrl in Hv.
    pose proof (outliers_spec dl rcl l m x px Ho Hml H3 Hoxl) as Hbx. pose proof (outliers_spec dl rcl l m y py Ho Hml H3 Hoyl) as Hby. rewrite Hpb in Hbx, Hby.
    destruct (outliers st G o dl rcl l) as [bad|].
    + destruct Hbx as (h & Hh & Hbx). destruct Hby as (h' & Hh' & Hby). assert (h' = h) as -> by congruence. rewrite Hh.
      assert (forall Q : Prop, (exists k, Some h = Some k /\ Q) <-> Q) as Hex by (intros Q; split; [intros (k & _ & HQ); exact HQ|eauto]).
      split.
      * intros Hst. exists h. split; [reflexivity|]. pose proof (Hv _ _ Hmx) as Vx. pose proof (Hv _ _ Hmy) as Vy. rewrite <- !surjective_pairing in Vx, Vy. split.
        -- apply Hbx. destruct (bad x); [|reflexivity]. exfalso. apply Hne. symmetry. apply (Vx y Hst).
        -- apply Hby. destruct (bad y); [|reflexivity]. exfalso. apply Hne. apply (Vy x (Hsym _ _ Hst)).
      * intros (h1 & E & M1 & M2). assert (h1 = h) as -> by congruence. apply Hbx in M1. apply Hby in M2. pose proof (Hv _ _ Hmx) as Vx. pose proof (Hv _ _ Hmy) as Vy. rewrite <- !surjective_pairing in Vx, Vy. rewrite M1 in Vx. rewrite M2 in Vy. exists l. auto.
    + split; [intros H; exfalso; exact (Hscat Hv H)|]. intros (h & Hh & _). rewrite Hbx in Hh. discriminate Hh.
Qed.

Lemma count_same d d' rc : same_images d d' -> robust_landmark_count st G o d' rc = robust_landmark_count st G o d rc.
Proof.
  intros Hi. unfold robust_landmark_count. f_equal. apply list_filter_iff. intros l. unfold landmarks_robust, observations_robust. rewrite (pose_bearings_same G d rc d' rc _ Hi (fun _ => eq_refl)). reflexivity.
Qed.

Lemma filter_observations_geometric d r rc : orders_ok o -> data_ok d -> has_recon d r rc -> rigid_views rc ->
  exists d' b rc' n, filter_observations e d r = Ok (d', b) /\ data_ok d' /\ only_recon r d d' /\ separated rc rc' /\
    (forall x y, x <> y -> same_track rc' x y <-> exists l, assigned rc x.1 x.2 l /\ assigned rc y.1 y.2 l /\ kept d rc l x y) /\
    exactly n (robust d rc') /\ (b = true <-> minimum_robust_landmarks st <= n) /\
    if b then has_recon d' r rc' else sm_map (d_recs d') !! r = None.
Proof.
  intros Ho Hd Hr Hrig. pose proof (ok_recons _ Hd r rc Hr) as Hok. destruct (filter_observations_thm e d r rc Ho Hd Hr) as (d' & b & E & Hd' & Honly & Hb).
  assert (exists d1 rc', e_too_few e d1 r = negb b /\ only_recon r d d1 /\ has_recon d1 r rc' /\ filtered (fun d l m => filter_verdict e d r l m) d r rc rc' /\ if b then has_recon d' r rc' else sm_map (d_recs d') !! r = None) as (d1 & rc' & Hfew & Ho1 & Hr1 & Hf & Hfin).
  { destruct b.
    - destruct Hb as (_ & Hfew & rc' & Hr' & Hf). exists d', rc'. auto.
    - destruct Hb as (Hgone & d1 & rc' & Hfew & Ho1 & Hr1 & Hf). exists d1, rc'. auto. }
  exists d', b, rc', (robust_landmark_count st G o d rc'). split; [exact E|]. split; [exact Hd'|]. split; [exact Honly|]. split; [apply (fi_sep _ _ _ _ _ Hf)|]. split; [|split; [|split; [|exact Hfin]]].
  - intros x y Hne. split.
    + intros Hst. destruct (sep_tracks _ _ (fi_sep _ _ _ _ _ Hf) x y Hst) as (l & Hx & Hy). exists l. split; [exact Hx|]. split; [exact Hy|]. apply (filter_tracks d r rc rc' Ho Hok Hrig Hf x y l Hne Hx Hy). exact Hst.
    + intros (l & Hx & Hy & Hk). apply (filter_tracks d r rc rc' Ho Hok Hrig Hf x y l Hne Hx Hy). exact Hk.
  - apply count_exact; [exact Ho|]. apply (fi_ok _ _ _ _ _ Hf).
  - cbn [e_too_few geometric] in Hfew. unfold on_recon, sm_get in Hfew. unfold has_recon in Hr1. rewrite Hr1, (count_same d d1 rc' (proj1 Ho1)) in Hfew.
    rewrite <- Nat.ltb_ge, Hfew. destruct b; cbn; split; auto.
Qed.

Lemma filter_landmarks_geometric d r rc : orders_ok o -> data_ok d -> has_recon d r rc ->
  exists d' rc', filter_landmarks e d r = Ok d' /\ data_ok d' /\ only_recon r d d' /\ has_recon d' r rc' /\ separated rc rc' /\
    forall x y, x <> y -> same_track rc' x y <-> exists l, assigned rc x.1 x.2 l /\ assigned rc y.1 y.2 l /\ robust d rc l /\
      exists ps h, listed bo o d rc l ps /\ t_triangulate G ps = Some h.
Proof.
  intros Ho Hd Hr. pose proof (ok_recons _ Hd r rc Hr) as Hok. destruct (filter_landmarks_thm e d r rc Ho Hd Hr) as (d' & rc' & E & Hd' & Honly & _ & Hr' & Hf).
  exists d', rc'. split; [exact E|]. split; [exact Hd'|]. split; [exact Honly|]. split; [exact Hr'|]. split; [apply (fi_sep _ _ _ _ _ Hf)|].
  destruct Hf as [Hok' Hsep Heach].
  assert (forall x y l, x <> y -> assigned rc x.1 x.2 l -> assigned rc y.1 y.2 l -> same_track rc' x y <-> robust d rc l /\ exists ps h, listed bo o d rc l ps /\ t_triangulate G ps = Some h) as Hmain.
  { intros x y l Hne Hx Hy. pose proof Hx as Hx1. pose proof Hy as Hy1. apply (ok_mirrored _ _ Hok) in Hx1 as (m & Hm & Hmx). apply (ok_mirrored _ _ Hok) in Hy1 as (m' & Hm' & Hmy). assert (m' = m) as -> by (unfold has_landmark in *; congruence). clear Hm'.
    destruct (Heach l m Hm) as (dl & rcl & Hol & Hrl & Hokl & Hsepl & Hml & Hv). unfold robust_verdict in Hv. cbn [e_robust geometric] in Hv. unfold on_recon, sm_get in Hv. unfold has_recon in Hrl. rewrite Hrl in Hv.
    unfold triangulate_robust in Hv. rewrite landmark_list1, (landmark_list o rcl l m Hml) in Hv.
    assert (landmarks_robust st G o dl rcl [l] = landmarks_robust st G o d rc [l]) as Erob.
    { unfold landmarks_robust, observations_robust. rewrite !landmark_list1, (landmark_list o rcl l m Hml), (landmark_list o rc l m Hm), (pose_bearings_same G d rc dl rcl _ (proj1 Hol) (separated_facts _ _ Hsepl)). do 2 f_equal. unfold sm_size. f_equal.
      rewrite <- !size_dom. f_equal. apply set_eq. intros v. rewrite !elem_of_dom, <- !(fmap_is_Some view_facts), (separated_facts _ _ Hsepl v). reflexivity. }
    rewrite Erob, (pose_bearings_same G d rc dl rcl _ (proj1 Hol) (separated_facts _ _ Hsepl)) in Hv.
    pose proof (landmark_listed G o d rc l m Ho Hok Hm) as Hli. set (ps := pose_bearings G d rc (obs_list o l m)) in *. pose proof (robust_iff st G o d rc l m Ho Hok Hm) as Hrob.
    assert (assigned rcl x.1 x.2 l) as Hxl by (apply (ok_mirrored _ _ Hokl); exists m; auto).
    assert (scattered rcl rc' l -> ~ same_track rc' x y) as Hscat by (intros Hsc Hst; apply Hne; symmetry; apply (Hsc x Hxl y Hst)).
    destruct (landmarks_robust st G o d rc [l]).
    - destruct (t_triangulate G ps) as [h|] eqn:Eh.
      + split; [intros _; split; [apply Hrob; reflexivity|eauto]|intros _]. exists l. split; apply (ok_mirrored _ _ Hok'); exists m; auto.
      + split; [intros H; exfalso; exact (Hscat Hv H)|]. intros [_ (ps' & h & Hl' & Hh)]. assert (ps' = ps) as -> by (eapply listed_fun; eassumption). rewrite Eh in Hh. discriminate Hh.
    - split; [intros H; exfalso; exact (Hscat Hv H)|]. intros [H _]. apply Hrob in H. discriminate H. }
  intros x y Hne. split.
  - intros Hst. destruct (sep_tracks _ _ Hsep x y Hst) as (l & Hx & Hy). exists l. split; [exact Hx|]. split; [exact Hy|]. apply (Hmain x y l Hne Hx Hy). exact Hst.
  - intros (l & Hx & Hy & H). apply (Hmain x y l Hne Hx Hy). exact H.
Qed.

(** ** The loss of an observation *)
Lemma bearing_bound (p : riso) (h : vec4 RNum) (u : rvec3) : unit_vec u -> (-1 <= dot (bearing (transform p h)) u <= 1)%R.
Proof.
  intros Hu. assert (exists v : rvec3, bearing (transform p h) = normalize v) as [v ->].
  { unfold transform, from_homogeneous, bearing. set (v := if signneg _ then _ else _). exists (xyz v). reflexivity. }
  destruct (normalize_cases v) as [H|H]; [apply unit_dot_bounds; assumption|]. rewrite H, (dot_comm vzero u), dot_zero_r. lra.
Qed.
Lemma miss_range (h : vec4 RNum) (x : riso * rvec3) : unit_vec x.2 -> (0 <= miss h x <= 2)%R.
Proof. intros Hu. unfold miss, cosd. pose proof (bearing_bound x.1 h x.2 Hu). lra. Qed.
Lemma pair_error_range x y : rigid x.1 -> rigid y.1 -> unit_vec x.2 -> unit_vec y.2 -> (0 <= pair_error x y <= 1)%R.
Proof.
  intros Hx Hy Ux Uy. assert (pair_error x y = epipolar_loss (vsub (centre x.1) (centre y.1)) (direction x) (direction y)) as ->.
  { unfold pair_error. destruct (Rlt_dec _ _) as [H|H]; [symmetry; apply loss_behind; exact H|]. symmetry. apply loss_max, Rnot_lt_le, H. }
  apply loss_range; apply rotation_unit; try assumption; apply rotation_mtrans; assumption.
Qed.

Lemma loss_badness d rc v f l : orders_ok o -> recon_ok d rc -> rigid_views rc -> (forall x, unit_vec (bo x)) -> t_cos T = cos -> t_asin G = asin ->
  assigned rc v f l -> badness bo (t_triangulate G) o d rc (v, f) (observation_loss T G o d rc v f) /\ (0 <= observation_loss T G o d rc v f <= 2)%R.
Proof.
  intros Ho Hok Hrig Hun Hcos Hasin Hl. unfold observation_loss.
  assert (obs_landmark rc v f = Ok l) as ->.
  { destruct Hl as (w & Hw & Hf). unfold obs_landmark, sm_get. unfold has_view in Hw. rewrite Hw. cbn [unwrap bind]. rewrite Hf. reflexivity. }
  pose proof Hl as Hl'. apply (ok_mirrored _ _ Hok) in Hl' as (m & Hm & Hmv). rewrite (landmark_list o rc l m Hm).
  destruct (assigned_observed G d rc v f l (ok_entries _ _ Hok) Hl) as [px Hx].
  assert (forall x px, observed bo d rc x px -> unit_vec px.2) as Hu by (intros x qx (w & fr & y & _ & _ & _ & ->); apply Hun).
  pose proof (landmark_listed G o d rc l m Ho Hok Hm) as Hli. pose proof (landmark_observed G o d rc l m Ho Hok Hm) as Hall.
  assert (forall u, match pose_bearings G d rc (obs_list o l m) with
    | [a; b] => u = (1 - sqrt (1 - pair_error a b * pair_error a b))%R
    | [] | [_] => u = 2%R
    | _ => match t_triangulate G (pose_bearings G d rc (obs_list o l m)) with Some h => u = miss h px | None => u = 2%R end
    end -> badness bo (t_triangulate G) o d rc (v, f) u) as Hbad.
  { intros u Hu'. exists l, px, (pose_bearings G d rc (obs_list o l m)). auto. }
  unfold triangulate_landmark. rewrite (landmark_list o rc l m Hm). set (ps := pose_bearings G d rc (obs_list o l m)) in *. clearbody ps.
  destruct (obs_list o l m) as [|x1 [|x2 [|x3 xs]]].
  - apply Forall2_nil_inv_l in Hall as ->. split; [apply Hbad; rnum; lra|rnum; lra].
  - apply Forall2_cons_inv_l in Hall as (p1 & ps1 & H1 & Hall1 & ->). apply Forall2_nil_inv_l in Hall1 as ->. split; [apply Hbad; rnum; lra|rnum; lra].
  - apply Forall2_cons_inv_l in Hall as (p1 & ps1 & H1 & Hall1 & ->). apply Forall2_cons_inv_l in Hall1 as (p2 & ps2 & H2 & Hall2 & ->). apply Forall2_nil_inv_l in Hall2 as ->.
    pose proof H1 as H1'. pose proof H2 as H2'. apply pose_bearing_iff in H1', H2'. rewrite H1', H2'. destruct p1 as [p a], p2 as [q b].
    assert (rigid p) as Rp by (apply (observed_rigid d rc x1 (p, a) Hrig H1)). assert (rigid q) as Rq by (apply (observed_rigid d rc x2 (q, b) Hrig H2)).
    pose proof (pair_error_range (p, a) (q, b) Rp Rq (Hu _ _ H1) (Hu _ _ H2)) as Hr. rewrite (pair_error_loss p q a b Rq), Hcos, Hasin.
    assert (cos (asin (pair_error (p, a) (q, b))) = sqrt (1 - pair_error (p, a) (q, b) * pair_error (p, a) (q, b))) as Ec by (rewrite cos_asin by lra; reflexivity).
    assert (sub one (cos (asin (pair_error (p, a) (q, b)))) = 1 - sqrt (1 - pair_error (p, a) (q, b) * pair_error (p, a) (q, b)))%R as -> by (rnum; rewrite Ec; reflexivity).
    split; [apply Hbad; reflexivity|]. set (z := pair_error (p, a) (q, b)) in *. assert (0 <= sqrt (1 - z * z) <= 1)%R; [|lra]. split; [apply sqrt_pos|]. rewrite <- sqrt_1 at 2. apply sqrt_le_1; nra.
  - assert (exists p1 p2 p3 qs, ps = p1 :: p2 :: p3 :: qs) as (p1 & p2 & p3 & qs & Eps).
    { apply Forall2_cons_inv_l in Hall as (p1 & ps1 & H1 & Hall1 & ->). apply Forall2_cons_inv_l in Hall1 as (p2 & ps2 & H2 & Hall2 & ->). apply Forall2_cons_inv_l in Hall2 as (p3 & ps3 & H3 & Hall3 & ->). eauto 10. }
    assert (forall u, match t_triangulate G ps with Some h => u = miss h px | None => u = 2%R end -> badness bo (t_triangulate G) o d rc (v, f) u) as Hbad' by (intros u H; apply Hbad; rewrite Eps in *; exact H). clear Hbad.
    cbn [length Nat.leb]. apply pose_bearing_iff in Hx as Hx'. rewrite Hx'. destruct (t_triangulate G ps) as [h|].
    + split; [apply Hbad'; reflexivity|]. apply (miss_range h px). eapply Hu, Hx.
    + split; [apply Hbad'; rnum; lra|rnum; lra].
Qed.

Lemma same_frames_badness d d' rc x u : d_frames d' = d_frames d -> badness bo (t_triangulate G) o d' rc x u -> badness bo (t_triangulate G) o d rc x u.
Proof.
  intros E. assert (forall y p, observed bo d' rc y p <-> observed bo d rc y p) as Hob by (intros y p; unfold observed, has_frame; rewrite E; reflexivity).
  intros (l & px & ps & H1 & H2 & (m & Hm & H3) & H4). exists l, px, ps. split; [exact H1|]. split; [apply Hob, H2|]. split; [|exact H4]. exists m. split; [exact Hm|]. eapply Forall2_impl; [exact H3|]. intros y p H. apply Hob, H.
Qed.
Lemma loss_frames d d' rc v f : d_frames d' = d_frames d -> observation_loss T G o d' rc v f = observation_loss T G o d rc v f.
Proof.
  intros E. assert (forall x, pose_bearing G d' rc x = pose_bearing G d rc x) as Hp by (intros x; unfold pose_bearing, observation_bearing; rewrite E; reflexivity).
  unfold observation_loss, triangulate_landmark, pose_bearings. destruct (obs_landmark rc v f) as [l| |]; [|reflexivity..].
  assert (forall xs : list (key * nat), omap (pose_bearing G d' rc) xs = omap (pose_bearing G d rc) xs) as Hps by (intros xs; induction xs as [|x xs IH]; [reflexivity|]; cbn [omap list_omap]; rewrite Hp, IH; reflexivity).
  rewrite Hps. destruct (landmark_observations o rc l) as [|x [|y [|]]]; rewrite ?Hp; reflexivity.
Qed.

Lemma dedup_geometric d r rc a b ma mb : orders_ok o -> data_ok d -> has_recon d r rc -> has_landmark rc a ma -> has_landmark rc b mb ->
  rigid_views rc -> (forall x, unit_vec (bo x)) -> t_cos T = cos -> t_asin G = asin ->
  exists d' res rc' (X : list (key * nat)), merge_landmarks_dedup e d r a b = Ok (d', res) /\ has_recon d' r rc' /\ (forall x, x ∈ X -> alone rc' x) /\
    forall v fa fb, assigned rc v fa a -> assigned rc v fb b -> exists rcv la lb, separated rc rcv /\ assigned rcv v fa a /\ assigned rcv v fb b /\
      badness bo (t_triangulate G) o d rcv (v, fa) la /\ badness bo (t_triangulate G) o d rcv (v, fb) lb /\
      forall f, (v, f) ∈ X <-> f = if Rle_dec la lb then fb else fa.
Proof.
  intros Ho Hd Hr Ha Hb Hrig Hun Hcos Hasin. destruct (merge_dedup_thm e d r rc a b ma mb Ho Hd Hr Ha Hb) as (d' & res & rc' & X & E & Hd' & Hin & Hr' & Hsk & [_ Hgu] & Hres).
  exists d', res, rc', X. split; [exact E|]. split; [exact Hr'|]. split.
  - intros x Hx y Hst. destruct res as [l|].
    + destruct Hres as (_ & _ & _ & Ht). apply Ht in Hst as [[-> _]|(Hx' & _)]; [reflexivity|contradiction].
    + destruct Hres as (_ & Ht). apply Ht in Hst as [[-> _]|(Hx' & _)]; [reflexivity|contradiction].
  - intros v fa fb Hfa Hfb. destruct (Hgu v fa fb Hfa Hfb) as (dv & rcv & (_ & _ & Hfr & _) & Hrv & Hokv & Hsep & A1 & A2 & Hw).
    assert (rigid_views rcv) as Hrigv.
    { intros u w Hu. pose proof (separated_facts _ _ Hsep u) as Ev. unfold has_view in Hu. rewrite Hu in Ev. cbn in Ev. symmetry in Ev. apply fmap_Some in Ev as (w0 & Hw0 & Ev). unfold view_facts in Ev. assert (v_pose w = v_pose w0) as -> by congruence. eapply Hrig, Hw0. }
    exists rcv, (observation_loss T G o d rcv v fa), (observation_loss T G o d rcv v fb). split; [exact Hsep|]. split; [exact A1|]. split; [exact A2|].
    split; [eapply loss_badness; eassumption|]. split; [eapply loss_badness; eassumption|]. intros f. rewrite Hw. cbn [e_second_worse geometric]. unfold on_recon, sm_get. unfold has_recon in Hrv. rewrite Hrv.
    unfold second_worse. rewrite !(loss_frames d dv rcv v _ Hfr). set (la := observation_loss T G o d rcv v fa). set (lb := observation_loss T G o d rcv v fb).
    assert (negb (float_ord_ltb lb la) = if Rle_dec la lb then true else false) as ->.
    { unfold float_ord_ltb. cbn [isnan ltb eqb signneg RNum]. destruct (Rle_dec la lb) as [H|H].
      - assert (Rltb lb la = false) as -> by (apply Rltb_false; exact H). cbn [orb]. destruct (Reqb lb la) eqn:Eq; [|reflexivity]. apply Reqb_spec in Eq. rewrite Eq. destruct (Rltb la 0); reflexivity.
      - assert (Rltb lb la = true) as -> by (apply Rltb_spec; lra). reflexivity. }
    destruct (Rle_dec la lb); reflexivity.
Qed.
End filtering.
End facts.
