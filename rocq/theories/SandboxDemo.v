(** The program run on three images of a row of points, and an observation that is exported although it is far off (C75). *)
From stdpp Require Import gmap list.
From Coq Require Import Reals Psatz.
From Verif Require Import Outcome OutcomeFacts Num Lin LinSpec LinFacts Core CoreSpec CoreProps GeomSpec Sfm SfmSpec SfmUse SfmEffects SfmData SfmRec SfmPrim SfmCons SfmOps SfmLoc SfmHist SfmDemo SfmProps CoreFacts SfmPoseSpec SfmPose SfmGeom SfmGeomSpec SfmGeomFacts SfmSceneDemo SfmStartDemo SfmTruthSpec SfmTruth SfmTruthDemo Bicubic SfmExport SfmExportSpec SfmExportFacts SfmExportDemo Sandbox SandboxSpec SandboxFacts.
Open Scope nat_scope.

Definition row_picture (k : nat) : picture RNum nat := Picture (start_feats (row_cam k)) start_tools demo_orders (fun _ _ _ => []) scene_knn (fun l => l) 100.
Definition row_options : options RNum := Options (Some tt) (1 / 2)%R 3 false.

Section row.
Context (nearest : rmat3 -> rmat3) (eps : R) (Hnearest : nearest mid = mid) (Heps : (0 <= eps)%R) (colour_of : nat -> colour).
Notation T := (real_trig nearest eps).
Notation s := scene_settings.
Notation session_of := (session_of T colour_of s row_options start_gs None).
Notation ps n := (row_picture <$> seq 0 n).

Lemma row_pictures n : pictures_ok T s start_gs vdata_init (ps n).
Proof.
  assert (forall p, p ∈ ps n -> exists k, p = row_picture k) as Hp by (intros p H; apply elem_of_list_fmap in H as (k & -> & _); eauto). split.
  - intros p H. destruct (Hp p H) as [k ->]. apply start_e_ok.
  - intros p q H1 H2. destruct (Hp p H1) as [k ->], (Hp q H2) as [j ->]. cbn [row_picture p_features p_fuel]. unfold start_feats. rewrite fmap_length, seq_length. lia.
  - intros p k fr _ H. unfold has_frame in H. cbn in H. rewrite lookup_empty in H. discriminate H.
  - cbn. lia.
  - intros p _. left. cbn. lia.
Qed.
Lemma row_few n : n <= 2 -> session_of (ps n) = Ok (Session start_gs (row_data n) ∅ []).
Proof.
  intros Hn. induction n as [|n IH]; [reflexivity|]. rewrite seq_S, fmap_app. unfold Sandbox.session_of in *. destruct (add_feed (default vdata_init None)) as [d feed] eqn:Ef. rewrite foldM_app, IH by lia. cbn [bind fmap list_fmap foldM].
  assert (feed = 0) as -> by (injection Ef; congruence).
  assert (add_frame iso_id iso_mul iso_inv (picture_env T start_gs (row_picture n)) s (row_data n) 0 (start_feats (row_cam n)) = Ok (row_data (S n), n)) as E.
  { change (picture_env T start_gs (row_picture n)) with (start_e nearest eps). rewrite (row_localize nearest eps n _ ltac:(lia) (row_init nearest eps n ltac:(lia))). destruct (row_frame (P := riso) (S n) n ltac:(lia) ltac:(lia)) as (fr & Hf & _ & Hv). unfold sm_get. rewrite Hf. cbn [unwrap bind]. rewrite Hv. reflexivity. }
  change (0 + n) with n. unfold add_picture. cbn [ss_settings ss_data ss_normalized ss_events].
  change (p_features (row_picture n)) with (start_feats (row_cam n)).
  rewrite E. cbn [bind].
  destruct (row_frame (P := riso) (S n) n ltac:(lia) ltac:(lia)) as (fr & Hf & _ & Hv). unfold sm_get. rewrite Hf. cbn [unwrap bind]. rewrite Hv. reflexivity.
Qed.
Lemma row_apart : no_merging T colour_of s row_options start_gs None (ps 3).
Proof.
  intros before p after ss d k E Es Ea. assert (length before < 3) as Hb. { apply (f_equal length) in E. rewrite app_length in E. cbn in E. lia. }
  assert (before = ps (length before) /\ p = row_picture (length before)) as [Eb ->].
  { split.
    - apply (f_equal (take (length before))) in E. rewrite take_app in E. rewrite <- E, <- fmap_take. f_equal. revert Hb. generalize (length before). intros [|[|[|]]] H; [reflexivity..|lia].
    - assert (ps 3 !! length before = Some p) as H by (rewrite E; apply list_lookup_middle; reflexivity). revert Hb H. generalize (length before). intros [|[|[|]]] Hl H; [injection H as <-; reflexivity..|lia]. }
  rewrite Eb in Es. rewrite row_few in Es by lia. injection Es as <-. cbn [ss_data] in Ea. set (n := length before) in *. cbn [default d_feeds vdata_init sm_next] in Ea. change (data_add_frame (row_data n) 0 (start_feats (row_cam n)) = Ok (d, k)) in Ea.
  rewrite row_add in Ea by lia. assert (d = row_data (S n)) as -> by congruence. change (picture_env T start_gs (row_picture n)) with (start_e nearest eps).
  apply (one_recon nearest eps _ _ 0); [apply row_data_ok; lia|]. intros r' rc' Hr'. unfold has_recon in Hr'. rewrite row_none, lookup_empty in Hr' by lia. discriminate Hr'.
Qed.
Lemma row_session : exists ss r file, session_of (ps 3) = Ok ss /\ Exported 2 r file ∈ ss_events ss /\ true_scene scene_bearing row_pose row_point (ss_data ss) /\
  forall p, p ∈ ps 3 -> truthful scene_bearing row_pose row_point (ss_data ss) s nearest eps start_gs (p_tools p) (picture_env T start_gs p).
Proof.
  assert (data_ok (vdata_init : vdata riso nat)) as H0. { assert (used_well iso_id iso_mul iso_inv s vdata_init ([] : list (op riso nat))) as Hu by exact I. exact (history_ok riso nat iso_id iso_mul iso_inv s [] _ Hu eq_refl). }
  destruct (session_runs T colour_of s row_options start_gs None (ps 3) H0 (row_pictures 3)) as (ss & E & Hok & _ & Hf & _).
  assert (row_frames (ss_data ss)) as Hrow.
  { intros k fr H. pose proof (Hf k) as Ek. unfold has_frame in H. rewrite H in Ek. cbn [default vdata_init d_frames sm_next fmap option_fmap option_map] in Ek. rewrite decide_False in Ek by (cbn; lia). cbn [sm_next sm_empty] in Ek. rewrite Nat.sub_0_r in Ek.
    destruct k as [|[|[|k]]]; cbn in Ek; [injection Ek as ->; split; [lia|reflexivity]..|discriminate Ek]. }
  pose proof (row_true (ss_data ss) Hrow) as Htrue.
  assert (forall p, p ∈ ps 3 -> truthful scene_bearing row_pose row_point (ss_data ss) s nearest eps start_gs (p_tools p) (picture_env T start_gs p)) as HT.
  { intros p Hp. apply elem_of_list_fmap in Hp as (k & -> & _). exact (row_truthful nearest eps Hnearest Heps (ss_data ss) Hrow). }
  destruct (row_third nearest eps) as (d & r & rc & unit & E3 & Hokd & _ & _ & Hr & _ & Hviews). destruct (Hviews 2 ltac:(lia)) as (v & w & Hw & Ew & _).
  destruct (ok_entries _ _ (ok_recons _ Hokd r rc Hr) v w Hw) as (fr & Hfr & _). rewrite Ew in Hfr. assert (f_view fr = Some (r, v)) as Hv by (apply (ok_links _ Hokd 2 fr Hfr); exists rc, w; auto).
  exists ss, r. change (ps 3) with (ps 2 ++ [row_picture 2]) in E. pose proof (row_few 2 ltac:(lia)) as E2. unfold Sandbox.session_of in E, E2. destruct (add_feed (default vdata_init None)) as [d0 feed] eqn:Ef. assert (feed = 0) as -> by (injection Ef; congruence).
  rewrite foldM_app, E2 in E. cbn [bind foldM] in E. apply bind_ok in E as (ss' & E & E'). injection E' as ->.
  assert (exists file, Exported 2 r file ∈ ss_events ss) as [file Hfile].
  { cbn [step] in E3. change (start_e nearest eps) with (picture_env T start_gs (row_picture 2)) in E3. change (start_feats (row_cam 2)) with (p_features (row_picture 2)) in E3. apply bind_ok in E3 as ([d' k] & Ea & E3). injection E3 as ->.
    pose proof E as Ep. unfold add_picture in E. cbn [ss_settings ss_data ss_normalized ss_events] in E. rewrite Ea in E. cbn [bind] in E.
    assert (k = 2) as ->. { pose proof (row_data_ok 2 ltac:(lia)) as H2. apply data_ok_inv in H2. pose proof (add_frame_post iso_id iso_mul iso_inv True (picture_env T start_gs (row_picture 2)) s (row_data 2) 0 (p_features (row_picture 2)) (start_e_ok nearest eps) H2 (or_introl I) (or_introl I)) as Hp. rewrite Ea in Hp. cbn [post fst snd] in Hp. destruct Hp as (_ & d1 & Hfa & _). rewrite (fa_key _ _ _ _ _ Hfa). apply row_next. lia. }
    unfold sm_get in E. rewrite Hfr in E. cbn [unwrap bind] in E. rewrite Hv in E. apply bind_ok in E as (ss2 & _ & E). unfold export_current in E. cbn [row_options output] in E. apply bind_ok in E as (file & _ & E). injection E as <-. exists file. cbn [ss_events]. apply elem_of_app. right. left. }
  exists file. split; [|auto]. change (ps 3) with (ps 2 ++ [row_picture 2]). unfold Sandbox.session_of. rewrite Ef, foldM_app, E2. cbn [bind foldM]. rewrite E. reflexivity.
Qed.
End row.

(** ** The maximum cosine distance of the export *)
Definition skew_bearing (f : nat) : rvec3 := if Nat.eqb (Nat.modulo f 10) 2 then (V3 0 1 0 : rvec3)%R else scene_bearing f.
Definition skew_tools : tools RNum nat :=
  Tools (N := RNum) skew_bearing two_ray (fun _ => None) (fun l => Some (scene_pose 3, seq 0 (length l))) asin (fun x => if Req_EM_T x 0 then false else true) (fun _ n => seq 0 n).
Definition default_options : options RNum := Options (Some tt) (1 / 1000000)%R 3 false.

Section skew.
Context (nearest : rmat3 -> rmat3) (eps : R) (colour_of : nat -> colour).
Notation d := (scene_data iso_id iso_mul iso_inv (scene_pose 1) (scene_pose 2) (scene_e nearest eps)).
Notation rc := (scene_rc iso_id iso_mul iso_inv (scene_pose 1) (scene_pose 2) (scene_e nearest eps)).
Definition skew_view (k : nat) : riso * rvec3 := (scene_pose k, skew_bearing (10 + k)).
Lemma skew_view_same k : k < 2 -> skew_view k = scene_view 1 k.
Proof. intros Hk. destruct k as [|[|k]]; [reflexivity..|lia]. Qed.
Lemma skew_observed v px : observed skew_bearing d rc (v, 0) px -> px = skew_view v.
Proof.
  intros (w & fr & f & Hw & Hfr & Hf & ->). cbn [fst snd] in *. destruct (scene_view_value nearest eps v w Hw) as (Hv & Ev & Ep & _). rewrite Ev in Hfr. rewrite (scene_frame_value nearest eps v fr Hfr) in Hf. apply scene_feats_lookup in Hf as [_ ->].
  unfold skew_view. rewrite Ep. reflexivity.
Qed.
Lemma skew_observes v : v < 3 -> observed skew_bearing d rc (v, 0) (skew_view v).
Proof.
  intros Hv. destruct (scene_observes nearest eps v 0 Hv ltac:(lia)) as (w & fr & f & Hw & Hfr & Hf & _). exists w, fr, f. split; [exact Hw|]. split; [exact Hfr|]. split; [exact Hf|].
  cbn [fst snd] in *. destruct (scene_view_value nearest eps v w Hw) as (_ & Ev & Ep & _). rewrite Ev in Hfr. rewrite (scene_frame_value nearest eps v fr Hfr) in Hf. apply scene_feats_lookup in Hf as [_ ->]. unfold skew_view. rewrite Ep. reflexivity.
Qed.
Lemma skew_listed ps : listed skew_bearing demo_orders d rc 0 ps -> ps = [scene_view 1 0; scene_view 1 1; skew_view 2].
Proof.
  intros (m & Hm & Hall). destruct (scene_landmark_value nearest eps 0 m Hm) as [_ El]. rewrite El in Hall.
  apply Forall2_cons_inv_l in Hall as (p0 & ps0 & H0 & Hall & ->). apply Forall2_cons_inv_l in Hall as (p1 & ps1 & H1 & Hall & ->). apply Forall2_cons_inv_l in Hall as (p2 & ps2 & H2 & Hall & ->). apply Forall2_nil_inv_l in Hall as ->.
  apply skew_observed in H0 as ->. apply skew_observed in H1 as ->. apply skew_observed in H2 as ->. rewrite !skew_view_same by lia. reflexivity.
Qed.
Lemma skew_triangulated : two_ray [scene_view 1 0; scene_view 1 1; skew_view 2] = Some (from_point (scene_place 1)).
Proof.
  unfold two_ray. assert (crossing (scene_view 1 0) (scene_view 1 0) <> true) as H0. { intros H. apply crossing_spec in H. apply H. lin. }
  assert (crossing (scene_view 1 0) (scene_view 1 1) = true) as H1 by (apply crossing_spec, scene_crossing; lia). rewrite filter_cons_False by exact H0. rewrite filter_cons_True by exact H1.
  rewrite (meet_exact (scene_place 1) (scene_view 1 <$> [0; 1])); [reflexivity|apply scene_exact; [lia|intros k; rewrite !elem_of_cons, elem_of_nil; lia]|left|right; left|apply scene_crossing; lia].
Qed.
Lemma skew_exported : exists pc, pictured (export_settings default_options scene_gs) skew_tools demo_orders colour_of d rc 0 pc /\ pc.1 = scene_place 1.
Proof.
  destruct (scene_view_exists nearest eps 0 ltac:(lia)) as [w Hw]. destruct (scene_view_value nearest eps 0 w Hw) as (_ & Ef & _ & _). destruct (scene_frame_exists nearest eps 0 ltac:(lia)) as [fr Hfr]. destruct (scene_landmark_exists nearest eps 0 ltac:(lia)) as [m Hm].
  exists (scene_place 1, colour_of 10). split; [|reflexivity]. split.
  - exists (from_point (scene_place 1)). split; [|apply point_from_point; unfold scene_place, vzero; intros [= _ H]; lra]. split.
    + split.
      * exists m. split; [exact Hm|]. left. destruct (scene_landmark_value nearest eps 0 m Hm) as [_ E]. rewrite <- (obs_list_length demo_orders 0 m demo_ord_ok), E. cbn. lia.
      * exists (0, 0), (1, 0), (skew_view 0), (skew_view 1). split; [discriminate|]. cbn [fst snd]. split; [apply scene_assigns; lia|]. split; [apply scene_assigns; lia|]. split; [apply skew_observes; lia|]. split; [apply skew_observes; lia|].
        rewrite !skew_view_same by lia. apply scene_apart; lia.
    + pose proof (landmark_listed skew_tools demo_orders d rc 0 m demo_ord_ok (ok_recons _ (scene_data_ok nearest eps) _ _ (scene_has_recon nearest eps)) Hm) as H. eexists. split; [exact H|].
      apply skew_listed in H as ->. exact skew_triangulated.
  - exists 0, 0, w, fr, 10. split; [apply scene_assigns; lia|]. split; [exact Hw|]. rewrite Ef. split; [exact Hfr|]. split; [|reflexivity]. rewrite (scene_frame_value nearest eps 0 fr Hfr). reflexivity.
Qed.
End skew.
Lemma cosine_refuted (colour_of : nat -> colour) : exists (st : gsettings RNum) (G : tools RNum nat) (o : orders) (d : vdata riso nat) (r : key) (rc : recon riso) (opt : options RNum) (l : key) (pc : vertex RNum) (v : key) (f : nat) (pose : riso) (bearing : rvec3),
  orders_ok o /\ tools_ok G /\ data_ok d /\ has_recon d r rc /\ pictured (export_settings opt st) G o colour_of d rc l pc /\
  assigned rc v f l /\ observed (t_bearing G) d rc (v, f) (pose, bearing) /\ unit_vec bearing /\
  (export_maximum_cosine_distance opt < 1 - dot bearing (normalize (iso_point pose pc.1)))%R.
Proof.
  destruct (skew_exported (fun _ => mid) 1%R colour_of) as (pc & Hpc & E). exists scene_gs, skew_tools, demo_orders, (scene_data iso_id iso_mul iso_inv (scene_pose 1) (scene_pose 2) (scene_e (fun _ => mid) 1%R)), 0, (scene_rc iso_id iso_mul iso_inv (scene_pose 1) (scene_pose 2) (scene_e (fun _ => mid) 1%R)), default_options, 0, pc, 2, 0, (scene_pose 2), (V3 0 1 0 : rvec3)%R.
  split; [exact demo_ord_ok|]. split; [destruct scene_tools_ok as [A B C]; split; assumption|]. split; [apply scene_data_ok|]. split; [apply scene_has_recon|]. split; [exact Hpc|]. split; [apply scene_assigns; lia|]. split; [exact (skew_observes (fun _ => mid) 1%R 2 ltac:(lia))|]. split; [unfold unit_vec; lin|].
  rewrite E, row_seen. assert (dot (V3 0 1 0 : rvec3)%R (normalize (scene_ray 1 2)) = 0)%R as -> by (unfold normalize; generalize (norm (scene_ray 1 2)); intros n; unfold scene_ray, vdiv; lin_unfold; cbn; unfold Rdiv; ring). cbn [default_options export_maximum_cosine_distance]. lra.
Qed.
Lemma row_case (colour_of : nat -> colour) : let T := real_trig (fun _ => mid) 1 in let ps := row_picture <$> seq 0 3 in
  data_ok (vdata_init : vdata riso nat) /\ pictures_ok T scene_settings start_gs vdata_init ps /\ no_merging T colour_of scene_settings row_options start_gs None ps /\
  exists ss r file, session_of T colour_of scene_settings row_options start_gs None ps = Ok ss /\ Exported 2 r file ∈ ss_events ss /\
    true_scene scene_bearing row_pose row_point (ss_data ss) /\
    forall p, p ∈ ps -> truthful scene_bearing row_pose row_point (ss_data ss) scene_settings (fun _ => mid) 1 start_gs (p_tools p) (picture_env T start_gs p).
Proof.
  cbv zeta. split; [exact (init_ok scene_settings)|]. split; [apply row_pictures|]. split; [apply row_apart|]. apply (row_session (fun _ => mid) 1%R eq_refl Rle_0_1).
Qed.
