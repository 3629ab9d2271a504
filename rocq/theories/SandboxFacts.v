(** Proofs for C75. *)
From stdpp Require Import gmap list.
From Coq Require Import Reals Lia.
From Verif Require Import Outcome OutcomeFacts Num Lin LinSpec Core CoreSpec Geom Sfm SfmSpec SfmUse SfmData SfmRec SfmPrim SfmCons SfmOps SfmLoc SfmHist SfmProps SfmPose SfmPoseSpec SfmGeom SfmGeomSpec SfmTruthSpec SfmTruth SfmTruthRun Bicubic SfmExport SfmExportSpec SfmExportFacts Sandbox SandboxSpec.
Open Scope nat_scope.

Lemma foldM_inv {S X} (f : S -> X -> outcome S) (I : list X -> S -> Prop) :
  forall l before x, I before x -> (forall before y x, y ∈ l -> I before x -> exists x', f x y = Ok x' /\ I (before ++ [y]) x') ->
  exists x', foldM f l x = Ok x' /\ I (before ++ l) x'.
Proof.
  induction l as [|y l IH]; intros before x HI Hf; cbn [foldM].
  - exists x. rewrite app_nil_r. auto.
  - destruct (Hf before y x ltac:(left) HI) as (x' & E & HI'). rewrite E. cbn [bind]. destruct (IH (before ++ [y]) x' HI') as (x2 & E2 & HI2).
    + intros b z x0 Hz. apply Hf. right. exact Hz.
    + exists x2. split; [exact E2|]. rewrite <- app_assoc in HI2. exact HI2.
Qed.

Section facts.
Context (T : trig RNum) {F : Type} (colour_of : F -> colour) (s : settings) (opt : options RNum) (st : gsettings RNum).
Implicit Types (d : vdata riso F) (p : picture RNum F) (ps : list (picture RNum F)).
Notation add_picture := (add_picture T colour_of s opt).
Notation env_of := (picture_env T st).
Notation frames_follow := (@frames_follow F).
Notation orderly := (@orderly F colour_of opt st).

Lemma normalised_app l l' : normalised (l ++ l') = normalised l ++ normalised l'.
Proof. apply omap_app. Qed.
Lemma exported_app l l' : exported_frames (l ++ l') = exported_frames l ++ exported_frames l'.
Proof. apply omap_app. Qed.
Lemma elem_of_exported l k : k ∈ exported_frames l <-> exists r file, Exported k r file ∈ l.
Proof.
  unfold exported_frames. rewrite elem_of_list_omap. split.
  - intros ([r|k' r file] & H & E); [discriminate E|]. injection E as ->. eauto.
  - intros (r & file & H). eauto.
Qed.

(** ** Events *)
Lemma orderly_nil d0 : orderly d0 [] [].
Proof. split; [constructor| |constructor|intros k r file H; apply elem_of_nil in H as []]. intros before after k r file E. destruct before; discriminate E. Qed.
Lemma orderly_more d0 ps p l : orderly d0 ps l -> orderly d0 (ps ++ [p]) l.
Proof. intros [H1 H2 H3 H4]. split; auto. intros k r file H. destruct (H4 k r file H) as (i & q & Hi & H'). exists i, q. split; [apply lookup_app_l_Some, Hi|exact H']. Qed.
Lemma orderly_normalised d0 ps l r : orderly d0 ps l -> r ∉ normalised l -> orderly d0 ps (l ++ [Normalised r]).
Proof.
  intros [H1 H2 H3 H4] Hr. split.
  - rewrite normalised_app. apply NoDup_app. split; [exact H1|]. split; [|apply NoDup_singleton]. intros x Hx Hx'. apply elem_of_list_singleton in Hx' as ->. exact (Hr Hx).
  - intros before after k r' file E. destruct after as [|x after _] using rev_ind; [apply app_inj_tail in E as [_ E]; discriminate E|].
    rewrite app_comm_cons, app_assoc in E. apply app_inj_tail in E as [E _]. exact (H2 _ _ _ _ _ E).
  - rewrite exported_app. cbn. rewrite app_nil_r. exact H3.
  - intros k r' file H. apply elem_of_app in H as [H|H]; [exact (H4 _ _ _ H)|]. apply elem_of_list_singleton in H. discriminate H.
Qed.
Lemma orderly_exported d0 ps l k r file i p : orderly d0 ps l -> r ∈ normalised l -> k ∉ exported_frames l -> ps !! i = Some p -> k = sm_next (d_frames d0) + i -> file_of colour_of opt st p k r file ->
  orderly d0 ps (l ++ [Exported k r file]).
Proof.
  intros [H1 H2 H3 H4] Hr Hk Hi Ek Hfile. split.
  - rewrite normalised_app. cbn. rewrite app_nil_r. exact H1.
  - intros before after k' r' file' E. destruct after as [|x after _] using rev_ind.
    + apply app_inj_tail in E as [<- E]. injection E as _ <- _. exact Hr.
    + rewrite app_comm_cons, app_assoc in E. apply app_inj_tail in E as [E _]. exact (H2 _ _ _ _ _ E).
  - rewrite exported_app. apply NoDup_app. split; [exact H3|]. split; [|apply NoDup_singleton]. intros x Hx Hx'. apply elem_of_list_singleton in Hx' as ->. exact (Hk Hx).
  - intros k' r' file' H. apply elem_of_app in H as [H|H]; [exact (H4 _ _ _ H)|]. apply elem_of_list_singleton in H. injection H as -> -> ->. eauto.
Qed.

(** ** Frames *)
Lemma follow_next d0 d d1 ps p feed k d2 : frames_follow d0 ps d -> keys_fresh (d_frames d0) -> sm_next (d_frames d) = sm_next (d_frames d0) + length ps -> frame_added d feed (p_features p) k d1 -> same_base d1 d2 ->
  frames_follow d0 (ps ++ [p]) d2 /\ k = sm_next (d_frames d0) + length ps.
Proof.
  intros Hf Hfresh En Ha Hb. pose proof (fa_key _ _ _ _ _ Ha) as Hk. rewrite En in Hk. split; [|exact Hk]. intros j.
  assert (f_feats <$> sm_map (d_frames d2) !! j = f_feats <$> sm_map (d_frames d1) !! j) as ->.
  { pose proof (sb_frames _ _ Hb j) as E. apply (f_equal (fmap (f_feats (F := F)))) in E. rewrite <- !option_fmap_compose in E. exact E. }
  destruct (fa_feed _ _ _ _ _ Ha) as (old & _ & _ & ->). destruct (decide (k = j)) as [<-|Hne].
  - rewrite lookup_insert. rewrite decide_False by lia. rewrite Hk. replace (sm_next (d_frames d0) + length ps - sm_next (d_frames d0)) with (length ps) by lia. rewrite list_lookup_middle by reflexivity. reflexivity.
  - rewrite lookup_insert_ne by exact Hne. rewrite (Hf j). destruct (decide (j < sm_next (d_frames d0))) as [H|H]; [reflexivity|]. destruct (decide (j - sm_next (d_frames d0) < length ps)) as [Hl|Hl].
    + rewrite lookup_app_l by exact Hl. reflexivity.
    + rewrite lookup_ge_None_2 by lia. rewrite lookup_ge_None_2; [reflexivity|]. rewrite app_length. cbn. lia.
Qed.
Lemma follow_base d0 ps d d' : frames_follow d0 ps d -> same_base d d' -> frames_follow d0 ps d'.
Proof.
  intros Hf Hb j. rewrite <- (Hf j). pose proof (sb_frames _ _ Hb j) as E. apply (f_equal (fmap (f_feats (F := F)))) in E. rewrite <- !option_fmap_compose in E. exact E.
Qed.

(** ** One image *)
Record state_ok d0 (feed : key) (ps : list (picture RNum F)) (ss : session RNum F) : Prop := {
  so_data : data_ok (ss_data ss);
  so_settings : ss_settings ss = st;
  so_feed : exists old, has_feed (ss_data ss) feed old;
  so_frames : frames_follow d0 ps (ss_data ss);
  so_next : sm_next (d_frames (ss_data ss)) = sm_next (d_frames d0) + length ps;
  so_orderly : orderly d0 ps (ss_events ss);
  so_normalised : forall r, r ∈ ss_normalized ss <-> r ∈ normalised (ss_events ss);
  so_last : last_written opt d0 ps ss
}.
Lemma follow_ready d0 all ps d p : data_ok d0 -> pictures_ok T s st d0 all -> p ∈ all -> (forall q, q ∈ ps -> q ∈ all) -> frames_follow d0 ps d -> ready (env_of p) s d.
Proof.
  intros H0 [P1 P2 P3 P4 P5] Hp Hps Hf. split; [|exact P4|exact (P5 p Hp)]. intros k fr H. change (e_fuel (env_of p)) with (p_fuel p).
  pose proof (Hf k) as E. unfold has_frame in H. rewrite H in E. cbn [fmap option_fmap option_map] in E. destruct (decide _).
  - symmetry in E. apply fmap_Some in E as (fr0 & H0' & ->). exact (P3 p k fr0 Hp H0').
  - symmetry in E. apply fmap_Some in E as (q & Hq & ->). apply (P2 p q Hp). apply Hps. eapply elem_of_list_lookup_2. exact Hq.
Qed.
Lemma exported_before d0 ps l k : orderly d0 ps l -> k ∈ exported_frames l -> k < sm_next (d_frames d0) + length ps.
Proof. intros [_ _ _ H4] H. apply elem_of_exported in H as (r & file & H). destruct (H4 k r file H) as (i & q & Hi & -> & _). apply lookup_lt_Some in Hi. lia. Qed.

Lemma one_picture d0 all feed before p ss : data_ok d0 -> pictures_ok T s st d0 all -> p ∈ all -> (forall q, q ∈ before -> q ∈ all) -> state_ok d0 feed before ss ->
  exists ss', add_picture feed ss p = Ok ss' /\ state_ok d0 feed (before ++ [p]) ss'.
Proof.
  intros H0 Hok Hp Hbefore [Hd Hst Hfeed Hfr Hn Hord Hnorm _]. pose proof (po_env _ _ _ _ _ Hok p Hp) as He. pose proof (eo_orders _ He) as Ho. change (e_ord (env_of p)) with (p_orders p) in Ho.
  pose proof (follow_ready d0 all before (ss_data ss) p H0 Hok Hp Hbefore Hfr) as Hrd.
  pose proof (add_frame_post iso_id iso_mul iso_inv False (env_of p) s (ss_data ss) feed (p_features p) He (proj1 (data_ok_inv _) Hd) (or_intror Hfeed) (or_intror (conj Hrd (po_features _ _ _ _ _ Hok p p Hp Hp)))) as Ha.
  unfold Sandbox.add_picture. rewrite Hst. destruct (add_frame iso_id iso_mul iso_inv (env_of p) s (ss_data ss) feed (p_features p)) as [[d k]| |]; [|destruct Ha..]. cbn [bind post fst snd] in *.
  destruct Ha as (Hi & d1 & Ha & Hb). apply data_ok_inv in Hi.
  destruct (follow_next d0 (ss_data ss) d1 before p feed k d Hfr (ok_fresh_frames _ H0) Hn Ha Hb) as [Hfr' Ek].
  assert (exists old, has_feed d feed old) as Hfeed'. { destruct (fa_feed _ _ _ _ _ Ha) as (old & _ & E & _). exists (old ++ [k]). unfold has_feed. rewrite (sb_feeds _ _ Hb), E. apply lookup_insert. }
  assert (exists fr, has_frame d k fr) as [fr Hf].
  { pose proof (Hfr' k) as E. rewrite decide_False in E by lia. rewrite Ek in E. replace (sm_next (d_frames d0) + length before - sm_next (d_frames d0)) with (length before) in E by lia. rewrite list_lookup_middle in E by reflexivity. rewrite <- Ek in E.
    apply fmap_Some in E as (fr & Hf & _). exists fr. exact Hf. }
  assert (sm_next (d_frames d) = sm_next (d_frames d0) + length (before ++ [p])) as Hn'. { rewrite (sb_next _ _ Hb), (fa_next _ _ _ _ _ Ha), app_length, Ek. cbn. lia. }
  unfold sm_get. unfold has_frame in Hf. rewrite Hf. cbn [unwrap bind].
  assert (k ∉ exported_frames (ss_events ss)) as Hnew by (intros H; apply (exported_before _ _ _ _ Hord) in H; lia).
  assert (forall x before' p', before ++ [p] = before' ++ [p'] -> sm_next (d_frames d0) + length before' = x <-> x = k) as Hlast.
  { intros x b' p' E. apply app_inj_tail in E as [<- _]. lia. }
  destruct (f_view fr) as [[r v]|] eqn:Ev.
  - assert (exists ss2, normalize_new T p (Session st d (ss_normalized ss) (ss_events ss)) r = Ok ss2 /\ data_ok (ss_data ss2) /\ ss_settings ss2 = st /\ same_base d (ss_data ss2) /\ has_frame (ss_data ss2) k fr /\
      orderly d0 (before ++ [p]) (ss_events ss2) /\ (forall r, r ∈ ss_normalized ss2 <-> r ∈ normalised (ss_events ss2)) /\ r ∈ ss_normalized ss2 /\ exported_frames (ss_events ss2) = exported_frames (ss_events ss)) as H2.
    { unfold normalize_new. cbn [ss_data ss_settings ss_events ss_normalized]. destruct (decide (r ∈ ss_normalized ss)) as [Hr|Hr].
      - eexists. split; [reflexivity|]. cbn [ss_data ss_settings ss_events ss_normalized]. split; [exact Hi|]. split; [reflexivity|]. split; [apply same_base_refl|]. split; [exact Hf|]. split; [apply orderly_more, Hord|]. auto.
      - apply (ok_links _ Hi k fr Hf) in Ev as (rc & w & Hrc & Hw & _).
        pose proof (normalize_post iso_mul iso_inv False (env_of p) none1 none2 d r Ho (proj1 (data_ok_inv _) Hi) (fun H => H) (or_intror (ex_intro _ rc (ex_intro _ v (ex_intro _ w (conj Hrc Hw)))))) as Hp'.
        destruct (normalize_reconstruction iso_mul iso_inv (env_of p) d r) as [d2| |]; [|destruct Hp'..]. cbn [bind post] in *. destruct Hp' as [Hi2 [(rc1 & v0 & w0 & rc' & vs & _ & _ & _ & -> & _)]]. apply data_ok_inv in Hi2.
        eexists. split; [reflexivity|]. cbn [ss_data ss_settings ss_events ss_normalized]. split; [exact Hi2|]. split; [reflexivity|]. split; [apply upd_base|]. split; [exact Hf|]. split; [apply orderly_normalised; [apply orderly_more, Hord|rewrite <- Hnorm; exact Hr]|].
        split; [|split; [apply elem_of_union_l, elem_of_singleton; reflexivity|rewrite exported_app; cbn; apply app_nil_r]].
        intros r'. rewrite normalised_app, elem_of_app, elem_of_union, elem_of_singleton, Hnorm. cbn. rewrite elem_of_list_singleton. tauto. }
    destruct H2 as (ss2 & E2 & Hi2 & Hst2 & Hb2 & Hf2 & Hord2 & Hnorm2 & Hr2 & Hex2). rewrite E2. cbn [bind]. unfold export_current.
    assert (is_view_of (ss_data ss2) r v k) as Hview by (apply (ok_links _ Hi2 k fr Hf2); exact Ev).
    assert (exists old, has_feed (ss_data ss2) feed old) as Hfeed2 by (unfold has_feed; rewrite (sb_feeds _ _ Hb2); exact Hfeed').
    assert (sm_next (d_frames (ss_data ss2)) = sm_next (d_frames d0) + length (before ++ [p])) as Hn2 by (rewrite (sb_next _ _ Hb2); exact Hn').
    pose proof (follow_base d0 _ _ _ Hfr' Hb2) as Hfr2.
    destruct (output opt) as [[]|] eqn:Eo.
    + destruct Hview as (rc & w & Hrc & Hw & Ew) eqn:Evw. clear Evw.
      destruct (exported (export_settings opt st) (p_tools p) (p_orders p) colour_of Ho (ss_data ss2) r rc (negb (no_camera_faces opt)) Hi2 Hrc) as (ls & points & vs & cameras & Ex & _). cbn [ss_data ss_settings ss_events ss_normalized]. rewrite Hst2, Ex. cbn [bind].
      assert (orderly d0 (before ++ [p]) (ss_events ss2 ++ [Exported k r (export points cameras (negb (no_camera_faces opt)))])) as Hord3.
      { apply (orderly_exported d0 (before ++ [p]) _ k r _ (length before) p Hord2); [rewrite <- Hnorm2; exact Hr2|rewrite Hex2; exact Hnew|apply list_lookup_middle; reflexivity|exact Ek|]. exists (ss_data ss2), v, (export_settings opt st). split; [exact Hi2|]. split; [exists rc, w; auto|]. split; [reflexivity|]. split; [reflexivity|exact Ex]. }
      eexists. split; [reflexivity|]. split; cbn [ss_data ss_settings ss_events ss_normalized]; auto.
      * intros r'. rewrite normalised_app. cbn. rewrite app_nil_r. apply Hnorm2.
      * intros b' p' E. rewrite (proj2 (Hlast k b' p' E) eq_refl). cbn [ss_data ss_events]. split; [|intros _; exists r; eexists; apply elem_of_app; right; left]. intros _. split; [rewrite Eo; discriminate|]. exists r, v, rc, w. auto.
    + exists ss2. split; [reflexivity|]. split; auto. intros b' p' E. rewrite (proj2 (Hlast k b' p' E) eq_refl). split; [|intros [H _]; congruence]. intros H. exfalso. apply Hnew. rewrite <- Hex2. apply elem_of_exported. exact H.
  - eexists. split; [reflexivity|]. split; cbn [ss_data ss_settings ss_events ss_normalized]; auto using orderly_more. intros b' p' E. rewrite (proj2 (Hlast k b' p' E) eq_refl). cbn [ss_data ss_events]. split.
    + intros H. exfalso. apply Hnew, elem_of_exported. exact H.
    + intros (_ & r & v & H). apply (ok_links _ Hi k fr Hf) in H. congruence.
Qed.

(** ** The session *)
Lemma session_state (loaded : option (vdata riso F)) ps : let d0 := default vdata_init loaded in data_ok d0 -> pictures_ok T s st d0 ps ->
  exists ss, session_of T colour_of s opt st loaded ps = Ok ss /\ state_ok d0 (add_feed d0).2 ps ss.
Proof.
  intros d0 H0 Hps. unfold session_of. fold d0. destruct (add_feed d0) as [d feed] eqn:Ef. pose proof (f_equal fst Ef) as Ed. pose proof (f_equal snd Ef) as Efeed. cbn [fst snd] in *.
  assert (data_ok d) as Hd. { apply data_ok_inv. rewrite <- Ed. apply add_feed_inv, data_ok_inv, H0. }
  assert (state_ok d0 feed [] (Session st d ∅ [])) as Hinit.
  { rewrite <- Ed, <- Efeed in *. split; cbn [ss_data ss_settings ss_events ss_normalized]; auto.
    - exists []. unfold has_feed. cbn. apply lookup_insert.
    - intros k. cbn. destruct (decide (k < sm_next (d_frames d0))) as [H|H]; [reflexivity|]. destruct (sm_map (d_frames d0) !! k) as [fr|] eqn:E; [|reflexivity]. pose proof (ok_fresh_frames _ H0 k fr E). lia.
    - apply orderly_nil.
    - intros r. cbn. set_solver.
    - intros b p E. destruct b; discriminate E. }
  destruct (foldM_inv (add_picture feed) (fun b ss => (forall q, q ∈ b -> q ∈ ps) /\ state_ok d0 feed b ss) ps [] (Session st d ∅ [])) as (ss & E & _ & Hss).
  - split; [intros q Hq; apply elem_of_nil in Hq as []|exact Hinit].
  - intros b p ss Hp [Hb Hss]. destruct (one_picture d0 ps feed b p ss H0 Hps Hp Hb Hss) as (ss' & E & Hss'). exists ss'. split; [exact E|]. split; [|exact Hss']. intros q Hq. apply elem_of_app in Hq as [Hq|Hq]; [auto|]. apply elem_of_list_singleton in Hq as ->. exact Hp.
  - exists ss. split; [exact E|exact Hss].
Qed.
Lemma session_runs (loaded : option (vdata riso F)) ps : let d0 := default vdata_init loaded in data_ok d0 -> pictures_ok T s st d0 ps ->
  exists ss, session_of T colour_of s opt st loaded ps = Ok ss /\ data_ok (ss_data ss) /\ ss_settings ss = st /\
    frames_follow d0 ps (ss_data ss) /\ orderly d0 ps (ss_events ss) /\ last_written opt d0 ps ss.
Proof. intros d0 H0 Hps. destruct (session_state loaded ps H0 Hps) as (ss & E & [A1 A2 _ A4 _ A6 _ A8]). exists ss. repeat (split; [assumption|]). assumption. Qed.

Lemma init_ok : data_ok (vdata_init : vdata riso F).
Proof. exact (history_ok riso F iso_id iso_mul iso_inv s [] _ I eq_refl). Qed.
(** A second session on what the first has saved. *)
Lemma session_resumed ps1 ps2 : pictures_ok T s st vdata_init (ps1 ++ ps2) ->
  exists ss1 ss2, session_of T colour_of s opt st None ps1 = Ok ss1 /\ session_of T colour_of s opt st (saved ps1 ss1) ps2 = Ok ss2 /\ data_ok (ss_data ss2) /\
    forall k, f_feats <$> sm_map (d_frames (ss_data ss2)) !! k = p_features <$> (ps1 ++ ps2) !! k.
Proof.
  intros [P1 P2 P3 P4 P5]. destruct (session_state None ps1 init_ok) as (ss1 & E1 & [A1 _ _ A4 A5 _ _ _]).
  { split; auto; intros; [apply P1|apply P2|exfalso; unfold has_frame in H0; cbn in H0; rewrite lookup_empty in H0; discriminate H0|apply P5]; rewrite ?elem_of_app; auto. }
  cbn [default] in A4, A5. change (sm_next (d_frames (ss_data ss1)) = length ps1) in A5.
  assert (forall k, f_feats <$> sm_map (d_frames (ss_data ss1)) !! k = p_features <$> ps1 !! k) as F1.
  { intros k. pose proof (A4 k) as H. change (sm_next (d_frames (vdata_init : vdata riso F))) with 0 in H. rewrite decide_False, Nat.sub_0_r in H by lia. exact H. }
  assert (data_ok (default vdata_init (saved ps1 ss1)) /\ sm_next (d_frames (default vdata_init (saved ps1 ss1))) = length ps1 /\ forall k, f_feats <$> sm_map (d_frames (default vdata_init (saved ps1 ss1))) !! k = p_features <$> ps1 !! k) as (B1 & B2 & B3).
  { destruct ps1 as [|p ps1]; [split; [apply init_ok|]; split; [reflexivity|]; intros k; cbn; rewrite lookup_empty; reflexivity|]. cbn [saved default]. auto. }
  destruct (session_state (saved ps1 ss1) ps2 B1) as (ss2 & E2 & [C1 _ _ C4 _ _ _ _]).
  { split; auto; intros; [apply P1; rewrite elem_of_app; auto|apply P2; rewrite elem_of_app; auto| |apply P5; rewrite elem_of_app; auto].
    pose proof (B3 k) as E. unfold has_frame in H0. rewrite H0 in E. symmetry in E. apply fmap_Some in E as (q & Hq & ->). apply P2; rewrite elem_of_app; [auto|]. left. eapply elem_of_list_lookup_2. exact Hq. }
  exists ss1, ss2. split; [exact E1|]. split; [exact E2|]. split; [exact C1|]. intros k. rewrite (C4 k), B2. destruct (decide (k < length ps1)) as [H|H].
  - rewrite B3, lookup_app_l by exact H. reflexivity.
  - rewrite lookup_app_r by lia. reflexivity.
Qed.

Lemma picture_steps feed ss p ss' : ss_settings ss = st -> add_picture feed ss p = Ok ss' -> exists d k, add_frame iso_id iso_mul iso_inv (env_of p) s (ss_data ss) feed (p_features p) = Ok (d, k) /\ ss_settings ss' = st /\
  (ss_data ss' = d \/ exists r, normalize_reconstruction iso_mul iso_inv (env_of p) d r = Ok (ss_data ss')) /\
  forall k r file, Exported k r file ∈ ss_events ss' -> Exported k r file ∈ ss_events ss \/
    export_reconstruction (export_settings opt st) (p_tools p) (p_orders p) colour_of (ss_data ss') r (negb (no_camera_faces opt)) = Ok file.
Proof.
  intros Hst. unfold Sandbox.add_picture. rewrite Hst. destruct (add_frame iso_id iso_mul iso_inv (env_of p) s (ss_data ss) feed (p_features p)) as [[d k]| |]; [|intros E; discriminate E..]. cbn [bind]. intros E. exists d, k. split; [reflexivity|].
  apply bind_ok in E as (fr & _ & E). destruct (f_view fr) as [[r v]|].
  - apply bind_ok in E as (ss2 & E2 & E).
    assert (ss_settings ss2 = st /\ (ss_data ss2 = d \/ exists r, normalize_reconstruction iso_mul iso_inv (env_of p) d r = Ok (ss_data ss2)) /\ forall k r file, Exported k r file ∈ ss_events ss2 -> Exported k r file ∈ ss_events ss) as (S2 & D2 & X2).
    { unfold normalize_new in E2. cbn [ss_data ss_settings ss_events ss_normalized] in E2. destruct (decide _).
      - injection E2 as <-. cbn. auto.
      - apply bind_ok in E2 as (d2 & E2 & E3). injection E3 as <-. cbn. split; [reflexivity|]. split; [eauto|]. intros k' r' file H. apply elem_of_app in H as [H|H]; [exact H|]. apply elem_of_list_singleton in H. discriminate H. }
    unfold export_current in E. destruct (output opt).
    + cbn [ss_data ss_settings ss_events ss_normalized] in E. apply bind_ok in E as (file & Ex & E). injection E as <-. cbn. rewrite S2 in *. split; [reflexivity|]. split; [exact D2|]. intros k' r' file' H. apply elem_of_app in H as [H|H]; [left; apply X2, H|]. apply elem_of_list_singleton in H. injection H as -> -> ->. right. exact Ex.
    + injection E as <-. split; [exact S2|]. split; [exact D2|]. intros k' r' file H. left. apply (X2 _ _ _ H).
  - injection E as <-. cbn. auto.
Qed.
Lemma cosine_ignored (loaded : option (vdata riso F)) ps (x : R) :
  session_of T colour_of s (Options (N := RNum) (output opt) x (export_robust_minimum_observations opt) (no_camera_faces opt)) st loaded ps = session_of T colour_of s opt st loaded ps.
Proof. reflexivity. Qed.
End facts.

(** ** Truth *)
Section truth.
Context {F : Type} (colour_of : F -> colour) (s : settings) (opt : options RNum) (st : gsettings RNum) (nearest : rmat3 -> rmat3) (eps : R).
Context (bo : F -> rvec3) (cam : key -> riso) (pt : key -> nat -> rvec3) (D : vdata riso F) (HD : true_scene bo cam pt D).
Notation T := (real_trig nearest eps).
Notation env_of := (picture_env T st).
Notation Inv := (Inv cam pt D).
Notation true_file := (true_file opt st cam pt D).
Implicit Types (d : vdata riso F) (p : picture RNum F) (ps : list (picture RNum F)).
Definition Truthful p : Prop := truthful bo cam pt D s nearest eps st (p_tools p) (env_of p).

Lemma truthful_faithful p : Truthful p -> faithful bo cam pt D s (env_of p).
Proof. intros H. unfold faithful. exists nearest, eps, st, (p_tools p), (p_orders p), (p_similar p), (p_knn p), (p_sort p), (p_fuel p). split; [reflexivity|exact H]. Qed.

Lemma export_true ps p d r file : p ∈ ps -> Truthful p -> Inv d -> export_reconstruction (export_settings opt st) (p_tools p) (p_orders p) colour_of d r (negb (no_camera_faces opt)) = Ok file -> true_file ps r file.
Proof.
  intros Hp HT (Hok & Hfr & Hm) E. pose proof (eo_orders _ (tf_env _ _ _ _ _ _ _ _ _ _ HT)) as Ho. change (e_ord (env_of p)) with (p_orders p) in Ho.
  destruct (sm_map (d_recs d) !! r) as [rc|] eqn:Er; [|rewrite (export_missing _ _ _ _ d r _ Er) in E; discriminate E]. change (has_recon d r rc) in Er.
  destruct (exported (export_settings opt st) (p_tools p) (p_orders p) colour_of Ho d r rc (negb (no_camera_faces opt)) Hok Er) as (ls & points & vs & cameras & E' & N1 & P1 & P2 & N2 & V1 & V2). rewrite E in E'.
  destruct (exported_truth_in (export_settings opt st) (p_tools p) (p_orders p) colour_of Ho bo cam pt D d r rc HD Hfr Hok Er (Hm r rc Er) (tf_bearing _ _ _ _ _ _ _ _ _ _ HT) (tf_triangulate _ _ _ _ _ _ _ _ _ _ HT)) as (k0 & u & Hk0 & Hu & T1 & T2 & T3).
  { destruct (tf_settings _ _ _ _ _ _ _ _ _ _ HT) as (_ & _ & H & _). exact H. }
  exists p, d, rc, k0, u, ls, points, vs, cameras. split; [exact Hp|]. split; [exact Hok|]. split; [exact Er|]. split; [exact Hk0|]. split; [exact Hu|]. split; [congruence|]. split; [exact N1|]. split; [|split; [|split; [exact N2|split; [exact V1|]]]].
  - intros l. split; [|intros Hl; destruct (T2 l Hl) as [pc Hpc]; exact (P2 l pc Hpc)]. intros Hl. apply elem_of_list_lookup in Hl as [i Hi]. destruct (Forall2_lookup_l _ _ _ _ _ P1 Hi) as (pc & _ & [(h & [Hl _] & _) _]). exact Hl.
  - eapply Forall2_impl; [exact P1|]. intros l pc Hpc. exact (T1 l pc Hpc).
  - eapply Forall2_impl; [exact V2|]. intros v c Hc. exact (T3 v c Hc).
Qed.

Lemma t_session feed all : forall ps ss ssD, (forall p, p ∈ ps -> p ∈ all) -> (forall p, p ∈ ps -> Truthful p) -> ss_settings ss = st -> data_ok (ss_data ss) ->
  (forall before p after ss1 d k, ps = before ++ p :: after -> foldM (add_picture T colour_of s opt feed) before ss = Ok ss1 -> data_add_frame (ss_data ss1) feed (p_features p) = Ok (d, k) -> one_place s (env_of p) d k) ->
  foldM (add_picture T colour_of s opt feed) ps ss = Ok ssD -> ss_data ssD = D ->
  frames_of D (ss_data ss) /\ ((forall r rc, has_recon (ss_data ss) r rc -> mapped cam pt D rc) -> (forall k r file, Exported k r file ∈ ss_events ss -> true_file all r file) ->
    forall k r file, Exported k r file ∈ ss_events ssD -> true_file all r file).
Proof.
  induction ps as [|p ps IH]; intros ss ssD Hall HT Hst Hok Hone E ED; cbn [foldM] in E.
  - injection E as <-. rewrite ED. split; [intros k fr H; eauto|auto].
  - apply bind_ok in E as (ss' & E1 & E). destruct (picture_steps T colour_of s opt st feed ss p ss' Hst E1) as (d & k & Ea & Hst' & Hdata & Hev). pose proof (HT p ltac:(left)) as HTp. pose proof (truthful_faithful p HTp) as Hfa.
    assert (allowed bo cam pt D s (ss_data ss) (OpAddFrame (env_of p) feed (p_features p))) as Hal1. { split; [exact Hfa|]. intros d1 k1 E'. exact (Hone [] p ps ss d1 k1 eq_refl eq_refl E'). }
    assert (step iso_id iso_mul iso_inv s (ss_data ss) (OpAddFrame (env_of p) feed (p_features p)) = Ok d) as S1 by (cbn [step]; rewrite Ea; reflexivity).
    destruct (t_keeps bo cam pt D s _ _ _ Hok Hal1 S1) as [Hok1 K1].
    assert (data_ok (ss_data ss') /\ keeps_frames d (ss_data ss') /\ (frames_of D (ss_data ss') -> Inv d -> Inv (ss_data ss'))) as (Hok' & K2 & Hinv2).
    { destruct Hdata as [->|[r En]]; [split; [exact Hok1|]; split; [intros j fr H; eauto|auto]|].
      assert (allowed bo cam pt D s d (OpNormalize (env_of p) r)) as Hal2 by exact Hfa. destruct (t_keeps bo cam pt D s _ _ _ Hok1 Hal2 En) as [A B]. split; [exact A|]. split; [exact B|]. intros HF HI. exact (t_step bo cam pt D HD s _ _ _ HI Hal2 En HF). }
    destruct (IH ss' ssD) as [HF Hrest]; [intros q Hq; apply Hall; right; exact Hq|intros q Hq; apply HT; right; exact Hq|exact Hst'|exact Hok'| |exact E|exact ED|].
    { intros b q a ss1 d1 k1 -> Ef. apply (Hone (p :: b) q a ss1 d1 k1 eq_refl). cbn [foldM]. rewrite E1. exact Ef. }
    assert (forall d1 d2, keeps_frames d1 d2 -> frames_of D d2 -> frames_of D d1) as Htr. { intros d1 d2 K H j fr Hj. destruct (K j fr Hj) as (fr' & Hj' & E'). destruct (H j fr' Hj') as (fr2 & H2 & E2). exists fr2. split; [exact H2|congruence]. }
    pose proof (Htr _ _ K2 HF) as HFd. pose proof (Htr _ _ K1 HFd) as HFs. split; [exact HFs|]. intros Hm Hex.
    assert (Inv (ss_data ss')) as HI. { apply (Hinv2 HF). refine (t_step bo cam pt D HD s _ _ _ _ Hal1 S1 HFd). split; [exact Hok|]. split; [exact HFs|exact Hm]. }
    apply Hrest; [exact (proj2 (proj2 HI))|]. intros k' r file H. destruct (Hev k' r file H) as [H'|H']; [exact (Hex _ _ _ H')|]. exact (export_true all p (ss_data ss') r file (Hall p ltac:(left)) HTp HI H').
Qed.

Lemma session_truth (loaded : option (vdata riso F)) ps ss : session_of T colour_of s opt st loaded ps = Ok ss -> ss_data ss = D ->
  data_ok (default vdata_init loaded) -> (forall r rc, has_recon (default vdata_init loaded) r rc -> mapped cam pt D rc) ->
  (forall p, p ∈ ps -> Truthful p) -> no_merging T colour_of s opt st loaded ps ->
  forall k r file, Exported k r file ∈ ss_events ss -> true_file ps r file.
Proof.
  unfold no_merging, session_of. set (d0 := default vdata_init loaded). destruct (add_feed d0) as [d feed] eqn:Ef. pose proof (f_equal fst Ef) as Ed. pose proof (f_equal snd Ef) as Efeed. cbn [fst snd] in *.
  intros E ED H0 Hm HT Hone. change (sm_next (d_feeds d0) = feed) in Efeed. rewrite Efeed in Hone.
  destruct (t_session feed ps ps (Session st d ∅ []) ss) as [_ H]; [auto|exact HT|reflexivity| | |exact E|exact ED|].
  - cbn [ss_data]. apply data_ok_inv. rewrite <- Ed. apply add_feed_inv, data_ok_inv, H0.
  - intros before p after ss1 d1 k1 Eps Es. exact (Hone before p after ss1 d1 k1 Eps Es).
  - apply H.
    + intros r rc Hr. apply (Hm r rc). rewrite <- Ed in Hr. exact Hr.
    + intros k r file H'. apply elem_of_nil in H' as [].
Qed.
End truth.
