(** Facts about adding a registered frame and about moving a whole reconstruction. *)
From stdpp Require Import gmap list.
From Verif Require Import Outcome OutcomeFacts Sfm SfmSpec SfmUse SfmRec SfmTrack SfmData SfmPrim SfmCons SfmApply SfmOps SfmReg.

Section facts.
Context {P F : Type} (pmul : P -> P -> P) (pinv : P -> P).
Implicit Types (rc : recon P) (d : vdata P F) (e : env P F).

Lemma inv_ext (bad bad' : key -> Prop) (ex ex' : key -> key -> Prop) d :
  (forall r, bad r -> bad' r) -> (forall r v, ex r v <-> ex' r v) -> inv bad ex d -> inv bad' ex' d.
Proof.
  intros Hb He [H1 H2 H3 H4 H5]. split; auto.
  - intros r rc Hr Hbad. apply (H2 r rc Hr). auto.
  - intros k fr Hf r v. rewrite <- He. apply H4. exact Hf.
Qed.

Lemma within_view_added (R : key -> Prop) d d' r k pose ex v : R r -> view_added r k pose ex d d' v -> within R d d'.
Proof.
  intros HR [(rc & rc' & fr & Hr & Hk & _ & _ & ->)]. eapply within_trans; [eapply within_upd; eassumption|]. apply within_relink. exact Hk.
Qed.

Lemma view_added_has d d' r k pose ex v : view_added r k pose ex d d' v ->
  exists rc' ls fr, has_recon d' r rc' /\ has_view rc' v (View k pose ls) /\ has_frame d k fr /\ length ls = length (f_feats fr).
Proof.
  intros [(rc & rc' & fr & Hr & Hk & -> & Hai & ->)]. destruct (ai_view _ _ _ _ _ _ _ _ Hai) as (ls & Hv & Hlen & _).
  exists rc', ls, fr. split; [apply relink_recon, upd_recon_same|]. auto.
Qed.

(** Frames which have a view somewhere. *)
Definition linked d (k : key) : Prop := exists r v, is_view_of d r v k.

Lemma view_added_links d d' r k pose ex v : view_added r k pose ex d d' v ->
  forall r' v' k', is_view_of d' r' v' k' -> k' = k \/ is_view_of d r' v' k'.
Proof.
  intros [(rc & rc' & fr & Hr & Hk & -> & Hai & ->)] r' v' k' (rc0 & w' & H0 & Hw' & Hk'). 
  change (has_recon (upd d r rc') r' rc0) in H0. apply upd_recon in H0 as [[-> ->]|[Hne H0]]; [|right; exists rc0, w'; auto].
  destruct (decide (v' = sm_next (r_views rc))) as [->|Hv'].
  - destruct (ai_view _ _ _ _ _ _ _ _ Hai) as (ls & Hv & _). assert (w' = View k pose ls) as -> by (eapply has_view_fun; eassumption). left. symmetry. exact Hk'.
  - right. unfold has_view in Hw'. rewrite (ai_others _ _ _ _ _ _ _ _ Hai v' Hv') in Hw'. apply fmap_Some in Hw' as (w & Hw & ->). exists rc, w. auto.
Qed.

Lemma recorded_fewer e s d r v d' ok : recorded e s d r v d' ok -> fewer d d'.
Proof.
  intros H. pose proof (recorded_within (eq r) _ _ _ _ _ _ _ eq_refl H) as Hwi. apply recorded_recon in H as (rc & rc' & w & Hr & _ & Hr' & Ev & _ & _).
  eapply fewer_frames; [exact Hwi|exact Hr|exact Hr'|]. intros x. rewrite Ev. reflexivity.
Qed.

Lemma removed_view_fewer d d' r v : removed_view r v d d' -> fewer d d'.
Proof.
  intros H. pose proof (within_removed_view (eq r) _ _ _ _ eq_refl H) as Hwi. destruct H as [(rc & rc' & w & fr & Hr & Hw & Hvr & Hf & ->)].
  eapply fewer_views; [exact Hwi|exact Hr|apply relink_recon, upd_recon_same|]. intros v' w' Hw'. unfold has_view in Hw'. rewrite (vr_views _ _ _ Hvr) in Hw'.
  apply lookup_delete_Some in Hw' as [_ Hw']. eauto.
Qed.

(** ** Registering a free frame *)
Record incorporated d (r k : key) d' (ok : bool) : Prop := {
  ic_within : within (eq r) d d';
  ic_recon : exists rc', has_recon d' r rc';
  ic_links : forall r' v' k', is_view_of d' r' v' k' -> k' = k \/ is_view_of d r' v' k';
  ic_view : if ok then exists v, is_view_of d' r v k else forall v, ~ is_view_of d' r v k
}.

Lemma incorporate_frame_post T e s bad ex d r k views rc fr :
  env_ok e -> inv bad ex d -> ~ bad r -> (forall v, ~ ex r v) -> has_recon d r rc -> has_frame d k fr -> f_view fr = None ->
  (forall v, v ∈ views -> exists w, has_view rc v w) ->
  (T \/ window_ok e s (length (f_feats fr)) /\ (f_feats fr = [] \/ exists v, v ∈ views /\ rich_view d rc v)) ->
  post T (incorporate_frame e s d r k views) (fun x => inv bad ex x.1 /\ incorporated d r k x.1 x.2).
Proof.
  intros He Hinv Hbad Hexr Hr Hf Hfree Hviews HT. pose proof (in_good _ _ _ Hinv r rc Hr Hbad) as Hok.
  assert (forall v, ~ is_view_of d r v k) as Hno.
  { intros v Hv. assert (f_view fr = Some (r, v)) as E by (apply (in_links _ _ _ Hinv k fr Hf r v); split; [exact Hv|apply Hexr]). congruence. }
  unfold incorporate_frame. apply post_bind. eapply post_mono; [apply (register_frame_post T e s d r k views rc fr He Hr Hok Hf Hviews HT)|].
  intros [[pose matches]|] Hreg; [|cbn [post fst snd]; split; [exact Hinv|]; split; eauto using within_refl].
  pose proof (registration_good _ _ _ _ _ _ _ Hok (Hreg pose matches eq_refl)) as Hgm.
  apply post_bind. eapply post_mono.
  { apply (add_view_post T (e_ord e) bad ex d r k pose (fun f => matches !! f) fr (eo_orders _ He) Hinv Hbad Hexr Hf); [right; eauto|].
    intros rc1 Hr1. assert (rc1 = rc) as -> by (eapply has_recon_fun; eassumption). exact Hgm. }
  intros [d1 v] [Hinv1 Hva]. cbn [fst snd] in *.
  assert (inv bad ex d1) as Hinv1'.
  { eapply inv_ext; [eauto| |exact Hinv1]. intros r' v'. unfold also_old. rewrite Hfree. split; [|auto]. intros [H|[=]]. exact H. }
  pose proof (view_added_has _ _ _ _ _ _ _ Hva) as (rc1 & ls & fr1 & Hr1 & Hv1 & _).
  apply post_bind. eapply post_mono; [apply (record_post T e s bad ex d1 r v He Hinv1' Hbad); right; eauto|].
  intros [d2 ok] [Hinv2 Hrec]. cbn [fst snd] in *. pose proof Hrec as Hrec'. apply recorded_recon in Hrec' as (rc1' & rc2 & w1 & Hr1' & Hw1 & Hr2 & Ev & _ & E2).
  assert (rc1' = rc1) as -> by (eapply has_recon_fun; eassumption). assert (has_view rc2 v (View k pose ls)) as Hv2 by (unfold has_view in *; rewrite Ev; exact Hv1).
  assert (within (eq r) d d2) as Hw2.
  { eapply within_trans; [eapply within_view_added; [reflexivity|exact Hva]|]. eapply recorded_within; [reflexivity|exact Hrec]. }
  assert (forall r' v' k', is_view_of d2 r' v' k' -> k' = k \/ is_view_of d r' v' k') as Hl2.
  { intros r' v' k' H. apply (recorded_fewer _ _ _ _ _ _ _ Hrec) in H. eapply view_added_links; eassumption. }
  destruct ok.
  - cbn [post fst snd]. split; [exact Hinv2|]. split; eauto. exists v, rc2, (View k pose ls). auto.
  - apply post_bind. eapply post_mono; [apply (remove_view_post T bad ex d2 r v Hinv2 Hbad (Hexr v)); right; eauto|].
    intros d3 [Hinv3 Hrv]. cbn [post fst snd]. split; [exact Hinv3|]. split.
    + eapply within_trans; [exact Hw2|]. eapply within_removed_view; [reflexivity|exact Hrv].
    + destruct Hrv as [(rc3 & rc3' & w3 & fr3 & _ & _ & _ & _ & ->)]. exists rc3'. apply relink_recon, upd_recon_same.
    + intros r' v' k' H. apply Hl2. eapply removed_view_fewer; eassumption.
    + intros v' Hv'. destruct Hrv as [(rc3 & rc3' & w3 & fr3 & Hr3 & Hw3 & Hvr & Hf3 & Ed3)].
      assert (rc3 = rc2) as -> by (eapply has_recon_fun; eassumption). assert (w3 = View k pose ls) as -> by (eapply has_view_fun; eassumption). cbn in *.
      assert (has_frame d3 k (set_f_view fr3 None)) as Hf3' by (rewrite Ed3; apply relink_frame; auto).
      assert (f_view (set_f_view fr3 None) = Some (r, v')) as E by (apply (in_links _ _ _ Hinv3 k _ Hf3' r v'); split; [exact Hv'|apply Hexr]). discriminate.
Qed.

(** ** Copying one view of a source reconstruction *)

Record copying (w : view P) pose (dv : key) (dest0 : recon P) (lmap0 : gmap key key) (i : nat) (dest : recon P) (lmap : gmap key key) : Prop := {
  cp_core : core dest;
  cp_view : exists ls, has_view dest dv (View (v_frame w) pose ls) /\ length ls = i /\
     forall f, f < i -> exists sl dl, v_lms w !! f = Some sl /\ lmap !! sl = Some dl /\ ls !! f = Some dl;
  cp_others : forall v, v <> dv -> sm_map (r_views dest) !! v = sm_map (r_views dest0) !! v;
  cp_grow : lmap0 ⊆ lmap;
  cp_inj : injective lmap;
  cp_live : targets_live lmap dest;
  cp_new : forall a l, lmap !! a = Some l -> lmap0 !! a = Some l \/ sm_next (r_lms dest0) <= l;
  cp_next_views : sm_next (r_views dest) = S dv;
  cp_next_lms : sm_next (r_lms dest0) <= sm_next (r_lms dest);
  cp_cons : r_cons dest = r_cons dest0
}.

Lemma copy_loop (src : recon P) sv w pose dest0 lmap0 n :
  has_view src sv w -> NoDup (v_lms w) -> length (v_lms w) = n ->
  core dest0 -> injective lmap0 -> targets_live lmap0 dest0 ->
  let dv := sm_next (r_views dest0) in
  exists dest lmap, foldM (move_feature src sv dv) (seq 0 n) (set_views dest0 (sm_ins (View (v_frame w) pose []) (r_views dest0)), lmap0) = Ok (dest, lmap) /\
    copying w pose dv dest0 lmap0 n dest lmap.
Proof.
  intros Hsv Hnd Hlen Hc0 Hinj0 Hlive0 dv.
  assert (forall j i dest lmap, i + j = n -> copying w pose dv dest0 lmap0 i dest lmap ->
    exists dest' lmap', foldM (move_feature src sv dv) (seq i j) (dest, lmap) = Ok (dest', lmap') /\ copying w pose dv dest0 lmap0 n dest' lmap') as H.
  { induction j as [|j IH]; intros i dest lmap Hij Hcp.
    - exists dest, lmap. split; [reflexivity|]. assert (i = n) as <- by lia. exact Hcp.
    - assert (exists dest' lmap', move_feature src sv dv (dest, lmap) i = Ok (dest', lmap') /\ copying w pose dv dest0 lmap0 (S i) dest' lmap') as (dest1 & lmap1 & Hrun & Hcp1).
      { clear IH. destruct (lookup_lt_is_Some_2 (v_lms w) i ltac:(lia)) as [sl Hsl].
        destruct Hcp as [Hc (ls & Hv & Hls & Hdone) Hoth Hgrow Hinj Hlive Hnew Hnv Hnl Hcons].
        unfold move_feature, obs_landmark, sm_get. unfold has_view in Hsv. rewrite Hsv. cbn [unwrap bind]. rewrite Hsl. cbn [unwrap bind].
        assert (forall l dest' lmap', attached dv l dest dest' -> lmap ⊆ lmap' -> lmap' !! sl = Some l -> injective lmap' -> targets_live lmap' dest' ->
           (forall a l', lmap' !! a = Some l' -> lmap0 !! a = Some l' \/ sm_next (r_lms dest0) <= l') -> copying w pose dv dest0 lmap0 (S i) dest' lmap') as Hfin.
        { intros l dest' lmap' Hat Hsub Hl Hinj' Hlive' Hnew'. split; [exact (attached_core dv l dest dest' Hc Hat)| | | | | | | | |];
            destruct Hat as [(w0 & Hw0 & Hvs & Hlms) _ Hn1 Hn2 _ Hcs']; unfold has_view in *; rewrite Hv in Hw0; injection Hw0 as <-; cbn [v_lms] in *; auto; try congruence; try lia.
          - exists (ls ++ [l]). rewrite Hvs, lookup_insert. split; [reflexivity|]. split; [rewrite app_length; cbn; lia|].
            intros f Hf. destruct (decide (f = i)) as [->|Hfi].
            + exists sl, l. split; [exact Hsl|]. split; [exact Hl|]. rewrite lookup_app_r by lia. rewrite Hls, Nat.sub_diag. reflexivity.
            + destruct (Hdone f ltac:(lia)) as (sl' & dl' & H1 & H2 & H3). exists sl', dl'. split; [exact H1|]. split; [eapply lookup_weaken; eassumption|]. apply lookup_app_l_Some. exact H3.
          - intros v Hne. rewrite Hvs, lookup_insert_ne by congruence. apply Hoth. exact Hne.
          - etransitivity; eassumption. }
        destruct (lmap !! sl) as [dl|] eqn:Edl.
        - destruct (Hlive sl dl Edl) as (m & Hm).
          assert (m !! dv = None) as Hfree.
          { destruct (m !! dv) as [f|] eqn:E; [|reflexivity]. exfalso. destruct (proj2 (co_mirrored _ Hc dv f dl)) as (w' & Hw' & Hf'); [exists m; auto|].
            assert (w' = View (v_frame w) pose ls) as -> by (eapply has_view_fun; eassumption). cbn in Hf'. pose proof (lookup_lt_Some _ _ _ Hf') as Hlt.
            destruct (Hdone f ltac:(lia)) as (sl' & dl' & H1 & H2 & H3). assert (dl' = dl) as -> by congruence. assert (sl' = sl) as -> by (eapply Hinj; eassumption).
            assert (f = i) by (eapply NoDup_lookup; eassumption). lia. }
          destruct (observe_push_attached dest dl dv _ m Hv Hm Hfree (co_lms _ Hc)) as (dest' & Hrun & Hat). cbn [v_lms] in Hrun. rewrite Hls in Hrun.
          exists dest', lmap. split.
          + destruct (rec_observe dest dl dv i) as [d1| |]; cbn [bind] in Hrun |- *; try discriminate. rewrite Hrun. reflexivity.
          + apply (Hfin dl dest' lmap Hat); auto. intros a l Hl. destruct (Hlive a l Hl) as (m' & Hm'). destruct Hat as [(w0 & _ & _ & Hlms) _ _ _ _ _]. unfold has_landmark. rewrite Hlms.
            destruct (decide (dl = l)) as [->|Hne]; [rewrite lookup_insert; eauto|]. rewrite lookup_insert_ne by assumption. eauto.
        - destruct (new_push_attached dest dv _ Hv (co_lms _ Hc)) as (dest' & Hrun & Hat). cbn [v_lms] in Hrun. rewrite Hls in Hrun.
          exists dest', (<[sl := sm_next (r_lms dest)]> lmap). split; [rewrite Hrun; reflexivity|].
          assert (forall a l, lmap !! a = Some l -> l < sm_next (r_lms dest)) as Hlt. { intros a l Hl. destruct (Hlive a l Hl) as (m & Hm). apply (co_lms _ Hc) in Hm. exact Hm. }
          apply (Hfin (sm_next (r_lms dest)) dest' _ Hat).
          + apply insert_subseteq. exact Edl.
          + apply lookup_insert.
          + intros a b l Ha Hb. apply lookup_insert_Some in Ha as [[<- <-]|[Hna Ha]], Hb as [[<- Hb]|[Hnb Hb]].
            * reflexivity.
            * apply Hlt in Hb. lia.
            * subst l. apply Hlt in Ha. lia.
            * eapply Hinj; eassumption.
          + intros a l Ha. destruct Hat as [(w0 & _ & _ & Hlms) _ _ _ _ _]. unfold has_landmark. rewrite Hlms.
            destruct (decide (sm_next (r_lms dest) = l)) as [->|Hne]; [rewrite lookup_insert; eauto|]. rewrite lookup_insert_ne by assumption.
            destruct (decide (sl = a)) as [<-|Hna]; [rewrite lookup_insert in Ha; congruence|]. rewrite lookup_insert_ne in Ha by assumption. apply (Hlive a l Ha).
          + intros a l Ha. destruct (decide (sl = a)) as [<-|Hna]; [rewrite lookup_insert in Ha; injection Ha as <-; auto|]. rewrite lookup_insert_ne in Ha by assumption. auto. }
      destruct (IH (S i) dest1 lmap1 ltac:(lia) Hcp1) as (dest2 & lmap2 & Hrun2 & Hcp2).
      exists dest2, lmap2. split; [|exact Hcp2]. cbn [seq foldM]. rewrite Hrun. exact Hrun2. }
  apply (H n 0); [lia|]. split; cbn; auto.
  - apply insert_view_core; [exact Hc0|reflexivity].
  - exists []. unfold has_view. cbn. rewrite lookup_insert. split; [reflexivity|]. split; [reflexivity|]. intros f Hf. lia.
  - intros v Hv. rewrite lookup_insert_ne; [reflexivity|]. intros E. apply Hv. symmetry. exact E.
Qed.

(** ** Moving all views *)
Record moved (src : recon P) (t : P) (dest0 : recon P) (lmap0 : gmap key key) (M : list (key * key)) (dest : recon P) (lmap : gmap key key) : Prop := {
  mv_core : core dest;
  mv_old : forall v, v < sm_next (r_views dest0) -> sm_map (r_views dest) !! v = sm_map (r_views dest0) !! v;
  mv_new : forall sv dv, (sv, dv) ∈ M -> exists w ls, has_view src sv w /\ has_view dest dv (View (v_frame w) (pmul (v_pose w) t) ls) /\
      length ls = length (v_lms w) /\ forall f sl, v_lms w !! f = Some sl -> exists dl, lmap !! sl = Some dl /\ ls !! f = Some dl;
  mv_only : forall v w, has_view dest v w -> v < sm_next (r_views dest0) \/ v ∈ M.*2;
  mv_keys : forall sv dv, (sv, dv) ∈ M -> sm_next (r_views dest0) <= dv < sm_next (r_views dest);
  mv_distinct : NoDup M.*2;
  mv_grow : lmap0 ⊆ lmap;
  mv_inj : injective lmap;
  mv_live : targets_live lmap dest;
  mv_fresh : forall a l, lmap !! a = Some l -> lmap0 !! a = Some l \/ sm_next (r_lms dest0) <= l;
  mv_next_views : sm_next (r_views dest0) <= sm_next (r_views dest);
  mv_next_lms : sm_next (r_lms dest0) <= sm_next (r_lms dest);
  mv_cons : r_cons dest = r_cons dest0
}.

Definition moved_away (src_k : key) (X : list key) (ex : key -> key -> Prop) : key -> key -> Prop := fun r v => ex r v \/ (r = src_k /\ v ∈ X).

Record moving e bad ex d src_k dest_k src t dest0 lmap0 (M : list (key * key)) d' lmap : Prop := {
  mo_inv : inv bad (moved_away src_k M.*1 ex) d';
  mo_within : within (eq dest_k) d d';
  mo_dest : exists dest, has_recon d' dest_k dest /\ moved src t dest0 lmap0 M dest lmap;
}.

Lemma move_view_step e bad ex d d' src_k dest_k src t dest0 lmap0 M lmap sv :
  src_k <> dest_k -> ~ bad dest_k -> (forall v, ~ ex dest_k v) -> (forall v, ~ ex src_k v) -> has_recon d src_k src ->
  (exists w, has_view src sv w) -> sv ∉ M.*1 ->
  moving e bad ex d src_k dest_k src t dest0 lmap0 M d' lmap ->
  exists d'' lmap' dv, move_view pmul src src_k dest_k t (d', lmap, M.*2) sv = Ok (d'', lmap', (M ++ [(sv, dv)]).*2) /\
    moving e bad ex d src_k dest_k src t dest0 lmap0 (M ++ [(sv, dv)]) d'' lmap'.
Proof.
  intros Hne Hbad Hexd Hexs Hsrc [w Hw] Hnew [Hinv Hwi (dest & Hdest & Hmv)].
  assert (has_recon d' src_k src) as Hsrc'. { unfold has_recon. rewrite (wi_recs _ _ _ Hwi src_k) by congruence. exact Hsrc. }
  destruct (in_weak _ _ _ Hinv src_k src Hsrc' sv w Hw) as (Hnd & fr & Hf & Hlen).
  pose proof (in_good _ _ _ Hinv dest_k dest Hdest Hbad) as Hok.
  destruct (copy_loop src sv w (pmul (v_pose w) t) dest lmap (length (f_feats fr)) Hw Hnd Hlen (mv_core _ _ _ _ _ _ _ Hmv) (mv_inj _ _ _ _ _ _ _ Hmv) (mv_live _ _ _ _ _ _ _ Hmv)) as (dest' & lmap' & Hrun & Hcp).
  set (dv := sm_next (r_views dest)) in *.
  destruct (cp_view _ _ _ _ _ _ _ _ Hcp) as (ls & Hv & Hls & Hdone).
  assert (recon_ok d' dest') as Hok'.
  { apply core_recon_ok; [apply (cp_core _ _ _ _ _ _ _ _ Hcp)|]. intros v' w' Hw'. destruct (decide (v' = dv)) as [->|Hv'].
    - assert (w' = View (v_frame w) (pmul (v_pose w) t) ls) as -> by (eapply has_view_fun; eassumption). exists fr. auto.
    - unfold has_view in Hw'. rewrite (cp_others _ _ _ _ _ _ _ _ Hcp v' Hv') in Hw'. apply (ok_entries _ _ Hok v' w' Hw'). }
  exists (relink (upd d' dest_k dest') (v_frame w) fr (Some (dest_k, dv))), lmap', dv. split.
  { unfold move_view, sm_get. unfold has_view in Hw. rewrite Hw. cbn [unwrap bind]. unfold has_frame in Hf. rewrite Hf. cbn [unwrap bind].
    unfold with_rec, sm_get. unfold has_recon in Hdest. rewrite Hdest. cbn [unwrap bind]. fold dv. rewrite Hrun. cbn [bind].
    unfold set_frame_view, sm_get. cbn. rewrite Hf. cbn [unwrap bind]. rewrite fmap_app. reflexivity. }
  assert (is_view_of d' src_k sv (v_frame w)) as Hiv by (exists src, w; auto).
  assert (f_view fr = Some (src_k, sv)) as Hlink.
  { apply (in_links _ _ _ Hinv (v_frame w) fr Hf src_k sv). split; [exact Hiv|]. intros [H|[_ H]]; [eapply Hexs; exact H|contradiction]. }
  assert (forall v', v' <> dv -> v_frame <$> sm_map (r_views dest') !! v' = v_frame <$> sm_map (r_views dest) !! v') as Hfr'.
  { intros v' Hv'. rewrite (cp_others _ _ _ _ _ _ _ _ Hcp v' Hv'). reflexivity. }
  split.
  - eapply inv_ext; [eauto| |eapply (new_view_inv bad (moved_away src_k M.*1 ex) d' dest_k dest dest' (v_frame w) fr dv _ Hinv); [|exact Hdest|exact Hok'|exact Hf| |exact Hv|reflexivity|exact Hfr']].
    + intros r v. unfold also_old, moved_away. rewrite Hlink, fmap_app. cbn. rewrite elem_of_app, elem_of_list_singleton. split.
      * intros [[H|[-> H]]|[= <- <-]]; auto.
      * intros [H|[-> [H| ->]]]; auto.
    + intros v [H|[H _]]; [eapply Hexd; exact H|congruence].
    + apply keys_fresh_next. apply (ok_fresh_views _ _ Hok).
  - eapply within_trans; [exact Hwi|]. eapply within_trans; [eapply within_upd; [reflexivity|exact Hdest]|]. apply within_relink. exact Hf.
  - exists dest'. split; [apply relink_recon, upd_recon_same|].
    assert (sm_next (r_views dest0) <= dv) as Hdv by (apply (mv_next_views _ _ _ _ _ _ _ Hmv)).
    split.
    + apply (cp_core _ _ _ _ _ _ _ _ Hcp).
    + intros v Hlt. rewrite (cp_others _ _ _ _ _ _ _ _ Hcp v) by lia. apply (mv_old _ _ _ _ _ _ _ Hmv v Hlt).
    + intros sv' dv' Hin. apply elem_of_app in Hin as [Hin|Hin].
      * destruct (mv_new _ _ _ _ _ _ _ Hmv sv' dv' Hin) as (w' & ls' & H1 & H2 & H3 & H4).
        pose proof (mv_keys _ _ _ _ _ _ _ Hmv sv' dv' Hin) as Hlt. fold dv in Hlt.
        exists w', ls'. split; [exact H1|]. split; [unfold has_view in *; rewrite (cp_others _ _ _ _ _ _ _ _ Hcp dv') by lia; exact H2|]. split; [exact H3|].
        intros f sl Hfl. destruct (H4 f sl Hfl) as (dl & H5 & H6). exists dl. split; [|exact H6]. eapply lookup_weaken; [exact H5|apply (cp_grow _ _ _ _ _ _ _ _ Hcp)].
      * apply elem_of_list_singleton in Hin as [= -> ->]. exists w, ls. split; [exact Hw|]. split; [exact Hv|]. split; [congruence|].
        intros f sl Hfl. pose proof (lookup_lt_Some _ _ _ Hfl). destruct (Hdone f ltac:(lia)) as (sl' & dl & H1 & H2 & H3). assert (sl' = sl) as -> by congruence. eauto.
    + intros v w' Hw'. destruct (decide (v = dv)) as [->|Hv'].
      * right. rewrite fmap_app. apply elem_of_app. right. left.
      * unfold has_view in Hw'. rewrite (cp_others _ _ _ _ _ _ _ _ Hcp v Hv') in Hw'. destruct (mv_only _ _ _ _ _ _ _ Hmv v w' Hw') as [H|H]; [auto|].
        right. rewrite fmap_app. apply elem_of_app. auto.
    + intros sv' dv' Hin. rewrite (cp_next_views _ _ _ _ _ _ _ _ Hcp). apply elem_of_app in Hin as [Hin|Hin].
      * pose proof (mv_keys _ _ _ _ _ _ _ Hmv sv' dv' Hin) as Hlt. fold dv in Hlt. lia.
      * apply elem_of_list_singleton in Hin as [= -> ->]. lia.
    + rewrite fmap_app. apply NoDup_app. split; [apply (mv_distinct _ _ _ _ _ _ _ Hmv)|]. split; [|apply NoDup_singleton].
      intros x Hx Hx'. cbn in Hx'. apply elem_of_list_singleton in Hx' as ->. apply elem_of_list_fmap in Hx as ([sv' dv'] & E & Hin). cbn in E. subst dv'.
      pose proof (mv_keys _ _ _ _ _ _ _ Hmv sv' dv Hin) as Hlt. fold dv in Hlt. lia.
    + etransitivity; [apply (mv_grow _ _ _ _ _ _ _ Hmv)|apply (cp_grow _ _ _ _ _ _ _ _ Hcp)].
    + apply (cp_inj _ _ _ _ _ _ _ _ Hcp).
    + apply (cp_live _ _ _ _ _ _ _ _ Hcp).
    + intros a l Ha. destruct (cp_new _ _ _ _ _ _ _ _ Hcp a l Ha) as [H|H].
      * apply (mv_fresh _ _ _ _ _ _ _ Hmv a l H).
      * right. pose proof (mv_next_lms _ _ _ _ _ _ _ Hmv). lia.
    + rewrite (cp_next_views _ _ _ _ _ _ _ _ Hcp). lia.
    + pose proof (mv_next_lms _ _ _ _ _ _ _ Hmv). pose proof (cp_next_lms _ _ _ _ _ _ _ _ Hcp). lia.
    + rewrite (cp_cons _ _ _ _ _ _ _ _ Hcp). apply (mv_cons _ _ _ _ _ _ _ Hmv).
Qed.

Lemma move_all e bad ex d src_k dest_k src t dest0 lmap0 (L : list key) :
  inv bad ex d -> src_k <> dest_k -> ~ bad dest_k -> (forall v, ~ ex dest_k v) -> (forall v, ~ ex src_k v) ->
  has_recon d src_k src -> has_recon d dest_k dest0 ->
  injective lmap0 -> targets_live lmap0 dest0 -> NoDup L -> (forall v, v ∈ L -> exists w, has_view src v w) ->
  exists M d' lmap, M.*1 = L /\ foldM (move_view pmul src src_k dest_k t) L (d, lmap0, []) = Ok (d', lmap, M.*2) /\
    moving e bad ex d src_k dest_k src t dest0 lmap0 M d' lmap.
Proof.
  intros Hinv Hne Hbad Hexd Hexs Hsrc Hdest Hinj Hlive HndL HL.
  assert (forall L2 M d' lmap, M.*1 ++ L2 = L -> moving e bad ex d src_k dest_k src t dest0 lmap0 M d' lmap ->
    exists M' d'' lmap', M'.*1 = L /\ foldM (move_view pmul src src_k dest_k t) L2 (d', lmap, M.*2) = Ok (d'', lmap', M'.*2) /\
      moving e bad ex d src_k dest_k src t dest0 lmap0 M' d'' lmap') as H.
  { induction L2 as [|sv L2 IH]; intros M d' lmap E Hm.
    - exists M, d', lmap. rewrite app_nil_r in E. auto.
    - destruct (move_view_step e bad ex d d' src_k dest_k src t dest0 lmap0 M lmap sv Hne Hbad Hexd Hexs Hsrc) as (d1 & lmap1 & dv & Hrun & Hm1); [| |exact Hm|].
      + apply HL. rewrite <- E. apply elem_of_app. right. left.
      + rewrite <- E in HndL. apply NoDup_app in HndL as (_ & Hd & _). intros Hin. apply (Hd sv Hin). left.
      + destruct (IH (M ++ [(sv, dv)]) d1 lmap1) as (M' & d2 & lmap2 & E2 & Hrun2 & Hm2); [rewrite fmap_app; cbn; rewrite <- (assoc_L (++)); exact E|exact Hm1|].
        exists M', d2, lmap2. split; [exact E2|]. split; [|exact Hm2]. cbn [foldM]. rewrite Hrun. exact Hrun2. }
  apply (H L []); [reflexivity|]. split.
  - eapply inv_ext; [eauto| |exact Hinv]. intros r v. unfold moved_away. cbn. split; [auto|]. intros [H1|[_ H1]]; [exact H1|]. apply elem_of_nil in H1 as [].
  - apply within_refl.
  - exists dest0. split; [exact Hdest|]. pose proof (in_good _ _ _ Hinv dest_k dest0 Hdest Hbad) as Hok. split; auto.
    + apply recon_ok_core in Hok. exact Hok.
    + intros sv dv Hin. apply elem_of_nil in Hin as [].
    + intros v w Hw. left. apply (ok_fresh_views _ _ Hok) in Hw. exact Hw.
    + intros sv dv Hin. apply elem_of_nil in Hin as [].
    + constructor.
Qed.

(** ** Recording constraints of the moved views, dropping those without *)
Record settled e s dm dest_k (M : list (key * key)) dest1 d' (D : gset key) : Prop := {
  se_dropped : forall v, v ∈ D -> v ∈ M.*2 /\ exists da db, same_base dm da /\ record_view_constraints e s da dest_k v = Ok (db, false);
  se_dest : exists dest, has_recon d' dest_k dest /\
     (forall v, sm_map (r_views dest) !! v = if decide (v ∈ D) then None else sm_map (r_views dest1) !! v)
}.

Record reconstruction_moved e s d src_k dest_k t lmap0 d' : Prop := {
  rm_parts : exists src dest0 dest1 M lmap D, has_recon d src_k src /\ has_recon d dest_k dest0 /\
     M.*1 ≡ₚ elements (dom (sm_map (r_views src))) /\ moved src t dest0 lmap0 M dest1 lmap /\ settled e s d dest_k M dest1 d' D;
  rm_gone : sm_map (d_recs d') !! src_k = None;
  rm_base : same_base d d';
  rm_others : forall r, r <> src_k -> r <> dest_k -> sm_map (d_recs d') !! r = sm_map (d_recs d) !! r;
  rm_next : sm_next (d_recs d') = sm_next (d_recs d)
}.

Lemma incorporate_reconstruction_post T e s (bad : key -> Prop) ex d src_k dest_k wt lmap0 src dest0 :
  env_ok e -> inv bad ex d -> src_k <> dest_k -> ~ bad dest_k -> (forall v, ~ ex dest_k v) -> (forall v, ~ ex src_k v) ->
  has_recon d src_k src -> has_recon d dest_k dest0 -> injective lmap0 -> targets_live lmap0 dest0 ->
  post T (incorporate_reconstruction pmul pinv e s d src_k dest_k wt lmap0) (fun d' =>
    inv (fun r => bad r /\ r <> src_k) ex d' /\ reconstruction_moved e s d src_k dest_k (pinv wt) lmap0 d').
Proof.
  intros He Hinv Hne Hbad Hexd Hexs Hsrc Hdest Hinj Hlive. pose proof (eo_orders _ He) as Ho. unfold incorporate_reconstruction. cbv zeta.
  apply post_bind, post_unwrap; [right; exists src; exact Hsrc|]. intros src' Hsrc'. assert (src' = src) as -> by (eapply has_recon_fun; [exact Hsrc'|exact Hsrc]).
  pose proof (oo_views _ Ho (sm_keys (r_views src))) as Hperm. set (L := o_views (e_ord e) (sm_keys (r_views src))) in *.
  destruct (move_all e bad ex d src_k dest_k src (pinv wt) dest0 lmap0 L Hinv Hne Hbad Hexd Hexs Hsrc Hdest Hinj Hlive) as (M & d1 & lmap & EM & Hrun & [Hinv1 Hwi1 (dest1 & Hdest1 & Hmv)]).
  { rewrite Hperm. apply NoDup_elements. }
  { intros v Hv. rewrite Hperm, elem_of_elements in Hv. unfold sm_keys in Hv. apply elem_of_dom in Hv. exact Hv. }
  rewrite Hrun. cbn [bind].
  set (ex1 := moved_away src_k M.*1 ex) in *.
  assert (forall v, ~ ex1 dest_k v) as Hexd1. { intros v [H|[H _]]; [eapply Hexd; exact H|congruence]. }
  apply post_bind.
  apply (post_foldM T _ (fun rest d' => NoDup rest /\ rest ⊆ M.*2 /\ inv bad ex1 d' /\ within (eq dest_k) d d' /\ exists D, (forall v, v ∈ rest -> v ∉ D) /\ settled e s d dest_k M dest1 d' D)).
  - intros v rest d' (Hnd & Hsub & Hi & Hwi & D & HD & [Hdr (dest & Hr & Hviews)]). apply NoDup_cons in Hnd as [Hvr Hnd].
    assert (v ∈ M.*2) as HvM by (apply Hsub; left). pose proof HvM as HvM'. apply elem_of_list_fmap in HvM' as ([sv dv] & E & Hin). cbn in E. subst dv.
    destruct (mv_new _ _ _ _ _ _ _ Hmv sv v Hin) as (w & ls & _ & Hv1 & _).
    assert (has_view dest v (View (v_frame w) (pmul (v_pose w) (pinv wt)) ls)) as Hv.
    { unfold has_view in *. rewrite Hviews, decide_False; [exact Hv1|]. apply HD. left. }
    apply post_bind. eapply post_mono; [apply post_eq, (record_post T e s bad ex1 d' dest_k v He Hi Hbad); right; eauto|].
    intros [d2 ok] [Erun [Hi2 Hrec]]. cbn [fst snd] in *. pose proof Hrec as Hrec'. apply recorded_recon in Hrec' as (dest' & dest2 & w1 & Hr' & _ & Hr2 & Ev & _ & _).
    assert (dest' = dest) as -> by (eapply has_recon_fun; eassumption).
    assert (within (eq dest_k) d d2) as Hwi2 by (eapply within_trans; [exact Hwi|]; eapply recorded_within; [reflexivity|exact Hrec]).
    destruct ok.
    + cbn [post]. split; [exact Hnd|]. split; [intros x Hx; apply Hsub; right; exact Hx|]. split; [exact Hi2|]. split; [exact Hwi2|].
      exists D. split; [intros x Hx; apply HD; right; exact Hx|]. split; [exact Hdr|]. exists dest2. split; [exact Hr2|]. rewrite Ev. exact Hviews.
    + assert (has_view dest2 v (View (v_frame w) (pmul (v_pose w) (pinv wt)) ls)) as Hv2 by (unfold has_view in *; rewrite Ev; exact Hv).
      eapply post_mono; [apply (remove_view_post T bad ex1 d2 dest_k v Hi2 Hbad (Hexd1 v)); right; eauto|].
      intros d3 [Hi3 Hrv]. split; [exact Hnd|]. split; [intros x Hx; apply Hsub; right; exact Hx|]. split; [exact Hi3|].
      split; [eapply within_trans; [exact Hwi2|]; eapply within_removed_view; [reflexivity|exact Hrv]|].
      exists ({[v]} ∪ D). split; [|split].
      * intros x Hx. rewrite not_elem_of_union, not_elem_of_singleton. split; [intros ->; contradiction|]. apply HD. right. exact Hx.
      * intros x Hx. apply elem_of_union in Hx as [Hx|Hx]; [|apply Hdr; exact Hx]. apply elem_of_singleton in Hx as ->. split; [exact HvM|]. exists d', d2. split; [apply (wi_base _ _ _ Hwi)|exact Erun].
      * destruct Hrv as [(rc3 & rc3' & w3 & fr3 & Hr3 & _ & Hvd & _ & ->)]. assert (rc3 = dest2) as -> by (eapply has_recon_fun; eassumption).
        exists rc3'. split; [apply relink_recon, upd_recon_same|]. intros x. rewrite (vr_views _ _ _ Hvd), Ev.
        destruct (decide (x = v)) as [->|Hxv].
        -- rewrite lookup_delete, decide_True; [reflexivity|]. apply elem_of_union. left. apply elem_of_singleton. reflexivity.
        -- rewrite lookup_delete_ne by congruence. rewrite Hviews. destruct (decide (x ∈ D)) as [Hd|Hd].
           ++ rewrite decide_True; [reflexivity|]. apply elem_of_union. auto.
           ++ rewrite decide_False; [reflexivity|]. rewrite not_elem_of_union, not_elem_of_singleton. auto.
  - split; [apply (mv_distinct _ _ _ _ _ _ _ Hmv)|]. split; [reflexivity|]. split; [exact Hinv1|]. split; [exact Hwi1|].
    exists ∅. split; [intros v _; apply not_elem_of_empty|]. split; [intros v Hv; apply elem_of_empty in Hv as []|]. exists dest1. split; [exact Hdest1|].
    intros v. rewrite decide_False by apply not_elem_of_empty. reflexivity.
  - intros d2 (_ & _ & Hi2 & Hwi2 & D & _ & Hset). cbn [post].
    assert (has_recon d2 src_k src) as Hsrc2. { unfold has_recon. rewrite (wi_recs _ _ _ Hwi2 src_k) by congruence. exact Hsrc. }
    split.
    + eapply (del_inv bad _ ex1 ex d2 _ src_k Hi2); [split; reflexivity|reflexivity|auto| |].
      * intros r v Hr. unfold ex1, moved_away. split; [|auto]. intros [H|[H _]]; [exact H|congruence].
      * intros k fr Hf. exists fr. split; [exact Hf|]. intros r v. split; [|intros [_ H]; exact H]. intros H. split; [|exact H]. intros ->.
        apply (in_links _ _ _ Hi2 k fr Hf src_k v) in H as [(rc & w & Hrc & Hw & _) Hnex]. apply Hnex. right. split; [reflexivity|].
        assert (rc = src) as -> by (eapply has_recon_fun; eassumption). rewrite EM, Hperm. apply elem_of_elements. unfold sm_keys. apply elem_of_dom. exists w. exact Hw.
    + destruct Hset as [Hdr (dest & Hr & Hviews)]. split.
      * exists src, dest0, dest1, M, lmap, D. split; [exact Hsrc|]. split; [exact Hdest|]. split; [rewrite EM; exact Hperm|]. split; [exact Hmv|].
        split; [exact Hdr|]. exists dest. split; [|exact Hviews]. unfold has_recon. cbn. rewrite lookup_delete_ne by assumption. exact Hr.
      * cbn. apply lookup_delete.
      * eapply same_base_trans; [apply (wi_base _ _ _ Hwi2)|]. split; reflexivity.
      * intros r H1 H2. cbn. rewrite lookup_delete_ne by congruence. apply (wi_recs _ _ _ Hwi2). congruence.
      * cbn. apply (wi_next _ _ _ Hwi2).
Qed.

Lemma reconstruction_moved_links e s d src_k dest_k t lmap0 d' : reconstruction_moved e s d src_k dest_k t lmap0 d' -> forall k, linked d' k -> linked d k.
Proof.
  intros [(src & dest0 & dest1 & M & lmap & D & Hs & Hd & HM & Hmv & Hset) Hgone _ Hoth _] k (r & v & rc & w & Hr & Hw & Hk).
  destruct Hset as [_ (dest & Hdest & Hviews)].
  destruct (decide (r = src_k)) as [->|Hns]; [unfold has_recon in Hr; congruence|]. destruct (decide (r = dest_k)) as [->|Hnd].
  - assert (rc = dest) as -> by (eapply has_recon_fun; eassumption). unfold has_view in Hw. rewrite Hviews in Hw. destruct (decide (v ∈ D)); [discriminate|].
    destruct (mv_only _ _ _ _ _ _ _ Hmv v w Hw) as [H|H].
    + rewrite (mv_old _ _ _ _ _ _ _ Hmv v H) in Hw. exists dest_k, v, dest0, w. auto.
    + apply elem_of_list_fmap in H as ([sv dv] & E & Hin). cbn in E. subst dv. destruct (mv_new _ _ _ _ _ _ _ Hmv sv v Hin) as (w0 & ls & H1 & H2 & _).
      assert (w = View (v_frame w0) (pmul (v_pose w0) t) ls) as -> by (eapply has_view_fun; [exact Hw|exact H2]). exists src_k, sv, src, w0. auto.
  - exists r, v, rc, w. split; [|auto]. unfold has_recon in *. rewrite <- (Hoth r Hns Hnd). exact Hr.
Qed.

(** ** Merging two reconstructions through a common frame *)
Record merge_outcome d src_k dest_k d' (ok : bool) : Prop := {
  me_base : same_base d d';
  me_others : forall r, r <> src_k -> r <> dest_k -> sm_map (d_recs d') !! r = sm_map (d_recs d) !! r;
  me_sub : forall r rc', has_recon d' r rc' -> exists rc, has_recon d r rc;
  me_dest : exists rc', has_recon d' dest_k rc';
  me_next : sm_next (d_recs d') = sm_next (d_recs d);
  me_links : forall k, linked d' k -> linked d k;
  me_src : if ok then sm_map (d_recs d') !! src_k = None else within (eq dest_k) d d'
}.

Lemma try_merge_post T e s d src_k sv dest_k views src dest w fr :
  env_ok e -> inv none1 none2 d -> src_k <> dest_k -> has_recon d src_k src -> has_recon d dest_k dest ->
  has_view src sv w -> has_frame d (v_frame w) fr ->
  (forall v, v ∈ views -> exists w, has_view dest v w) ->
  (T \/ window_ok e s (length (f_feats fr)) /\ (f_feats fr = [] \/ exists v, v ∈ views /\ rich_view d dest v)) ->
  post T (try_merge_reconstructions pmul pinv e s d src_k sv dest_k views) (fun x => inv none1 none2 x.1 /\ merge_outcome d src_k dest_k x.1 x.2).
Proof.
  intros He Hinv Hne Hsrc Hdest Hw Hf Hviews HT.
  pose proof (in_good _ _ _ Hinv dest_k dest Hdest id) as Hok. pose proof (in_good _ _ _ Hinv src_k src Hsrc id) as Hoks.
  assert (f_view fr = Some (src_k, sv)) as Hlink.
  { apply (in_links _ _ _ Hinv (v_frame w) fr Hf src_k sv). split; [exists src, w; auto|intros []]. }
  unfold try_merge_reconstructions. apply post_bind, post_unwrap; [right; exists src; exact Hsrc|]. intros src' H'. assert (src' = src) as -> by (eapply has_recon_fun; [exact H'|exact Hsrc]). clear H'.
  apply post_bind, post_unwrap; [right; exists w; exact Hw|]. intros w' H'. assert (w' = w) as -> by (eapply has_view_fun; [exact H'|exact Hw]). clear H'.
  cbv zeta. apply post_bind. eapply post_mono; [apply (register_frame_post T e s d dest_k (v_frame w) views dest fr He Hdest Hok Hf Hviews HT)|].
  intros [[pose matches]|] Hreg.
  2:{ cbn [post fst snd]. split; [exact Hinv|]. split; eauto using same_base_refl, within_refl. }
  specialize (Hreg pose matches eq_refl). pose proof (registration_good _ _ _ _ _ _ _ Hok Hreg) as Hgm.
  apply post_bind. eapply post_mono.
  { apply (add_view_post T (e_ord e) none1 none2 d dest_k (v_frame w) pose (fun f => matches !! f) fr (eo_orders _ He) Hinv id (fun _ => id) Hf); [right; eauto|].
    intros rc1 Hr1. assert (rc1 = dest) as -> by (eapply has_recon_fun; eassumption). exact Hgm. }
  intros [d1 dv] [Hinv1 Hva]. cbn [fst snd] in *.
  set (ex1 := also_old fr none2) in *.
  assert (forall r v, ex1 r v <-> r = src_k /\ v = sv) as Hex1.
  { intros r v. unfold ex1, also_old, none2. rewrite Hlink. split; [intros [[]|[= <- <-]]; auto|]. intros [-> ->]. auto. }
  assert (forall v, ~ ex1 dest_k v) as Hexd. { intros v H. apply Hex1 in H as [H _]. congruence. }
  pose proof Hva as Hva'. destruct Hva' as [(dest' & dest1 & fr' & Hdest' & Hf' & Edv & Hai & Ed1)].
  assert (dest' = dest) as -> by (eapply has_recon_fun; eassumption). assert (fr' = fr) as -> by (eapply has_frame_fun; eassumption).
  destruct (ai_view _ _ _ _ _ _ _ _ Hai) as (ls & Hv1 & Hls & Hlsf).
  assert (has_recon d1 dest_k dest1) as Hdest1 by (rewrite Ed1; apply relink_recon, upd_recon_same).
  apply post_bind. eapply post_mono; [apply (record_post T e s none1 ex1 d1 dest_k dv He Hinv1 id); right; eauto|].
  intros [d2 ok] [Hinv2 Hrec]. cbn [fst snd] in *. pose proof Hrec as Hrec'. apply recorded_recon in Hrec' as (rc1' & dest2 & w1 & Hr1' & Hw1 & Hdest2 & Ev & El & Ed2).
  assert (rc1' = dest1) as -> by (eapply has_recon_fun; eassumption). assert (has_view dest2 dv (View (v_frame w) pose ls)) as Hv2 by (unfold has_view in *; rewrite Ev; exact Hv1).
  assert (within (eq dest_k) d d2) as Hw2.
  { eapply within_trans; [eapply within_view_added; [reflexivity|exact Hva]|]. eapply recorded_within; [reflexivity|exact Hrec]. }
  assert (forall k', linked d2 k' -> linked d k') as Hlk2.
  { intros k' (r' & v' & H). apply (recorded_fewer _ _ _ _ _ _ _ Hrec) in H. apply (view_added_links _ _ _ _ _ _ _ Hva) in H as [->|H]; [|exists r', v'; exact H].
    exists src_k, sv, src, w. auto. }
  destruct ok; cbn [negb].
  - apply post_bind.
    apply (post_mapM T _ (fun fl sd => v_lms w !! fl.1 = Some sd.1 /\ fl.2 !! 0 = Some sd.2)).
    { intros [f lsf] Hin. apply elem_of_map_to_list in Hin. cbn [fst snd]. destruct (rg_clear _ _ _ _ _ _ _ Hreg f lsf Hin) as (desc & Hd & Hc).
      destruct (ok_entries _ _ Hoks sv w Hw) as (fr2 & Hf2 & Hl2). assert (fr2 = fr) as -> by (eapply has_frame_fun; eassumption).
      apply post_bind, post_unwrap; [right; apply lookup_lt_is_Some; apply lookup_lt_Some in Hd; lia|]. intros sl Hsl.
      apply post_bind, post_unwrap; [right; destruct Hc; cbn; eauto|]. intros dl Hdl. cbn. auto. }
    intros lm Hlm.
    assert (has_recon d2 src_k src) as Hsrc2. { unfold has_recon. rewrite (wi_recs _ _ _ Hw2 src_k) by congruence. exact Hsrc. }
    apply post_bind, with_rec_post; [right; eauto|]. intros src' H'. assert (src' = src) as -> by (eapply has_recon_fun; [exact H'|exact Hsrc2]). clear H'. cbn [post fst snd].
    set (src2 := set_views src (sm_del sv (r_views src))). set (d3 := upd d2 src_k src2).
    assert (inv (eq src_k) none2 d3) as Hinv3.
    { split.
      - eapply base_ok_same; [apply upd_base|apply (in_base _ _ _ Hinv2)].
      - intros r rc H Hb. apply upd_recon in H as [[-> _]|[_ H]]; [congruence|]. eapply recon_ok_base; [apply upd_base|]. apply (in_good _ _ _ Hinv2 r rc H id).
      - intros r rc H v w' Hw'. apply upd_recon in H as [[-> ->]|[_ H]].
        + unfold has_view in Hw'. cbn in Hw'. apply lookup_delete_Some in Hw' as [_ Hw']. apply (in_weak _ _ _ Hinv2 src_k src Hsrc2 v w' Hw').
        + apply (in_weak _ _ _ Hinv2 r rc H v w' Hw').
      - intros k frk Hk r v. rewrite (in_links _ _ _ Hinv2 k frk Hk r v), (Hex1 r v). unfold none2. split.
        + intros [(rc & w' & H1 & H2 & H3) H4]. split; [|intros []]. destruct (decide (r = src_k)) as [->|Hr].
          * assert (rc = src) as -> by (eapply has_recon_fun; eassumption). exists src2, w'. split; [apply upd_recon_same|]. split; [|exact H3].
            unfold has_view. cbn. rewrite lookup_delete_ne by (intros ->; apply H4; auto). exact H2.
          * exists rc, w'. split; [apply upd_recon; auto|]. auto.
        + intros [(rc & w' & H1 & H2 & H3) _]. apply upd_recon in H1 as [[-> ->]|[Hr H1]].
          * unfold has_view in H2. cbn in H2. apply lookup_delete_Some in H2 as [Hvs H2]. split; [exists src, w'; auto|]. intros [_ ->]. congruence.
          * split; [exists rc, w'; auto|]. intros [-> _]. congruence.
      - eapply upd_fresh; [apply (in_fresh_recs _ _ _ Hinv2)|exact Hsrc2]. }
    assert (has_recon d3 dest_k dest2) as Hdest3 by (apply upd_recon; auto).
    assert (forall a l, collect_map lm !! a = Some l -> exists f lsf, matches !! f = Some lsf /\ v_lms w !! f = Some a /\ lsf !! 0 = Some l) as Hcm.
    { intros a l H. unfold collect_map in H. apply elem_of_list_to_map_2 in H. rewrite elem_of_reverse in H. apply elem_of_list_lookup in H as (j & Hj).
      destruct (Forall2_lookup_r _ _ _ _ _ Hlm Hj) as ([f lsf] & Hx & H1 & H2). cbn in *. exists f, lsf. split; [|auto].
      apply elem_of_map_to_list. eapply elem_of_list_lookup_2. exact Hx. }
    apply post_bind. eapply post_mono.
    { apply (incorporate_reconstruction_post T e s (eq src_k) none2 d3 src_k dest_k (pmul (pinv pose) (v_pose w)) (collect_map lm) src2 dest2 He Hinv3 Hne); auto.
      - apply upd_recon_same.
      - intros a b l Ha Hb. apply Hcm in Ha as (f & lsf & H1 & H2 & H3). apply Hcm in Hb as (f' & lsf' & H1' & H2' & H3').
        assert (f = f') as -> by (eapply (rg_once _ _ _ _ _ _ _ Hreg f f' lsf lsf' l); eauto using elem_of_list_lookup_2). congruence.
      - intros a l Ha. apply Hcm in Ha as (f & lsf & H1 & H2 & H3). destruct (rg_clear _ _ _ _ _ _ _ Hreg f lsf H1) as (desc & Hd & Hc).
        pose proof (lookup_lt_Some _ _ _ Hd) as Hlt. destruct (Hlsf f Hlt) as (l' & Hl' & Hm'). rewrite H1 in Hm'.
        assert (l' = l) as ->. { destruct lsf as [|x lsf]; [discriminate|]. cbn in H3. congruence. }
        destruct (view_lm_exists dest1 dv _ f l (co_mirrored _ (ai_core _ _ _ _ _ _ _ _ Hai)) Hv1 Hl') as (m & Hm & _). exists m. unfold has_landmark in *. rewrite El. exact Hm. }
    intros d4 [Hinv4 Hrm]. cbn [post fst snd]. split; [eapply inv_ext; [|reflexivity|exact Hinv4]; intros r [<- H]; congruence|].
    assert (forall r, r <> dest_k -> sm_map (d_recs d2) !! r = sm_map (d_recs d) !! r) as Hd2 by (intros r Hr; apply (wi_recs _ _ _ Hw2); congruence).
    assert (forall r, r <> src_k -> r <> dest_k -> sm_map (d_recs d4) !! r = sm_map (d_recs d) !! r) as Hoth.
    { intros r H1 H2. rewrite (rm_others _ _ _ _ _ _ _ _ Hrm r H1 H2). unfold d3. cbn. rewrite lookup_insert_ne by congruence. apply Hd2. exact H2. }
    split.
    + eapply same_base_trans; [apply (wi_base _ _ _ Hw2)|]. eapply same_base_trans; [apply (upd_base d2 src_k src2)|]. apply (rm_base _ _ _ _ _ _ _ _ Hrm).
    + exact Hoth.
    + intros r rc' H. destruct (decide (r = src_k)) as [->|Hr]; [eauto|]. destruct (decide (r = dest_k)) as [->|Hr2]; [eauto|]. unfold has_recon in *. rewrite <- (Hoth r Hr Hr2). eauto.
    + destruct (rm_parts _ _ _ _ _ _ _ _ Hrm) as (x1 & x2 & x3 & x4 & x5 & x6 & _ & _ & _ & _ & Hset). destruct Hset as [_ (dest4 & H4 & _)]. eauto.
    + rewrite (rm_next _ _ _ _ _ _ _ _ Hrm). cbn. apply (wi_next _ _ _ Hw2).
    + intros k' H. apply (reconstruction_moved_links _ _ _ _ _ _ _ _ Hrm) in H as (r' & v' & rc' & w' & H1 & H2 & H3). apply Hlk2. exists r', v'.
      apply upd_recon in H1 as [[-> ->]|[Hr' H1]]; [|exists rc', w'; auto]. exists src, w'. split; [exact Hsrc2|]. split; [|exact H3].
      unfold has_view in H2. cbn in H2. apply lookup_delete_Some in H2 as [_ H2]. exact H2.
    + apply (rm_gone _ _ _ _ _ _ _ _ Hrm).
  - apply post_bind. eapply post_mono; [apply (remove_view_post T none1 ex1 d2 dest_k dv Hinv2 id (Hexd dv)); right; eauto|].
    intros d3 [Hinv3 Hrv]. pose proof Hrv as [(rc3 & dest3 & w3 & fr3 & Hr3 & Hw3 & Hvr & Hf3 & Ed3)].
    assert (rc3 = dest2) as -> by (eapply has_recon_fun; eassumption). assert (w3 = View (v_frame w) pose ls) as -> by (eapply has_view_fun; eassumption). cbn [v_frame] in *.
    assert (within (eq dest_k) d d3) as Hw3'. { eapply within_trans; [exact Hw2|]. eapply within_removed_view; [reflexivity|exact Hrv]. }
    assert (has_frame d3 (v_frame w) (set_f_view fr3 None)) as Hf3' by (rewrite Ed3; apply relink_frame; auto).
    assert (has_recon d3 src_k src) as Hsrc3. { unfold has_recon. rewrite (wi_recs _ _ _ Hw3' src_k) by congruence. exact Hsrc. }
    apply post_bind, set_frame_view_post; [right; eauto|]. intros frx Hfx. assert (frx = set_f_view fr3 None) as -> by (eapply has_frame_fun; eassumption). cbn [post fst snd].
    change (set_frames d3 (sm_put (v_frame w) (set_f_view (set_f_view fr3 None) (Some (src_k, sv))) (d_frames d3))) with (relink d3 (v_frame w) (set_f_view fr3 None) (Some (src_k, sv))).
    assert (within (eq dest_k) d (relink d3 (v_frame w) (set_f_view fr3 None) (Some (src_k, sv)))) as Hw4 by (eapply within_trans; [exact Hw3'|]; apply within_relink; exact Hf3').
    split.
    + apply (relink_inv none1 ex1 none2 d3 (v_frame w) (set_f_view fr3 None) (Some (src_k, sv)) Hinv3 Hf3').
      * intros r v. split.
        -- intros [= <- <-]. split; [|intros []]. exists src, w. auto.
        -- intros [H _]. destruct (decide (r = src_k /\ v = sv)) as [[-> ->]|Hnot]; [reflexivity|]. exfalso.
           assert (f_view (set_f_view fr3 None) = Some (r, v)) as E; [|discriminate]. apply (in_links _ _ _ Hinv3 _ _ Hf3' r v). split; [exact H|]. rewrite Hex1. exact Hnot.
      * intros r v k' Hk Hiv. unfold none2. rewrite Hex1. split; [intros []|]. intros [-> ->]. apply Hk.
        apply (is_view_of_fun d3 src_k sv k' (v_frame w) Hiv). exists src, w. auto.
    + split.
      * apply (wi_base _ _ _ Hw4).
      * intros r _ Hr. apply (wi_recs _ _ _ Hw4). congruence.
      * apply (wi_sub _ _ _ Hw4).
      * exists dest3. apply relink_recon. rewrite Ed3. apply relink_recon, upd_recon_same.
      * apply (wi_next _ _ _ Hw4).
      * intros k' (r' & v' & H). apply Hlk2. exists r', v'. apply (removed_view_fewer _ _ _ _ Hrv). exact H.
      * exact Hw4.
Qed.

End facts.
