(** Facts about the operations on the whole database. *)
From stdpp Require Import gmap list.
From Verif Require Import Outcome OutcomeFacts Sfm SfmSpec SfmRec SfmTrack.

Section facts.
Context {P F : Type}.
Implicit Types (rc : recon P) (d : vdata P F).

(** Everything but reconstructions and the frames' view links is the same. *)
Record same_base d d' : Prop := {
  sb_feeds : d_feeds d' = d_feeds d;
  sb_lsh : d_lsh d' = d_lsh d;
  sb_frames : forall k, (fun fr => set_f_view fr None) <$> sm_map (d_frames d') !! k =
                        (fun fr => set_f_view fr None) <$> sm_map (d_frames d) !! k;
  sb_next : sm_next (d_frames d') = sm_next (d_frames d)
}.

Lemma same_base_refl d : same_base d d.
Proof. split; auto. Qed.

Lemma same_base_trans d1 d2 d3 : same_base d1 d2 -> same_base d2 d3 -> same_base d1 d3.
Proof. intros [a b c e] [a' b' c' e']. split; [congruence|congruence| |congruence]. intros k. rewrite c'. apply c. Qed.

Lemma same_base_sym d1 d2 : same_base d1 d2 -> same_base d2 d1.
Proof. intros [a b c e]. split; [congruence|congruence| |congruence]. intros k. symmetry. apply c. Qed.

Lemma same_base_frame d d' k fr' : same_base d d' -> has_frame d' k fr' ->
  exists fr, has_frame d k fr /\ f_feed fr = f_feed fr' /\ f_feed_frame fr = f_feed_frame fr' /\ f_feats fr = f_feats fr'.
Proof.
  intros Hb Hf. pose proof (sb_frames _ _ Hb k) as H. unfold has_frame in *. rewrite Hf in H. cbn in H. symmetry in H.
  apply fmap_Some in H as (fr & Hfr & E). exists fr. split; [exact Hfr|].
  destruct fr, fr'. unfold set_f_view in E. cbn in *. injection E as -> -> ->. auto.
Qed.

Lemma recon_ok_base d d' rc : same_base d d' -> recon_ok d rc -> recon_ok d' rc.
Proof.
  intros Hb [H1 H2 H3 H4 H5 H6 H7]. split; auto.
  intros v w Hw. destruct (H3 v w Hw) as (fr & Hfr & Hlen).
  destruct (same_base_frame d' d (v_frame w) fr (same_base_sym _ _ Hb) Hfr) as (fr' & Hfr' & _ & _ & E).
  exists fr'. split; [exact Hfr'|]. rewrite E. exact Hlen.
Qed.

Lemma recon_ok_core d rc : recon_ok d rc -> core rc.
Proof. intros [H1 H2 H3 H4 H5 H6 H7]. split; auto. Qed.

Lemma core_recon_ok d rc : core rc -> one_entry_per_feature d rc -> recon_ok d rc.
Proof. intros [H1 H2 H3 H4 H5 H6] H. split; auto. Qed.

(** ** Invariants with exceptions: [bad] reconstructions are only well-formed as a source of
    views, and frames do not point to the views in [ex]. *)
Definition weak_ok d rc : Prop :=
  forall v w, has_view rc v w -> NoDup (v_lms w) /\
    exists fr, has_frame d (v_frame w) fr /\ length (v_lms w) = length (f_feats fr).

Record base_ok d : Prop := {
  bo_positions : feed_positions_exact d;
  bo_lsh : forall k, k ∈ d_lsh d <-> exists fr, has_frame d k fr;
  bo_fresh_frames : keys_fresh (d_frames d);
  bo_fresh_feeds : keys_fresh (d_feeds d)
}.

Record inv (bad : key -> Prop) (ex : key -> key -> Prop) d : Prop := {
  in_base : base_ok d;
  in_good : forall r rc, has_recon d r rc -> ~ bad r -> recon_ok d rc;
  in_weak : forall r rc, has_recon d r rc -> weak_ok d rc;
  in_links : forall k fr, has_frame d k fr -> forall r v,
      f_view fr = Some (r, v) <-> is_view_of d r v k /\ ~ ex r v;
  in_fresh_recs : keys_fresh (d_recs d)
}.

Definition none1 : key -> Prop := fun _ => False.
Definition none2 : key -> key -> Prop := fun _ _ => False.

Lemma recon_ok_weak d rc : recon_ok d rc -> weak_ok d rc.
Proof.
  intros Hok v w Hw. split; [apply (view_lms_NoDup rc v w (ok_mirrored _ _ Hok) Hw)|]. apply (ok_entries _ _ Hok v w Hw).
Qed.

Lemma data_ok_inv d : data_ok d <-> inv none1 none2 d.
Proof.
  split.
  - intros [H1 H2 H3 H4 H5 H6 H7]. split; auto.
    + split; auto.
    + intros r rc Hr _. eauto.
    + intros r rc Hr. apply recon_ok_weak. eauto.
    + intros k fr Hf r v. rewrite (H2 k fr Hf r v). unfold none2. tauto.
  - intros [[H1 H2 H3 H4] H5 H6 H7 H8]. split; auto.
    + intros r rc Hr. apply (H5 r rc Hr). intros [].
    + intros k fr Hf r v. rewrite (H7 k fr Hf r v). unfold none2. tauto.
Qed.

Lemma base_ok_same d d' : same_base d d' -> base_ok d -> base_ok d'.
Proof.
  intros Hb [H1 H2 H3 H4]. pose proof (same_base_sym _ _ Hb) as Hb'. split.
  - intros fd i k. unfold has_feed. rewrite (sb_feeds _ _ Hb). etransitivity; [apply (H1 fd i k)|]. split.
    + intros (fr & Hf & E1 & E2). destruct (same_base_frame d' d k fr Hb' Hf) as (fr' & Hf' & E3 & E4 & _). exists fr'. repeat split; [exact Hf'|congruence|congruence].
    + intros (fr & Hf & E1 & E2). destruct (same_base_frame d d' k fr Hb Hf) as (fr' & Hf' & E3 & E4 & _). exists fr'. repeat split; [exact Hf'|congruence|congruence].
  - intros k. rewrite (sb_lsh _ _ Hb), H2. split.
    + intros (fr & Hf). destruct (same_base_frame d' d k fr Hb' Hf) as (fr' & Hf' & _). eauto.
    + intros (fr & Hf). destruct (same_base_frame d d' k fr Hb Hf) as (fr' & Hf' & _). eauto.
  - intros k fr Hf. destruct (same_base_frame d d' k fr Hb Hf) as (fr' & Hf' & _). rewrite (sb_next _ _ Hb). eauto.
  - rewrite (sb_feeds _ _ Hb). exact H4.
Qed.

(** ** Updating one reconstruction *)
Definition upd d (r : key) rc : vdata P F := set_recs d (sm_put r rc (d_recs d)).

Lemma upd_base d r rc : same_base d (upd d r rc).
Proof. split; reflexivity. Qed.

Lemma upd_recon d r rc r' rc' : has_recon (upd d r rc) r' rc' <-> (r' = r /\ rc' = rc) \/ (r' <> r /\ has_recon d r' rc').
Proof.
  unfold has_recon, upd. cbn. destruct (decide (r = r')) as [<-|Hne].
  - rewrite lookup_insert. split; [intros [= <-]; auto|]. intros [[_ ->]|[[] _]]; reflexivity.
  - rewrite lookup_insert_ne by assumption. split; [auto|]. intros [[-> _]|[_ H]]; [contradiction|exact H].
Qed.

Lemma upd_recon_same d r rc : has_recon (upd d r rc) r rc.
Proof. apply upd_recon. auto. Qed.

Lemma upd_is_view_of d r rc0 rc : has_recon d r rc0 ->
  (forall v, v_frame <$> sm_map (r_views rc) !! v = v_frame <$> sm_map (r_views rc0) !! v) ->
  forall r' v k, is_view_of (upd d r rc) r' v k <-> is_view_of d r' v k.
Proof.
  intros Hr Hv r' v k. unfold is_view_of. split.
  - intros (rc' & w & H' & Hw & Hk). apply upd_recon in H' as [[-> ->]|[Hne H']].
    + specialize (Hv v). unfold has_view in Hw. rewrite Hw in Hv. cbn in Hv. symmetry in Hv. apply fmap_Some in Hv as (w0 & Hw0 & E).
      exists rc0, w0. split; [exact Hr|]. split; [exact Hw0|]. congruence.
    + eauto.
  - intros (rc' & w & H' & Hw & Hk). destruct (decide (r' = r)) as [->|Hne].
    + assert (rc' = rc0) as -> by (unfold has_recon in *; congruence). specialize (Hv v).
      unfold has_view in Hw. rewrite Hw in Hv. cbn in Hv. apply fmap_Some in Hv as (w1 & Hw1 & E).
      exists rc, w1. split; [apply upd_recon_same|]. split; [exact Hw1|]. congruence.
    + exists rc', w. split; [apply upd_recon; auto|]. auto.
Qed.

Lemma upd_fresh d r rc0 rc : keys_fresh (d_recs d) -> has_recon d r rc0 -> keys_fresh (d_recs (upd d r rc)).
Proof. intros H Hr. eapply keys_fresh_put; [exact H|exact Hr]. Qed.

(** A consistent replacement with the same view keys and frames. *)
Lemma upd_inv bad ex d r rc0 rc :
  inv bad ex d -> has_recon d r rc0 -> recon_ok d rc ->
  (forall v, v_frame <$> sm_map (r_views rc) !! v = v_frame <$> sm_map (r_views rc0) !! v) ->
  inv bad ex (upd d r rc).
Proof.
  intros [Hb Hg Hw Hl Hf] Hr Hok Hv. split.
  - eapply base_ok_same; [apply upd_base|exact Hb].
  - intros r' rc' H' Hbad. apply (recon_ok_base d); [apply upd_base|]. apply upd_recon in H' as [[-> ->]|[Hne H']]; eauto.
  - intros r' rc' H'. apply upd_recon in H' as [[-> ->]|[Hne H']]; [apply recon_ok_weak in Hok; exact Hok|]. apply (Hw r' rc' H').
  - intros k fr Hk r' v. rewrite (upd_is_view_of d r rc0 rc Hr Hv r' v k). apply (Hl k fr Hk r' v).
  - eapply upd_fresh; eassumption.
Qed.

Lemma with_rec_post {A} T d r (k : recon P -> outcome (recon P * A)) Q :
  (T \/ exists rc, has_recon d r rc) ->
  (forall rc, has_recon d r rc -> post T (k rc) (fun x => Q (upd d r x.1, x.2))) ->
  post T (with_rec d r k) Q.
Proof.
  intros HT Hk. unfold with_rec. apply post_bind, post_unwrap.
  - destruct HT as [HT|(rc & Hr)]; [left; exact HT|]. right. exists rc. exact Hr.
  - intros rc Hr. apply post_bind. eapply post_mono; [apply (Hk rc Hr)|]. intros [rc' x] HQ. cbn in HQ. exact HQ.
Qed.

(** ** The frame's view link *)
Lemma set_frame_view_post T d k x (Q : vdata P F -> Prop) :
  (T \/ exists fr, has_frame d k fr) ->
  (forall fr, has_frame d k fr -> Q (set_frames d (sm_put k (set_f_view fr x) (d_frames d)))) ->
  post T (set_frame_view d k x) Q.
Proof.
  intros HT HQ. unfold set_frame_view. apply post_bind, post_unwrap.
  - destruct HT as [HT|(fr & Hf)]; [left; exact HT|]. right. exists fr. exact Hf.
  - intros fr Hf. apply post_ret. apply HQ. exact Hf.
Qed.

Definition relink d k fr x : vdata P F := set_frames d (sm_put k (set_f_view fr x) (d_frames d)).

Lemma relink_base d k fr x : has_frame d k fr -> same_base d (relink d k fr x).
Proof.
  intros Hf. split; try reflexivity. intros k'. unfold relink. cbn. destruct (decide (k = k')) as [<-|Hne].
  - rewrite lookup_insert. unfold has_frame in Hf. rewrite Hf. reflexivity.
  - rewrite lookup_insert_ne by assumption. reflexivity.
Qed.

Lemma relink_frame d k fr x k' fr' : has_frame d k fr ->
  (has_frame (relink d k fr x) k' fr' <-> (k' = k /\ fr' = set_f_view fr x) \/ (k' <> k /\ has_frame d k' fr')).
Proof.
  intros Hf. unfold has_frame, relink in *. cbn. destruct (decide (k = k')) as [<-|Hne].
  - rewrite lookup_insert. split; [intros [= <-]; auto|]. intros [[_ ->]|[[] _]]; reflexivity.
  - rewrite lookup_insert_ne by assumption. split; [auto|]. intros [[-> _]|[_ H]]; [contradiction|exact H].
Qed.

Lemma relink_recon d k fr x r rc : has_recon (relink d k fr x) r rc <-> has_recon d r rc.
Proof. reflexivity. Qed.

Lemma relink_is_view_of d k fr x r v k' : is_view_of (relink d k fr x) r v k' <-> is_view_of d r v k'.
Proof. reflexivity. Qed.

Lemma relink_inv bad ex ex' d k fr x :
  inv bad ex d -> has_frame d k fr ->
  (forall r v, x = Some (r, v) <-> is_view_of d r v k /\ ~ ex' r v) ->
  (forall r v k', k' <> k -> is_view_of d r v k' -> (ex' r v <-> ex r v)) ->
  inv bad ex' (relink d k fr x).
Proof.
  intros [Hb Hg Hw Hl Hf] Hk Hx Hex. pose proof (relink_base d k fr x Hk) as Hsb. split.
  - eapply base_ok_same; eassumption.
  - intros r rc Hr Hbad. eapply recon_ok_base; [exact Hsb|]. apply (Hg r rc Hr Hbad).
  - intros r rc Hr v w Hvw. destruct (Hw r rc Hr v w Hvw) as (Hnd & fr' & Hfr' & Hlen). split; [exact Hnd|].
    destruct (same_base_frame _ _ _ fr' (same_base_sym _ _ Hsb) Hfr') as (fr2 & Hf2 & _ & _ & E).
    exists fr2. split; [exact Hf2|]. congruence.
  - intros k' fr' Hk' r v. rewrite relink_is_view_of. apply (relink_frame d k fr x k' fr' Hk) in Hk' as [[-> ->]|[Hne Hk']].
    + cbn. apply Hx.
    + rewrite (Hl k' fr' Hk' r v). split; intros [H1 H2]; (split; [exact H1|]); rewrite (Hex r v k' Hne H1) in *; exact H2.
  - exact Hf.
Qed.

(** ** Removing a view *)
Record removed_view (r v : key) d d' : Prop := {
  rv_rec : exists rc rc' w fr, has_recon d r rc /\ has_view rc v w /\ view_removed v rc rc' /\ has_frame d (v_frame w) fr /\
     d' = relink (upd d r rc') (v_frame w) fr None
}.

Lemma view_removed_ok d v rc rc' : recon_ok d rc -> view_removed v rc rc' -> recon_ok d rc'.
Proof.
  intros Hok Hr. apply core_recon_ok; [apply (view_removed_core v rc); [apply recon_ok_core in Hok; exact Hok|exact Hr]|].
  intros v' w Hw. unfold has_view in Hw. rewrite (vr_views _ _ _ Hr) in Hw. apply lookup_delete_Some in Hw as [_ Hw].
  apply (ok_entries _ _ Hok v' w Hw).
Qed.

Lemma remove_view_post T bad ex d r v :
  inv bad ex d -> ~ bad r -> ~ ex r v ->
  (T \/ exists rc w, has_recon d r rc /\ has_view rc v w) ->
  post T (remove_view d r v) (fun d' => inv bad ex d' /\ removed_view r v d d').
Proof.
  intros Hinv Hbad Hexv HT. unfold remove_view. apply post_bind.
  apply with_rec_post. { destruct HT as [|(rc & w & Hr & _)]; eauto. }
  intros rc Hr. pose proof (in_good _ _ _ Hinv r rc Hr Hbad) as Hok.
  assert (T \/ exists w, has_view rc v w) as HT'.
  { destruct HT as [HT|(rc' & w & Hr' & Hw)]; [left; exact HT|]. right. exists w. unfold has_recon in *. congruence. }
  destruct (sm_map (r_views rc) !! v) as [w|] eqn:Hw.
  - destruct (rec_remove_view_spec rc v w (recon_ok_core _ _ Hok) Hw) as (rc' & Hrun & Hrem).
    rewrite Hrun. cbn [post fst snd]. destruct (ok_entries _ _ Hok v w Hw) as (fr & Hfr & Hlen).
    apply set_frame_view_post; [right; exists fr; exact Hfr|]. intros fr' Hfr'.
    assert (fr' = fr) as -> by (unfold has_frame in *; cbn in *; congruence).
    change (set_frames (upd d r rc') (sm_put (v_frame w) (set_f_view fr None) (d_frames (upd d r rc')))) with (relink (upd d r rc') (v_frame w) fr None).
    split; [|constructor; exists rc, rc', w, fr; auto 10].
    assert (is_view_of d r v (v_frame w)) as Hiv by (exists rc, w; auto).
    assert (f_view fr = Some (r, v)) as Hlink. { apply (in_links _ _ _ Hinv (v_frame w) fr Hfr r v). auto. }
    assert (forall r' v' k, is_view_of (upd d r rc') r' v' k <-> is_view_of d r' v' k /\ (r', v') <> (r, v)) as Hviews.
    { intros r' v' k. unfold is_view_of. split.
      - intros (rc1 & w1 & H1 & H2 & H3). apply upd_recon in H1 as [[-> ->]|[Hne H1]].
        + unfold has_view in H2. rewrite (vr_views _ _ _ Hrem) in H2. apply lookup_delete_Some in H2 as [Hne H2].
          split; [|congruence]. exists rc, w1. auto.
        + split; [|congruence]. exists rc1, w1. auto.
      - intros [(rc1 & w1 & H1 & H2 & H3) Hne]. destruct (decide (r' = r)) as [->|Hner].
        + assert (rc1 = rc) as -> by (unfold has_recon in *; congruence). exists rc', w1. split; [apply upd_recon_same|].
          split; [|exact H3]. unfold has_view. rewrite (vr_views _ _ _ Hrem), lookup_delete_ne by congruence. exact H2.
        + exists rc1, w1. split; [apply upd_recon; auto|]. auto. }
    pose proof (relink_base (upd d r rc') (v_frame w) fr None Hfr) as Hsb.
    pose proof (same_base_trans _ _ _ (upd_base d r rc') Hsb) as Hsb2.
    split.
    + eapply base_ok_same; [exact Hsb2|apply (in_base _ _ _ Hinv)].
    + intros r' rc1 H1 Hb1. apply relink_recon, upd_recon in H1 as [[-> ->]|[Hne H1]]; (eapply recon_ok_base; [exact Hsb2|]).
      * eapply view_removed_ok; eassumption.
      * eapply (in_good _ _ _ Hinv); eassumption.
    + intros r' rc1 H1 v' w' Hw'. 
      assert (NoDup (v_lms w') ∧ ∃ fr0 : frame F, has_frame d (v_frame w') fr0 ∧ length (v_lms w') = length (f_feats fr0)) as (Hnd & fr0 & Hf0 & Hl0).
      { apply relink_recon, upd_recon in H1 as [[-> ->]|[Hne H1]].
        - unfold has_view in Hw'. rewrite (vr_views _ _ _ Hrem) in Hw'. apply lookup_delete_Some in Hw' as [_ Hw'].
          apply (in_weak _ _ _ Hinv r rc Hr v' w' Hw').
        - apply (in_weak _ _ _ Hinv r' rc1 H1 v' w' Hw'). }
      split; [exact Hnd|]. destruct (same_base_frame _ _ _ fr0 (same_base_sym _ _ Hsb2) Hf0) as (fr2 & Hf2 & _ & _ & E).
      exists fr2. split; [exact Hf2|]. congruence.
    + intros k' fr' Hk' r' v'. rewrite relink_is_view_of, Hviews.
      apply relink_frame in Hk' as [[-> ->]|[Hne Hk']]; [| |exact Hfr].
      * cbn. split; [discriminate|]. intros [[H1 H2] H3]. exfalso. apply H2.
        assert (f_view fr = Some (r', v')) as H4 by (apply (in_links _ _ _ Hinv (v_frame w) fr Hfr r' v'); auto). congruence.
      * rewrite (in_links _ _ _ Hinv k' fr' Hk' r' v'). split; [|tauto]. intros [H1 H2]. split; [split; [exact H1|]|exact H2].
        intros E. injection E as -> ->. apply Hne. destruct H1 as (rc1 & w1 & H3 & H4 & H5), Hiv as (rc2 & w2 & H6 & H7 & H8).
        unfold has_recon, has_view in *. assert (rc1 = rc) as -> by congruence. assert (w1 = w) as -> by congruence. congruence.
    + eapply upd_fresh; [apply (in_fresh_recs _ _ _ Hinv)|exact Hr].
  - destruct HT' as [HT'|(w & Hw')]; [|unfold has_view in Hw'; congruence].
    unfold rec_remove_view, sm_get. rewrite Hw. cbn. exact HT'.
Qed.

End facts.
