(** Facts about the search for candidate frames. *)
From stdpp Require Import gmap list.
From Verif Require Import Outcome OutcomeFacts Sfm SfmSpec SfmRec SfmTrack SfmData SfmPrim SfmCons.

Section facts.
Context {P F : Type}.
Implicit Types (rc : recon P) (d : vdata P F) (fr : frame F).

Lemma abs_diff_lt a b n : abs_diff a b < n <-> a < b + n /\ b < a + n.
Proof. unfold abs_diff. destruct (a <? b) eqn:E; [apply Nat.ltb_lt in E|apply Nat.ltb_ge in E]; lia. Qed.

Lemma feed_NoDup d fd fs : base_ok d -> has_feed d fd fs -> NoDup fs.
Proof.
  intros Hb Hfd. apply NoDup_alt. intros i j k Hi Hj.
  destruct (proj1 (bo_positions _ Hb fd i k)) as (fr & Hf & _ & E1); [eauto|].
  destruct (proj1 (bo_positions _ Hb fd j k)) as (fr' & Hf' & _ & E2); [eauto|].
  assert (fr' = fr) as -> by (eapply has_frame_fun; eassumption). congruence.
Qed.

Lemma recents_near d k fr fs n : base_ok d -> has_frame d k fr -> has_feed d (f_feed fr) fs ->
  forall k', k' ∈ recent_frames fs k (f_feed_frame fr) n <-> near d k k' n.
Proof.
  intros Hb Hf Hfd k'. unfold recent_frames. rewrite elem_of_list_fmap. split.
  - intros ([i k0] & E & Hin). cbn in E. subst k0. apply elem_of_list_filter in Hin as [[Hne Hlt] Hin]. cbn in *.
    apply elem_of_lookup_imap in Hin as (j & x & [= -> ->] & Hj).
    destruct (proj1 (bo_positions _ Hb (f_feed fr) j x)) as (fr' & Hf' & E1 & E2); [eauto|].
    exists fr, fr'. apply abs_diff_lt in Hlt. rewrite E2. auto.
  - intros (fr0 & fr' & Hf0 & Hf' & Hne & E & H1 & H2). assert (fr0 = fr) as -> by (eapply has_frame_fun; eassumption).
    destruct (proj2 (bo_positions _ Hb (f_feed fr) (f_feed_frame fr') k')) as (fs' & Hfd' & Hi); [eauto|].
    assert (fs' = fs) as -> by (unfold has_feed in *; congruence).
    exists (f_feed_frame fr', k'). split; [reflexivity|]. apply elem_of_list_filter. cbn. split; [split; [exact Hne|apply abs_diff_lt; auto]|].
    apply elem_of_lookup_imap. eauto.
Qed.

Lemma imap_pair_snd {A} (l : list A) : (imap pair l).*2 = l.
Proof.
  apply list_eq. intros i. rewrite list_lookup_fmap, list_lookup_imap. destruct (l !! i); reflexivity.
Qed.

Lemma recents_NoDup d k fr fs n : base_ok d -> has_feed d (f_feed fr) fs -> NoDup (recent_frames fs k (f_feed_frame fr) n).
Proof.
  intros Hb Hfd. apply (feed_NoDup d) in Hfd; [|exact Hb]. unfold recent_frames.
  assert (NoDup (imap pair fs).*2) as Hnd by (rewrite imap_pair_snd; exact Hfd).
  revert Hnd. generalize (imap pair fs). intros l. induction l as [|[i x] l IH]; [constructor|]. intros Hnd. rewrite fmap_cons in Hnd. apply NoDup_cons in Hnd as [Hn Hnd].
  rewrite filter_cons. destruct (decide _); [|apply (IH Hnd)]. rewrite fmap_cons. apply NoDup_cons. split; [|apply (IH Hnd)].
  intros Hin. apply Hn. apply elem_of_list_fmap in Hin as (y & -> & Hy). apply elem_of_list_filter in Hy as [_ Hy]. apply elem_of_list_fmap. eauto.
Qed.

(** The filter over the answers. *)
Lemma kept_spec T d k fr recents threshold answers (Q : list (list key) -> Prop) :
  has_frame d k fr -> (T \/ forall x, x ∈ answers -> exists fx, has_frame d x fx) ->
  (forall kept, mjoin kept `sublist_of` answers ->
     (forall x, x ∈ mjoin kept <-> x ∈ answers /\ x <> k /\ x ∉ recents /\ ~ near d k x threshold) -> Q kept) ->
  post T (mapM (similar_keep d k fr recents threshold) answers) Q.
Proof.
  intros Hf HT HQ. eapply (post_mapM T _ (fun x y => (exists fx, has_frame d x fx) /\ (y = [] /\ (x = k \/ x ∈ recents \/ near d k x threshold) \/ y = [x] /\ x <> k /\ x ∉ recents /\ ~ near d k x threshold))).
  - intros x Hx. unfold similar_keep. apply post_bind, post_unwrap.
    { destruct HT as [HT|HT]; [left; exact HT|]. right. apply (HT x Hx). }
    intros fx Hfx. change (has_frame d x fx) in Hfx. cbn [post]. split; [eauto|].
    destruct (x =? k) eqn:E1; cbn [orb]; [apply Nat.eqb_eq in E1; auto|]. apply Nat.eqb_neq in E1.
    destruct (decide (x ∈ recents)) as [Hr|Hr]; [rewrite bool_decide_eq_true_2 by exact Hr; cbn [orb]; auto|]. rewrite bool_decide_eq_false_2 by exact Hr. cbn [orb].
    destruct (_ && _) eqn:E2.
    + left. split; [reflexivity|]. right. right. apply andb_true_iff in E2 as [E2 E3]. apply Nat.eqb_eq in E2. apply Nat.ltb_lt, abs_diff_lt in E3. exists fr, fx. auto 10.
    + right. split; [reflexivity|]. split; [exact E1|]. split; [exact Hr|]. intros (fr0 & fx0 & H1 & H2 & _ & H3 & H4).
      assert (fr0 = fr) as -> by (eapply has_frame_fun; eassumption). assert (fx0 = fx) as -> by (eapply has_frame_fun; eassumption).
      apply andb_false_iff in E2 as [E2|E2]; [apply Nat.eqb_neq in E2; congruence|]. apply Nat.ltb_ge in E2. apply abs_diff_lt in H4. lia.
  - intros ys Hys. apply HQ.
    + clear HQ HT. induction Hys as [|x y answers ys H Hys IH]; [constructor|]. cbn. destruct H as [_ [[-> _]|[-> _]]]; cbn; [apply sublist_cons; exact IH|apply sublist_skip; exact IH].
    + clear HQ HT. intros z. induction Hys as [|x y answers ys H Hys IH]; cbn.
      * rewrite elem_of_nil. tauto.
      * rewrite elem_of_app, IH, elem_of_cons. destruct H as [_ [[-> Hbad]|[-> Hgood]]].
        -- rewrite elem_of_nil. split; [tauto|]. intros [[->|H1] (H2 & H3 & H4)]; [|tauto]. tauto.
        -- rewrite elem_of_list_singleton. split; [intros [->|H]; tauto|]. tauto.
Qed.

(** Sorting the found frames. *)
Record filed d (found : list key) (acc : gmap key (list key) * list key) : Prop := {
  fi_recs : forall r v, (exists vs, acc.1 !! r = Some vs /\ v ∈ vs) <-> exists k' fr, k' ∈ found /\ has_frame d k' fr /\ f_view fr = Some (r, v);
  fi_free : forall k', k' ∈ acc.2 <-> k' ∈ found /\ exists fr, has_frame d k' fr /\ f_view fr = None;
  fi_grouped : forall r vs, acc.1 !! r = Some vs -> vs <> [] /\ NoDup vs;
  fi_nodup : NoDup acc.2
}.

Lemma file_post T d found : frame_links_exact d -> NoDup found -> (T \/ forall x, x ∈ found -> exists fx, has_frame d x fx) ->
  post T (foldM (file_frame d) found (∅, [])) (filed d found).
Proof.
  intros Hlinks Hnd HT.
  apply (post_foldM T _ (fun rest acc => exists done, done ++ rest = found /\ filed d done acc)).
  - intros x rest acc (done & E & [H1 H2 H3 H4]). unfold file_frame. apply post_bind, post_unwrap.
    { destruct HT as [HT|HT]; [left; exact HT|]. right. apply (HT x). rewrite <- E. apply elem_of_app. right. left. }
    intros fx Hfx. change (has_frame d x fx) in Hfx.
    assert (x ∉ done) as Hnx. { rewrite <- E in Hnd. apply NoDup_app in Hnd as (_ & Hd & _). intros H. apply (Hd x H). left. }
    destruct (f_view fx) as [[r v]|] eqn:Ev; cbn [post].
    + exists (done ++ [x]). split; [rewrite <- (assoc_L (++)); exact E|]. split; cbn [fst snd].
      * intros r' v'. destruct (decide (r' = r)) as [->|Hr].
        -- rewrite lookup_insert. split.
           ++ intros (vs & [= <-] & Hin). apply elem_of_app in Hin as [Hin|Hin].
              ** destruct (acc.1 !! r) as [vs|] eqn:Er; cbn in Hin; [|apply elem_of_nil in Hin as []].
                 destruct (proj1 (H1 r v')) as (k' & fr & Hk & Hf); [eauto|]. exists k', fr. split; [apply elem_of_app; auto|exact Hf].
              ** apply elem_of_list_singleton in Hin as ->. exists x, fx. split; [apply elem_of_app; right; left|auto].
           ++ intros (k' & fr & Hk & Hf & E'). eexists. split; [reflexivity|]. apply elem_of_app. apply elem_of_app in Hk as [Hk|Hk].
              ** left. destruct (proj2 (H1 r v')) as (vs & E1 & Hin); [eauto|]. rewrite E1. exact Hin.
              ** right. apply elem_of_list_singleton in Hk as ->. assert (fr = fx) as -> by (eapply has_frame_fun; eassumption). apply elem_of_list_singleton. congruence.
        -- rewrite lookup_insert_ne by congruence. rewrite (H1 r' v'). split; intros (k' & fr & Hk & Hf & E'); exists k', fr.
           ++ split; [apply elem_of_app; auto|auto].
           ++ apply elem_of_app in Hk as [Hk|Hk]; [auto|]. apply elem_of_list_singleton in Hk as ->. assert (fr = fx) as -> by (eapply has_frame_fun; eassumption). congruence.
      * intros k'. rewrite H2, elem_of_app, elem_of_list_singleton. split; [tauto|]. intros [[H| ->] Hf]; [auto|]. destruct Hf as (fr & Hf & E').
        assert (fr = fx) as -> by (eapply has_frame_fun; eassumption). congruence.
      * intros r' vs. destruct (decide (r' = r)) as [->|Hr].
        -- rewrite lookup_insert. intros [= <-]. split; [destruct (default [] (acc.1 !! r)); discriminate|]. apply NoDup_app.
           split; [destruct (acc.1 !! r) as [vs|] eqn:Er; [apply (H3 r vs Er)|constructor]|]. split; [|apply NoDup_singleton].
           intros y Hy Hy'. apply elem_of_list_singleton in Hy' as ->. destruct (acc.1 !! r) as [vs|] eqn:Er; cbn in Hy; [|apply elem_of_nil in Hy as []].
           destruct (proj1 (H1 r v)) as (k' & fr & Hk & Hf & E'); [eauto|]. apply (Hlinks k' fr Hf r v) in E'. apply (Hlinks x fx Hfx r v) in Ev.
           assert (k' = x) as -> by (eapply is_view_of_fun; eassumption). contradiction.
        -- rewrite lookup_insert_ne by congruence. apply H3.
      * exact H4.
    + exists (done ++ [x]). split; [rewrite <- (assoc_L (++)); exact E|]. split; cbn [fst snd].
      * intros r' v'. rewrite (H1 r' v'). split; intros (k' & fr & Hk & Hf & E'); exists k', fr.
        -- split; [apply elem_of_app; auto|auto].
        -- apply elem_of_app in Hk as [Hk|Hk]; [auto|]. apply elem_of_list_singleton in Hk as ->. assert (fr = fx) as -> by (eapply has_frame_fun; eassumption). congruence.
      * intros k'. rewrite !elem_of_app, H2, !elem_of_list_singleton. split; [|tauto]. intros [H| ->]; [tauto|]. eauto.
      * exact H3.
      * apply NoDup_app. split; [exact H4|]. split; [|apply NoDup_singleton]. intros y Hy Hy'. apply elem_of_list_singleton in Hy' as ->. apply H2 in Hy as [Hy _]. contradiction.
  - exists []. split; [reflexivity|]. split; cbn [fst snd].
    + intros r v. split; [intros (vs & H & _); rewrite lookup_empty in H; discriminate|]. intros (k' & fr & H & _). apply elem_of_nil in H as [].
    + intros k'. rewrite elem_of_nil. tauto.
    + intros r vs H. rewrite lookup_empty in H. discriminate.
    + constructor.
  - intros acc (done & E & H). rewrite app_nil_r in E. subst done. exact H.
Qed.

Lemma find_frames_post T d answers k num_similar num_recent threshold :
  base_ok d -> frame_links_exact d -> (exists fr, has_frame d k fr) -> NoDup answers ->
  (T \/ forall x, x ∈ answers -> x ∈ d_lsh d) ->
  post T (find_frames d answers k num_similar num_recent threshold) (fun x => candidates d answers k num_similar num_recent threshold x.1 x.2).
Proof.
  intros Hb Hlinks (fr & Hf) Hnda HT. unfold find_frames. apply post_bind, post_unwrap; [right; exists fr; exact Hf|]. intros fr' Hf'.
  assert (fr' = fr) as -> by (eapply has_frame_fun; [exact Hf'|exact Hf]). clear Hf'.
  destruct (proj2 (bo_positions _ Hb (f_feed fr) (f_feed_frame fr) k)) as (fs & Hfd & _); [eauto|].
  apply post_bind, post_unwrap; [right; exists fs; exact Hfd|]. intros fs' Hfd'. assert (fs' = fs) as -> by (unfold sm_get in Hfd'; unfold has_feed in Hfd; congruence).
  cbv zeta. pose proof (recents_near d k fr fs num_recent Hb Hf Hfd) as Hnear. pose proof (recents_NoDup d k fr fs num_recent Hb Hfd) as Hndr.
  set (recents := recent_frames _ _ _ _) in *.
  apply post_bind. apply (kept_spec T d k fr recents threshold answers _ Hf).
  { destruct HT as [HT|HT]; [left; exact HT|]. right. intros x Hx. apply (bo_lsh _ Hb x). auto. }
  intros kept Hsub Hkept.
  assert (NoDup (recents ++ take num_similar (mjoin kept))) as Hnd.
  { apply NoDup_app. split; [exact Hndr|]. split.
    - intros x Hx Hx'. apply elem_of_take in Hx' as (i & Hx' & _). apply elem_of_list_lookup_2, Hkept in Hx'. tauto.
    - apply (sublist_NoDup _ (mjoin kept)); [apply sublist_take|]. apply (sublist_NoDup _ answers); assumption. }
  eapply post_mono.
  { apply (file_post T d _ Hlinks Hnd). destruct HT as [HT|HT]; [left; exact HT|]. right. intros x Hx. apply elem_of_app in Hx as [Hx|Hx].
    - apply Hnear in Hx as (_ & fx & _ & Hfx & _). eauto.
    - apply elem_of_take in Hx as (i & Hx & _). apply elem_of_list_lookup_2, Hkept in Hx as [Hx _]. apply (bo_lsh _ Hb x). auto. }
  intros [recs free] [H1 H2 H3 H4]. cbn [fst snd] in *. split; [|exact H3|exact H4].
  exists recents, (mjoin kept). cbv zeta. split; [exact Hnear|]. split; [exact Hsub|]. split.
  { intros k'. rewrite Hkept, <- Hnear. reflexivity. }
  split; [exact Hnd|]. split; [|auto]. intros Hk. apply elem_of_app in Hk as [Hk|Hk].
  - apply Hnear in Hk as (_ & _ & _ & _ & Hne & _). congruence.
  - apply elem_of_take in Hk as (i & Hk & _). apply elem_of_list_lookup_2, Hkept in Hk as (_ & Hne & _). congruence.
Qed.
End facts.
