(** Facts about localising frames and about adding frames and feeds. *)
From stdpp Require Import gmap list.
From Verif Require Import Outcome OutcomeFacts.
From Verif Require Import Sfm SfmSpec SfmUse SfmRec SfmTrack SfmData SfmPrim SfmCons SfmApply SfmOps SfmReg SfmInc SfmFind SfmInit.

Section facts.
Context {P F : Type} (pone : P) (pmul : P -> P -> P) (pinv : P -> P).
Implicit Types (rc : recon P) (d : vdata P F) (e : env P F) (fr : frame F).


Lemma ready_base e s d d' : same_base d d' -> ready e s d -> ready e s d'.
Proof.
  intros Hb [H1 H2 H3]. split; auto. intros k fr Hf. destruct (same_base_frame d d' k fr Hb Hf) as (fr0 & Hf0 & _ & _ & E). rewrite <- E. eauto.
Qed.

Lemma within_sub2 (R : key -> Prop) r d d' : R r -> within (eq r) d d' -> within R d d'.
Proof. intros HR. apply within_mono. intros x <-. exact HR. Qed.

Lemma frame_kept d d' k fr : same_base d d' -> has_frame d k fr -> exists fr', has_frame d' k fr' /\ f_feats fr' = f_feats fr.
Proof. intros Hb Hf. destruct (same_base_frame d' d k fr (same_base_sym _ _ Hb) Hf) as (fr' & Hf' & _ & _ & E). eauto. Qed.

Lemma view_rich T e s d r rc v w : inv none1 none2 d -> has_recon d r rc -> has_view rc v w -> (T \/ ready e s d) -> T \/ rich_view d rc v.
Proof.
  intros Hinv Hr Hw [HT|[H1 _ _]]; [auto|]. right. pose proof (in_good _ _ _ Hinv r rc Hr id) as Hok. destruct (ok_entries _ _ Hok v w Hw) as (fr & Hf & _).
  exists w, fr. split; [exact Hw|]. split; [exact Hf|]. apply (H1 _ _ Hf).
Qed.

Lemma ready_windows T e s d rc k fr vs : (T \/ ready e s d) -> has_frame d k fr -> vs <> [] -> (forall v, v ∈ vs -> T \/ rich_view d rc v) ->
  T \/ window_ok e s (length (f_feats fr)) /\ (f_feats fr = [] \/ exists v, v ∈ vs /\ rich_view d rc v).
Proof.
  intros [HT|[H1 H2 H3]] Hf Hne Hv; [auto|]. destruct vs as [|v vs]; [congruence|]. destruct (Hv v ltac:(left)) as [HT|Hrich]; [auto|]. right. split.
  - split; [apply (H1 _ _ Hf)|auto].
  - right. exists v. split; [left|exact Hrich].
Qed.

(** ** Registering a frame and optimising *)
Record extended d (r k : key) d' : Prop := {
  xt_inv : inv none1 none2 d';
  xt_within : within (eq r) d d';
  xt_links : forall r' v' k', is_view_of d' r' v' k' -> k' = k \/ is_view_of d r' v' k'
}.

Lemma incorporate_and_optimize T e s d r k vs rc fr :
  env_ok e -> inv none1 none2 d -> has_recon d r rc -> has_frame d k fr -> f_view fr = None -> vs <> [] ->
  (forall v, v ∈ vs -> exists w, has_view rc v w) -> (T \/ ready e s d) ->
  post T (let! (d1, ok) := incorporate_frame e s d r k vs in
          if ok : bool then let! (d2, _) := optimize_reconstruction pmul pinv e s d1 r in Ok d2 else Ok d1) (extended d r k).
Proof.
  intros He Hinv Hr Hf Hfree Hne Hvs HT. apply post_bind. eapply post_mono.
  { apply (incorporate_frame_post T e s none1 none2 d r k vs rc fr He Hinv id (fun _ => id) Hr Hf Hfree Hvs).
    apply (ready_windows T e s d rc k fr vs HT Hf Hne). intros v Hv. destruct (Hvs v Hv) as [w Hw]. eapply view_rich; eassumption. }
  intros [d1 ok] [Hi1 Hic]. cbn [fst snd] in *. destruct ok.
  - apply post_bind. eapply post_mono.
    { apply (optimize_post pmul pinv T e s none1 none2 d1 r (eo_orders _ He) Hi1 id (fun _ => id) (ic_recon _ _ _ _ _ Hic)).
      destruct HT as [HT|HT]; [left; exact HT|]. right. apply (rd_updates _ _ _ HT). }
    intros [d2 ok2] [A1 A2 A3 _]. cbn [post fst snd] in *. split; [exact A1| |].
    + eapply within_trans; [apply (ic_within _ _ _ _ _ Hic)|exact A2].
    + intros r' v' k' H. apply (ic_links _ _ _ _ _ Hic). apply A3. exact H.
  - cbn [post]. split; [exact Hi1|apply (ic_within _ _ _ _ _ Hic)|apply (ic_links _ _ _ _ _ Hic)].
Qed.

Lemma find_for_post T e s d k : env_ok e -> inv none1 none2 d -> (exists fr, has_frame d k fr) ->
  post T (find_for e s d k) (fun x => candidates d (e_similar e d k (tracking_similar_frame_search_num s)) k
     (tracking_similar_frames s) (tracking_recent_frames s) (tracking_similar_frame_recent_threshold s) x.1 x.2).
Proof.
  intros He Hinv Hf. destruct (eo_similar _ He d k (tracking_similar_frame_search_num s)) as [H1 H2].
  apply find_frames_post; auto; [apply (in_base _ _ _ Hinv)|]. apply data_ok_inv in Hinv. apply (ok_links _ Hinv).
Qed.

(** Views found by the search exist, found free frames have no view. *)
Lemma candidates_views d answers k n1 n2 n3 recs free r vs : inv none1 none2 d -> candidates d answers k n1 n2 n3 recs free -> recs !! r = Some vs ->
  exists rc, has_recon d r rc /\ vs <> [] /\ forall v, v ∈ vs -> exists w, has_view rc v w.
Proof.
  intros Hinv [(recent & elig & _ & _ & _ & _ & _ & Hrecs & _) Hg _] E. destruct (Hg r vs E) as [Hne _].
  assert (forall v, v ∈ vs -> exists rc w, has_recon d r rc /\ has_view rc v w) as H.
  { intros v Hv. destruct (proj1 (Hrecs r v)) as (k' & fr & _ & Hf & Ev); [eauto|]. apply (in_links _ _ _ Hinv k' fr Hf r v) in Ev as [(rc & w & H1 & H2 & _) _]. eauto. }
  destruct vs as [|v vs]; [congruence|]. destruct (H v ltac:(left)) as (rc & w & Hr & _). exists rc. split; [exact Hr|]. split; [discriminate|].
  intros v' Hv'. destruct (H v' Hv') as (rc' & w' & Hr' & Hw'). assert (rc' = rc) as -> by (eapply has_recon_fun; eassumption). eauto.
Qed.

Lemma candidates_free d answers k n1 n2 n3 recs free k' : candidates d answers k n1 n2 n3 recs free -> k' ∈ free -> k' <> k /\ exists fr, has_frame d k' fr /\ f_view fr = None.
Proof.
  intros [(recent & elig & _ & _ & _ & _ & Hk & _ & Hfree) _ _] H. apply Hfree in H as [H1 H2]. split; [|exact H2]. intros ->. apply Hk. exact H1.
Qed.

Lemma free_not_linked d k fr : inv none1 none2 d -> has_frame d k fr -> (f_view fr = None <-> ~ linked d k).
Proof.
  intros Hinv Hf. split.
  - intros E (r & v & H). assert (f_view fr = Some (r, v)) as E'; [|congruence]. apply (in_links _ _ _ Hinv k fr Hf r v). split; [exact H|intros []].
  - intros H. destruct (f_view fr) as [[r v]|] eqn:E; [|reflexivity]. exfalso. apply H. exists r, v. apply (in_links _ _ _ Hinv k fr Hf r v) in E as [E _]. exact E.
Qed.

Lemma try_localize_and_incorporate_post T e s d r k fr :
  env_ok e -> inv none1 none2 d -> has_frame d k fr -> f_view fr = None -> (T \/ ready e s d) ->
  post T (try_localize_and_incorporate pmul pinv e s d r k) (extended d r k).
Proof.
  intros He Hinv Hf Hfree HT. unfold try_localize_and_incorporate. apply post_bind. eapply post_mono; [apply (find_for_post T e s d k He Hinv); eauto|].
  intros [recs free] Hca. cbn [fst snd] in *. destruct (recs !! r) as [vs|] eqn:E.
  - destruct (candidates_views _ _ _ _ _ _ _ _ _ _ Hinv Hca E) as (rc & Hr & Hne & Hvs). eapply incorporate_and_optimize; eassumption.
  - cbn [post]. split; auto using within_refl.
Qed.

Lemma incorporate_free_post T e s d r free :
  env_ok e -> inv none1 none2 d -> (forall k, k ∈ free -> exists fr, has_frame d k fr) -> (T \/ ready e s d) ->
  post T (incorporate_free pmul pinv e s d r free) (fun d' => inv none1 none2 d' /\ within (eq r) d d').
Proof.
  intros He. revert d. induction free as [|k free IH]; intros d Hinv Hfree HT; cbn [incorporate_free].
  - cbn [post]. split; [exact Hinv|apply within_refl].
  - destruct (Hfree k ltac:(left)) as (fr & Hf). apply post_bind, post_unwrap; [right; exists fr; exact Hf|]. intros fr' Hf'.
    assert (fr' = fr) as -> by (eapply has_frame_fun; [exact Hf'|exact Hf]). destruct (f_view fr) as [x|] eqn:Ev.
    + apply IH; auto. intros k' Hk'. apply Hfree. right. exact Hk'.
    + apply post_bind. eapply post_mono; [apply (try_localize_and_incorporate_post T e s d r k fr He Hinv Hf Ev HT)|].
      intros d1 [A1 A2 _]. destruct (sm_get (d_recs d1) r); [|cbn [post]; auto].
      eapply post_mono.
      { apply (IH d1 A1).
        - intros k' Hk'. destruct (Hfree k' ltac:(right; exact Hk')) as (fk & Hfk). destruct (frame_kept d d1 k' fk (wi_base _ _ _ A2) Hfk) as (fk' & Hfk' & _). eauto.
        - destruct HT as [HT|HT]; [auto|]. right. eapply ready_base; [apply (wi_base _ _ _ A2)|exact HT]. }
      intros d2 [B1 B2]. split; [exact B1|]. eapply within_trans; eassumption.
Qed.

(** ** Localising a frame *)
Record localizing d0 (k : key) (rest : list (key * list key)) d : Prop := {
  lo_inv : inv none1 none2 d;
  lo_base : same_base d0 d;
  lo_links : forall k', linked d k' -> k' = k \/ linked d0 k';
  lo_rest : forall r, r ∈ rest.*1 -> sm_map (d_recs d) !! r = sm_map (d_recs d0) !! r;
  lo_home : forall r v, is_view_of d r v k -> r ∉ rest.*1;
  lo_nodup : NoDup rest.*1;
  lo_views : forall r vs, (r, vs) ∈ rest -> exists rc, has_recon d0 r rc /\ vs <> [] /\ forall v, v ∈ vs -> exists w, has_view rc v w
}.

Lemma localize_step_post T e s d0 k dest vs rest d :
  env_ok e -> localizing d0 k ((dest, vs) :: rest) d -> (exists fr, has_frame d0 k fr) -> (T \/ ready e s d0) ->
  post T (localize_step pmul pinv e s k d (dest, vs)) (localizing d0 k rest).
Proof.
  intros He [Hinv Hb Hl Hrest Hhome Hnd Hviews] (fr0 & Hf0) HT.
  destruct (frame_kept d0 d k fr0 Hb Hf0) as (fr & Hf & _). cbn [fmap list_fmap fst] in *. apply NoDup_cons in Hnd as [Hdr Hnd].
  destruct (Hviews dest vs ltac:(left)) as (rd & Hrd0 & Hne & Hvs).
  assert (has_recon d dest rd) as Hrd. { unfold has_recon. rewrite Hrest by left. exact Hrd0. }
  assert (T \/ ready e s d) as HT'. { destruct HT as [HT|HT]; [auto|]. right. eapply ready_base; eassumption. }
  unfold localize_step. apply post_bind, post_unwrap; [right; exists fr; exact Hf|]. intros fr' Hf'. assert (fr' = fr) as -> by (eapply has_frame_fun; [exact Hf'|exact Hf]).
  assert (localizing d0 k rest d) as Hsame.
  { split; auto.
    - intros r Hr. apply Hrest. right. exact Hr.
    - intros r v Hv Hin. apply (Hhome r v Hv). right. exact Hin.
    - intros r vs' Hin. apply Hviews. right. exact Hin. }
  destruct (f_view fr) as [[src v]|] eqn:Ev.
  - destruct (src =? dest) eqn:Esd; [cbn [post]; exact Hsame|]. apply Nat.eqb_neq in Esd.
    apply (in_links _ _ _ Hinv k fr Hf src v) in Ev as [Hiv _]. pose proof Hiv as (rs & w & Hrs & Hw & Hwk).
    apply post_bind, post_unwrap; [right; exists rs; exact Hrs|]. intros x Hx. assert (x = rs) as -> by (eapply has_recon_fun; [exact Hx|exact Hrs]).
    destruct (3 <=? sm_size (r_views rs)); [|cbn [post]; exact Hsame].
    apply post_bind, post_unwrap; [right; exists rd; exact Hrd|]. intros x' Hx'. assert (x' = rd) as -> by (eapply has_recon_fun; [exact Hx'|exact Hrd]).
    destruct (3 <=? sm_size (r_views rd)); [|cbn [post]; exact Hsame].
    apply post_bind. eapply post_mono.
    { apply (try_merge_post pmul pinv T e s d src v dest vs rs rd w fr He Hinv Esd Hrs Hrd Hw); [rewrite Hwk; exact Hf|exact Hvs|].
      apply (ready_windows T e s d rd k fr vs HT' Hf Hne). intros v' Hv'. destruct (Hvs v' Hv') as [w' Hw']. eapply view_rich; eassumption. }
    intros [d1 ok] [Hi1 Hme]. cbn [fst snd] in *.
    assert (src ∉ rest.*1) as Hsr. { intros Hin. apply (Hhome src v Hiv). right. exact Hin. }
    assert (forall d2, inv none1 none2 d2 -> within (eq dest) d1 d2 -> fewer d1 d2 -> localizing d0 k rest d2) as Hfin.
    { intros d2 Hi2 Hw2 Hfe. split.
      - exact Hi2.
      - eapply same_base_trans; [exact Hb|]. eapply same_base_trans; [apply (me_base _ _ _ _ _ Hme)|apply (wi_base _ _ _ Hw2)].
      - intros k' (r' & v' & H). apply Hl. apply (me_links _ _ _ _ _ Hme). exists r', v'. apply Hfe. exact H.
      - intros r Hr. rewrite (wi_recs _ _ _ Hw2 r) by (intros <-; contradiction). rewrite (me_others _ _ _ _ _ Hme r) by (intros ->; contradiction). apply Hrest. right. exact Hr.
      - intros r' v' H Hin. apply Hfe in H. destruct H as (rc' & w' & H1 & H2 & H3).
        unfold has_recon in H1. rewrite (me_others _ _ _ _ _ Hme r') in H1 by (intros ->; contradiction).
        apply (Hhome r' v'); [exists rc', w'; auto|right; exact Hin].
      - exact Hnd.
      - intros r vs' Hin. apply Hviews. right. exact Hin. }
    destruct ok.
    + apply post_bind. eapply post_mono.
      { apply (optimize_post pmul pinv T e s none1 none2 d1 dest (eo_orders _ He) Hi1 id (fun _ => id) (me_dest _ _ _ _ _ Hme)).
        destruct HT as [HT|HT]; [left; exact HT|]. right. apply (rd_updates _ _ _ HT). }
      intros [d2 ok2] [A1 A2 A3 _]. cbn [post fst snd] in *. apply Hfin; assumption.
    + cbn [post]. apply Hfin; [exact Hi1|apply within_refl|apply fewer_refl].
  - eapply post_mono; [apply (incorporate_and_optimize T e s d dest k vs rd fr He Hinv Hrd Hf Ev Hne Hvs HT')|].
    intros d' [A1 A2 A3]. split.
    + exact A1.
    + eapply same_base_trans; [exact Hb|apply (wi_base _ _ _ A2)].
    + intros k' (r' & v' & H). apply A3 in H as [->|H]; [auto|]. apply Hl. exists r', v'. exact H.
    + intros r Hr. rewrite (wi_recs _ _ _ A2 r) by (intros <-; contradiction). apply Hrest. right. exact Hr.
    + intros r' v' H Hin. destruct H as (rc' & w' & H1 & H2 & H3). unfold has_recon in H1. rewrite (wi_recs _ _ _ A2 r') in H1 by (intros <-; contradiction).
      apply (Hhome r' v'); [exists rc', w'; auto|right; exact Hin].
    + exact Hnd.
    + intros r vs' Hin. apply Hviews. right. exact Hin.
Qed.

Lemma try_localize_post T e s d k recs free answers n1 n2 n3 fr :
  env_ok e -> inv none1 none2 d -> has_frame d k fr -> f_view fr = None -> candidates d answers k n1 n2 n3 recs free -> (T \/ ready e s d) ->
  post T (try_localize pone pmul pinv e s d k recs free) (fun d' => inv none1 none2 d' /\ same_base d d').
Proof.
  intros He Hinv Hf Hfree Hca HT. unfold try_localize. cbv zeta. apply post_bind.
  set (order := omap _ _).
  assert (order.*1 = o_recs (e_ord e) (dom recs)) as Ho1.
  { unfold order. pose proof (oo_recs _ (eo_orders _ He) (dom recs)) as Hp. assert (forall r, r ∈ o_recs (e_ord e) (dom recs) -> exists vs, recs !! r = Some vs) as Hall.
    { intros r Hr. rewrite Hp in Hr. apply elem_of_elements, elem_of_dom in Hr as [vs Hvs]. eauto. }
    clear Hp. induction (o_recs (e_ord e) (dom recs)) as [|r l IH]; [reflexivity|]. cbn. destruct (Hall r ltac:(left)) as [vs ->]. cbn. f_equal. apply IH. intros r' Hr'. apply Hall. right. exact Hr'. }
  assert (forall r vs, (r, vs) ∈ order -> recs !! r = Some vs) as Ho2.
  { intros r vs H. unfold order in H. apply elem_of_list_omap in H as (r' & _ & E). apply fmap_Some in E as (vs' & E & [= -> ->]). exact E. }
  pose proof (proj1 (free_not_linked d k fr Hinv Hf) Hfree) as Hnl.
  apply (post_foldM T _ (fun rest d' => localizing d k rest d')).
  - intros [dest vs] rest d' Hlo. eapply localize_step_post; eauto.
  - split; auto.
    + apply same_base_refl.
    + intros r v H. exfalso. apply Hnl. exists r, v. exact H.
    + rewrite Ho1. rewrite (oo_recs _ (eo_orders _ He)). apply NoDup_elements.
    + intros r vs H. eapply candidates_views; [exact Hinv|exact Hca|]. apply Ho2. exact H.
  - intros d1 [Hi1 Hb1 Hl1 _ _ _ _]. destruct (frame_kept d d1 k fr Hb1 Hf) as (fr1 & Hf1 & _).
    apply post_bind, post_unwrap; [right; exists fr1; exact Hf1|]. intros x Hx. assert (x = fr1) as -> by (eapply has_frame_fun; [exact Hx|exact Hf1]).
    apply post_bind. eapply (post_mono _ _ (fun d2 => inv none1 none2 d2 /\ same_base d1 d2)).
    { destruct (f_view fr1) as [y|] eqn:Ev; [cbn [post]; split; [exact Hi1|apply same_base_refl]|].
      eapply post_mono.
      { apply (try_init_post pone T e s d1 k free fr1 He Hi1 Hf1 Ev (ca_free _ _ _ _ _ _ _ _ Hca)).
        - intros H. destruct (candidates_free _ _ _ _ _ _ _ _ _ Hca H) as [H1 _]. congruence.
        - intros k' Hk'. destruct (candidates_free _ _ _ _ _ _ _ _ _ Hca Hk') as (Hne & fk & Hfk & Ek). destruct (frame_kept d d1 k' fk Hb1 Hfk) as (fk1 & Hfk1 & _).
          exists fk1. split; [exact Hfk1|]. apply (free_not_linked d1 k' fk1 Hi1 Hfk1). intros Hlk. apply Hl1 in Hlk as [->|Hlk]; [congruence|].
          apply (free_not_linked d k' fk Hinv Hfk) in Ek. contradiction. }
      intros d2 [Hi2 [[->|(f1 & f2 & p1 & p2 & m1 & m2 & _ & _ & _ & _ & _ & _ & _ & Hst)]]]; (split; [exact Hi2|]); [apply same_base_refl|apply (st_base _ _ _ _ _ _ _ _ _ _ _ Hst)]. }
    intros d2 [Hi2 Hb2]. pose proof (same_base_trans _ _ _ Hb1 Hb2) as Hb02. destruct (frame_kept d d2 k fr Hb02 Hf) as (fr2 & Hf2 & _).
    apply post_bind, post_unwrap; [right; exists fr2; exact Hf2|]. intros x2 Hx2. assert (x2 = fr2) as -> by (eapply has_frame_fun; [exact Hx2|exact Hf2]).
    destruct (f_view fr2) as [[r v]|]; [|cbn [post]; auto].
    eapply post_mono.
    { apply (incorporate_free_post T e s d2 r free He Hi2).
      - intros k' Hk'. destruct (candidates_free _ _ _ _ _ _ _ _ _ Hca Hk') as (_ & fk & Hfk & _). destruct (frame_kept d d2 k' fk Hb02 Hfk) as (fk' & Hfk' & _). eauto.
      - destruct HT as [HT|HT]; [auto|]. right. eapply ready_base; eassumption. }
    intros d3 [Hi3 Hw3]. split; [exact Hi3|]. eapply same_base_trans; [exact Hb02|apply (wi_base _ _ _ Hw3)].
Qed.

(** ** New frames and feeds *)
Lemma add_feed_inv d : inv none1 none2 d -> inv none1 none2 (add_feed d).1.
Proof.
  intros Hinv. pose proof (in_base _ _ _ Hinv) as [H1 H2 H3 H4]. pose proof (keys_fresh_next _ H4) as Hn.
  destruct Hinv as [_ G1 G2 G3 G4]. split; auto.
  - split; auto.
    + intros fd i k. unfold has_feed. cbn. rewrite <- (H1 fd i k). destruct (decide (sm_next (d_feeds d) = fd)) as [<-|Hne].
      * rewrite lookup_insert. split; [intros (fs & [= <-] & H); rewrite lookup_nil in H; discriminate|]. intros (fs & H & _). unfold has_feed in H. congruence.
      * rewrite lookup_insert_ne by assumption. reflexivity.
    + cbn. apply keys_fresh_ins. exact H4.
  - intros r rc Hr Hb. destruct (G1 r rc Hr Hb). split; auto.
Qed.

Record frame_added d (feed : key) (fs : list F) (k : key) d' : Prop := {
  fa_key : k = sm_next (d_frames d);
  fa_next : sm_next (d_frames d') = k + 1;
  fa_feed : exists old, has_feed d feed old /\ sm_map (d_feeds d') = <[feed := old ++ [k]]> (sm_map (d_feeds d)) /\
     sm_map (d_frames d') = <[k := Frame feed (length old) fs None]> (sm_map (d_frames d));
  fa_recs : d_recs d' = d_recs d;
  fa_lsh : d_lsh d' = d_lsh d ++ [k]
}.

Lemma data_add_frame_post T d feed fs : inv none1 none2 d -> (T \/ exists old, has_feed d feed old) ->
  post T (data_add_frame d feed fs) (fun x => inv none1 none2 x.1 /\ frame_added d feed fs x.2 x.1).
Proof.
  intros Hinv HT. unfold data_add_frame. apply post_bind, post_unwrap.
  { destruct HT as [HT|(old & Hold)]; [left; exact HT|]. right. exists old. exact Hold. }
  intros old Hold. change (has_feed d feed old) in Hold. cbv zeta. cbn [post fst snd]. set (k := sm_next (d_frames d)). set (d' := VData _ _ _ _).
  pose proof (in_base _ _ _ Hinv) as [H1 H2 H3 H4]. pose proof (keys_fresh_next _ H3) as Hn. fold k in Hn.
  assert (forall k' fr, has_frame d' k' fr <-> (k' = k /\ fr = Frame feed (length old) fs None) \/ has_frame d k' fr) as Hfr.
  { intros k' fr. unfold has_frame. cbn. fold k. destruct (decide (k = k')) as [<-|Hne].
    - rewrite lookup_insert, Hn. split; [intros [= <-]; auto|]. intros [[_ ->]|H]; [reflexivity|discriminate].
    - rewrite lookup_insert_ne by assumption. split; [auto|]. intros [[-> _]|H]; [congruence|exact H]. }
  split.
  - destruct Hinv as [_ G1 G2 G3 G4]. split.
    + split.
      * intros fd i k'. unfold has_feed. cbn. fold k. destruct (decide (feed = fd)) as [<-|Hne].
        -- rewrite lookup_insert. split.
           ++ intros (fs' & [= <-] & Hi). apply lookup_app_Some in Hi as [Hi|[Hi1 Hi2]].
              ** destruct (proj1 (H1 feed i k')) as (fr & Hf & E); [eauto|]. exists fr. split; [apply Hfr; auto|exact E].
              ** apply list_lookup_singleton_Some in Hi2 as [Hi2 <-]. exists (Frame feed (length old) fs None). split; [apply Hfr; auto|]. cbn. split; [reflexivity|lia].
           ++ intros (fr & Hf & E1 & E2). eexists. split; [reflexivity|]. apply Hfr in Hf as [[-> ->]|Hf].
              ** cbn in E2. subst i. rewrite lookup_app_r, Nat.sub_diag by lia. reflexivity.
              ** destruct (proj2 (H1 feed i k')) as (fs' & Hfs & Hi); [eauto|]. assert (fs' = old) as -> by (unfold has_feed in *; congruence). apply lookup_app_l_Some. exact Hi.
        -- rewrite lookup_insert_ne by assumption. split.
           ++ intros H. destruct (proj1 (H1 fd i k') H) as (fr & Hf & E). exists fr. split; [apply Hfr; auto|exact E].
           ++ intros (fr & Hf & E1 & E2). apply Hfr in Hf as [[-> ->]|Hf]; [cbn in E1; congruence|]. apply (H1 fd i k'). eauto.
      * intros k'. cbn. fold k. rewrite elem_of_app, elem_of_list_singleton, (H2 k'). split.
        -- intros [(fr & Hf)| ->]; [exists fr; apply Hfr; auto|]. eexists. apply Hfr. left. auto.
        -- intros (fr & Hf). apply Hfr in Hf as [[-> _]|Hf]; [auto|]. left. eauto.
      * cbn. apply keys_fresh_ins. exact H3.
      * cbn. eapply keys_fresh_put; [exact H4|exact Hold].
    + intros r rc Hr Hb. destruct (G1 r rc Hr Hb) as [A1 A2 A3 A4 A5 A6 A7]. split; auto. intros v w Hw. destruct (A3 v w Hw) as (fr & Hf & El). exists fr. split; [apply Hfr; auto|exact El].
    + intros r rc Hr v w Hw. destruct (G2 r rc Hr v w Hw) as (Hnd & fr & Hf & El). split; [exact Hnd|]. exists fr. split; [apply Hfr; auto|exact El].
    + intros k' fr Hf r v. apply Hfr in Hf as [[-> ->]|Hf]; [|apply (G3 k' fr Hf r v)]. cbn. split; [discriminate|].
      intros [(rc & w & Hr & Hw & E) _]. exfalso. destruct (G2 r rc Hr v w Hw) as (_ & fr & Hf & _). rewrite E in Hf. unfold has_frame in Hf. congruence.
    + exact G4.
  - split; try reflexivity; [cbn; lia|]. exists old. auto.
Qed.

Lemma add_frame_post T e s d feed fs : env_ok e -> inv none1 none2 d -> (T \/ exists old, has_feed d feed old) ->
  (T \/ ready e s d /\ 3 <= length fs < e_fuel e) ->
  post T (add_frame pone pmul pinv e s d feed fs) (fun x => inv none1 none2 x.1 /\ exists d1, frame_added d feed fs x.2 d1 /\ same_base d1 x.1).
Proof.
  intros He Hinv HT HT2. unfold add_frame. apply post_bind. eapply post_mono; [apply (data_add_frame_post T d feed fs Hinv HT)|].
  intros [d1 k] [Hi1 Hfa]. cbn [fst snd] in *. destruct (fa_feed _ _ _ _ _ Hfa) as (old & _ & _ & Efr).
  assert (has_frame d1 k (Frame feed (length old) fs None)) as Hf by (unfold has_frame; rewrite Efr; apply lookup_insert).
  apply post_bind. eapply post_mono; [apply (find_for_post T e s d1 k He Hi1); eauto|]. intros [recs free] Hca. cbn [fst snd] in *.
  apply post_bind. eapply post_mono.
  { apply (try_localize_post T e s d1 k recs free _ _ _ _ _ He Hi1 Hf eq_refl Hca). destruct HT2 as [HT2|[HT2 Hlen]]; [auto|]. right. destruct HT2 as [R1 R2 R3]. split; auto.
    intros k' fr' Hf'. unfold has_frame in Hf'. rewrite Efr in Hf'. apply lookup_insert_Some in Hf' as [[_ <-]|[_ Hf']]; [exact Hlen|]. apply (R1 k' fr' Hf'). }
  intros d2 [Hi2 Hb2]. cbn [post fst snd]. split; [exact Hi2|]. eauto.
Qed.

End facts.
