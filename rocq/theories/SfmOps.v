(** Facts about optimisation, filtering, merging of landmarks and normalisation. *)
From stdpp Require Import gmap list.
From Verif Require Import Outcome OutcomeFacts Sfm SfmSpec SfmUse SfmEffects SfmRec SfmTrack SfmData SfmPrim SfmCons SfmApply.

Section facts.
Context {P F : Type} (pmul : P -> P -> P) (pinv : P -> P).
Implicit Types (rc : recon P) (d : vdata P F) (e : env P F).

(** No view is new and no view changes its frame. *)
Definition fewer d d' : Prop := forall r v k, is_view_of d' r v k -> is_view_of d r v k.

Lemma fewer_refl d : fewer d d.
Proof. intros r v k H. exact H. Qed.

Lemma fewer_trans d1 d2 d3 : fewer d1 d2 -> fewer d2 d3 -> fewer d1 d3.
Proof. intros H1 H2 r v k H. auto. Qed.

Lemma fewer_views d d' r rc rc' :
  within (eq r) d d' -> has_recon d r rc -> has_recon d' r rc' ->
  (forall v w', has_view rc' v w' -> exists w, has_view rc v w /\ v_frame w' = v_frame w) -> fewer d d'.
Proof.
  intros Hwi Hr Hr' Hv r0 v k (rc0 & w' & H0 & Hw' & Hk). destruct (decide (r0 = r)) as [->|Hne].
  - assert (rc0 = rc') as -> by (eapply has_recon_fun; eassumption). destruct (Hv v w' Hw') as (w & Hw & E). exists rc, w. split; [exact Hr|]. split; [exact Hw|]. congruence.
  - exists rc0, w'. split; [|auto]. unfold has_recon in *. rewrite <- (wi_recs _ _ _ Hwi r0) by congruence. exact H0.
Qed.

Lemma fewer_frames d d' r rc rc' :
  within (eq r) d d' -> has_recon d r rc -> has_recon d' r rc' ->
  (forall v, v_frame <$> sm_map (r_views rc') !! v = v_frame <$> sm_map (r_views rc) !! v) -> fewer d d'.
Proof.
  intros Hwi Hr Hr' Hv. eapply fewer_views; try eassumption. intros v w' Hw'. specialize (Hv v). unfold has_view in *. rewrite Hw' in Hv. cbn in Hv.
  symmetry in Hv. apply fmap_Some in Hv as (w & Hw & E). eauto.
Qed.

Lemma fewer_gone d d' r : within (eq r) d d' -> sm_map (d_recs d') !! r = None -> fewer d d'.
Proof.
  intros Hwi Hr r0 v k (rc0 & w' & H0 & Hw' & Hk). exists rc0, w'. split; [|auto]. unfold has_recon in *.
  rewrite <- (wi_recs _ _ _ Hwi r0); [exact H0|]. intros <-. congruence.
Qed.

(** Result of an operation which keeps or removes reconstruction [r]. *)
Record kept_or_gone (bad : key -> Prop) (ex : key -> key -> Prop) d (r : key) (x : vdata P F * bool) : Prop := {
  kg_inv : inv bad ex x.1;
  kg_within : within (eq r) d x.1;
  kg_fewer : fewer d x.1;
  kg_flag : if x.2 then exists rc, has_recon x.1 r rc else sm_map (d_recs x.1) !! r = None
}.


Lemma constraint_iterations_post T e bad ex n d r edges :
  orders_ok (e_ord e) -> inv bad ex d -> ~ bad r -> (forall v, ~ ex r v) ->
  (T \/ exists rc, has_recon d r rc) ->
  (T \/ n = 0 \/ (forall rc, has_recon d r rc -> edges_live edges rc) /\ (n <= 1 \/ update_total e /\ edges_symmetric edges)) ->
  post T (constraint_iterations e n d r edges) (fun x => (exists rc, has_recon d r rc) -> kept_or_gone bad ex d r x).
Proof.
  intros Ho. revert d. induction n as [|n IH]; intros d Hinv Hbad Hexr HT HT2; cbn [constraint_iterations].
  - cbn [post]. intros Hr. split; auto using within_refl, fewer_refl.
  - apply post_bind, post_unwrap.
    { destruct HT as [HT|(rc & Hr)]; [left; exact HT|]. right. exists rc. exact Hr. }
    intros rc Hr. change (has_recon d r rc) in Hr. apply post_bind. eapply post_mono.
    { apply (compute_post T e rc edges Ho). destruct HT2 as [HT2|[HT2|[HT2 _]]]; [auto|discriminate|auto]. }
    intros ba ([ups rem] & Haj & ->). cbn [fst]. destruct (3 <=? length ups).
    + apply post_bind. eapply post_mono.
      { apply (apply_bundle_adjust_post T bad ex d r ups rem Hinv Hbad Hexr); [eauto|].
        intros rc' Hr'. assert (rc' = rc) as -> by (eapply has_recon_fun; eassumption). apply (aj_perm _ _ _ _ _ Haj). }
      intros d' (Hinv' & Hwi & rc0 & rc' & Hr0 & Hr' & Had). assert (rc0 = rc) as -> by (eapply has_recon_fun; eassumption).
      eapply post_mono.
      { apply (IH d' Hinv' Hbad Hexr); [right; eauto|].
        destruct HT2 as [HT2|[HT2|[Hlive Hn]]]; [left; exact HT2|discriminate|]. right.
        destruct Hn as [Hn|[Htot Hsym]]; [left; lia|right; split; [|auto]].
        intros rc2 Hr2. assert (rc2 = rc') as -> by (eapply has_recon_fun; eassumption).
          intros v w es Hw Hes. unfold has_view in Hw. rewrite (ad_views _ _ _ _ Had) in Hw. destruct (decide (v ∈ rem)); [discriminate|].
          apply fmap_Some in Hw as (w0 & Hw0 & ->). destruct (Hlive rc Hr v w0 es Hw0 Hes) as [Hne Hes']. split; [exact Hne|].
          intros u p Hu. destruct (Hes' u p Hu) as [wu Hwu]. exists (posed ups u wu). unfold has_view. rewrite (ad_views _ _ _ _ Had).
          destruct (decide (u ∈ rem)) as [Hur|Hur]; [|unfold has_view in Hwu; rewrite Hwu; reflexivity].
          exfalso. pose proof (aj_removed _ _ _ _ _ Haj u Hur) as Hnp. unfold new_pose in Hnp.
          destruct (Hsym v es u p Hes Hu) as [es' Hes2]. rewrite Hes2 in Hnp. destruct Hnp as (wn & xs & _ & _ & Hnp). symmetry in Hnp. apply (Htot _ _ Hnp). }
      intros x Hx _. destruct (Hx ltac:(eauto)) as [A1 A2 A4 A3]. split; auto; [eapply within_trans; eassumption|]. eapply fewer_trans; [|exact A4].
      eapply fewer_views; [exact Hwi|exact Hr|exact Hr'|]. intros v w' Hw'. unfold has_view in Hw'. rewrite (ad_views _ _ _ _ Had) in Hw'. destruct (decide (v ∈ rem)); [discriminate|].
      apply fmap_Some in Hw' as (w & Hw & ->). exists w. split; [exact Hw|]. unfold posed. destruct (list_to_map ups !! v); reflexivity.
    + apply post_bind. eapply post_mono; [apply (remove_reconstruction_post T (e_ord e) bad ex d r Ho Hinv Hexr); eauto|].
      intros d' [Hinv' Hrr]. cbn [post]. intros _. split; cbn [fst snd].
      * exact Hinv'.
      * eapply within_recon_removed; [reflexivity|exact Hrr].
      * eapply fewer_gone; [eapply within_recon_removed; [reflexivity|exact Hrr]|]. rewrite (rr_recs _ _ _ Hrr). cbn. apply lookup_delete.
      * rewrite (rr_recs _ _ _ Hrr). cbn. apply lookup_delete.
Qed.

Lemma apply_constraints_post T e s bad ex d r :
  orders_ok (e_ord e) -> inv bad ex d -> ~ bad r -> (forall v, ~ ex r v) ->
  (T \/ exists rc, has_recon d r rc) -> (T \/ optimization_iterations s <= 1 \/ update_total e) ->
  post T (apply_constraints pmul pinv e s d r) (kept_or_gone bad ex d r).
Proof.
  intros Ho Hinv Hbad Hexr HT HT2. unfold apply_constraints. apply post_bind, post_unwrap.
  { destruct HT as [HT|(rc & Hr)]; [left; exact HT|]. right. exists rc. exact Hr. }
  intros rc Hr. change (has_recon d r rc) in Hr. eapply post_mono.
  { apply (constraint_iterations_post T e bad ex _ d r _ Ho Hinv Hbad Hexr HT).
    destruct HT2 as [HT2|HT2]; [left; exact HT2|]. right. right. split.
    - intros rc' Hr'. assert (rc' = rc) as -> by (eapply has_recon_fun; eassumption).
      apply flatten_edges_live; [exact Ho|]. apply (ok_constraints _ _ (in_good _ _ _ Hinv r rc Hr Hbad)).
    - destruct HT2 as [HT2|HT2]; [left; exact HT2|]. right. split; [exact HT2|]. apply flatten_edges_symmetric. exact Ho. }
  intros x Hx. apply Hx. eauto.
Qed.

(** ** Replacing a reconstruction by one with tracks split *)
Lemma separated_ok d rc rc' : recon_ok d rc -> core rc' -> separated rc rc' -> recon_ok d rc'.
Proof.
  intros Hok Hc Hs. apply core_recon_ok; [exact Hc|]. intros v w' Hw'. pose proof (sep_views _ _ Hs v) as Hv.
  unfold has_view in Hw'. rewrite Hw' in Hv. cbn in Hv. symmetry in Hv. apply fmap_Some in Hv as (w & Hw & [= E1 E2 E3]).
  destruct (ok_entries _ _ Hok v w Hw) as (fr & Hf & Hl). exists fr. rewrite E1, E3. auto.
Qed.

Lemma separated_frames rc rc' v : separated rc rc' -> v_frame <$> sm_map (r_views rc') !! v = v_frame <$> sm_map (r_views rc) !! v.
Proof.
  intros Hs. pose proof (sep_views _ _ Hs v) as Hv. destruct (sm_map (r_views rc') !! v), (sm_map (r_views rc) !! v); cbn in *; congruence.
Qed.

Lemma upd_separated bad ex d r rc rc' :
  inv bad ex d -> has_recon d r rc -> ~ bad r -> core rc' -> separated rc rc' -> inv bad ex (upd d r rc').
Proof.
  intros Hinv Hr Hbad Hc Hs. eapply upd_inv; [exact Hinv|exact Hr| |].
  - eapply separated_ok; [apply (in_good _ _ _ Hinv r rc Hr Hbad)|exact Hc|exact Hs].
  - intros v. apply separated_frames. exact Hs.
Qed.

(** ** Filtering one landmark *)

(** What happens to landmark [l] with observations [m] when it is filtered: [tracks_kept] or
    [scattered] or some observations split off. *)
Record landmark_filtered e d r (l : key) d' : Prop := {
  lf_all : exists rc rc' m X, has_recon d r rc /\ has_landmark rc l m /\ d' = upd d r rc' /\
     split_off X rc rc' /\ (forall x, x ∈ X -> assigned rc x.1 x.2 l) /\ filter_verdict e d r l m rc rc'
}.

Lemma obs_list_length o l (m : landmark) : orders_ok o -> length (obs_list o l m) = size m.
Proof. intros Ho. rewrite (obs_list_perm o l m Ho). reflexivity. Qed.

Lemma filter_landmark_post T e bad ex d r l :
  orders_ok (e_ord e) -> inv bad ex d -> ~ bad r ->
  (T \/ exists rc m, has_recon d r rc /\ has_landmark rc l m) ->
  post T (filter_landmark e r d l) (fun d' => inv bad ex d' /\ landmark_filtered e d r l d').
Proof.
  intros Ho Hinv Hbad HT. unfold filter_landmark. apply post_bind, with_rec_post.
  { destruct HT as [HT|(rc & m & Hr & _)]; eauto. }
  intros rc Hr. apply post_bind, post_unwrap.
  { destruct HT as [HT|(rc' & m & Hr' & Hm)]; [left; exact HT|]. right. exists m.
    assert (rc' = rc) as -> by (eapply has_recon_fun; eassumption). exact Hm. }
  intros m Hm. change (has_landmark rc l m) in Hm. pose proof (in_good _ _ _ Hinv r rc Hr Hbad) as Hok.
  pose proof (recon_ok_core _ _ Hok) as Hc. pose proof (obs_list_length (e_ord e) l m Ho) as Hlen.
  assert (size m <> 0) as Hsz. { intros E. apply (ok_no_empty _ _ Hok l m Hm). apply map_size_empty_iff. exact E. }
  assert (forall rc', (exists X, split_off X rc rc' /\ (forall x, x ∈ X -> assigned rc x.1 x.2 l) /\ filter_verdict e d r l m rc rc') ->
     post T (Ok (rc', tt)) (fun x => post T (let '(d', _) := (upd d r x.1, x.2) in Ok d') (fun d' => inv bad ex d' /\ landmark_filtered e d r l d'))) as Hfin.
  { intros rc' (X & Hso & HX & Hfv). cbn [post fst snd]. split.
    - eapply upd_separated; [exact Hinv|exact Hr|exact Hbad|apply (so_core _ _ _ Hso)|apply (so_sep _ _ _ Hso)].
    - constructor. exists rc, rc', m, X. auto 10. }
  assert (forall rc', split_landmark (e_ord e) rc l = Ok rc' -> exists X, split_off X rc rc' /\ (forall x, x ∈ X -> assigned rc x.1 x.2 l) /\ scattered rc rc' l) as Hsl.
  { intros rc' E. destruct (split_landmark_spec (e_ord e) rc l m Ho Hc Hm) as (rc2 & v & f & rest & El & Hrun & Hso & Hal).
    rewrite E in Hrun. injection Hrun as ->. exists rest. split; [exact Hso|]. split; [|exact Hal].
    intros [v' f'] Hx. apply (ok_mirrored _ _ Hok). exists m. split; [exact Hm|]. cbn. apply (elem_of_obs_list (e_ord e) l m v' f' Ho). rewrite El. right. exact Hx. }
  assert (exists rc', split_landmark (e_ord e) rc l = Ok rc') as [rcs Hrcs].
  { destruct (split_landmark_spec (e_ord e) rc l m Ho Hc Hm) as (rc2 & v & f & rest & _ & Hrun & _). eauto. }
  cbv zeta. rewrite Hlen.
  destruct (size m) as [|[|[|sz]]] eqn:Es; [congruence| | |].
  - cbn [bind]. apply Hfin. exists []. split; [apply split_off_nil; exact Hc|]. split; [intros x Hx; apply elem_of_nil in Hx as []|].
    unfold filter_verdict. rewrite Es. exact Hm.
  - rewrite (obs_readable_ok d rc l m Hok Hm). cbn [assert_]. destruct (e_bi_robust e d r l) eqn:Eb.
    + cbn [bind]. apply Hfin. exists []. split; [apply split_off_nil; exact Hc|]. split; [intros x Hx; apply elem_of_nil in Hx as []|].
      unfold filter_verdict. rewrite Es, Eb. exact Hm.
    + rewrite Hrcs. cbn [bind]. apply Hfin. destruct (Hsl rcs Hrcs) as (X & H1 & H2 & H3). exists X. split; [exact H1|]. split; [exact H2|].
      unfold filter_verdict. rewrite Es, Eb. exact H3.
  - rewrite (obs_readable_ok d rc l m Hok Hm). cbn [assert_]. destruct (e_disagree e d r l) as [bd|] eqn:Eb.
    + destruct (split_list bd (obs_list (e_ord e) l m) rc Hc) as (rc' & Hrun & Hso).
      { intros [v f] Hx. apply (elem_of_obs_list (e_ord e) l m v f Ho) in Hx. exists l. apply (ok_mirrored _ _ Hok). exists m. auto. }
      rewrite Hrun. cbn [bind]. apply Hfin. eexists. split; [exact Hso|]. split.
      * intros [v f] Hx. apply elem_of_list_filter in Hx as [_ Hx]. apply (elem_of_obs_list (e_ord e) l m v f Ho) in Hx. apply (ok_mirrored _ _ Hok). exists m. auto.
      * unfold filter_verdict. rewrite Es, Eb. cbn [Nat.eqb]. intros v f Hv. destruct (bd (v, f)) eqn:Ebd.
        -- apply (so_alone _ _ _ Hso). apply elem_of_list_filter. split; [exact Ebd|]. apply (elem_of_obs_list (e_ord e) l m v f Ho). exact Hv.
        -- apply (so_rest _ _ _ Hso). { intros Hx. apply elem_of_list_filter in Hx as [Hx _]. congruence. }
           apply (ok_mirrored _ _ Hok). exists m. auto.
    + rewrite Hrcs. cbn [bind]. apply Hfin. destruct (Hsl rcs Hrcs) as (X & H1 & H2 & H3). exists X. split; [exact H1|]. split; [exact H2|].
      unfold filter_verdict. rewrite Es, Eb. exact H3.
Qed.

(** ** Passes over all landmarks *)

(** A pass in which every landmark present at the start is processed once, in a state where it
    still has all its observations; [V d r l m rc rc'] is what processing guarantees, for the
    final reconstruction. *)
Record pass_done (V : vdata P F -> key -> landmark -> recon P -> recon P -> Prop) d r d' : Prop := {
  pd_within : within (eq r) d d';
  pd_rec : exists rc rc', has_recon d r rc /\ has_recon d' r rc' /\ core rc' /\ separated rc rc' /\
     forall l m, has_landmark rc l m -> exists dl rcl, within (eq r) d dl /\ has_recon dl r rcl /\ recon_ok dl rcl /\ separated rc rcl /\
       has_landmark rcl l m /\ V dl l m rcl rc'
}.

Lemma pass_post (V : vdata P F -> key -> landmark -> recon P -> recon P -> Prop) T bad ex d r rc (f : vdata P F -> key -> outcome (vdata P F)) (L : list key) (Q : vdata P F -> Prop) :
  inv bad ex d -> ~ bad r -> has_recon d r rc -> L ≡ₚ elements (dom (sm_map (r_lms rc))) ->
  (forall d l m rc, inv bad ex d -> has_recon d r rc -> has_landmark rc l m ->
     post T (f d l) (fun d' => inv bad ex d' /\ exists rc' X, d' = upd d r rc' /\ split_off X rc rc' /\
        (forall x, x ∈ X -> assigned rc x.1 x.2 l) /\ V d l m rc rc')) ->
  (forall d l m rc1 rc2 rc3 X l', V d l m rc1 rc2 -> core rc2 -> split_off X rc2 rc3 -> (forall x, x ∈ X -> assigned rc2 x.1 x.2 l') -> l <> l' ->
     l < sm_next (r_lms rc2) -> separated rc1 rc2 -> has_landmark rc1 l m -> V d l m rc1 rc3) ->
  (forall d', inv bad ex d' -> pass_done V d r d' -> Q d') ->
  post T (foldM f L d) Q.
Proof.
  intros Hinv Hbad Hr HL Hf HV HQ.
  apply (post_foldM T f (fun rest d' => NoDup rest /\ rest ⊆ L /\ inv bad ex d' /\ within (eq r) d d' /\ exists rc', has_recon d' r rc' /\ core rc' /\ separated rc rc' /\
     (forall l, l ∈ rest -> sm_map (r_lms rc') !! l = sm_map (r_lms rc) !! l) /\
     (forall l, l ∈ L -> l < sm_next (r_lms rc')) /\
     forall l m, has_landmark rc l m -> l ∉ rest -> exists dl rcl, within (eq r) d dl /\ has_recon dl r rcl /\ recon_ok dl rcl /\ separated rc rcl /\ separated rcl rc' /\
       has_landmark rcl l m /\ V dl l m rcl rc')).
  - intros l rest d' (Hnd & Hsub & Hinv' & Hwi & rc' & Hr' & Hc' & Hs & Hsame & Hlt & Hdone). apply NoDup_cons in Hnd as [Hl Hnd].
    assert (l ∈ L) as HlL by (apply Hsub; left).
    assert (exists m, has_landmark rc l m) as [m Hm].
    { rewrite HL, elem_of_elements, elem_of_dom in HlL. exact HlL. }
    assert (has_landmark rc' l m) as Hm'. { unfold has_landmark. rewrite Hsame by left. exact Hm. }
    eapply post_mono; [apply (Hf d' l m rc' Hinv' Hr' Hm')|]. intros d2 (Hinv2 & rc2 & X & -> & Hso & HX & Hv).
    pose proof (within_upd (eq r) d' r rc' rc2 eq_refl Hr') as Hwi2.
    split; [exact Hnd|]. split; [intros x Hx; apply Hsub; right; exact Hx|]. split; [exact Hinv2|]. split; [eapply within_trans; eassumption|].
    exists rc2. split; [apply upd_recon_same|]. split; [apply (so_core _ _ _ Hso)|].
    split; [eapply separated_trans; [exact Hs|apply (so_sep _ _ _ Hso)]|].
    split; [|split].
    + intros l' Hl'. rewrite <- (Hsame l') by (right; exact Hl').
      assert (exists m', has_landmark rc l' m') as [m1 Hm1].
      { assert (l' ∈ L) as HlL' by (apply Hsub; right; exact Hl'). rewrite HL, elem_of_elements, elem_of_dom in HlL'. exact HlL'. }
      assert (has_landmark rc' l' m1) as Hm1'. { unfold has_landmark. rewrite Hsame by (right; exact Hl'). exact Hm1. }
      rewrite Hm1'. apply (split_off_other X rc' rc2 l' l m1 Hc' Hso HX); [intros ->; contradiction|exact Hm1'].
    + intros l' Hl'. specialize (Hlt l' Hl'). pose proof (so_next_lms _ _ _ Hso). lia.
    + intros l' m' Hlm Hnin. destruct (decide (l' = l)) as [->|Hne].
      * assert (m' = m) as -> by (unfold has_landmark in *; congruence). exists d', rc'. split; [exact Hwi|]. split; [exact Hr'|]. split; [apply (in_good _ _ _ Hinv' r rc' Hr' Hbad)|]. split; [exact Hs|]. split; [apply (so_sep _ _ _ Hso)|]. auto.
      * destruct (Hdone l' m' Hlm) as (dl & rcl & A1 & A2 & A0 & A3 & A4 & A5 & A6); [rewrite elem_of_cons; tauto|].
        exists dl, rcl. split; [exact A1|]. split; [exact A2|]. split; [exact A0|]. split; [exact A3|]. split; [eapply separated_trans; [exact A4|apply (so_sep _ _ _ Hso)]|]. split; [exact A5|].
        eapply HV; try eassumption; auto. apply Hlt. rewrite HL, elem_of_elements, elem_of_dom. eauto.
  - pose proof (in_good _ _ _ Hinv r rc Hr Hbad) as Hok. split; [rewrite HL; apply NoDup_elements|]. split; [reflexivity|]. split; [exact Hinv|]. split; [apply within_refl|].
    exists rc. split; [exact Hr|]. split; [apply recon_ok_core in Hok; exact Hok|]. split; [apply separated_refl|]. split; [reflexivity|]. split.
    + intros l Hl. rewrite HL, elem_of_elements, elem_of_dom in Hl. destruct Hl as [m Hm]. apply (ok_fresh_lms _ _ Hok) in Hm. exact Hm.
    + intros l m Hm Hnin. exfalso. apply Hnin. rewrite HL, elem_of_elements, elem_of_dom. eauto.
  - intros d' (_ & _ & Hinv' & Hwi & rc' & Hr' & Hc' & Hs & _ & _ & Hdone). apply HQ; [exact Hinv'|]. split; [exact Hwi|].
    exists rc, rc'. split; [exact Hr|]. split; [exact Hr'|]. split; [exact Hc'|]. split; [exact Hs|].
    intros l m Hm. destruct (Hdone l m Hm) as (dl & rcl & A1 & A2 & A0 & A3 & A4 & A5 & A6); [apply not_elem_of_nil|]. exists dl, rcl. auto 10.
Qed.

Lemma scattered_later rc rc2 rc3 l : separated rc2 rc3 -> scattered rc rc2 l -> scattered rc rc3 l.
Proof. intros Hs H x Hx. eapply alone_separated; [exact Hs|]. apply H. exact Hx. Qed.

Lemma filter_verdict_later e r d l m rc1 rc2 rc3 X l' :
  filter_verdict e d r l m rc1 rc2 -> core rc2 -> split_off X rc2 rc3 -> (forall x, x ∈ X -> assigned rc2 x.1 x.2 l') -> l <> l' ->
  filter_verdict e d r l m rc1 rc3.
Proof.
  intros H Hc Hso HX Hne. unfold filter_verdict in *.
  assert (has_landmark rc2 l m -> has_landmark rc3 l m) as Hint by (intros Hm; eapply split_off_other; eassumption).
  assert (scattered rc1 rc2 l -> scattered rc1 rc3 l) as Hsc by (apply scattered_later, (so_sep _ _ _ Hso)).
  destruct (size m =? 1); [auto|]. destruct (size m =? 2); [destruct (e_bi_robust e d r l); auto|].
  destruct (e_disagree e d r l) as [bd|]; [|auto]. intros v f Hv. specialize (H v f Hv). destruct (bd (v, f)).
  - eapply alone_separated; [apply (so_sep _ _ _ Hso)|exact H].
  - apply (so_rest _ _ _ Hso); [|exact H]. intros Hx. apply HX in Hx. apply Hne. eapply assigned_fun; eassumption.
Qed.

Lemma filter_observations_post T e bad ex d r :
  orders_ok (e_ord e) -> inv bad ex d -> ~ bad r -> (forall v, ~ ex r v) -> (T \/ exists rc, has_recon d r rc) ->
  post T (filter_observations e d r) (fun x => kept_or_gone bad ex d r x /\
     exists d1, pass_done (fun dl l m => filter_verdict e dl r l m) d r d1 /\
       (if x.2 then x.1 = d1 else recon_removed r d1 x.1) /\ x.2 = negb (e_too_few e d1 r)).
Proof.
  intros Ho Hinv Hbad Hexr HT. unfold filter_observations. apply post_bind, post_unwrap.
  { destruct HT as [HT|(rc & Hr)]; [left; exact HT|]. right. exists rc. exact Hr. }
  intros rc Hr. change (has_recon d r rc) in Hr. pose proof (in_good _ _ _ Hinv r rc Hr Hbad) as Hok.
  apply post_assert; [right; apply all_readable_ok; exact Hok|]. intros _. apply post_bind.
  apply (pass_post (fun dl l m => filter_verdict e dl r l m) T bad ex d r rc); [exact Hinv|exact Hbad|exact Hr|apply (oo_lms _ Ho)| | |].
  - intros d0 l m rc0 Hinv0 Hr0 Hm0. eapply post_mono; [apply (filter_landmark_post T e bad ex d0 r l Ho Hinv0 Hbad); eauto|].
    intros d' [Hinv' [(rc1 & rc' & m1 & X & Hr1 & Hm1 & -> & Hso & HX & Hfv)]]. split; [exact Hinv'|].
    assert (rc1 = rc0) as -> by (eapply has_recon_fun; eassumption). assert (m1 = m) as -> by (unfold has_landmark in *; congruence).
    exists rc', X. auto.
  - intros. eapply filter_verdict_later; eassumption.
  - intros d1 Hinv1 Hpd. destruct (pd_rec _ _ _ _ Hpd) as (rc0 & rc1 & Hr0 & Hr1 & Hc1 & Hs1 & _).
    apply post_bind, post_unwrap; [right; exists rc1; exact Hr1|]. intros rc1' Hr1'.
    assert (rc1' = rc1) as -> by (eapply has_recon_fun; [exact Hr1'|exact Hr1]).
    apply post_assert; [right; apply all_readable_ok; apply (in_good _ _ _ Hinv1 r rc1 Hr1 Hbad)|]. intros _.
    destruct (e_too_few e d1 r) eqn:Ef.
    + apply post_bind. eapply post_mono; [apply (remove_reconstruction_post T (e_ord e) bad ex d1 r Ho Hinv1 Hexr); eauto|].
      intros d2 [Hinv2 Hrr]. cbn [post]. split; [|exists d1; cbn; rewrite Ef; auto]. split; cbn [fst snd].
      * exact Hinv2.
      * eapply within_trans; [apply (pd_within _ _ _ _ Hpd)|]. eapply within_recon_removed; [reflexivity|exact Hrr].
      * eapply fewer_gone; [eapply within_trans; [apply (pd_within _ _ _ _ Hpd)|]; eapply within_recon_removed; [reflexivity|exact Hrr]|]. rewrite (rr_recs _ _ _ Hrr). cbn. apply lookup_delete.
      * rewrite (rr_recs _ _ _ Hrr). cbn. apply lookup_delete.
    + cbn [post]. split; [|exists d1; cbn; rewrite Ef; auto]. split; cbn [fst snd]; [exact Hinv1|apply (pd_within _ _ _ _ Hpd)| |eauto].
      eapply fewer_frames; [apply (pd_within _ _ _ _ Hpd)|exact Hr0|exact Hr1|]. intros v. apply separated_frames. exact Hs1.
Qed.

Lemma filter_landmarks_post T e bad ex d r :
  orders_ok (e_ord e) -> inv bad ex d -> ~ bad r -> (T \/ exists rc, has_recon d r rc) ->
  post T (filter_landmarks e d r) (fun d' => inv bad ex d' /\ pass_done (robust_verdict e r) d r d').
Proof.
  intros Ho Hinv Hbad HT. unfold filter_landmarks. apply post_bind, post_unwrap.
  { destruct HT as [HT|(rc & Hr)]; [left; exact HT|]. right. exists rc. exact Hr. }
  intros rc Hr. change (has_recon d r rc) in Hr.
  apply (pass_post (robust_verdict e r) T bad ex d r rc); [exact Hinv|exact Hbad|exact Hr|apply (oo_lms _ Ho)| | |auto].
  - intros d0 l m rc0 Hinv0 Hr0 Hm0. pose proof (in_good _ _ _ Hinv0 r rc0 Hr0 Hbad) as Hok.
    pose proof (recon_ok_core _ _ Hok) as Hc. apply post_bind, with_rec_post; [eauto|]. intros rc1 Hr1.
    assert (rc1 = rc0) as -> by (eapply has_recon_fun; eassumption).
    apply post_bind, post_unwrap; [right; exists m; exact Hm0|]. intros m1 Hm1.
    assert (m1 = m) as -> by (unfold sm_get in Hm1; unfold has_landmark in Hm0; congruence).
    apply post_assert; [right; eapply obs_readable_ok; eassumption|]. intros _. unfold robust_verdict. destruct (e_robust e d0 r l).
    + cbn [post fst snd]. split; [eapply upd_separated; try eassumption; apply separated_refl|].
      exists rc0, []. split; [reflexivity|]. split; [apply split_off_nil; exact Hc|]. split; [intros x Hx; apply elem_of_nil in Hx as []|exact Hm0].
    + destruct (split_landmark_spec (e_ord e) rc0 l m Ho Hc Hm0) as (rc2 & v & f & rest & El & Hrun & Hso & Hal).
      rewrite Hrun. cbn [bind post fst snd]. split; [eapply upd_separated; [exact Hinv0|exact Hr0|exact Hbad|apply (so_core _ _ _ Hso)|apply (so_sep _ _ _ Hso)]|].
      exists rc2, rest. split; [reflexivity|]. split; [exact Hso|]. split; [|exact Hal].
      intros [v' f'] Hx. apply (ok_mirrored _ _ Hok). exists m. split; [exact Hm0|]. cbn. apply (elem_of_obs_list (e_ord e) l m v' f' Ho). rewrite El. right. exact Hx.
  - intros d0 l m rc1 rc2 rc3 X l' HV Hc2 Hso HX Hne _ _ _. unfold robust_verdict in *. destruct (e_robust e d0 r l).
    + eapply split_off_other; eassumption.
    + eapply scattered_later; [apply (so_sep _ _ _ Hso)|exact HV].
Qed.

(** ** Optimisation *)
Lemma kept_or_gone_trans bad ex d1 d2 r x : within (eq r) d1 d2 -> fewer d1 d2 -> kept_or_gone bad ex d2 r x -> kept_or_gone bad ex d1 r x.
Proof. intros Hw Hfe [A1 A2 A4 A3]. split; auto; [eapply within_trans; eassumption|eapply fewer_trans; eassumption]. Qed.

Lemma optimize_iterations_post T e s bad ex n d r :
  orders_ok (e_ord e) -> inv bad ex d -> ~ bad r -> (forall v, ~ ex r v) ->
  (exists rc, has_recon d r rc) -> (T \/ optimization_iterations s <= 1 \/ update_total e) ->
  post T (optimize_iterations pmul pinv e s n d r) (kept_or_gone bad ex d r).
Proof.
  intros Ho. revert d. induction n as [|n IH]; intros d Hinv Hbad Hexr Hr HT2; cbn [optimize_iterations].
  - cbn [post]. split; auto using within_refl, fewer_refl.
  - apply post_bind. eapply post_mono; [apply (apply_constraints_post T e s bad ex d r Ho Hinv Hbad Hexr); auto|].
    intros [d1 ok] Hkg. pose proof Hkg as [A1 A2 A4 A3]. cbn [fst snd] in *. destruct ok; [|cbn [post]; exact Hkg].
    apply post_bind. eapply post_mono; [apply (filter_observations_post T e bad ex d1 r Ho A1 Hbad Hexr); auto|].
    intros [d2 ok2] [Hkg2 _]. pose proof Hkg2 as [B1 B2 B4 B3]. cbn [fst snd] in *. destruct ok2.
    + eapply post_mono; [apply (IH d2 B1 Hbad Hexr B3 HT2)|]. intros x Hx. eapply kept_or_gone_trans; [| |exact Hx]; [eapply within_trans; eassumption|eapply fewer_trans; eassumption].
    + cbn [post]. eapply kept_or_gone_trans; [exact A2|exact A4|]. exact Hkg2.
Qed.

Lemma optimize_post T e s bad ex d r :
  orders_ok (e_ord e) -> inv bad ex d -> ~ bad r -> (forall v, ~ ex r v) ->
  (exists rc, has_recon d r rc) -> (T \/ optimization_iterations s <= 1 \/ update_total e) ->
  post T (optimize_reconstruction pmul pinv e s d r) (kept_or_gone bad ex d r).
Proof. apply optimize_iterations_post. Qed.

Lemma regenerate_post T e s bad ex d r :
  env_ok e -> inv bad ex d -> ~ bad r -> (forall v, ~ ex r v) ->
  (T \/ exists rc, has_recon d r rc) -> (T \/ optimization_iterations s <= 1 \/ update_total e) ->
  post T (regenerate_reconstruction pmul pinv e s d r) (kept_or_gone bad ex d r).
Proof.
  intros He Hinv Hbad Hexr HT HT2. pose proof (eo_orders _ He) as Ho. unfold regenerate_reconstruction. apply post_bind, with_rec_post; [exact HT|].
  intros rc Hr. cbn [post fst snd]. pose proof (in_good _ _ _ Hinv r rc Hr Hbad) as Hok.
  set (rc0 := set_cons rc _).
  assert (recon_ok d rc0) as Hok0. { apply set_cons_ok; [exact Hok| |]; intros k c Hk; cbn in Hk; rewrite lookup_empty in Hk; discriminate. }
  assert (inv bad ex (upd d r rc0)) as Hinv0 by (eapply upd_inv; try eassumption; auto).
  apply post_bind.
  apply (post_foldM T _ (fun rest d' => inv bad ex d' /\ within (eq r) d d' /\ rest ⊆ elements (dom (sm_map (r_views rc))) /\ exists rc', has_recon d' r rc' /\ r_views rc' = r_views rc)).
  - intros v rest d' (Hi & Hw & Hsub & rc' & Hr' & Hv'). apply post_bind.
    assert (exists w, has_view rc v w) as [w Hwv]. { specialize (Hsub v ltac:(left)). rewrite elem_of_elements, elem_of_dom in Hsub. exact Hsub. }
    eapply post_mono.
    { apply (record_post T e s bad ex d' r v He Hi Hbad). right. exists rc', w. split; [exact Hr'|]. unfold has_view. rewrite Hv'. exact Hwv. }
    intros [d2 ok] [Hi2 Hrec]. cbn [fst snd] in *. cbn [post]. split; [exact Hi2|]. split; [eapply within_trans; [exact Hw|eapply recorded_within; [reflexivity|exact Hrec]]|].
    split; [intros x Hx; apply Hsub; right; exact Hx|].
    apply recorded_recon in Hrec as (rc1 & rc2 & w1 & Hr1 & _ & Hr2 & E & _). assert (rc1 = rc') as -> by (eapply has_recon_fun; eassumption).
    exists rc2. split; [exact Hr2|]. congruence.
  - split; [exact Hinv0|]. split; [eapply within_upd; [reflexivity|exact Hr]|]. split.
    + intros v Hv. rewrite (oo_views _ Ho) in Hv. exact Hv.
    + exists rc0. split; [apply upd_recon_same|reflexivity].
  - intros d' (Hi & Hw & _ & rc' & Hr' & Ev). eapply post_mono; [apply (optimize_post T e s bad ex d' r Ho Hi Hbad Hexr); eauto|].
    intros x Hx. eapply kept_or_gone_trans; [exact Hw| |exact Hx]. eapply fewer_frames; [exact Hw|exact Hr|exact Hr'|]. intros v. rewrite Ev. reflexivity.
Qed.

(** ** Normalisation *)
Record normalized e d r d' : Prop := {
  no_rec : exists rc v0 w0 rc' vs, has_recon d r rc /\ o_views (e_ord e) (dom (sm_map (r_views rc))) = v0 :: vs /\ has_view rc v0 w0 /\ d' = upd d r rc' /\
     match e_rescale e d r v0 with
     | None => rc' = rc
     | Some f =>
         (forall v, sm_map (r_views rc') !! v = (fun w => set_v_pose w (f (pmul (v_pose w) (pinv (v_pose w0))))) <$> sm_map (r_views rc) !! v) /\
         (forall k, sm_map (r_cons rc') !! k = (fun c => Con3 (c_views c) (f (c_poses c).1, f (c_poses c).2)) <$> sm_map (r_cons rc) !! k) /\
         r_lms rc' = r_lms rc /\ sm_next (r_views rc') = sm_next (r_views rc) /\ sm_next (r_cons rc') = sm_next (r_cons rc)
     end
}.

Lemma normalize_post T e bad ex d r :
  orders_ok (e_ord e) -> inv bad ex d -> ~ bad r -> (T \/ exists rc v w, has_recon d r rc /\ has_view rc v w) ->
  post T (normalize_reconstruction pmul pinv e d r) (fun d' => inv bad ex d' /\ normalized e d r d').
Proof.
  intros Ho Hinv Hbad HT. unfold normalize_reconstruction. apply post_bind, with_rec_post.
  { destruct HT as [HT|(rc & v & w & Hr & _)]; eauto. }
  intros rc Hr. pose proof (in_good _ _ _ Hinv r rc Hr Hbad) as Hok.
  pose proof (oo_views _ Ho (sm_keys (r_views rc))) as Hperm.
  destruct (o_views (e_ord e) (sm_keys (r_views rc))) as [|v0 vs] eqn:E.
  - cbn [post]. destruct HT as [HT|(rc' & v & w & Hr' & Hw)]; [exact HT|]. exfalso.
    assert (rc' = rc) as -> by (eapply has_recon_fun; eassumption).
    assert (v ∈ elements (sm_keys (r_views rc))) as Hv by (apply elem_of_elements, elem_of_dom; eauto).
    rewrite <- Hperm in Hv. apply elem_of_nil in Hv as [].
  - assert (exists w0, has_view rc v0 w0) as [w0 Hw0].
    { assert (v0 ∈ elements (sm_keys (r_views rc))) as Hv by (rewrite <- Hperm; left). apply elem_of_elements in Hv. unfold sm_keys in Hv. apply elem_of_dom in Hv. exact Hv. }
    apply post_bind, post_unwrap; [right; exists w0; exact Hw0|]. intros w0' Hw0'.
    assert (w0' = w0) as -> by (eapply has_view_fun; [exact Hw0'|exact Hw0]).
    apply post_assert.
    { right. apply forallb_forall. intros l Hl%elem_of_list_In. apply elem_of_list_lookup in Hl as [f Hf].
      destruct (view_lm_exists rc v0 w0 f l (ok_mirrored _ _ Hok) Hw0 Hf) as (m & Hm & _). eapply landmark_readable_ok; eassumption. }
    intros _. destruct (e_rescale e d r v0) as [f|] eqn:Ef; cbn [post fst snd].
    + set (rc' := Recon _ _ _).
      assert (recon_ok d rc') as Hok'.
      { apply (same_lists_ok d rc rc' Hok).
        - intros v. unfold rc'. cbn. rewrite lookup_fmap. destruct (_ !! v); reflexivity.
        - reflexivity.
        - reflexivity.
        - intros k c Hk. cbn in *. rewrite lookup_fmap in Hk. apply fmap_Some in Hk as (c0 & Hk & _). apply (ok_fresh_cons _ _ Hok) in Hk. exact Hk.
        - intros k c Hk. unfold has_constraint in *. cbn in Hk. rewrite lookup_fmap in Hk. apply fmap_Some in Hk as (c0 & Hk & ->). exists c0. auto. }
      split.
      * eapply upd_inv; try eassumption. intros v. unfold rc'. cbn. rewrite lookup_fmap. destruct (_ !! v); reflexivity.
      * constructor. exists rc, v0, w0, rc', vs. rewrite Ef. split; [exact Hr|]. split; [exact E|]. split; [exact Hw0|]. split; [reflexivity|].
        repeat split; intros; unfold rc'; cbn; apply lookup_fmap.
    + split; [eapply upd_inv; try eassumption; auto|]. constructor. exists rc, v0, w0, rc, vs. rewrite Ef. auto 10.
Qed.

(** ** Merging landmarks *)
Lemma merge_inv bad ex d r rc a b rc' :
  inv bad ex d -> ~ bad r -> has_recon d r rc -> core rc' -> merged a b rc rc' -> recon_ok d rc' /\ inv bad ex (upd d r rc').
Proof.
  intros Hinv Hbad Hr Hc Hm. pose proof (in_good _ _ _ Hinv r rc Hr Hbad) as Hok.
  assert (recon_ok d rc') as Hok'.
  { apply core_recon_ok; [exact Hc|]. intros v w Hw. unfold has_view in Hw. rewrite (mg_views _ _ _ _ Hm) in Hw.
    apply fmap_Some in Hw as (w0 & Hw0 & ->). cbn. rewrite fmap_length. apply (ok_entries _ _ Hok v w0 Hw0). }
  split; [exact Hok'|]. eapply upd_inv; try eassumption. intros v. rewrite (mg_views _ _ _ _ Hm). destruct (_ !! v); reflexivity.
Qed.

Lemma merge_post T e bad ex d r a b :
  orders_ok (e_ord e) -> inv bad ex d -> ~ bad r ->
  (T \/ exists rc ma mb, has_recon d r rc /\ a <> b /\ has_landmark rc a ma /\ has_landmark rc b mb /\ ma ##ₘ mb) ->
  post T (with_rec d r (fun rc => let! rc' := rec_merge (e_ord e) rc a b in Ok (rc', tt)))
    (fun x => inv bad ex x.1 /\ exists rc rc', has_recon d r rc /\ a <> b /\ merged a b rc rc' /\ x.1 = upd d r rc').
Proof.
  intros Ho Hinv Hbad HT. apply with_rec_post.
  { destruct HT as [HT|(rc & ma & mb & Hr & _)]; eauto. }
  intros rc Hr. pose proof (in_good _ _ _ Hinv r rc Hr Hbad) as Hok. pose proof (recon_ok_core _ _ Hok) as Hc.
  apply post_bind. destruct (rec_merge (e_ord e) rc a b) as [rc'| |] eqn:E; cbn [post].
  - destruct (rec_merge_core (e_ord e) rc a b rc' Ho Hc E) as (Hne & Hm & Hc'). cbn [post fst snd].
    split; [eapply merge_inv; eassumption|]. exists rc, rc'. auto.
  - destruct HT as [HT|(rc' & ma & mb & Hr' & Hne & Ha & Hb & Hd)]; [exact HT|]. assert (rc' = rc) as -> by (eapply has_recon_fun; eassumption).
    destruct (rec_merge_spec (e_ord e) rc a b ma mb Ho (co_mirrored _ Hc) Hne Ha Hb Hd) as (rc' & Hrun & _). congruence.
  - destruct HT as [HT|(rc' & ma & mb & Hr' & Hne & Ha & Hb & Hd)]; [exact HT|]. assert (rc' = rc) as -> by (eapply has_recon_fun; eassumption).
    destruct (rec_merge_spec (e_ord e) rc a b ma mb Ho (co_mirrored _ Hc) Hne Ha Hb Hd) as (rc' & Hrun & _). congruence.
Qed.

(** Merging with deduplication: in every view observing both, one observation is split off. *)
Record dedup_split e d r rc (a b : key) (X : list (key * nat)) rc' (ok : bool) : Prop := {
  dd_split : split_off X rc rc';
  dd_choice : forall v fa fb, assigned rc v fa a -> assigned rc v fb b -> exists rcv, recon_ok d rcv /\ separated rc rcv /\ assigned rcv v fa a /\ assigned rcv v fb b /\
    (v, if e_second_worse e (upd d r rcv) r v fa fb then fb else fa) ∈ X;
  dd_done : if ok then forall v f l, (v, f) ∈ X -> assigned rc v f l -> ~ assigned rc' v f l
            else exists l, (l = a \/ l = b) /\ forall v f, assigned rc v f l -> (v, f) ∈ X;
  dd_from : forall v f, (v, f) ∈ X -> (assigned rc v f a /\ exists f', assigned rc v f' b) \/ (assigned rc v f b /\ exists f', assigned rc v f' a);
  dd_one : forall v fa fb, assigned rc v fa a -> assigned rc v fb b -> (v, fa) ∈ X \/ (v, fb) ∈ X;
  dd_most : forall v f f', (v, f) ∈ X -> (v, f') ∈ X -> f = f'
}.

Lemma merge_dedup_post T e bad ex d r a b :
  orders_ok (e_ord e) -> inv bad ex d -> ~ bad r ->
  (T \/ exists rc ma mb, has_recon d r rc /\ has_landmark rc a ma /\ has_landmark rc b mb) ->
  post T (merge_landmarks_dedup e d r a b) (fun x => inv bad ex x.1 /\ exists rc rc1 rc' X, has_recon d r rc /\ x.1 = upd d r rc' /\ dedup_split e d r rc a b X rc1 (match x.2 with Some _ => true | None => false end) /\
     match x.2 with Some l => l = a /\ a <> b /\ merged a b rc1 rc' | None => rc' = rc1 end).
Proof.
  intros Ho Hinv Hbad HT. unfold merge_landmarks_dedup. apply with_rec_post.
  { destruct HT as [HT|(rc & ma & mb & Hr & _)]; eauto. }
  intros rc Hr. pose proof (in_good _ _ _ Hinv r rc Hr Hbad) as Hok. pose proof (recon_ok_core _ _ Hok) as Hc.
  assert (T \/ exists ma mb, has_landmark rc a ma /\ has_landmark rc b mb) as HT'.
  { destruct HT as [HT|(rc' & ma & mb & Hr' & Ha & Hb)]; [auto|]. right. assert (rc' = rc) as -> by (eapply has_recon_fun; eassumption). eauto. }
  apply post_bind, post_unwrap. { destruct HT' as [HT'|(ma & mb & Ha & Hb)]; [auto|]. right. exists ma. exact Ha. }
  intros ma Ha. change (has_landmark rc a ma) in Ha.
  apply post_bind, post_unwrap. { destruct HT' as [HT'|(ma' & mb & Ha' & Hb)]; [auto|]. right. exists mb. exact Hb. }
  intros mb Hb. change (has_landmark rc b mb) in Hb. clear HT HT'.
  assert (forall v f, ma !! v = Some f <-> assigned rc v f a) as Hma.
  { intros v f. rewrite (co_mirrored _ Hc v f a). split; [intros H; exists ma; auto|]. intros (m & Hm & H). assert (m = ma) as -> by (unfold has_landmark in *; congruence). exact H. }
  assert (forall v f, mb !! v = Some f <-> assigned rc v f b) as Hmb.
  { intros v f. rewrite (co_mirrored _ Hc v f b). split; [intros H; exists mb; auto|]. intros (m & Hm & H). assert (m = mb) as -> by (unfold has_landmark in *; congruence). exact H. }
  cbv zeta. set (dups := omap _ _).
  assert (forall v fa fb, (v, (fa, fb)) ∈ dups <-> assigned rc v fa a /\ assigned rc v fb b) as Hdups.
  { intros v fa fb. unfold dups. rewrite elem_of_list_omap. split.
    - intros ([v' f'] & Hin & E). cbn [fst snd] in E. apply fmap_Some in E as (fb' & Hfb & [= -> -> ->]).
      apply (elem_of_obs_list (e_ord e) a ma v' f' Ho) in Hin. rewrite <- Hma, <- Hmb. auto.
    - intros [H1 H2]. exists (v, fa). split; [apply (elem_of_obs_list (e_ord e) a ma v fa Ho), Hma; exact H1|]. cbn. apply Hmb in H2. rewrite H2. reflexivity. }
  assert (NoDup dups.*1) as Hnd.
  { unfold dups. pose proof (NoDup_obs_list (e_ord e) a ma Ho) as H. revert H. generalize (obs_list (e_ord e) a ma). clear.
    intros L. induction L as [|[v f] L IH]; [constructor|]. cbn [fmap list_fmap fst omap list_omap snd]. intros H. apply NoDup_cons in H as [Hv H].
    destruct (mb !! v) as [fb|] eqn:E; cbn [fmap option_fmap option_map]; [|auto]. cbn [fmap list_fmap fst]. apply NoDup_cons. split; [|auto].
    intros Hin. apply Hv. apply elem_of_list_fmap in Hin as ([v' x] & E1 & Hin). cbn in E1. subst v'. apply elem_of_list_omap in Hin as ([v'' f''] & Hin & E2).
    cbn in E2. apply fmap_Some in E2 as (y & _ & [= -> _]). apply elem_of_list_fmap. exists (v'', f''). auto. }
  apply post_bind.
  apply (post_foldM T _ (fun rest (st : recon P * bool) => NoDup rest.*1 /\ rest ⊆ dups /\ exists X, split_off X rc st.1 /\
     (forall v f, (v, f) ∈ X -> exists fa fb, (v, (fa, fb)) ∈ dups /\ (v, (fa, fb)) ∉ rest /\ (f = fa \/ f = fb)) /\
     (forall v fa fb, (v, (fa, fb)) ∈ dups -> (v, (fa, fb)) ∉ rest -> (v, fa) ∈ X \/ (v, fb) ∈ X) /\
     (forall v f f', (v, f) ∈ X -> (v, f') ∈ X -> f = f') /\
     (st.2 = true -> forall v fa fb, (v, (fa, fb)) ∈ dups -> (v, (fa, fb)) ∉ rest -> ~ (assigned st.1 v fa a /\ assigned st.1 v fb b)) /\
     (forall v fa fb, (v, (fa, fb)) ∈ dups -> (v, (fa, fb)) ∉ rest -> exists rcv, recon_ok d rcv /\ separated rc rcv /\ assigned rcv v fa a /\ assigned rcv v fb b /\
        (v, if e_second_worse e (upd d r rcv) r v fa fb then fb else fa) ∈ X) /\
     if st.2 then forall v f l, (v, f) ∈ X -> assigned rc v f l -> ~ assigned st.1 v f l
     else exists l, (l = a \/ l = b) /\ forall v f, assigned rc v f l -> (v, f) ∈ X)).
  - intros [v [fa fb]] rest [rc1 ok] (Hn & Hsub & X & Hso & HX1 & HX2 & HX3 & Hokf & HX4 & HX5). cbn [fst snd] in *.
    cbn [fmap list_fmap fst] in Hn. apply NoDup_cons in Hn as [Hvr Hn].
    assert ((v, (fa, fb)) ∈ dups) as Hin by (apply Hsub; left). pose proof Hin as Hin'. apply Hdups in Hin' as [Hva Hvb].
    assert (forall f, (v, f) ∉ X) as HvX.
    { intros f Hf. destruct (HX1 v f Hf) as (fa' & fb' & Hd & Hnr & _). apply Hnr. apply Hdups in Hd as [Hd1 Hd2].
      assert (fa' = fa) as -> by (eapply (assigned_inj rc v fa' fa a (co_mirrored _ Hc)); eassumption).
      assert (fb' = fb) as -> by (eapply (assigned_inj rc v fb' fb b (co_mirrored _ Hc)); eassumption). left. }
    assert (assigned rc1 v fa a) as Hva1 by (apply (so_rest _ _ _ Hso); auto).
    assert (assigned rc1 v fb b) as Hvb1 by (apply (so_rest _ _ _ Hso); auto).
    assert (recon_ok d rc1) as Hok1 by (eapply separated_ok; [exact Hok|apply (so_core _ _ _ Hso)|apply (so_sep _ _ _ Hso)]).
    unfold dedup_step.
    assert (forall f l, assigned rc1 v f l -> obs_landmark rc1 v f = Ok l) as Hol.
    { intros f l (w & Hw & Hf). unfold obs_landmark, sm_get. unfold has_view in Hw. rewrite Hw. cbn [unwrap bind]. rewrite Hf. reflexivity. }
    rewrite (Hol fa a Hva1), (Hol fb b Hvb1). cbn [bind].
    assert (forall f l, assigned rc1 v f l -> landmark_readable d rc1 l = true) as Hre.
    { intros f l H. apply (ok_mirrored _ _ Hok1) in H as (m & Hm & _). eapply landmark_readable_ok; eassumption. }
    rewrite (Hre fa a Hva1), (Hre fb b Hvb1). cbn [andb assert_].
    fold (upd d r rc1). set (fx := if e_second_worse _ _ _ _ _ _ then fb else fa).
    assert (exists lx, assigned rc1 v fx lx /\ ((fx = fa /\ lx = a) \/ (fx = fb /\ lx = b))) as (lx & Hlx & Hcase).
    { unfold fx. destruct (e_second_worse _ _ _ _ _ _); eauto. }
    destruct (split_one rc1 v fx lx (so_core _ _ _ Hso) Hlx) as (rc2 & did & Hrun & Hso2 & Hd1 & Hd2 & Hd3).
    rewrite Hrun. cbn [bind post fst snd]. split; [exact Hn|]. split; [intros x Hx; apply Hsub; right; exact Hx|].
    exists (X ++ [(v, fx)]). split; [eapply split_off_app; eassumption|].
    assert (forall fa' fb', (v, (fa', fb')) ∉ rest) as Hnr.
    { intros fa' fb' H. apply Hvr. apply elem_of_list_fmap. exists (v, (fa', fb')). auto. }
    split; [|split; [|split; [|split; [|split]]]].
    + intros v' f Hf. apply elem_of_app in Hf as [Hf|Hf].
      * destruct (HX1 v' f Hf) as (fa' & fb' & A1 & A2 & A3). exists fa', fb'. split; [exact A1|]. split; [|exact A3]. intros H. apply A2. right. exact H.
      * apply elem_of_list_singleton in Hf as [= -> ->]. exists fa, fb. split; [exact Hin|]. split; [apply Hnr|]. destruct Hcase as [[-> _]|[-> _]]; auto.
    + intros v' fa' fb' Hd Hnin. rewrite !elem_of_app, !elem_of_list_singleton.
      destruct (decide ((v', (fa', fb')) = (v, (fa, fb)))) as [[= -> -> ->]|Hne].
      * destruct Hcase as [[-> _]|[-> _]]; auto.
      * destruct (HX2 v' fa' fb' Hd) as [H|H]; [|auto|auto]. rewrite elem_of_cons. tauto.
    + intros v' f f' H1 H2. apply elem_of_app in H1, H2. rewrite elem_of_list_singleton in H1, H2.
      destruct H1 as [H1|[= -> ->]], H2 as [H2|E]; [eauto| | |congruence].
      * injection E as -> ->. exfalso. eapply HvX; exact H1.
      * exfalso. eapply HvX; exact H2.
    + intros E. apply andb_true_iff in E as [E1 E2]. subst ok did. intros v' fa' fb' Hd Hnin.
      destruct (decide ((v', (fa', fb')) = (v, (fa, fb)))) as [[= -> -> ->]|Hne].
      * intros [H1 H2]. apply (Hd1 eq_refl). destruct Hcase as [[-> ->]|[-> ->]]; assumption.
      * intros [H1 H2]. apply (Hokf eq_refl v' fa' fb' Hd); [rewrite elem_of_cons; tauto|].
        assert (v' <> v) as Hv'.
        { intros ->. apply Hne. apply Hdups in Hd as [Hd3' Hd4].
          assert (fa' = fa) as -> by (eapply (assigned_inj rc v fa' fa a (co_mirrored _ Hc)); eassumption).
          assert (fb' = fb) as -> by (eapply (assigned_inj rc v fb' fb b (co_mirrored _ Hc)); eassumption). reflexivity. }
        split; apply (so_rest _ _ _ Hso2); auto; rewrite elem_of_list_singleton; congruence.
    + intros v' fa' fb' Hd Hnin. destruct (decide ((v', (fa', fb')) = (v, (fa, fb)))) as [[= -> -> ->]|Hne].
      * exists rc1. split; [exact Hok1|]. split; [apply (so_sep _ _ _ Hso)|]. split; [exact Hva1|]. split; [exact Hvb1|]. apply elem_of_app. right. apply elem_of_list_singleton. reflexivity.
      * destruct (HX4 v' fa' fb' Hd) as (rcv & A0 & A1 & A2 & A3 & A4); [rewrite elem_of_cons; tauto|]. exists rcv. split; [exact A0|]. split; [exact A1|]. split; [exact A2|]. split; [exact A3|].
        apply elem_of_app. left. exact A4.
    + assert (lx = a \/ lx = b) as Hlab by (destruct Hcase as [[_ ->]|[_ ->]]; auto).
      assert (forall l, assigned rc v fx l -> l = lx) as Hfun.
      { intros l Hl. apply (so_rest _ _ _ Hso) in Hl; [|apply HvX]. destruct Hl as (w & Hw & Hl), Hlx as (w' & Hw' & Hlx). assert (w' = w) as -> by (eapply has_view_fun; eassumption). congruence. }
      destruct ok; cbn [andb].
      * destruct did.
        -- intros v' f l Hf Hl H2. apply elem_of_app in Hf as [Hf|Hf].
           ++ apply (HX5 v' f l Hf Hl). apply (so_rest _ _ _ Hso2) in H2; [exact H2|]. rewrite elem_of_list_singleton. intros [= -> ->]. exact (HvX _ Hf).
           ++ apply elem_of_list_singleton in Hf as [= -> ->]. assert (l = lx) as -> by (apply Hfun; exact Hl). exact (Hd1 eq_refl H2).
        -- exists lx. split; [exact Hlab|]. intros v' f Hl. destruct (decide ((v', f) ∈ X)) as [H|H]; [apply elem_of_app; auto|].
           apply elem_of_app. right. apply elem_of_list_singleton. destruct (Hd3 eq_refl) as [_ Hal]. apply Hal. exists lx. split; [exact Hlx|]. apply (so_rest _ _ _ Hso); assumption.
      * destruct HX5 as (l & Hlab' & Hl). exists l. split; [exact Hlab'|]. intros v' f H. apply elem_of_app. left. apply Hl. exact H.
  - split; [exact Hnd|]. split; [reflexivity|]. exists []. split; [apply split_off_nil; exact Hc|]. split; [intros v f H; apply elem_of_nil in H as []|].
    split; [intros v fa fb H1 H2; contradiction|]. split; [intros v f f' H; apply elem_of_nil in H as []|].
    split; [intros _ v fa fb H1 H2; contradiction|]. split; [intros v fa fb H1 H2; contradiction|]. intros v f l H. apply elem_of_nil in H as [].
  - intros [rc1 ok] (_ & _ & X & Hso & HX1 & HX2 & HX3 & Hokf & HX4 & HX5). cbn [fst snd] in *.
    assert (dedup_split e d r rc a b X rc1 ok) as Hdd.
    { split.
      - exact Hso.
      - intros v fa fb H1 H2. apply HX4; [apply Hdups; auto|apply not_elem_of_nil].
      - exact HX5.
      - intros v f Hf. destruct (HX1 v f Hf) as (fa & fb & A1 & _ & A3). apply Hdups in A1 as [A1 A2]. destruct A3 as [->| ->]; eauto.
      - intros v fa fb H1 H2. apply HX2; [apply Hdups; auto|apply not_elem_of_nil].
      - exact HX3. }
    destruct ok.
    + assert (forall v fa fb, assigned rc1 v fa a -> assigned rc1 v fb b -> False) as Hno.
      { intros v fa fb H1 H2. pose proof (co_lms _ Hc a ma Ha) as Hla. pose proof (co_lms _ Hc b mb Hb) as Hlb.
        pose proof H1 as H1'. pose proof H2 as H2'. apply (so_fresh _ _ _ Hso) in H1' as [H1'|H1']; [|lia]. apply (so_fresh _ _ _ Hso) in H2' as [H2'|H2']; [|lia].
        apply (Hokf eq_refl v fa fb); [apply Hdups; auto|apply not_elem_of_nil|auto]. }
      destruct (so_kept _ _ _ Hso a ma Ha) as (ma1 & Ha1), (so_kept _ _ _ Hso b mb Hb) as (mb1 & Hb1).
      pose proof (so_core _ _ _ Hso) as Hc1.
      assert (a <> b) as Hab.
      { intros ->. assert (mb1 <> ∅) as Hne by (apply (co_no_empty _ Hc1 b mb1 Hb1)). apply map_choose in Hne as (v & f & Hf).
        assert (assigned rc1 v f b) as Has by (apply (co_mirrored _ Hc1); exists mb1; auto). apply (Hno v f f Has Has). }
      destruct (rec_merge_spec (e_ord e) rc1 a b ma1 mb1 Ho (co_mirrored _ Hc1) Hab Ha1 Hb1) as (rc2 & Hrun & Hm).
      { apply map_disjoint_spec. intros v fa fb H1 H2. apply (Hno v fa fb); apply (co_mirrored _ Hc1); eexists; eauto. }
      rewrite Hrun. cbn [bind post fst snd].
      destruct (rec_merge_core (e_ord e) rc1 a b rc2 Ho Hc1 Hrun) as (_ & _ & Hc2).
      split; [|exists rc, rc1, rc2, X; auto 10].
      assert (inv bad ex (upd d r rc1)) as Hinv1 by (eapply upd_separated; [exact Hinv|exact Hr|exact Hbad|exact Hc1|apply (so_sep _ _ _ Hso)]).
      destruct (merge_inv bad ex (upd d r rc1) r rc1 a b rc2 Hinv1 Hbad (upd_recon_same _ _ _) Hc2 Hm) as [Hok2 Hinv2].
      replace (upd d r rc2) with (upd (upd d r rc1) r rc2); [exact Hinv2|]. unfold upd, set_recs, sm_put. cbn. rewrite insert_insert. reflexivity.
    + cbn [post fst snd]. split; [|exists rc, rc1, rc1, X; auto 10].
      eapply upd_separated; [exact Hinv|exact Hr|exact Hbad|apply (so_core _ _ _ Hso)|apply (so_sep _ _ _ Hso)].
Qed.

End facts.
