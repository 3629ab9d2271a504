(** Facts about the remaining primitive operations on the whole database: adding a view,
    removing a reconstruction. *)
From stdpp Require Import gmap list.
From Verif Require Import Outcome OutcomeFacts Sfm SfmSpec SfmRec SfmTrack SfmData.

Section facts.
Context {P F : Type}.
Implicit Types (rc : recon P) (d : vdata P F).

Lemma has_recon_fun d r rc rc' : has_recon d r rc -> has_recon d r rc' -> rc = rc'.
Proof. unfold has_recon. congruence. Qed.
Lemma has_view_fun rc v w w' : has_view rc v w -> has_view rc v w' -> w = w'.
Proof. unfold has_view. congruence. Qed.
Lemma has_frame_fun d k fr fr' : has_frame d k fr -> has_frame d k fr' -> fr = fr'.
Proof. unfold has_frame. congruence. Qed.
Lemma is_view_of_fun d r v k k' : is_view_of d r v k -> is_view_of d r v k' -> k = k'.
Proof.
  intros (rc & w & H1 & H2 & H3) (rc' & w' & H1' & H2' & H3').
  assert (rc' = rc) as -> by (eapply has_recon_fun; eassumption).
  assert (w' = w) as -> by (eapply has_view_fun; eassumption). congruence.
Qed.

(** ** A new view in one reconstruction *)
Definition also_old (fr : frame F) (ex : key -> key -> Prop) : key -> key -> Prop :=
  fun r v => ex r v \/ f_view fr = Some (r, v).

Lemma new_view_inv bad ex d r rc rc' k fr v w :
  inv bad ex d -> (forall v, ~ ex r v) -> has_recon d r rc -> recon_ok d rc' ->
  has_frame d k fr -> sm_map (r_views rc) !! v = None ->
  has_view rc' v w -> v_frame w = k ->
  (forall v', v' <> v -> v_frame <$> sm_map (r_views rc') !! v' = v_frame <$> sm_map (r_views rc) !! v') ->
  inv bad (also_old fr ex) (relink (upd d r rc') k fr (Some (r, v))).
Proof.
  intros Hinv Hexr Hr Hok Hk Hnew Hw Hwk Hothers.
  assert (has_frame (upd d r rc') k fr) as Hk' by exact Hk.
  pose proof (relink_base (upd d r rc') k fr (Some (r, v)) Hk') as Hsb.
  pose proof (same_base_trans _ _ _ (upd_base d r rc') Hsb) as Hsb2.
  assert (forall r' v' k', is_view_of (upd d r rc') r' v' k' <-> is_view_of d r' v' k' \/ (r' = r /\ v' = v /\ k' = k)) as Hviews.
  { intros r' v' k'. unfold is_view_of. split.
    - intros (rc1 & w1 & H1 & H2 & H3). apply upd_recon in H1 as [[-> ->]|[Hne H1]].
      + destruct (decide (v' = v)) as [->|Hv].
        * right. assert (w1 = w) as -> by (eapply has_view_fun; eassumption). repeat split; congruence.
        * left. specialize (Hothers v' Hv). unfold has_view in H2. rewrite H2 in Hothers. cbn in Hothers. symmetry in Hothers.
          apply fmap_Some in Hothers as (w0 & Hw0 & E). exists rc, w0. split; [exact Hr|]. split; [exact Hw0|congruence].
      + left. exists rc1, w1. auto.
    - intros [(rc1 & w1 & H1 & H2 & H3)|(-> & -> & ->)].
      + destruct (decide (r' = r)) as [->|Hne].
        * assert (rc1 = rc) as -> by (eapply has_recon_fun; eassumption).
          assert (v' <> v) as Hv by (intros ->; unfold has_view in H2; congruence).
          specialize (Hothers v' Hv). unfold has_view in H2. rewrite H2 in Hothers. cbn in Hothers.
          apply fmap_Some in Hothers as (w0 & Hw0 & E). exists rc', w0. split; [apply upd_recon_same|]. split; [exact Hw0|congruence].
        * exists rc1, w1. split; [apply upd_recon; auto|]. auto.
      + exists rc', w. split; [apply upd_recon_same|]. auto. }
  assert (forall k', ~ is_view_of d r v k') as Hnv.
  { intros k' (rc1 & w1 & H1 & H2 & H3). assert (rc1 = rc) as -> by (eapply has_recon_fun; eassumption). unfold has_view in H2. congruence. }
  split.
  - eapply base_ok_same; [exact Hsb2|apply (in_base _ _ _ Hinv)].
  - intros r' rc1 H1 Hb1. apply relink_recon, upd_recon in H1 as [[-> ->]|[Hne H1]]; (eapply recon_ok_base; [exact Hsb2|]).
    + exact Hok.
    + eapply (in_good _ _ _ Hinv); eassumption.
  - intros r' rc1 H1 v' w' Hw'.
    assert (NoDup (v_lms w') ∧ ∃ fr0 : frame F, has_frame d (v_frame w') fr0 ∧ length (v_lms w') = length (f_feats fr0)) as (Hnd & fr0 & Hf0 & Hl0).
    { apply relink_recon, upd_recon in H1 as [[-> ->]|[Hne H1]].
      - apply (recon_ok_weak d rc' Hok v' w' Hw').
      - apply (in_weak _ _ _ Hinv r' rc1 H1 v' w' Hw'). }
    split; [exact Hnd|]. destruct (same_base_frame _ _ _ fr0 (same_base_sym _ _ Hsb2) Hf0) as (fr2 & Hf2 & _ & _ & E).
    exists fr2. split; [exact Hf2|]. congruence.
  - intros k' fr' Hkf r' v'. rewrite relink_is_view_of, Hviews. unfold also_old.
    apply relink_frame in Hkf as [[-> ->]|[Hne Hkf]]; [| |exact Hk'].
    + cbn. split.
      * intros [= <- <-]. split; [auto|]. intros [H|H]; [eapply Hexr; exact H|].
        apply (in_links _ _ _ Hinv k fr Hk r v) in H as [H _]. eapply Hnv; exact H.
      * intros [[H1|(-> & -> & _)] H2]; [|reflexivity]. exfalso. apply H2.
        destruct (f_view fr) as [[r0 v0]|] eqn:E.
        -- right. f_equal. assert (is_view_of d r' v' k /\ ~ ex r' v') as H3 by tauto.
           apply (in_links _ _ _ Hinv k fr Hk r' v') in H3. congruence.
        -- left. destruct (f_view fr) eqn:E2; [discriminate|]. exfalso. apply H2. left.
           exfalso. assert (is_view_of d r' v' k /\ ~ ex r' v') as H3 by tauto.
           apply (in_links _ _ _ Hinv k fr Hk r' v') in H3. congruence.
    + rewrite (in_links _ _ _ Hinv k' fr' Hkf r' v'). split.
      * intros [H1 H2]. split; [auto|]. intros [H|H]; [exact (H2 H)|].
        apply (in_links _ _ _ Hinv k fr Hk r' v') in H as [H _]. apply Hne. eapply is_view_of_fun; eassumption.
      * intros [[H1|(-> & -> & ->)] H2]; [|congruence]. split; [exact H1|]. tauto.
  - eapply upd_fresh; [apply (in_fresh_recs _ _ _ Hinv)|exact Hr].
Qed.

Record view_added (r k : key) (pose : P) (existing : nat -> option (list key)) d d' (v : key) : Prop := {
  va_rec : exists rc rc' fr, has_recon d r rc /\ has_frame d k fr /\ v = sm_next (r_views rc) /\
     add_inv existing (length (f_feats fr)) k pose v rc (length (f_feats fr)) rc' /\
     d' = relink (upd d r rc') k fr (Some (r, v))
}.

Lemma add_inv_ok d existing k pose v rc fr rc' :
  recon_ok d rc -> has_frame d k fr -> v = sm_next (r_views rc) ->
  add_inv existing (length (f_feats fr)) k pose v rc (length (f_feats fr)) rc' -> recon_ok d rc'.
Proof.
  intros Hok Hk -> Hai. apply core_recon_ok; [apply (ai_core _ _ _ _ _ _ _ _ Hai)|].
  intros v' w Hw. destruct (decide (v' = sm_next (r_views rc))) as [->|Hne].
  - destruct (ai_view _ _ _ _ _ _ _ _ Hai) as (ls & Hv & Hlen & _).
    assert (w = View k pose ls) as -> by (eapply has_view_fun; eassumption). exists fr. auto.
  - unfold has_view in Hw. rewrite (ai_others _ _ _ _ _ _ _ _ Hai v' Hne) in Hw. apply fmap_Some in Hw as (w0 & Hw0 & ->).
    destruct (ok_entries _ _ Hok v' w0 Hw0) as (fr0 & Hf0 & Hl0). exists fr0. cbn. rewrite fmap_length. auto.
Qed.

Lemma add_view_post T o bad ex d r k pose existing fr :
  orders_ok o -> inv bad ex d -> ~ bad r -> (forall v, ~ ex r v) ->
  has_frame d k fr ->
  (T \/ exists rc, has_recon d r rc) ->
  (forall rc, has_recon d r rc -> good_matches rc (length (f_feats fr)) existing) ->
  post T (add_view o d r k pose existing)
    (fun dv => inv bad (also_old fr ex) dv.1 /\ view_added r k pose existing d dv.1 dv.2).
Proof.
  intros Ho Hinv Hbad Hexr Hk HT Hgm. unfold add_view.
  apply post_bind, post_unwrap; [right; exists fr; exact Hk|]. intros fr' Hfr'.
  assert (fr' = fr) as -> by (unfold sm_get in Hfr'; unfold has_frame in Hk; congruence).
  apply post_bind, with_rec_post; [exact HT|]. intros rc Hr.
  pose proof (in_good _ _ _ Hinv r rc Hr Hbad) as Hok.
  destruct (add_loop o existing (length (f_feats fr)) k pose rc Ho (recon_ok_core _ _ Hok) (Hgm rc Hr)) as (rc' & Hrun & Hai).
  rewrite Hrun. cbn [bind post fst snd]. apply post_bind, set_frame_view_post; [right; exists fr; exact Hk|].
  intros fr' Hf'. assert (fr' = fr) as -> by (eapply has_frame_fun; [exact Hf'|exact Hk]). cbn [post fst snd].
  split; [|constructor; exists rc, rc', fr; auto 10].
  destruct (ai_view _ _ _ _ _ _ _ _ Hai) as (ls & Hv & Hlen & _).
  eapply (new_view_inv bad ex d r rc rc' k fr _ (View k pose ls)); try eassumption; auto.
  - eapply add_inv_ok; eauto.
  - apply keys_fresh_next. apply (ok_fresh_views _ _ Hok).
  - intros v' Hv'. rewrite (ai_others _ _ _ _ _ _ _ _ Hai v' Hv'). destruct (sm_map (r_views rc) !! v'); reflexivity.
Qed.

(** ** Removing a reconstruction *)
Definition release (X : list key) (k : key) (fr : frame F) : frame F :=
  if decide (k ∈ X) then set_f_view fr None else fr.

Lemma release_loop rc (L : list key) d :
  (forall v, v ∈ L -> exists w fr, has_view rc v w /\ has_frame d (v_frame w) fr) ->
  exists d', foldM (fun d v => let! w := unwrap (sm_get (r_views rc) v) in set_frame_view d (v_frame w) None) L d = Ok d' /\
    d_recs d' = d_recs d /\ d_feeds d' = d_feeds d /\ d_lsh d' = d_lsh d /\ sm_next (d_frames d') = sm_next (d_frames d) /\
    forall k, sm_map (d_frames d') !! k =
      release (omap (fun v => v_frame <$> sm_map (r_views rc) !! v) L) k <$> sm_map (d_frames d) !! k.
Proof.
  revert d. induction L as [|v L IH]; intros d HL; cbn [foldM].
  - exists d. repeat split; auto. intros k. cbn. unfold release. destruct (sm_map (d_frames d) !! k) eqn:E; [|reflexivity].
    cbn. rewrite decide_False; [reflexivity|]. apply not_elem_of_nil.
  - destruct (HL v ltac:(left)) as (w & fr & Hw & Hf). unfold has_view, has_frame in *.
    unfold sm_get. rewrite Hw. cbn [unwrap bind]. unfold set_frame_view, sm_get. rewrite Hf. cbn [unwrap bind].
    destruct (IH (relink d (v_frame w) fr None)) as (d' & Hrun & H1 & H2 & H3 & H4 & H5).
    { intros v' Hv'. destruct (HL v' ltac:(right; exact Hv')) as (w' & fr' & Hw' & Hf').
      destruct (same_base_frame _ _ _ fr' (same_base_sym _ _ (relink_base d (v_frame w) fr None Hf)) Hf') as (fr2 & Hf2 & _). eauto. }
    exists d'. split; [exact Hrun|]. repeat split; [exact H1|exact H2|exact H3|exact H4|]. intros k. rewrite H5.
    cbn [omap list_omap]. rewrite Hw. cbn [fmap option_fmap option_map relink d_frames set_frames sm_map sm_put].
    set (X := omap _ L). destruct (decide (k = v_frame w)) as [->|Hne].
    + rewrite lookup_insert, Hf. cbn. unfold release at 2. rewrite decide_True by left. unfold release.
      destruct (decide _); reflexivity.
    + rewrite lookup_insert_ne by congruence. destruct (sm_map (d_frames d) !! k); [|reflexivity]. cbn. f_equal. unfold release.
      destruct (decide (k ∈ X)) as [Hin|Hin].
      * rewrite decide_True; [reflexivity|]. right. exact Hin.
      * rewrite decide_False; [reflexivity|]. rewrite elem_of_cons. tauto.
Qed.

(** What removing reconstruction [r] does: it is gone and exactly the frames pointing to it
    are released. *)
Definition points_to (r : key) (fr : frame F) : bool :=
  match f_view fr with Some (r', _) => r' =? r | None => false end.

Record recon_removed (r : key) d d' : Prop := {
  rr_feeds : d_feeds d' = d_feeds d;
  rr_lsh : d_lsh d' = d_lsh d;
  rr_recs : d_recs d' = sm_del r (d_recs d);
  rr_frames : forall k, sm_map (d_frames d') !! k =
      (fun fr => if points_to r fr then set_f_view fr None else fr) <$> sm_map (d_frames d) !! k;
  rr_next : sm_next (d_frames d') = sm_next (d_frames d)
}.

Lemma recon_removed_base r d d' : recon_removed r d d' -> same_base d d'.
Proof.
  intros [H1 H2 H3 H4 H5]. split; auto. intros k. rewrite H4. destruct (sm_map (d_frames d) !! k); [|reflexivity].
  cbn. f_equal. destruct (points_to r f); reflexivity.
Qed.

Lemma del_recon d d' r r' rc : d_recs d' = sm_del r (d_recs d) ->
  (has_recon d' r' rc <-> r' <> r /\ has_recon d r' rc).
Proof. intros E. unfold has_recon. rewrite E. cbn. rewrite lookup_delete_Some. intuition congruence. Qed.

Lemma del_is_view_of d d' r r' v k : d_recs d' = sm_del r (d_recs d) ->
  (is_view_of d' r' v k <-> r' <> r /\ is_view_of d r' v k).
Proof.
  intros E. unfold is_view_of. split.
  - intros (rc & w & H1 & H2 & H3). apply (del_recon d d' r r' rc E) in H1 as [Hne H1]. eauto 10.
  - intros (Hne & rc & w & H1 & H2 & H3). exists rc, w. split; [|auto]. apply (del_recon d d' r r' rc E). auto.
Qed.

(** Removing the entry of a reconstruction no frame points to. *)
Lemma del_inv (bad bad' : key -> Prop) (ex ex' : key -> key -> Prop) d d' r :
  inv bad ex d -> same_base d d' -> d_recs d' = sm_del r (d_recs d) ->
  (forall r', r' <> r -> bad r' -> bad' r') -> (forall r' v, r' <> r -> (ex r' v <-> ex' r' v)) ->
  (forall k fr', has_frame d' k fr' -> exists fr, has_frame d k fr /\
     forall r' v, f_view fr' = Some (r', v) <-> r' <> r /\ f_view fr = Some (r', v)) ->
  inv bad' ex' d'.
Proof.
  intros Hinv Hsb Hrecs Hbad Hex Hframes. split.
  - eapply base_ok_same; [exact Hsb|apply (in_base _ _ _ Hinv)].
  - intros r' rc H Hb. apply (del_recon d d' r r' rc Hrecs) in H as [Hne H]. eapply recon_ok_base; [exact Hsb|].
    apply (in_good _ _ _ Hinv r' rc H). intros Hb'. apply Hb. auto.
  - intros r' rc H v w Hw. apply (del_recon d d' r r' rc Hrecs) in H as [Hne H].
    destruct (in_weak _ _ _ Hinv r' rc H v w Hw) as (Hnd & fr0 & Hf0 & Hl0).
    split; [exact Hnd|]. destruct (same_base_frame _ _ _ fr0 (same_base_sym _ _ Hsb) Hf0) as (fr2 & Hf2 & _ & _ & E).
    exists fr2. split; [exact Hf2|]. congruence.
  - intros k fr' Hf r' v. rewrite (del_is_view_of d d' r r' v k Hrecs). destruct (Hframes k fr' Hf) as (fr & Hfr & Hiff).
    rewrite Hiff, (in_links _ _ _ Hinv k fr Hfr r' v). split.
    + intros (H1 & H2 & H3). split; [auto|]. rewrite <- Hex by assumption. exact H3.
    + intros ((H1 & H2) & H3). rewrite <- Hex in H3 by assumption. auto.
  - rewrite Hrecs. apply keys_fresh_del. apply (in_fresh_recs _ _ _ Hinv).
Qed.

Lemma remove_reconstruction_post T o bad ex d r :
  orders_ok o -> inv bad ex d -> (forall v, ~ ex r v) -> (T \/ exists rc, has_recon d r rc) ->
  post T (remove_reconstruction o d r) (fun d' => inv bad ex d' /\ recon_removed r d d').
Proof.
  intros Ho Hinv Hexr HT. unfold remove_reconstruction. apply post_bind, post_unwrap.
  { destruct HT as [HT|(rc & Hr)]; [left; exact HT|]. right. exists rc. exact Hr. }
  intros rc Hr. change (has_recon d r rc) in Hr.
  destruct (release_loop rc (o_views o (sm_keys (r_views rc))) d) as (d1 & Hrun & H1 & H2 & H3 & H4 & H5).
  { intros v Hv. rewrite (oo_views _ Ho), elem_of_elements in Hv. unfold sm_keys in Hv. apply elem_of_dom in Hv as [w Hw].
    destruct (in_weak _ _ _ Hinv r rc Hr v w Hw) as (_ & fr & Hf & _). exists w, fr. auto. }
  rewrite Hrun. cbn [bind post].
  set (X := omap _ _) in H5.
  assert (forall k, k ∈ X <-> exists v, is_view_of d r v k) as HX.
  { intros k. unfold X. rewrite elem_of_list_omap. split.
    - intros (v & Hv & E). apply fmap_Some in E as (w & Hw & ->). exists v, rc, w. auto.
    - intros (v & rc' & w & Hr' & Hw & <-). assert (rc' = rc) as -> by (eapply has_recon_fun; eassumption).
      exists v. split; [|unfold has_view in Hw; rewrite Hw; reflexivity].
      rewrite (oo_views _ Ho), elem_of_elements. unfold sm_keys. apply elem_of_dom. exists w. exact Hw. }
  assert (recon_removed r d (set_recs d1 (sm_del r (d_recs d1)))) as Hrr.
  { split; cbn; try congruence. intros k. rewrite H5. destruct (sm_map (d_frames d) !! k) as [fr|] eqn:Hk; [|reflexivity]. cbn.
    f_equal. unfold release, points_to. destruct (decide (k ∈ X)) as [Hin|Hin].
    - apply HX in Hin as (v & Hv). destruct (f_view fr) as [[r' v']|] eqn:E.
      + assert (f_view fr = Some (r, v)) as E2. { apply (in_links _ _ _ Hinv k fr Hk r v). split; [exact Hv|apply Hexr]. }
        rewrite E in E2. injection E2 as -> ->. rewrite Nat.eqb_refl. reflexivity.
      + destruct fr; cbn in *; subst; reflexivity.
    - destruct (f_view fr) as [[r' v']|] eqn:E; [|reflexivity]. destruct (r' =? r) eqn:Er; [|reflexivity].
      apply Nat.eqb_eq in Er as ->. exfalso. apply Hin, HX. exists v'. apply (in_links _ _ _ Hinv k fr Hk r v') in E as [E _]. exact E. }
  split; [|exact Hrr].
  eapply (del_inv bad bad ex ex d _ r); [exact Hinv|apply (recon_removed_base r); exact Hrr|apply (rr_recs _ _ _ Hrr)|auto|reflexivity|].
  intros k fr' Hf. unfold has_frame in Hf. rewrite (rr_frames _ _ _ Hrr) in Hf. apply fmap_Some in Hf as (fr & Hfr & ->).
  exists fr. split; [exact Hfr|]. intros r' v. unfold points_to. destruct (f_view fr) as [[r0 v0]|] eqn:E.
  - destruct (r0 =? r) eqn:Er.
    + apply Nat.eqb_eq in Er as ->. cbn. split; [discriminate|]. intros [Hne [= -> ->]]. congruence.
    + rewrite E. apply Nat.eqb_neq in Er. split; [intros [= -> ->]; auto|]. intros [_ H]. exact H.
  - rewrite E. split; [discriminate|]. intros [_ H]. exact H.
Qed.

End facts.
