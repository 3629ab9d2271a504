(** What is left of a frame which was registered and then rejected. *)
From stdpp Require Import gmap list.
From Verif Require Import Outcome OutcomeFacts.
From Verif Require Import Sfm SfmSpec SfmUse SfmEffects SfmRec SfmTrack SfmData SfmPrim SfmCons SfmApply SfmOps SfmReg SfmInc SfmThms SfmTracks.

Section facts.
Context {P F : Type} (pmul : P -> P -> P) (pinv : P -> P).
Implicit Types (rc : recon P) (d : vdata P F) (e : env P F) (fr : frame F).

Lemma observation_facts rc x : observation rc x <-> exists a n, view_facts <$> sm_map (r_views rc) !! x.1 = Some (a, n) /\ x.2 < n.
Proof.
  unfold observation, assigned, has_view. split.
  - intros (l & w & Hw & Hl). exists (v_frame w, v_pose w), (length (v_lms w)). rewrite Hw. split; [reflexivity|]. eapply lookup_lt_Some. exact Hl.
  - intros (a & n & E & Hn). apply fmap_Some in E as (w & Hw & E). injection E as _ ->. apply lookup_lt_is_Some in Hn as [l Hl]. eauto.
Qed.

Lemma same_track_observed rc x y : same_track rc x y -> observation rc x /\ observation rc y.
Proof. intros (l & H1 & H2). split; exists l; assumption. Qed.
Lemma on_pair_observed rc a b x y : on_pair rc a b x y -> observation rc x /\ observation rc y.
Proof. intros [[H1 H2]|[H1 H2]]; split; eexists; eassumption. Qed.

Lemma inserted_deleted d rc k pose existing n v rc1 rc2 : recon_ok d rc ->
  view_inserted rc k pose existing n v rc1 -> view_deleted rc1 v rc2 -> left_behind rc n existing rc2.
Proof.
  intros Hok [Hfresh _ Hoth Hcons Hold _ _] [Hv Hc].
  assert (same_skeleton rc rc2) as Hsk.
  { split.
    - intros v'. destruct (decide (v' = v)) as [->|Hne].
      + rewrite Hfresh. destruct (sm_map (r_views rc2) !! v) as [w|] eqn:E; [|reflexivity]. apply Hv in E as [_ []]. reflexivity.
      + rewrite <- (Hoth v' Hne). f_equal. apply option_eq. intros w. specialize (Hv v' w). unfold has_view in Hv. rewrite Hv. tauto.
    - intros k' c. rewrite Hc. unfold has_constraint in *. rewrite Hcons. split; [tauto|]. intros H. split; [exact H|].
      pose proof (ok_constraints _ _ Hok k' c H) as Hl. unfold names_live_views in Hl. destruct (c_views c) as [[x y] z].
      destruct Hl as (_ & _ & _ & (wx & Hx) & (wy & Hy) & (wz & Hz)). unfold has_view in *. repeat split; intros <-; congruence. }
  assert (forall x, observation rc2 x <-> observation rc x) as Hobs.
  { intros x. rewrite !observation_facts, (proj1 Hsk). reflexivity. }
  split; [exact Hsk|exact Hobs|].
  assert (forall x, observation rc x -> forall l, assigned rc2 x.1 x.2 l <-> assigned rc1 x.1 x.2 l) as Has.
  { intros x (l0 & w0 & Hw0 & _) l. unfold assigned. setoid_rewrite Hv. assert (x.1 <> v) as Hne by (intros E; unfold has_view in Hw0; congruence).
    split; [intros (w & [H _] & Hl); eauto|intros (w & H & Hl); exists w; auto]. }
  intros x y. split.
  - intros H. destruct (same_track_observed _ _ _ H) as [Ox Oy]. apply Hobs in Ox, Oy. apply (Hold x y Ox Oy). destruct H as (l & H1 & H2).
    exists l. split; [apply (Has x Ox)|apply (Has y Oy)]; assumption.
  - intros H. assert (observation rc x /\ observation rc y) as [Ox Oy].
    { destruct H as [H|(f & a & b & _ & _ & H)]; [apply same_track_observed in H|apply on_pair_observed in H]; exact H. }
    apply (Hold x y Ox Oy) in H as (l & H1 & H2). exists l. split; [apply (Has x Ox)|apply (Has y Oy)]; assumption.
Qed.

Lemma relink_relink d k fr fr' x y : relink (relink d k fr x) k fr' y = relink d k fr' y.
Proof. unfold relink, set_frames, sm_put. cbn. rewrite insert_insert. reflexivity. Qed.
Lemma relink_upd d r rc k fr x : upd (relink d k fr x) r rc = relink (upd d r rc) k fr x.
Proof. reflexivity. Qed.
Lemma upd_upd d r rc rc' : upd (upd d r rc) r rc' = upd d r rc'.
Proof. unfold upd, set_recs, sm_put. cbn. rewrite insert_insert. reflexivity. Qed.
Lemma relink_id d k fr : has_frame d k fr -> relink d k fr (f_view fr) = d.
Proof.
  intros Hf. unfold relink, set_frames, sm_put. destruct d as [a b [m nx] c]. unfold has_frame in Hf. cbn in *. rewrite insert_id; [reflexivity|].
  rewrite Hf. destruct fr; reflexivity.
Qed.

Lemma only_inside_upd d r rc : only_inside r d (upd d r rc).
Proof. repeat split. intros r' Hr'. cbn. rewrite lookup_insert_ne by congruence. reflexivity. Qed.

(** Adding a view, finding too few constraints and removing it. *)
Lemma probe_rejected e s d r k pose existing rc fr d1 v d2 d3 :
  env_ok e -> data_ok d -> has_recon d r rc -> has_frame d k fr -> good_matches rc (length (f_feats fr)) existing ->
  add_view (e_ord e) d r k pose existing = Ok (d1, v) -> record_view_constraints e s d1 r v = Ok (d2, false) -> remove_view d2 r v = Ok d3 ->
  exists rc3, recon_ok d rc3 /\ left_behind rc (length (f_feats fr)) existing rc3 /\ d3 = relink (upd d r rc3) k fr None.
Proof.
  intros He Hd Hr Hf Hgm E1 E2 E3. pose proof (proj1 (data_ok_inv d) Hd) as Hinv. pose proof (ok_recons _ Hd r rc Hr) as Hok.
  pose proof (add_view_post True (e_ord e) none1 none2 d r k pose existing fr (eo_orders _ He) Hinv id (fun _ => id) Hf (or_introl I)) as Ha.
  rewrite E1 in Ha. destruct Ha as [Hinv1 [(rc0 & rc1 & fr0 & Hr0 & Hf0 & Ev & Hai & Ed1)]]. { intros rc' Hr'. assert (rc' = rc) as -> by (eapply has_recon_fun; eassumption). exact Hgm. }
  cbn [fst snd] in *. assert (rc0 = rc) as -> by (eapply has_recon_fun; eassumption). assert (fr0 = fr) as -> by (eapply has_frame_fun; eassumption).
  pose proof (record_post True e s _ _ d1 r v He Hinv1 id (or_introl I)) as Hb. rewrite E2 in Hb. destruct Hb as [Hinv2 [(rc1' & w & cs & Hr1 & Hw & _ & _ & Ed2)]]. cbn [fst snd] in *.
  assert (has_recon d1 r rc1) as Hr1' by (rewrite Ed1; apply relink_recon, upd_recon_same). assert (rc1' = rc1) as -> by (eapply has_recon_fun; eassumption).
  assert (d2 = relink (upd d r rc1) k fr (Some (r, v))) as Ed2' by (rewrite Ed2, Ed1, relink_upd, upd_upd; reflexivity).
  assert (view_inserted rc k pose existing (length (f_feats fr)) v rc1) as Hins by (rewrite Ev; eapply view_inserted_ok; [exact Hok|exact Hgm|rewrite <- Ev; exact Hai]).
  assert (~ also_old fr none2 r v) as Hnold.
  { unfold also_old. intros [[]|H]. apply (ok_links _ Hd k fr Hf) in H as (rc' & w' & Hr' & Hw' & _). assert (rc' = rc) as -> by (eapply has_recon_fun; eassumption).
    pose proof (vi_fresh _ _ _ _ _ _ _ Hins). unfold has_view in Hw'. congruence. }
  pose proof (remove_view_post True _ _ d2 r v Hinv2 id Hnold (or_introl I)) as Hc. rewrite E3 in Hc.
  destruct Hc as [_ [(rc1' & rc3 & w3 & fr3 & Hr2 & Hw3 & Hvr & Hf3 & Ed3)]].
  assert (has_recon d2 r rc1) as Hr2' by (rewrite Ed2'; apply relink_recon, upd_recon_same). assert (rc1' = rc1) as -> by (eapply has_recon_fun; eassumption).
  destruct (ai_view _ _ _ _ _ _ _ _ Hai) as (ls & Hv & _). assert (w3 = View k pose ls) as -> by (eapply has_view_fun; eassumption). cbn [v_frame] in *.
  assert (fr3 = set_f_view fr (Some (r, v))) as ->.
  { rewrite Ed2' in Hf3. eapply has_frame_fun; [exact Hf3|]. apply relink_frame; [exact Hf|left; auto]. }
  exists rc3. split; [|split].
  - eapply view_removed_ok; [|exact Hvr]. eapply add_inv_ok; eassumption.
  - eapply inserted_deleted; [exact Hok|exact Hins|]. apply view_removed_deleted. exact Hvr.
  - rewrite Ed3, Ed2', relink_upd, upd_upd, relink_relink. unfold relink. destruct fr; reflexivity.
Qed.

Lemma upd_ok d r rc0 rc : data_ok d -> has_recon d r rc0 -> recon_ok d rc -> same_skeleton rc0 rc -> data_ok (upd d r rc).
Proof.
  intros Hd Hr Hok [Hv _]. apply data_ok_inv. eapply upd_inv; [apply data_ok_inv; exact Hd|exact Hr|exact Hok|]. intros v. specialize (Hv v).
  destruct (sm_map (r_views rc) !! v), (sm_map (r_views rc0) !! v); try discriminate; [|reflexivity]. cbn in *. injection Hv as H _ _. congruence.
Qed.

Lemma incorporate_rejected e s d r k views rc fr d' :
  env_ok e -> data_ok d -> has_recon d r rc -> has_frame d k fr -> f_view fr = None ->
  (forall v, v ∈ views -> exists w, has_view rc v w) ->
  incorporate_frame e s d r k views = Ok (d', false) ->
  (register_frame e s d r k views = Ok None /\ d' = d) \/
  exists pose found rc', register_frame e s d r k views = Ok (Some (pose, found)) /\
    data_ok d' /\ only_inside r d d' /\ has_recon d' r rc' /\ left_behind rc (length (f_feats fr)) (fun f => found !! f) rc'.
Proof.
  intros He Hd Hr Hf Hfree Hvs E. pose proof (ok_recons _ Hd r rc Hr) as Hok.
  pose proof (register_frame_post True e s d r k views rc fr He Hr Hok Hf Hvs (or_introl I)) as Hp.
  unfold incorporate_frame in E. destruct (register_frame e s d r k views) as [[[pose found]|]| |]; cbn [bind] in E; [|left; split; congruence|discriminate..].
  right. exists pose, found. specialize (Hp pose found eq_refl). pose proof (registration_good _ _ _ _ _ _ _ Hok Hp) as Hgm.
  apply bind_ok in E as ([d1 v] & E1 & E). apply bind_ok in E as ([d2 ok] & E2 & E). destruct ok; [congruence|]. apply bind_ok in E as (d3 & E3 & E). injection E as <-.
  destruct (probe_rejected e s d r k pose _ rc fr d1 v d2 d3 He Hd Hr Hf Hgm E1 E2 E3) as (rc3 & Hok3 & Hlb & Ed3).
  assert (d3 = upd d r rc3) as -> by (rewrite Ed3, <- Hfree; apply (relink_id (upd d r rc3) k fr Hf)).
  exists rc3. split; [reflexivity|]. split; [eapply upd_ok; [exact Hd|exact Hr|exact Hok3|apply Hlb]|]. split; [apply only_inside_upd|]. split; [apply upd_recon_same|exact Hlb].
Qed.

Lemma merge_rejected e s d src_k sv dest_k views src rc w fr d' :
  env_ok e -> data_ok d -> src_k <> dest_k -> has_recon d src_k src -> has_view src sv w -> has_recon d dest_k rc -> has_frame d (v_frame w) fr ->
  (forall v, v ∈ views -> exists w, has_view rc v w) ->
  try_merge_reconstructions pmul pinv e s d src_k sv dest_k views = Ok (d', false) ->
  (register_frame e s d dest_k (v_frame w) views = Ok None /\ d' = d) \/
  exists pose found rc', register_frame e s d dest_k (v_frame w) views = Ok (Some (pose, found)) /\
    data_ok d' /\ only_inside dest_k d d' /\ has_recon d' dest_k rc' /\ left_behind rc (length (f_feats fr)) (fun f => found !! f) rc'.
Proof.
  intros He Hd Hne Hs Hw Hr Hf Hvs E. pose proof (ok_recons _ Hd dest_k rc Hr) as Hok.
  assert (f_view fr = Some (src_k, sv)) as Hlink by (apply (ok_links _ Hd (v_frame w) fr Hf); exists src, w; auto).
  pose proof (register_frame_post True e s d dest_k (v_frame w) views rc fr He Hr Hok Hf Hvs (or_introl I)) as Hp.
  unfold try_merge_reconstructions in E. apply bind_ok in E as (src' & Es & E). assert (src' = src) as -> by (unfold sm_get, has_recon in *; rewrite Hs in Es; cbn in Es; congruence).
  apply bind_ok in E as (w' & Ew & E). assert (w' = w) as -> by (unfold sm_get, has_view in *; rewrite Hw in Ew; cbn in Ew; congruence). cbv zeta in E.
  destruct (register_frame e s d dest_k (v_frame w) views) as [[[pose found]|]| |]; cbn [bind] in E; [|left; split; congruence|discriminate..].
  right. exists pose, found. specialize (Hp pose found eq_refl). pose proof (registration_good _ _ _ _ _ _ _ Hok Hp) as Hgm.
  apply bind_ok in E as ([d1 v] & E1 & E). apply bind_ok in E as ([d2 ok] & E2 & E). destruct ok; cbn [negb] in E.
  - exfalso. apply bind_ok in E as (? & _ & E). apply bind_ok in E as ([? ?] & _ & E). apply bind_ok in E as (? & _ & E). congruence.
  - apply bind_ok in E as (d3 & E3 & E). apply bind_ok in E as (d4 & E4 & E). injection E as <-.
    destruct (probe_rejected e s d dest_k (v_frame w) pose _ rc fr d1 v d2 d3 He Hd Hr Hf Hgm E1 E2 E3) as (rc3 & Hok3 & Hlb & Ed3).
    assert (d4 = upd d dest_k rc3) as ->.
    { unfold set_frame_view in E4. apply bind_ok in E4 as (fr' & Ef & E4). injection E4 as <-.
      assert (has_frame d3 (v_frame w) (set_f_view fr None)) as Hf3 by (rewrite Ed3; apply relink_frame; [exact Hf|left; auto]).
      assert (fr' = set_f_view fr None) as -> by (unfold sm_get, has_frame in *; rewrite Hf3 in Ef; cbn in Ef; congruence).
      change (relink d3 (v_frame w) (set_f_view fr None) (Some (src_k, sv)) = upd d dest_k rc3). rewrite Ed3, relink_relink, <- Hlink.
      rewrite <- (relink_id (upd d dest_k rc3) (v_frame w) fr Hf) at 2. unfold relink. destruct fr; reflexivity. }
    exists rc3. split; [reflexivity|]. split; [eapply upd_ok; [exact Hd|exact Hr|exact Hok3|apply Hlb]|]. split; [apply only_inside_upd|]. split; [apply upd_recon_same|exact Hlb].
Qed.
End facts.
