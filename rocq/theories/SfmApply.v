(** Facts about recording and applying constraints. *)
From stdpp Require Import gmap list.
From Verif Require Import Outcome OutcomeFacts Sfm SfmSpec SfmRec SfmTrack SfmData SfmPrim SfmCons.

Section facts.
Context {P F : Type} (pmul : P -> P -> P) (pinv : P -> P).
Implicit Types (rc : recon P) (d : vdata P F) (e : env P F).

(** ** Changes confined to some reconstructions *)
Record within (R : key -> Prop) d d' : Prop := {
  wi_base : same_base d d';
  wi_recs : forall r, ~ R r -> sm_map (d_recs d') !! r = sm_map (d_recs d) !! r;
  wi_sub : forall r rc', has_recon d' r rc' -> exists rc, has_recon d r rc;
  wi_next : sm_next (d_recs d') = sm_next (d_recs d)
}.

Lemma within_refl (R : key -> Prop) d : within R d d.
Proof. split; auto using same_base_refl. intros r rc H. eauto. Qed.

Lemma within_trans (R : key -> Prop) d1 d2 d3 : within R d1 d2 -> within R d2 d3 -> within R d1 d3.
Proof.
  intros [a b c f] [a' b' c' f']. split; [eapply same_base_trans; eassumption| | |congruence].
  - intros r H. rewrite b' by assumption. auto.
  - intros r rc H. destruct (c' r rc H) as (rc' & H'). eauto.
Qed.

Lemma within_mono (R R' : key -> Prop) d d' : (forall r, R r -> R' r) -> within R d d' -> within R' d d'.
Proof. intros H [a b c f]. split; auto. Qed.

Lemma within_upd (R : key -> Prop) d r rc0 rc : R r -> has_recon d r rc0 -> within R d (upd d r rc).
Proof.
  intros HR Hr. split; [apply upd_base| | |reflexivity].
  - intros r' Hr'. cbn. rewrite lookup_insert_ne; [reflexivity|]. intros ->. contradiction.
  - intros r' rc' H. apply upd_recon in H as [[-> ->]|[_ H]]; eauto.
Qed.

Lemma within_relink (R : key -> Prop) d k fr x : has_frame d k fr -> within R d (relink d k fr x).
Proof. intros Hk. split; [apply relink_base; exact Hk|reflexivity| |reflexivity]. intros r rc H. eauto. Qed.

Lemma within_removed_view (R : key -> Prop) d d' r v : R r -> removed_view r v d d' -> within R d d'.
Proof.
  intros HR [(rc & rc' & w & fr & Hr & Hv & _ & Hf & ->)]. eapply within_trans; [eapply within_upd; eassumption|].
  apply within_relink. exact Hf.
Qed.

Lemma within_recon_removed (R : key -> Prop) d d' r : R r -> recon_removed r d d' -> within R d d'.
Proof.
  intros HR H. split; [eapply recon_removed_base; exact H| | |rewrite (rr_recs _ _ _ H); reflexivity].
  - intros r' Hr'. rewrite (rr_recs _ _ _ H). cbn. apply lookup_delete_ne. intros ->. contradiction.
  - intros r' rc' H'. apply (del_recon d d' r r' rc' (rr_recs _ _ _ H)) in H' as [_ H']. eauto.
Qed.

(** ** Recording constraints *)
Lemma ins_many {A} (cs : list A) (m : smap A) :
  let m' := foldl (fun m c => sm_ins c m) m cs in
  keys_fresh m ->
  keys_fresh m' /\ sm_next m' = sm_next m + length cs /\
  (forall k c, sm_map m' !! k = Some c <-> sm_map m !! k = Some c \/ (sm_next m <= k /\ cs !! (k - sm_next m) = Some c)).
Proof.
  revert m. induction cs as [|c cs IH]; intros m; cbn [foldl]; intros Hf.
  - split; [exact Hf|]. split; [cbn; lia|]. intros k c. rewrite lookup_nil. intuition discriminate.
  - destruct (IH (sm_ins c m) (keys_fresh_ins m c Hf)) as (H1 & H2 & H3). split; [exact H1|]. split; [rewrite H2; cbn; lia|].
    intros k c'. rewrite H3. cbn [sm_ins sm_map sm_next].
    destruct (decide (k = sm_next m)) as [->|Hne].
    + rewrite lookup_insert, Nat.sub_diag. cbn [lookup list_lookup]. pose proof (keys_fresh_next m Hf) as Hn. rewrite Hn.
      split; [intros [H|[H _]]; [auto|lia]|]. intros [H|[_ H]]; [discriminate|auto].
    + rewrite lookup_insert_ne by congruence. split.
      * intros [H|[H4 H5]]; [auto|]. right. split; [lia|]. replace (k - sm_next m) with (S (k - S (sm_next m))) by lia. exact H5.
      * intros [H|[H4 H5]]; [auto|]. right. split; [lia|]. replace (k - sm_next m) with (S (k - S (sm_next m))) in H5 by lia. exact H5.
Qed.

Lemma set_cons_ok d rc cs' : recon_ok d rc -> keys_fresh cs' ->
  (forall k c, sm_map cs' !! k = Some c -> names_live_views rc c) -> recon_ok d (set_cons rc cs').
Proof. intros [H1 H2 H3 H4 H5 H6 H7] Hf Hc. split; auto. Qed.

Record recorded e s d r v d' (ok : bool) : Prop := {
  rc_some : exists rc w cs, has_recon d r rc /\ has_view rc v w /\ generated e s d r rc v cs /\
    ok = negb ((length cs <? optimization_minimum_new_constraints s) && (length cs + 1 <? sm_size (r_views rc))) /\
    d' = upd d r (if ok then set_cons rc (foldl (fun m c => sm_ins c m) (r_cons rc) cs) else rc)
}.

Lemma record_post T e s bad ex d r v :
  env_ok e -> inv bad ex d -> ~ bad r -> (T \/ exists rc w, has_recon d r rc /\ has_view rc v w) ->
  post T (record_view_constraints e s d r v) (fun x => inv bad ex x.1 /\ recorded e s d r v x.1 x.2).
Proof.
  intros He Hinv Hbad HT. unfold record_view_constraints. apply post_bind. eapply post_mono.
  { apply (generate_post T e s d r v He); [|exact HT]. intros rc Hr. apply (in_good _ _ _ Hinv r rc Hr Hbad). }
  intros cs (rc & w & Hr & Hw & Hgen). apply with_rec_post; [right; eauto|]. intros rc' Hr'.
  assert (rc' = rc) as -> by (eapply has_recon_fun; eassumption).
  pose proof (in_good _ _ _ Hinv r rc Hr Hbad) as Hok.
  destruct (_ && _) eqn:E; cbn [post fst snd].
  - split; [eapply upd_inv; try eassumption; auto|]. constructor. exists rc, w, cs. rewrite E. auto 10.
  - split; [|constructor; exists rc, w, cs; rewrite E; auto 10].
    eapply upd_inv; try eassumption; auto. destruct (ins_many cs (r_cons rc) (ok_fresh_cons _ _ Hok)) as (H1 & _ & H3).
    apply set_cons_ok; [exact Hok|exact H1|]. intros k c Hk. apply H3 in Hk as [Hk|[_ Hk]].
    + apply (ok_constraints _ _ Hok k c Hk).
    + destruct (ge_each _ _ _ _ _ _ _ Hgen c) as (ls & Hls & _); [eapply elem_of_list_lookup_2; exact Hk|].
      apply (triple_ok_live _ _ _ _ _ _ _ _ Hls).
Qed.

Lemma recorded_recon e s d r v d' ok : recorded e s d r v d' ok ->
  exists rc rc' w, has_recon d r rc /\ has_view rc v w /\ has_recon d' r rc' /\ r_views rc' = r_views rc /\ r_lms rc' = r_lms rc /\ d' = upd d r rc'.
Proof.
  intros [(rc & w & cs & Hr & Hw & _ & _ & ->)]. exists rc. eexists _, w. split; [exact Hr|]. split; [exact Hw|]. split; [apply upd_recon_same|].
  destruct ok; auto.
Qed.

Lemma recorded_within (R : key -> Prop) e s d r v d' ok : R r -> recorded e s d r v d' ok -> within R d d'.
Proof. intros HR H. apply recorded_recon in H as (rc & rc' & w & Hr & _ & _ & _ & _ & ->). eapply within_upd; eassumption. Qed.

(** ** Edges *)
Definition edge_list (o : orders) rc : list (key * (key * P)) :=
  mjoin (edge_constraints pmul pinv <$> omap (fun k => sm_get (r_cons rc) k) (o_cons o (sm_keys (r_cons rc)))).

Lemma group_lookup {A} (L : list (key * A)) (acc : gmap key (list A)) v :
  foldl (fun acc ve => <[ve.1 := default [] (acc !! ve.1) ++ [ve.2]]> acc) acc L !! v =
    match omap (fun ve => if decide (ve.1 = v) then Some ve.2 else None) L with
    | [] => acc !! v
    | es => Some (default [] (acc !! v) ++ es)
    end.
Proof.
  revert acc. induction L as [|[x a] L IH]; intros acc; cbn [foldl omap list_omap fst snd]; [reflexivity|].
  rewrite IH. destruct (decide (x = v)) as [->|Hne].
  - rewrite lookup_insert. simpl. destruct (omap _ L) as [|e es]; [reflexivity|]. rewrite <- (assoc_L (++)). reflexivity.
  - rewrite lookup_insert_ne by assumption. reflexivity.
Qed.

Lemma flatten_lookup o rc v :
  flatten_constraints pmul pinv o rc !! v =
    match omap (fun ve => if decide (ve.1 = v) then Some ve.2 else None) (edge_list o rc) with [] => None | es => Some es end.
Proof.
  unfold flatten_constraints. fold (edge_list o rc). rewrite group_lookup, lookup_empty. cbn [default].
  destruct (omap _ _); reflexivity.
Qed.

Lemma elem_of_edge_list o rc v x : orders_ok o ->
  (v, x) ∈ edge_list o rc <-> exists k c, has_constraint rc k c /\ (v, x) ∈ edge_constraints pmul pinv c.
Proof.
  intros Ho. unfold edge_list. rewrite elem_of_list_join. split.
  - intros (l & Hx & Hl). apply elem_of_list_fmap in Hl as (c & -> & Hc). apply elem_of_list_omap in Hc as (k & _ & Hk). exists k, c. auto.
  - intros (k & c & Hk & Hx). exists (edge_constraints pmul pinv c). split; [exact Hx|]. apply elem_of_list_fmap. exists c. split; [reflexivity|].
    apply elem_of_list_omap. exists k. split; [|exact Hk]. rewrite (oo_cons _ Ho), elem_of_elements. unfold sm_keys. apply elem_of_dom. eauto.
Qed.

Lemma flatten_Some o rc v es : orders_ok o -> flatten_constraints pmul pinv o rc !! v = Some es ->
  es <> [] /\ forall x, x ∈ es <-> exists k c, has_constraint rc k c /\ (v, x) ∈ edge_constraints pmul pinv c.
Proof.
  intros Ho. rewrite flatten_lookup. set (L := omap _ _).
  assert (forall x, x ∈ L <-> (v, x) ∈ edge_list o rc) as HL.
  { intros x. unfold L. rewrite elem_of_list_omap. split.
    - intros ([v' x'] & H1 & H2). cbn in H2. destruct (decide (v' = v)) as [->|]; [|discriminate]. injection H2 as ->. exact H1.
    - intros H. exists (v, x). split; [exact H|]. cbn. rewrite decide_True by reflexivity. reflexivity. }
  destruct L as [|x0 L0] eqn:E; [discriminate|]. intros [= <-]. split; [discriminate|].
  intros x. rewrite HL. apply elem_of_edge_list. exact Ho.
Qed.

Lemma flatten_None o rc v : orders_ok o -> flatten_constraints pmul pinv o rc !! v = None ->
  forall x k c, has_constraint rc k c -> (v, x) ∉ edge_constraints pmul pinv c.
Proof.
  intros Ho. rewrite flatten_lookup. set (L := omap _ _). destruct L as [|x0 L0] eqn:E; [|discriminate]. intros _ x k c Hk Hx.
  assert (x ∈ L) as Hin; [|rewrite E in Hin; apply elem_of_nil in Hin as []].
  unfold L. apply elem_of_list_omap. exists (v, x). cbn. rewrite decide_True by reflexivity. split; [|reflexivity].
  apply elem_of_edge_list; eauto.
Qed.

Lemma edge_views (c : constraint3 P) v u p : (v, (u, p)) ∈ edge_constraints pmul pinv c ->
  con_has c v = true /\ con_has c u = true /\ exists p', (u, (v, p')) ∈ edge_constraints pmul pinv c.
Proof.
  unfold edge_constraints, con_has. destruct (c_views c) as [[a b] z], (c_poses c) as [p1 p2]. intros H.
  repeat (apply elem_of_cons in H as [H|H]; [injection H as -> -> ->; rewrite !Nat.eqb_refl, ?orb_true_r;
    split; [reflexivity|]; split; [reflexivity|]; eexists; rewrite !elem_of_cons; eauto 10|]).
  apply elem_of_nil in H as [].
Qed.

Lemma con_has_view rc c v : names_live_views rc c -> con_has c v = true -> exists w, has_view rc v w.
Proof.
  unfold names_live_views, con_has. destruct (c_views c) as [[a b] z]. intros (_ & _ & _ & Ha & Hb & Hz) H.
  apply orb_true_iff in H as [H|H]; [apply orb_true_iff in H as [H|H]|]; apply Nat.eqb_eq in H as ->; assumption.
Qed.

Definition edges_live (edges : gmap key (list (key * P))) rc : Prop :=
  forall v w es, has_view rc v w -> edges !! v = Some es -> es <> [] /\ forall u p, (u, p) ∈ es -> exists w', has_view rc u w'.

Definition edges_symmetric (edges : gmap key (list (key * P))) : Prop :=
  forall v es u p, edges !! v = Some es -> (u, p) ∈ es -> is_Some (edges !! u).

Lemma flatten_edges_live o rc : orders_ok o -> constraints_live rc -> edges_live (flatten_constraints pmul pinv o rc) rc.
Proof.
  intros Ho Hlive v w es Hw He. destruct (flatten_Some o rc v es Ho He) as [Hne Hes]. split; [exact Hne|].
  intros u p Hin. apply Hes in Hin as (k & c & Hk & Hin). destruct (edge_views c v u p Hin) as (_ & Hu & _).
  eapply con_has_view; [eapply Hlive; exact Hk|exact Hu].
Qed.

Lemma flatten_edges_symmetric o rc : orders_ok o -> edges_symmetric (flatten_constraints pmul pinv o rc).
Proof.
  intros Ho v es u p He Hin. destruct (flatten_Some o rc v es Ho He) as [Hne Hes]. apply Hes in Hin as (k & c & Hk & Hin).
  destruct (edge_views c v u p Hin) as (_ & _ & p' & Hin').
  destruct (flatten_constraints pmul pinv o rc !! u) as [es'|] eqn:E; [eauto|].
  exfalso. eapply (flatten_None o rc u Ho E); eassumption.
Qed.

(** ** One round of adjustment *)
Definition edge_poses rc (es : list (key * P)) (xs : list (P * P)) : Prop :=
  Forall2 (fun ve x => x.1 = ve.2 /\ exists w, has_view rc ve.1 w /\ x.2 = v_pose w) es xs.

(** The new pose of view [v], [None] when it is to be removed. *)
Definition new_pose e rc (edges : gmap key (list (key * P))) v (res : option P) : Prop :=
  match edges !! v with
  | None => res = None
  | Some es => exists w xs, has_view rc v w /\ edge_poses rc es xs /\ res = e_update e (v_pose w) xs
  end.

Lemma constrain_view_post T e rc edges v w :
  has_view rc v w -> (T \/ edges_live edges rc) ->
  post T (constrain_view e rc edges v) (new_pose e rc edges v).
Proof.
  intros Hw HT. unfold constrain_view, new_pose. destruct (edges !! v) as [es|] eqn:He; [|reflexivity].
  apply post_assert.
  { destruct HT as [HT|HT]; [left; exact HT|]. right. destruct (HT v w es Hw He) as [Hne _]. destruct es; [congruence|reflexivity]. }
  intros _. apply post_bind, post_unwrap; [right; exists w; exact Hw|]. intros w' Hw'.
  assert (w' = w) as -> by (eapply has_view_fun; [exact Hw'|exact Hw]).
  apply post_bind. apply (post_mapM T _ (fun ve x => x.1 = ve.2 /\ exists w, has_view rc ve.1 w /\ x.2 = v_pose w)).
  - intros [u p] Hin. apply post_bind, post_unwrap.
    + destruct HT as [HT|HT]; [left; exact HT|]. right. destruct (HT v w es Hw He) as [_ H]. destruct (H u p Hin) as [w' Hw2]. exists w'. exact Hw2.
    + intros w2 Hw2. cbn. split; [reflexivity|]. exists w2. auto.
  - intros xs Hxs. cbn. exists w, xs. auto.
Qed.

Record adjustment e rc edges (vs : list key) (ba : list (key * P) * list key) : Prop := {
  aj_perm : ba.1.*1 ++ ba.2 ≡ₚ vs;
  aj_updated : forall v p, (v, p) ∈ ba.1 -> new_pose e rc edges v (Some p);
  aj_removed : forall v, v ∈ ba.2 -> new_pose e rc edges v None
}.

Lemma compute_post T e rc edges :
  orders_ok (e_ord e) -> (T \/ edges_live edges rc) ->
  post T (compute_bundle_adjust e rc edges) (fun ba => exists x, adjustment e rc edges (elements (dom (sm_map (r_views rc)))) x /\
     ba = if 3 <=? length x.1 then Some x else None).
Proof.
  intros Ho HT. unfold compute_bundle_adjust. apply post_bind.
  set (vs := o_views _ _). assert (vs ≡ₚ elements (dom (sm_map (r_views rc)))) as Hvs by apply (oo_views _ Ho).
  apply (post_foldM T _ (fun rest ba => exists done, done ++ rest ≡ₚ vs /\ adjustment e rc edges done ba)).
  - intros v rest ba (done & Hperm & Haj).
    assert (exists w, has_view rc v w) as [w Hw].
    { assert (v ∈ vs) as Hv by (rewrite <- Hperm; apply elem_of_app; right; left). rewrite Hvs, elem_of_elements, elem_of_dom in Hv. exact Hv. }
    unfold ba_step. apply post_bind. eapply post_mono; [eapply constrain_view_post; eassumption|].
    intros res Hres. cbn [post]. exists (done ++ [v]). split; [rewrite <- (assoc_L (++)); exact Hperm|].
    destruct Haj as [H1 H2 H3]. destruct res as [p|]; split; cbn [fst snd].
    + rewrite fmap_app. cbn. rewrite <- H1, <- !(assoc_L (++)). f_equiv. apply Permutation_app_comm.
    + intros v' p' Hin. apply elem_of_app in Hin as [Hin|Hin]; [auto|]. apply elem_of_list_singleton in Hin. injection Hin as -> ->. exact Hres.
    + exact H3.
    + rewrite (assoc_L (++)), H1. reflexivity.
    + exact H2.
    + intros v' Hin. apply elem_of_app in Hin as [Hin|Hin]; [auto|]. apply elem_of_list_singleton in Hin as ->. exact Hres.
  - exists []. split; [reflexivity|]. split; [reflexivity| |].
    + intros v p H. apply elem_of_nil in H as [].
    + intros v H. apply elem_of_nil in H as [].
  - intros ba (done & Hperm & Haj). rewrite app_nil_r in Hperm. cbn [post]. exists ba. split; [|reflexivity].
    destruct Haj as [H1 H2 H3]. split; auto. rewrite H1, Hperm. exact Hvs.
Qed.

(** ** Applying the adjustment *)
Definition posed (ups : list (key * P)) v (w : view P) : view P :=
  match (list_to_map ups : gmap key P) !! v with Some p => set_v_pose w p | None => w end.

Lemma set_poses_spec ups rc : NoDup ups.*1 -> (forall v, v ∈ ups.*1 -> exists w, has_view rc v w) ->
  exists rc', foldM rec_set_pose ups rc = Ok rc' /\
    (forall v, sm_map (r_views rc') !! v = posed ups v <$> sm_map (r_views rc) !! v) /\
    sm_next (r_views rc') = sm_next (r_views rc) /\ r_lms rc' = r_lms rc /\ r_cons rc' = r_cons rc.
Proof.
  revert rc. induction ups as [|[v p] ups IH]; intros rc Hnd Hex; cbn [foldM].
  - exists rc. repeat split; auto. intros v. destruct (_ !! v); reflexivity.
  - cbn [fmap list_fmap fst] in Hnd. apply NoDup_cons in Hnd as [Hv Hnd]. destruct (Hex v ltac:(left)) as [w Hw].
    unfold rec_set_pose at 1, sm_get. cbn [fst snd]. pose proof Hw as Hw'. unfold has_view in Hw'. rewrite Hw'. cbn [unwrap bind].
    set (rc1 := set_views _ _).
    assert (forall u, sm_map (r_views rc1) !! u = if decide (u = v) then Some (set_v_pose w p) else sm_map (r_views rc) !! u) as Hl.
    { intros u. unfold rc1. cbn. destruct (decide (u = v)) as [->|Hne]; [apply lookup_insert|]. apply lookup_insert_ne. congruence. }
    destruct (IH rc1 Hnd) as (rc' & Hrun & H1 & H2 & H3 & H4).
    { intros u Hu. unfold has_view. rewrite Hl. destruct (decide (u = v)); [eauto|]. apply Hex. right. exact Hu. }
    exists rc'. split; [exact Hrun|]. repeat split; auto. intros u. rewrite H1, Hl. unfold posed. cbn [list_to_map foldr fst snd].
    destruct (decide (u = v)) as [->|Hne].
    + rewrite lookup_insert, Hw'. cbn. rewrite (not_elem_of_list_to_map_1 ups v) by exact Hv. reflexivity.
    + rewrite lookup_insert_ne by congruence. reflexivity.
Qed.

(** A reconstruction whose views differ only in their poses. *)
Lemma same_lists_ok d rc rc' :
  recon_ok d rc -> (forall v, (fun w => (v_frame w, v_lms w)) <$> sm_map (r_views rc') !! v = (fun w => (v_frame w, v_lms w)) <$> sm_map (r_views rc) !! v) ->
  sm_next (r_views rc') = sm_next (r_views rc) -> r_lms rc' = r_lms rc -> keys_fresh (r_cons rc') ->
  (forall k c, has_constraint rc' k c -> exists c0, has_constraint rc k c0 /\ c_views c = c_views c0) -> recon_ok d rc'.
Proof.
  intros [H1 H2 H3 H4 H5 H6 H7] Hv Hn Hl Hcf Hc.
  assert (forall v w', has_view rc' v w' -> exists w, has_view rc v w /\ v_frame w' = v_frame w /\ v_lms w' = v_lms w) as Hback.
  { intros v w' Hw'. specialize (Hv v). unfold has_view in Hw'. rewrite Hw' in Hv. cbn in Hv. symmetry in Hv.
    apply fmap_Some in Hv as (w & Hw & [= E1 E2]). exists w. auto. }
  assert (forall v w, has_view rc v w -> exists w', has_view rc' v w' /\ v_frame w' = v_frame w /\ v_lms w' = v_lms w) as Hforth.
  { intros v w Hw. specialize (Hv v). unfold has_view in Hw. rewrite Hw in Hv. cbn in Hv.
    apply fmap_Some in Hv as (w' & Hw' & [= E1 E2]). exists w'. auto. }
  split.
  - intros v f l. split.
    + intros (w' & Hw' & Hf). destruct (Hback v w' Hw') as (w & Hw & _ & E). unfold observes, has_landmark. rewrite Hl. apply H1. exists w. split; [exact Hw|congruence].
    + unfold observes, has_landmark. rewrite Hl. intros Ho. apply H1 in Ho as (w & Hw & Hf). destruct (Hforth v w Hw) as (w' & Hw' & _ & E). exists w'. split; [exact Hw'|congruence].
  - unfold no_empty_landmark, has_landmark. rewrite Hl. exact H2.
  - intros v w' Hw'. destruct (Hback v w' Hw') as (w & Hw & E1 & E2). rewrite E1, E2. apply (H3 v w Hw).
  - intros k c Hk. destruct (Hc k c Hk) as (c0 & Hk0 & E). pose proof (H4 k c0 Hk0) as Hlive.
    unfold names_live_views in *. rewrite E. destruct (c_views c0) as [[a b] z]. destruct Hlive as (D1 & D2 & D3 & [wa Ha] & [wb Hb] & [wz Hz]).
    apply Hforth in Ha as (wa' & Ha & _), Hb as (wb' & Hb & _), Hz as (wz' & Hz & _). repeat split; eauto.
  - intros v w' Hw'. destruct (Hback v w' Hw') as (w & Hw & _). rewrite Hn. eapply H5; exact Hw.
  - rewrite Hl. exact H6.
  - exact Hcf.
Qed.

Record adjusted (ups : list (key * P)) (rem : list key) rc rc' : Prop := {
  ad_views : forall v, sm_map (r_views rc') !! v = if decide (v ∈ rem) then None else posed ups v <$> sm_map (r_views rc) !! v;
  ad_cons : forall k c, has_constraint rc' k c <-> has_constraint rc k c /\ forall v, v ∈ rem -> con_has c v = false;
  ad_assigned : forall v f l, assigned rc' v f l <-> v ∉ rem /\ assigned rc v f l
}.

Lemma apply_bundle_adjust_post T bad ex d r ups rem :
  inv bad ex d -> ~ bad r -> (forall v, ~ ex r v) ->
  (T \/ exists rc, has_recon d r rc) ->
  (forall rc, has_recon d r rc -> ups.*1 ++ rem ≡ₚ elements (dom (sm_map (r_views rc)))) ->
  post T (apply_bundle_adjust d r ups rem) (fun d' => inv bad ex d' /\ within (eq r) d d' /\
    exists rc rc', has_recon d r rc /\ has_recon d' r rc' /\ adjusted ups rem rc rc').
Proof.
  intros Hinv Hbad Hexr HT Hperm. unfold apply_bundle_adjust. apply post_bind, with_rec_post; [exact HT|]. intros rc Hr.
  specialize (Hperm rc Hr). pose proof (in_good _ _ _ Hinv r rc Hr Hbad) as Hok.
  assert (NoDup (ups.*1 ++ rem)) as Hnd by (rewrite Hperm; apply NoDup_elements).
  apply NoDup_app in Hnd as (Hnu & Hdisj & Hnr).
  assert (forall v, v ∈ ups.*1 ++ rem -> exists w, has_view rc v w) as Hlive.
  { intros v Hv. rewrite Hperm, elem_of_elements, elem_of_dom in Hv. exact Hv. }
  destruct (set_poses_spec ups rc Hnu) as (rc1 & Hrun & H1 & H2 & H3 & H4).
  { intros v Hv. apply Hlive. apply elem_of_app. auto. }
  rewrite Hrun. cbn [bind post fst snd].
  assert (forall v w, posed ups v w = set_v_pose w (v_pose (posed ups v w))) as Hposed.
  { intros v w. unfold posed. destruct (_ !! v); destruct w; reflexivity. }
  assert (recon_ok d rc1) as Hok1.
  { apply (same_lists_ok d rc rc1 Hok); auto.
    - intros v. rewrite H1. destruct (_ !! v) as [w|]; [|reflexivity]. cbn. rewrite Hposed. reflexivity.
    - rewrite H4. apply (ok_fresh_cons _ _ Hok).
    - intros k c. unfold has_constraint. rewrite H4. eauto. }
  assert (inv bad ex (upd d r rc1)) as Hinv1.
  { eapply upd_inv; try eassumption. intros v. rewrite H1. destruct (_ !! v) as [w|]; [|reflexivity]. cbn. rewrite Hposed. reflexivity. }
  apply (post_foldM T _ (fun rest d' => inv bad ex d' /\ within (eq r) d d' /\ NoDup rest /\ rest ⊆ rem /\ exists rc', has_recon d' r rc' /\
     (forall v, sm_map (r_views rc') !! v = if decide (v ∈ rem /\ v ∉ rest) then None else posed ups v <$> sm_map (r_views rc) !! v) /\
     (forall k c, has_constraint rc' k c <-> has_constraint rc k c /\ forall v, v ∈ rem -> v ∉ rest -> con_has c v = false) /\
     (forall v f l, assigned rc' v f l <-> ~ (v ∈ rem /\ v ∉ rest) /\ assigned rc v f l))).
  - intros v rest d' (Hi & Hwi & Hn & Hsub & rc' & Hr' & Hv' & Hc' & Ha'). apply NoDup_cons in Hn as [Hvr Hn].
    assert (v ∈ rem) as Hvrem by (apply Hsub; left).
    destruct (Hlive v) as [w Hw]; [apply elem_of_app; auto|].
    eapply post_mono.
    { apply (remove_view_post T bad ex d' r v Hi Hbad (Hexr v)). right. exists rc'. eexists. split; [exact Hr'|].
      unfold has_view. rewrite Hv'. rewrite decide_False; [|intros [_ H]; apply H; left]. unfold has_view in Hw. rewrite Hw. reflexivity. }
    intros d2 [Hi2 Hrem]. pose proof (within_removed_view (eq r) d' d2 r v eq_refl Hrem) as Hw2.
    destruct Hrem as [(rc0 & rc2 & w0 & fr & Hr0 & Hw0 & Hvr2 & Hf & ->)].
    assert (rc0 = rc') as -> by (eapply has_recon_fun; eassumption).
    split; [exact Hi2|]. split; [eapply within_trans; eassumption|]. split; [exact Hn|]. split; [intros x Hx; apply Hsub; right; exact Hx|].
    exists rc2. split; [apply upd_recon_same|]. 
    assert (forall u, (u ∈ rem /\ u ∉ rest) <-> u = v \/ (u ∈ rem /\ u ∉ v :: rest)) as Hiff.
    { intros u. rewrite elem_of_cons. split.
      - intros [A1 A2]. destruct (decide (u = v)); tauto.
      - intros [->|[A1 A2]]; tauto. }
    split; [|split].
    + intros u. rewrite (vr_views _ _ _ Hvr2). destruct (decide (u = v)) as [->|Hne].
      * rewrite lookup_delete, decide_True by (apply Hiff; auto). reflexivity.
      * rewrite lookup_delete_ne by congruence. rewrite Hv'. 
        destruct (decide (u ∈ rem /\ u ∉ v :: rest)) as [A|A].
        -- rewrite decide_True by (apply Hiff; auto). reflexivity.
        -- rewrite decide_False by (rewrite Hiff; tauto). reflexivity.
    + intros k c. rewrite (vr_cons _ _ _ Hvr2), Hc'. split.
      * intros [[A1 A2] A3]. split; [exact A1|]. intros u B1 B2. destruct (decide (u = v)) as [->|Hne]; [exact A3|].
        apply A2; [exact B1|]. rewrite elem_of_cons. tauto.
      * intros [A1 A2]. split; [split; [exact A1|]|].
        -- intros u B1 B2. apply A2; [exact B1|]. rewrite elem_of_cons in B2. tauto.
        -- apply A2; [exact Hvrem|exact Hvr].
    + intros u f l. rewrite (view_removed_assigned v rc' rc2 Hvr2), Ha', Hiff. tauto.
  - split; [exact Hinv1|]. split; [eapply within_upd; [reflexivity|exact Hr]|]. split; [exact Hnr|]. split; [reflexivity|].
    exists rc1. split; [apply upd_recon_same|]. split; [|split].
    + intros v. rewrite decide_False by tauto. apply H1.
    + intros k c. unfold has_constraint. rewrite H4. intuition.
    + intros v f l. split.
      * intros (w1 & Hw1 & Hf). split; [tauto|]. unfold has_view in Hw1. rewrite H1 in Hw1. apply fmap_Some in Hw1 as (w & Hw & ->).
        exists w. split; [exact Hw|]. rewrite Hposed in Hf. exact Hf.
      * intros [_ (w & Hw & Hf)]. exists (posed ups v w). split; [unfold has_view; rewrite H1; unfold has_view in Hw; rewrite Hw; reflexivity|].
        rewrite Hposed. exact Hf.
  - intros d' (Hi & Hwi & _ & _ & rc' & Hr' & Hv' & Hc' & Ha'). split; [exact Hi|]. split; [exact Hwi|]. exists rc, rc'. split; [exact Hr|]. split; [exact Hr'|].
    split.
    + intros v. rewrite Hv'. destruct (decide (v ∈ rem)) as [H|H].
      * rewrite decide_True; [reflexivity|]. split; [exact H|apply not_elem_of_nil].
      * rewrite decide_False by tauto. reflexivity.
    + intros k c. rewrite Hc'. split; intros [A1 A2]; (split; [exact A1|]); intros u B1; [|intros _]; apply A2; auto. apply not_elem_of_nil.
    + intros v f l. rewrite Ha'. pose proof (not_elem_of_nil v). tauto.
Qed.

End facts.
