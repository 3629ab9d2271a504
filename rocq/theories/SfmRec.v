(** Facts about the operations on a single reconstruction. *)
From stdpp Require Import gmap list.
From Verif Require Import Outcome OutcomeFacts Sfm SfmSpec.

Section facts.
Context {P : Type}.
Implicit Types (rc : recon P).

(** Consistency of a reconstruction apart from the lengths of landmark lists. *)
Record core rc : Prop := {
  co_mirrored : mirrored rc;
  co_no_empty : no_empty_landmark rc;
  co_constraints : constraints_live rc;
  co_views : keys_fresh (r_views rc);
  co_lms : keys_fresh (r_lms rc);
  co_cons : keys_fresh (r_cons rc)
}.

(** ** Slot maps *)
Lemma keys_fresh_put {A} (s : smap A) k x y :
  keys_fresh s -> sm_map s !! k = Some y -> keys_fresh (sm_put k x s).
Proof.
  intros H Hk k' x'. cbn. destruct (decide (k = k')) as [<-|Hne].
  - intros _. eauto.
  - rewrite lookup_insert_ne by congruence. eauto.
Qed.

Lemma keys_fresh_ins {A} (s : smap A) x : keys_fresh s -> keys_fresh (sm_ins x s).
Proof.
  intros H k' x'. cbn. destruct (decide (sm_next s = k')) as [<-|Hne].
  - lia.
  - rewrite lookup_insert_ne by congruence. intros Hk. apply H in Hk. lia.
Qed.

Lemma keys_fresh_del {A} (s : smap A) k : keys_fresh s -> keys_fresh (sm_del k s).
Proof. intros H k' x'. cbn. rewrite lookup_delete_Some. intros [_ Hk]. eauto. Qed.

Lemma keys_fresh_next {A} (s : smap A) : keys_fresh s -> sm_map s !! sm_next s = None.
Proof. intros H. destruct (sm_map s !! sm_next s) eqn:E; [|reflexivity]. apply H in E. lia. Qed.

(** ** Observation lists *)
Lemma obs_list_perm o l (m : landmark) : orders_ok o -> obs_list o l m ≡ₚ map_to_list m.
Proof.
  intros Ho. unfold obs_list. rewrite (oo_obs _ Ho).
  induction m as [|v f m Hv IH] using map_ind.
  - rewrite dom_empty_L, elements_empty, map_to_list_empty. reflexivity.
  - rewrite dom_insert_L, elements_union_singleton by (apply not_elem_of_dom; assumption).
    cbn [omap list_omap]. rewrite lookup_insert. cbn.
    rewrite map_to_list_insert by assumption. constructor. rewrite <- IH.
    apply reflexive_eq. apply list_omap_ext.
    apply Forall_Forall2_diag, Forall_forall. intros x Hx.
    rewrite lookup_insert_ne; [reflexivity|]. intros <-.
    apply elem_of_elements in Hx. apply not_elem_of_dom in Hv. contradiction.
Qed.

Lemma elem_of_obs_list o l (m : landmark) v f : orders_ok o -> (v, f) ∈ obs_list o l m <-> m !! v = Some f.
Proof. intros Ho. rewrite (obs_list_perm o l m Ho). apply elem_of_map_to_list. Qed.

Lemma NoDup_obs_list o l (m : landmark) : orders_ok o -> NoDup (obs_list o l m).*1.
Proof. intros Ho. rewrite (obs_list_perm o l m Ho). apply NoDup_fst_map_to_list. Qed.

Lemma obs_list_to_map o l (m : landmark) : orders_ok o -> list_to_map (obs_list o l m) = m.
Proof.
  intros Ho. rewrite <- (list_to_map_to_list m) at 2.
  apply list_to_map_proper; [apply NoDup_obs_list; assumption|apply obs_list_perm; assumption].
Qed.

(** ** Basic consequences of consistency *)
Lemma assigned_fun rc v f l l' : assigned rc v f l -> assigned rc v f l' -> l = l'.
Proof. intros (w & Hw & Hl) (w' & Hw' & Hl'). unfold has_view in *. congruence. Qed.

Lemma observes_fun rc l v f f' : observes rc l v f -> observes rc l v f' -> f = f'.
Proof. intros (w & Hw & Hl) (w' & Hw' & Hl'). unfold has_landmark in *. congruence. Qed.

Lemma assigned_inj rc v f f' l : mirrored rc -> assigned rc v f l -> assigned rc v f' l -> f = f'.
Proof. intros Hm H1 H2. apply Hm in H1, H2. eapply observes_fun; eassumption. Qed.

Lemma view_lms_NoDup rc v w : mirrored rc -> has_view rc v w -> NoDup (v_lms w).
Proof.
  intros Hm Hw. apply NoDup_alt. intros i j l Hi Hj.
  apply (assigned_inj rc v i j l Hm); exists w; auto.
Qed.

Lemma view_lm_exists rc v w f l :
  mirrored rc -> has_view rc v w -> v_lms w !! f = Some l -> exists m, has_landmark rc l m /\ m !! v = Some f.
Proof. intros Hm Hw Hl. apply Hm. exists w. auto. Qed.

Lemma landmark_view_exists rc l m v f :
  mirrored rc -> has_landmark rc l m -> m !! v = Some f -> exists w, has_view rc v w /\ v_lms w !! f = Some l.
Proof. intros Hm Hl Hv. apply Hm. exists m. auto. Qed.

(** ** Merging two landmarks *)
Definition rename (a b l : key) : key := if decide (l = b) then a else l.

Lemma merge_loop a (L : list (key * nat)) rc ma :
  NoDup L.*1 ->
  has_landmark rc a ma ->
  (forall v f, (v, f) ∈ L -> ma !! v = None /\ exists w, has_view rc v w /\ f < length (v_lms w)) ->
  exists rc', foldM (rec_merge_step a) L rc = Ok rc' /\
    (forall v, sm_map (r_views rc') !! v =
       match (list_to_map L : landmark) !! v with
       | Some f => (fun w => set_v_lms w (<[f := a]> (v_lms w))) <$> sm_map (r_views rc) !! v
       | None => sm_map (r_views rc) !! v
       end) /\
    sm_map (r_lms rc') = <[a := ma ∪ list_to_map L]> (sm_map (r_lms rc)) /\
    sm_next (r_views rc') = sm_next (r_views rc) /\
    sm_next (r_lms rc') = sm_next (r_lms rc) /\
    r_cons rc' = r_cons rc.
Proof.
  revert rc ma. induction L as [|[v f] L IH]; intros rc ma Hnd Ha HL.
  - exists rc. cbn. repeat split; auto.
    rewrite (right_id_L ∅ (∪)). symmetry. apply insert_id. exact Ha.
  - cbn [foldM]. destruct (HL v f) as (Hma & w & Hw & Hf); [left|].
    unfold rec_merge_step at 1. unfold sm_get. unfold has_view in Hw. rewrite Hw. cbn [unwrap bind].
    apply Nat.ltb_lt in Hf. rewrite Hf. cbn [assert_ set_views r_lms r_views r_cons].
    unfold has_landmark in Ha. rewrite Ha. cbn [unwrap bind].
    rewrite bool_decide_true by exact Hma. cbn [assert_ bind].
    inversion_clear Hnd as [|? ? Hv Hnd']. cbn [fst] in Hv.
    edestruct (IH (set_lms (set_views rc (sm_put v (set_v_lms w (<[f:=a]> (v_lms w))) (r_views rc)))
                    (sm_put a (<[v:=f]> ma) (r_lms rc))) (<[v := f]> ma)) as (rc' & Hrun & Hviews & Hlms & Hn1 & Hn2 & Hc).
    + exact Hnd'.
    + unfold has_landmark. cbn. apply lookup_insert.
    + intros v' f' Hin.
      assert (v <> v') as Hne. { intros <-. apply Hv. apply elem_of_list_fmap. exists (v, f'). auto. }
      destruct (HL v' f') as (Hma' & w' & Hw' & Hf'); [right; assumption|].
      split; [rewrite lookup_insert_ne by congruence; assumption|].
      exists w'. split; [|assumption]. unfold has_view. cbn. rewrite lookup_insert_ne by congruence. assumption.
    + exists rc'. split; [exact Hrun|]. split; [|split; [|repeat split; assumption]].
      * intros v'. rewrite Hviews. cbn.
        destruct (decide (v = v')) as [<-|Hne].
        -- rewrite lookup_insert. rewrite Hw. cbn.
           rewrite (not_elem_of_list_to_map_1 L v Hv). rewrite lookup_insert. reflexivity.
        -- rewrite !lookup_insert_ne by congruence. reflexivity.
      * rewrite Hlms. cbn. rewrite insert_insert. f_equal. rewrite <- insert_union_r by assumption.
        rewrite insert_union_l. reflexivity.
Qed.

(** What merging [b] into [a] does. *)
Record merged (a b : key) rc rc' : Prop := {
  mg_views : forall v, sm_map (r_views rc') !! v =
     (fun w => set_v_lms w (rename a b <$> v_lms w)) <$> sm_map (r_views rc) !! v;
  mg_lms : exists ma mb, has_landmark rc a ma /\ has_landmark rc b mb /\
     sm_map (r_lms rc') = <[a := ma ∪ mb]> (delete b (sm_map (r_lms rc)));
  mg_next_views : sm_next (r_views rc') = sm_next (r_views rc);
  mg_next_lms : sm_next (r_lms rc') = sm_next (r_lms rc);
  mg_cons : r_cons rc' = r_cons rc
}.

Lemma rec_merge_spec o rc a b ma mb :
  orders_ok o -> mirrored rc -> a <> b ->
  has_landmark rc a ma -> has_landmark rc b mb -> ma ##ₘ mb ->
  exists rc', rec_merge o rc a b = Ok rc' /\ merged a b rc rc'.
Proof.
  intros Ho Hm Hab Ha Hb Hdisj. unfold rec_merge, sm_get. unfold has_landmark in Hb. rewrite Hb. cbn [unwrap bind].
  destruct (merge_loop a (obs_list o b mb) (set_lms rc (sm_del b (r_lms rc))) ma) as (rc' & Hrun & Hviews & Hlms & Hn1 & Hn2 & Hc).
  - apply NoDup_obs_list; assumption.
  - unfold has_landmark. cbn. rewrite lookup_delete_ne by congruence. exact Ha.
  - intros v f Hin. apply elem_of_obs_list in Hin; [|assumption]. split.
    + apply map_disjoint_Some_r with mb f; assumption.
    + destruct (landmark_view_exists rc b mb v f Hm Hb Hin) as (w & Hw & Hl).
      exists w. split; [exact Hw|]. apply lookup_lt_Some in Hl. exact Hl.
  - exists rc'. split; [exact Hrun|]. rewrite (obs_list_to_map o b mb Ho) in Hviews, Hlms. cbn in *.
    split; try assumption.
    + intros v. rewrite Hviews. destruct (mb !! v) as [f|] eqn:Hv.
      * destruct (landmark_view_exists rc b mb v f Hm Hb Hv) as (w & Hw & Hl). unfold has_view in Hw.
        rewrite Hw. cbn. f_equal. f_equal. apply list_eq. intros i. rewrite list_lookup_fmap.
        destruct (decide (f = i)) as [<-|Hne].
        -- rewrite list_lookup_insert by (apply lookup_lt_Some in Hl; exact Hl). rewrite Hl. cbn.
           unfold rename. rewrite decide_True by reflexivity. reflexivity.
        -- rewrite list_lookup_insert_ne by assumption. destruct (v_lms w !! i) as [l|] eqn:Hi; [|reflexivity].
           cbn. unfold rename. rewrite decide_False; [reflexivity|]. intros ->. apply Hne.
           apply (assigned_inj rc v f i b Hm); exists w; auto.
      * destruct (sm_map (r_views rc) !! v) as [w|] eqn:Hw; [|reflexivity]. cbn. f_equal.
        destruct w as [k p ls]. unfold set_v_lms. cbn. f_equal. symmetry.
        rewrite <- (list_fmap_id ls) at 2. apply list_fmap_ext. intros i l Hi. unfold rename.
        rewrite decide_False; [reflexivity|]. intros ->.
        destruct (view_lm_exists rc v _ i b Hm Hw Hi) as (m & Hm1 & Hm2). unfold has_landmark in Hm1. congruence.
    + exists ma, mb. auto.
Qed.

(** If the call returns, the landmarks were distinct, present and shared no view. *)
Lemma merge_loop_inv a (L : list (key * nat)) rc rc' m :
  foldM (rec_merge_step a) L rc = Ok rc' -> has_landmark rc a m ->
  forall v f, (v, f) ∈ L -> m !! v = None.
Proof.
  revert rc m. induction L as [|[v0 f0] L IH]; intros rc m Hrun Ha v f Hin; [inversion Hin|].
  cbn [foldM] in Hrun. inv_ok. unfold rec_merge_step in E. inv_ok. apply bool_decide_eq_true in Hb0.
  cbn in E1. unfold sm_get in E1. unfold has_landmark in Ha. rewrite Ha in E1. injection E1 as <-.
  apply elem_of_cons in Hin as [Hin|Hin].
  - injection Hin as -> ->. exact Hb0.
  - specialize (IH _ (<[v0 := f0]> m) Hrun). feed specialize IH.
    + unfold has_landmark. cbn. apply lookup_insert.
    + specialize (IH v f Hin). apply lookup_insert_None in IH as [IH _]. exact IH.
Qed.

Lemma rec_merge_inv o rc a b rc' :
  orders_ok o -> mirrored rc -> no_empty_landmark rc -> rec_merge o rc a b = Ok rc' ->
  a <> b /\ exists ma mb, has_landmark rc a ma /\ has_landmark rc b mb /\ ma ##ₘ mb.
Proof.
  intros Ho Hm Hne Hrun. unfold rec_merge in Hrun. inv_ok. rename a0 into mb.
  assert (exists v f L, obs_list o b mb = (v, f) :: L) as (v & f & L & HL).
  { destruct (obs_list o b mb) as [|[v f] L] eqn:EL; [|eauto]. exfalso.
    pose proof (obs_list_perm o b mb Ho) as Hp. rewrite EL in Hp.
    symmetry in Hp. apply Permutation_nil_r, map_to_list_empty_iff in Hp. apply (Hne b mb E Hp). }
  assert (exists ma, sm_map (r_lms (set_lms rc (sm_del b (r_lms rc)))) !! a = Some ma) as (ma & Hma).
  { rewrite HL in Hrun. cbn [foldM] in Hrun. inv_ok. unfold rec_merge_step in E0. inv_ok. cbn in *. eauto. }
  cbn in Hma. apply lookup_delete_Some in Hma as [Hba Hma].
  split; [congruence|]. exists ma, mb. split; [exact Hma|]. split; [exact E|].
  apply map_disjoint_spec. intros v' x y Hx Hy.
  apply (elem_of_obs_list o b mb v' y Ho) in Hy.
  erewrite (merge_loop_inv a _ _ _ ma Hrun) in Hx; [discriminate| |exact Hy].
  unfold has_landmark. cbn. rewrite lookup_delete_ne by congruence. exact Hma.
Qed.

Lemma rename_eq a b l l' : rename a b l = l' <-> (l = b /\ l' = a) \/ (l <> b /\ l = l').
Proof. unfold rename. destruct (decide (l = b)); split; intros H; intuition (subst; auto); congruence. Qed.

Lemma merged_assigned a b rc rc' v f l :
  merged a b rc rc' -> (assigned rc' v f l <-> exists l0, assigned rc v f l0 /\ l = rename a b l0).
Proof.
  intros [Hv _ _ _ _]. unfold assigned, has_view. split.
  - intros (w & Hw & Hl). rewrite Hv in Hw. apply fmap_Some in Hw as (w0 & Hw0 & ->). cbn in Hl.
    apply list_lookup_fmap_Some in Hl as (l0 & Hl0 & ->). exists l0. split; [|reflexivity]. exists w0. auto.
  - intros (l0 & (w & Hw & Hl) & ->). exists (set_v_lms w (rename a b <$> v_lms w)). rewrite Hv, Hw.
    split; [reflexivity|]. cbn. rewrite list_lookup_fmap, Hl. reflexivity.
Qed.

Lemma names_live_views_mono rc rc' c :
  (forall v w, has_view rc v w -> exists w', has_view rc' v w') -> names_live_views rc c -> names_live_views rc' c.
Proof.
  intros H. unfold names_live_views. destruct (c_views c) as [[x y] z].
  intros (? & ? & ? & (wx & Hx) & (wy & Hy) & (wz & Hz)). eauto 10.
Qed.

Lemma merged_core a b rc rc' : a <> b -> core rc -> merged a b rc rc' ->
  (forall ma mb, has_landmark rc a ma -> has_landmark rc b mb -> ma ##ₘ mb) -> core rc'.
Proof.
  intros Hab [Hm Hne Hc Hfv Hfl Hfc] Hmg Hdisj. pose proof Hmg as [Hv (ma & mb & Ha & Hb & Hl) Hn1 Hn2 Hcs].
  specialize (Hdisj ma mb Ha Hb). unfold has_landmark in Ha, Hb. split.
  - intros v f l. rewrite (merged_assigned a b rc rc' v f l Hmg). unfold observes, has_landmark. rewrite Hl. split.
    + intros (l0 & Hl0 & ->). apply Hm in Hl0 as (m & Hlm & Hvf). unfold has_landmark in Hlm. unfold rename.
      destruct (decide (l0 = b)) as [->|Hlb].
      * exists (ma ∪ mb). rewrite lookup_insert. split; [reflexivity|].
        rewrite Hlm in Hb. injection Hb as ->. apply lookup_union_Some; auto.
      * destruct (decide (l0 = a)) as [->|Hla].
        -- exists (ma ∪ mb). rewrite lookup_insert. split; [reflexivity|].
           rewrite Hlm in Ha. injection Ha as ->. apply lookup_union_Some; auto.
        -- exists m. rewrite lookup_insert_ne, lookup_delete_ne by congruence. auto.
    + intros (m & Hlm & Hvf). destruct (decide (a = l)) as [<-|Hla].
      * rewrite lookup_insert in Hlm. injection Hlm as <-. apply lookup_union_Some in Hvf as [Hvf|Hvf]; [| |assumption].
        -- exists a. split; [apply Hm; exists ma; auto|]. symmetry. apply rename_eq. auto.
        -- exists b. split; [apply Hm; exists mb; auto|]. symmetry. apply rename_eq. auto.
      * rewrite lookup_insert_ne in Hlm by assumption. apply lookup_delete_Some in Hlm as [Hlb Hlm].
        exists l. split; [apply Hm; exists m; auto|]. symmetry. apply rename_eq. auto.
  - intros l m. unfold has_landmark. rewrite Hl. destruct (decide (a = l)) as [<-|Hla].
    + rewrite lookup_insert. intros [= <-] He. apply map_positive_l in He. apply (Hne a ma Ha He).
    + rewrite lookup_insert_ne by assumption. intros Hlm. apply lookup_delete_Some in Hlm as [_ Hlm]. apply (Hne l m Hlm).
  - intros k c Hk. unfold has_constraint in Hk. rewrite Hcs in Hk. apply (names_live_views_mono rc); [|eauto].
    intros v w Hw. unfold has_view in *. rewrite Hv, Hw. cbn. eauto.
  - intros v w. rewrite Hv, Hn1. intros Hw. apply fmap_Some in Hw as (w0 & Hw0 & _). eauto.
  - intros l m. rewrite Hl, Hn2. destruct (decide (a = l)) as [<-|Hla].
    + intros _. eauto.
    + rewrite lookup_insert_ne by assumption. intros Hlm. apply lookup_delete_Some in Hlm as [_ Hlm]. eauto.
  - rewrite Hcs. exact Hfc.
Qed.

Lemma rec_merge_core o rc a b rc' :
  orders_ok o -> core rc -> rec_merge o rc a b = Ok rc' -> a <> b /\ merged a b rc rc' /\ core rc'.
Proof.
  intros Ho Hc Hrun. pose proof (rec_merge_inv o rc a b rc' Ho (co_mirrored _ Hc) (co_no_empty _ Hc) Hrun)
    as (Hab & ma & mb & Ha & Hb & Hd).
  destruct (rec_merge_spec o rc a b ma mb Ho (co_mirrored _ Hc) Hab Ha Hb Hd) as (rc1 & Hrun1 & Hmg).
  rewrite Hrun in Hrun1. injection Hrun1 as <-. split; [exact Hab|]. split; [exact Hmg|].
  apply (merged_core a b rc rc' Hab Hc Hmg). intros m1 m2 H1 H2. unfold has_landmark in *. replace m1 with ma by congruence. replace m2 with mb by congruence. assumption.
Qed.

(** ** Giving a view one more landmark *)
Record attached (v l : key) rc rc' : Prop := {
  at_view : exists w, has_view rc v w /\
    sm_map (r_views rc') = <[v := set_v_lms w (v_lms w ++ [l])]> (sm_map (r_views rc)) /\
    sm_map (r_lms rc') = <[l := <[v := length (v_lms w)]> (default ∅ (sm_map (r_lms rc) !! l))]> (sm_map (r_lms rc));
  at_free : forall m, has_landmark rc l m -> m !! v = None;
  at_next_views : sm_next (r_views rc') = sm_next (r_views rc);
  at_next_lms : sm_next (r_lms rc) <= sm_next (r_lms rc');
  at_key : l < sm_next (r_lms rc');
  at_cons : r_cons rc' = r_cons rc
}.

Lemma attached_core v l rc rc' : core rc -> attached v l rc rc' -> core rc'.
Proof.
  intros [Hm Hne Hc Hfv Hfl Hfc] [(w & Hw & Hv & Hl) Hfree Hn1 Hn2 Hk Hcs]. unfold has_view in Hw. split.
  - intros v' f' l'. unfold assigned, observes, has_view, has_landmark. rewrite Hv, Hl.
    destruct (decide (v = v')) as [<-|Hvne].
    + rewrite lookup_insert. split.
      * intros (w' & [= <-] & Hf'). cbn in Hf'. apply lookup_app_Some in Hf' as [Hf'|[Hlen Hf']].
        -- destruct (proj1 (Hm v f' l')) as (m & Hlm & Hvf); [exists w; auto|]. unfold has_landmark in Hlm.
           destruct (decide (l = l')) as [<-|Hlne].
           ++ exfalso. rewrite (Hfree m Hlm) in Hvf. discriminate.
           ++ exists m. rewrite lookup_insert_ne by assumption. auto.
        -- apply list_lookup_singleton_Some in Hf' as [Hf' <-]. assert (f' = length (v_lms w)) as -> by lia.
           eexists. rewrite lookup_insert. split; [reflexivity|]. apply lookup_insert.
      * intros (m & Hlm & Hvf). eexists. split; [reflexivity|]. cbn.
        destruct (decide (l = l')) as [<-|Hlne].
        -- rewrite lookup_insert in Hlm. injection Hlm as <-. rewrite lookup_insert in Hvf. injection Hvf as <-.
           rewrite lookup_app_r by lia. rewrite Nat.sub_diag. reflexivity.
        -- rewrite lookup_insert_ne in Hlm by assumption.
           destruct (proj2 (Hm v f' l')) as (w' & Hw' & Hf'); [exists m; auto|]. unfold has_view in Hw'.
           rewrite Hw in Hw'. injection Hw' as <-. apply lookup_app_l_Some. exact Hf'.
    + rewrite lookup_insert_ne by assumption. change (exists w0, sm_map (r_views rc) !! v' = Some w0 /\ v_lms w0 !! f' = Some l')
        with (assigned rc v' f' l'). rewrite (Hm v' f' l'). unfold observes, has_landmark. split.
      * intros (m & Hlm & Hvf). destruct (decide (l = l')) as [<-|Hlne].
        -- eexists. rewrite lookup_insert. split; [reflexivity|]. rewrite Hlm. cbn.
           rewrite lookup_insert_ne by assumption. exact Hvf.
        -- exists m. rewrite lookup_insert_ne by assumption. auto.
      * intros (m & Hlm & Hvf). destruct (decide (l = l')) as [<-|Hlne].
        -- rewrite lookup_insert in Hlm. injection Hlm as <-. rewrite lookup_insert_ne in Hvf by assumption.
           destruct (sm_map (r_lms rc) !! l) as [m|] eqn:E; cbn in Hvf; [eauto|]. rewrite lookup_empty in Hvf. discriminate.
        -- rewrite lookup_insert_ne in Hlm by assumption. eauto.
  - intros l' m. unfold has_landmark. rewrite Hl. destruct (decide (l = l')) as [<-|Hlne].
    + rewrite lookup_insert. intros [= <-]. apply insert_non_empty.
    + rewrite lookup_insert_ne by assumption. apply Hne.
  - intros k c Hkc. unfold has_constraint in Hkc. rewrite Hcs in Hkc. apply (names_live_views_mono rc); [|eauto].
    intros v' w' Hw'. unfold has_view in *. rewrite Hv. destruct (decide (v = v')) as [<-|Hvne].
    + rewrite lookup_insert. eauto.
    + rewrite lookup_insert_ne by assumption. eauto.
  - intros v' w'. rewrite Hv, Hn1. destruct (decide (v = v')) as [<-|Hvne]; [eauto|].
    rewrite lookup_insert_ne by assumption. eauto.
  - intros l' m. rewrite Hl. destruct (decide (l = l')) as [<-|Hlne]; [auto|].
    rewrite lookup_insert_ne by assumption. intros H. apply Hfl in H. lia.
  - rewrite Hcs. exact Hfc.
Qed.

Lemma observe_push_attached rc l v w m :
  has_view rc v w -> has_landmark rc l m -> m !! v = None -> keys_fresh (r_lms rc) ->
  exists rc', (let! r1 := rec_observe rc l v (length (v_lms w)) in rec_push r1 v l) = Ok rc' /\ attached v l rc rc'.
Proof.
  intros Hw Hl Hvm Hfl. unfold rec_observe, rec_push, sm_get. unfold has_view, has_landmark in *.
  rewrite Hl. cbn [unwrap bind set_lms r_views]. rewrite Hw. cbn [unwrap bind].
  eexists. split; [reflexivity|]. split; cbn; auto.
  - exists w. rewrite Hl. auto.
  - intros m' Hm'. unfold has_landmark in Hm'. congruence.
  - eauto.
Qed.

Lemma new_push_attached rc v w :
  has_view rc v w -> keys_fresh (r_lms rc) ->
  exists rc', rec_push (rec_add_landmark rc v (length (v_lms w))) v (sm_next (r_lms rc)) = Ok rc' /\
    attached v (sm_next (r_lms rc)) rc rc'.
Proof.
  intros Hw Hfl. unfold rec_add_landmark, rec_push, sm_get. unfold has_view in *.
  cbn [set_lms r_views]. rewrite Hw. cbn [unwrap bind].
  eexists. split; [reflexivity|]. pose proof (keys_fresh_next _ Hfl) as Hn. split; cbn; auto.
  - exists w. rewrite Hn. auto.
  - intros m' Hm'. unfold has_landmark in Hm'. congruence.
Qed.

(** ** Adding a view *)

(** Where the landmarks of the other views go: the second landmark of a pair is replaced by
    the first. *)
Fixpoint renames (existing : nat -> option (list key)) (n : nat) (l : key) : key :=
  match n with
  | 0 => l
  | S i => match existing i with
           | Some [a; b] => rename a b (renames existing i l)
           | _ => renames existing i l
           end
  end.

Record add_inv (existing : nat -> option (list key)) (n : nat) (k : key) (pose : P) (v : key) rc0 (i : nat) rc : Prop := {
  ai_core : core rc;
  ai_view : exists ls, has_view rc v (View k pose ls) /\ length ls = i /\
     forall f, f < i -> exists l, ls !! f = Some l /\
        match existing f with Some (a :: _) => l = a | _ => sm_next (r_lms rc0) <= l end;
  ai_pending : forall f ls l, i <= f -> f < n -> existing f = Some ls -> l ∈ ls ->
     sm_map (r_lms rc) !! l = sm_map (r_lms rc0) !! l;
  ai_others : forall v', v' <> v -> sm_map (r_views rc) !! v' =
     (fun w => set_v_lms w (renames existing i <$> v_lms w)) <$> sm_map (r_views rc0) !! v';
  ai_next_views : sm_next (r_views rc) = S v;
  ai_next_lms : sm_next (r_lms rc0) <= sm_next (r_lms rc);
  ai_cons : r_cons rc = r_cons rc0
}.

Lemma insert_view_core rc w : core rc -> v_lms w = [] ->
  core (set_views rc (sm_ins w (r_views rc))).
Proof.
  intros [Hm Hne Hc Hfv Hfl Hfc] Hw. pose proof (keys_fresh_next _ Hfv) as Hnone. split; cbn; auto.
  - intros v f l. unfold assigned, observes, has_view, has_landmark. cbn.
    destruct (decide (sm_next (r_views rc) = v)) as [<-|Hvne].
    + rewrite lookup_insert. split.
      * intros (w' & [= <-] & Hf). rewrite Hw in Hf. rewrite lookup_nil in Hf. discriminate.
      * intros (m & Hl & Hvf). destruct (proj2 (Hm (sm_next (r_views rc)) f l)) as (w' & Hw' & _); [exists m; auto|].
        unfold has_view in Hw'. congruence.
    + rewrite lookup_insert_ne by assumption. apply (Hm v f l).
  - intros k c Hk. apply (names_live_views_mono rc); [|eauto].
    intros v' w' Hw'. unfold has_view in *. cbn. destruct (decide (sm_next (r_views rc) = v')) as [<-|Hvne].
    + rewrite lookup_insert. eauto.
    + rewrite lookup_insert_ne by assumption. eauto.
  - apply keys_fresh_ins. exact Hfv.
Qed.

Lemma set_v_lms_id (w : view P) : set_v_lms w (v_lms w) = w.
Proof. destruct w; reflexivity. Qed.

Lemma fmap_id_ext (ls : list key) (g : key -> key) : (forall l, l ∈ ls -> g l = l) -> g <$> ls = ls.
Proof.
  intros H. rewrite <- (list_fmap_id ls) at 2. apply list_fmap_ext. intros i x Hx. apply H.
  eapply elem_of_list_lookup_2. exact Hx.
Qed.

Lemma add_inv_init existing n k pose rc0 :
  core rc0 ->
  add_inv existing n k pose (sm_next (r_views rc0)) rc0 0 (set_views rc0 (sm_ins (View k pose []) (r_views rc0))).
Proof.
  intros Hc. split; cbn; auto.
  - apply insert_view_core; [assumption|reflexivity].
  - exists []. unfold has_view. cbn. rewrite lookup_insert. split; [reflexivity|]. split; [reflexivity|]. intros f Hf. lia.
  - intros v' Hv'. rewrite lookup_insert_ne by congruence.
    destruct (sm_map (r_views rc0) !! v') as [w|]; [|reflexivity]. cbn. f_equal.
    symmetry. etransitivity; [|apply set_v_lms_id]. f_equal. apply fmap_id_ext. reflexivity.
Qed.

Lemma add_inv_step o existing n k pose rc0 i rc :
  orders_ok o -> core rc0 -> good_matches rc0 n existing -> i < n ->
  add_inv existing n k pose (sm_next (r_views rc0)) rc0 i rc ->
  exists rc', rec_add_feature o (sm_next (r_views rc0)) existing rc i = Ok rc' /\
    add_inv existing n k pose (sm_next (r_views rc0)) rc0 (S i) rc'.
Proof.
  intros Ho Hc0 Hg Hi Hinv. set (v := sm_next (r_views rc0)) in *.
  assert (forall l m, has_landmark rc0 l m -> m !! v = None) as Hfree.
  { intros l m Hl. destruct (m !! v) as [f|] eqn:E; [|reflexivity].
    destruct (landmark_view_exists rc0 l m v f (co_mirrored _ Hc0) Hl E) as (w & Hw & _).
    apply (co_views _ Hc0) in Hw. subst v. lia. }
  destruct Hinv as [Hc (ls & Hv & Hlen & Hls) Hpend Hoth Hnv Hnl Hcs].
  assert (forall l rc1 rc', core rc1 -> attached v l rc1 rc' ->
     has_view rc1 v (View k pose ls) ->
     (forall f ls l', S i <= f -> f < n -> existing f = Some ls -> l' ∈ ls ->
        l' <> l /\ sm_map (r_lms rc1) !! l' = sm_map (r_lms rc0) !! l') ->
     (forall v', v' <> v -> sm_map (r_views rc1) !! v' =
        (fun w => set_v_lms w (renames existing (S i) <$> v_lms w)) <$> sm_map (r_views rc0) !! v') ->
     sm_next (r_views rc1) = S v -> sm_next (r_lms rc0) <= sm_next (r_lms rc1) -> r_cons rc1 = r_cons rc0 ->
     match existing i with Some (a :: _) => l = a | _ => sm_next (r_lms rc0) <= l end ->
     add_inv existing n k pose v rc0 (S i) rc') as Hfin.
  { clear Hc Hv Hpend Hoth Hnv Hnl Hcs. intros l rc1 rc' Hc1 Hat Hv1 Hp1 Ho1 Hnv1 Hnl1 Hcs1 Htgt.
    split; [exact (attached_core v l rc1 rc' Hc1 Hat)| | | | | |];
      destruct Hat as [(w & Hw & Hvs & Hlms) _ Hn1 Hn2 _ Hcs']; unfold has_view in *;
      rewrite Hv1 in Hw; injection Hw as <-; cbn [v_lms] in *.
    - exists (ls ++ [l]). rewrite Hvs, lookup_insert. split; [reflexivity|]. split; [rewrite app_length; cbn; lia|].
      intros f Hf. destruct (decide (f = i)) as [->|Hfi].
      + exists l. split; [|exact Htgt]. rewrite lookup_app_r by lia. rewrite Hlen, Nat.sub_diag. reflexivity.
      + destruct (Hls f) as (l' & Hl' & Ht'); [lia|]. exists l'. split; [|exact Ht']. apply lookup_app_l_Some. exact Hl'.
    - intros f ls' l' Hf Hfn Hex Hin. destruct (Hp1 f ls' l' Hf Hfn Hex Hin) as [Hne Heq]. rewrite Hlms.
      rewrite lookup_insert_ne by congruence. exact Heq.
    - intros v' Hne. rewrite Hvs, lookup_insert_ne by congruence. apply Ho1. exact Hne.
    - congruence.
    - lia.
    - congruence. }
  unfold rec_add_feature. destruct (existing i) as [lsi|] eqn:Hex.
  - destruct (gm_shape _ _ _ Hg i lsi Hi Hex) as [(l & m & -> & Hl)|(a & b & ma & mb & -> & Hab & Ha & Hb & Hd)].
    + assert (has_landmark rc l m) as Hl'.
      { unfold has_landmark. rewrite (Hpend i [l] l); auto. left. }
      destruct (observe_push_attached rc l v _ m Hv Hl' (Hfree l m Hl) (co_lms _ Hc)) as (rc' & Hrun & Hat).
      cbn [v_lms] in Hrun. rewrite Hlen in Hrun. exists rc'. split; [exact Hrun|].
      apply (Hfin l rc rc' Hc Hat Hv); auto.
      * intros f ls' l' Hf Hfn Hex' Hin. split; [|apply (Hpend f ls' l'); auto; lia].
        intros ->. assert (f = i); [|lia]. apply (gm_disjoint _ _ _ Hg f i ls' [l] l); auto. left.
      * intros v' Hne. rewrite (Hoth v' Hne). cbn [renames]. rewrite Hex. reflexivity.
    + assert (has_landmark rc a ma) as Ha'. { unfold has_landmark. rewrite (Hpend i [a;b] a); auto. left. }
      assert (has_landmark rc b mb) as Hb'. { unfold has_landmark. rewrite (Hpend i [a;b] b); auto. right; left. }
      destruct (rec_merge_spec o rc a b ma mb Ho (co_mirrored _ Hc) Hab Ha' Hb' Hd) as (rc1 & Hrun1 & Hmg).
      assert (core rc1) as Hc1.
      { apply (merged_core a b rc rc1 Hab Hc Hmg). intros m1 m2 H1 H2. unfold has_landmark in *.
        replace m1 with ma by congruence. replace m2 with mb by congruence. exact Hd. }
      destruct Hmg as [Hmv (ma' & mb' & Ha2 & Hb2 & Hml) Hmn1 Hmn2 Hmc].
      assert (ma' = ma) as -> by (unfold has_landmark in *; congruence).
      assert (mb' = mb) as -> by (unfold has_landmark in *; congruence).
      assert (has_view rc1 v (View k pose ls)) as Hv1.
      { unfold has_view. rewrite Hmv. unfold has_view in Hv. rewrite Hv. cbn. f_equal. unfold set_v_lms. cbn. f_equal.
        apply fmap_id_ext. intros l Hl. unfold rename. rewrite decide_False; [reflexivity|]. intros ->.
        apply elem_of_list_lookup in Hl as (f & Hf).
        destruct (view_lm_exists rc v _ f b (co_mirrored _ Hc) Hv Hf) as (m & Hm1 & Hm2).
        assert (m = mb) as -> by (unfold has_landmark in *; congruence).
        rewrite (Hfree b mb Hb) in Hm2. discriminate. }
      assert (has_landmark rc1 a (ma ∪ mb)) as Ha1. { unfold has_landmark. rewrite Hml. apply lookup_insert. }
      destruct (observe_push_attached rc1 a v _ (ma ∪ mb) Hv1 Ha1) as (rc' & Hrun & Hat).
      { apply lookup_union_None. split; [apply (Hfree a ma Ha)|apply (Hfree b mb Hb)]. }
      { exact (co_lms _ Hc1). }
      cbn [v_lms] in Hrun. rewrite Hlen in Hrun. exists rc'. split; [rewrite Hrun1; exact Hrun|].
      apply (Hfin a rc1 rc' Hc1 Hat Hv1); auto; try congruence.
      * intros f ls' l' Hf Hfn Hex' Hin.
        assert (l' <> a). { intros ->. assert (f = i); [|lia]. apply (gm_disjoint _ _ _ Hg f i ls' [a;b] a); auto. left. }
        assert (l' <> b). { intros ->. assert (f = i); [|lia]. apply (gm_disjoint _ _ _ Hg f i ls' [a;b] b); auto. right; left. }
        split; [assumption|]. rewrite Hml, lookup_insert_ne, lookup_delete_ne by congruence.
        apply (Hpend f ls' l'); auto; lia.
      * intros v' Hne. rewrite Hmv, (Hoth v' Hne). cbn [renames]. rewrite Hex.
        destruct (sm_map (r_views rc0) !! v') as [w|]; [|reflexivity]. cbn. f_equal. unfold set_v_lms. cbn. f_equal.
        rewrite <- list_fmap_compose. reflexivity.
  - destruct (new_push_attached rc v _ Hv (co_lms _ Hc)) as (rc' & Hrun & Hat).
    cbn [v_lms] in Hrun. rewrite Hlen in Hrun. exists rc'. split; [exact Hrun|].
    apply (Hfin (sm_next (r_lms rc)) rc rc' Hc Hat Hv); auto.
    + intros f ls' l' Hf Hfn Hex' Hin. split; [|apply (Hpend f ls' l'); auto; lia].
      assert (exists m, has_landmark rc0 l' m) as (m & Hm).
      { destruct (gm_shape _ _ _ Hg f ls' Hfn Hex') as [(l & m & -> & Hl)|(a & b & ma & mb & -> & Hab & Ha & Hb & Hd)].
        - apply elem_of_list_singleton in Hin as ->. eauto.
        - apply elem_of_cons in Hin as [->|Hin]; [eauto|]. apply elem_of_list_singleton in Hin as ->. eauto. }
      apply (co_lms _ Hc0) in Hm. lia.
    + intros v' Hne. rewrite (Hoth v' Hne). cbn [renames]. rewrite Hex. reflexivity.
Qed.

Lemma add_loop o existing n k pose rc0 :
  orders_ok o -> core rc0 -> good_matches rc0 n existing ->
  exists rc', foldM (rec_add_feature o (sm_next (r_views rc0)) existing) (seq 0 n)
      (set_views rc0 (sm_ins (View k pose []) (r_views rc0))) = Ok rc' /\
    add_inv existing n k pose (sm_next (r_views rc0)) rc0 n rc'.
Proof.
  intros Ho Hc Hg.
  assert (forall j i rc, i + j = n -> add_inv existing n k pose (sm_next (r_views rc0)) rc0 i rc ->
    exists rc', foldM (rec_add_feature o (sm_next (r_views rc0)) existing) (seq i j) rc = Ok rc' /\
      add_inv existing n k pose (sm_next (r_views rc0)) rc0 n rc') as H.
  { induction j as [|j IH]; intros i rc Hij Hinv.
    - exists rc. split; [reflexivity|]. replace n with i at 2 by lia. exact Hinv.
    - destruct (add_inv_step o existing n k pose rc0 i rc Ho Hc Hg ltac:(lia) Hinv) as (rc1 & Hrun & Hinv1).
      destruct (IH (S i) rc1 ltac:(lia) Hinv1) as (rc' & Hrun' & Hinv').
      exists rc'. split; [|exact Hinv']. cbn [seq foldM]. rewrite Hrun. exact Hrun'. }
  apply (H n 0); [lia|]. apply add_inv_init. exact Hc.
Qed.

(** ** Removing a view *)
Definition drop_view (v : key) (m : landmark) : option landmark :=
  if decide (delete v m = ∅) then None else Some (delete v m).

Lemma unobserve_loop v (L : list key) rc :
  NoDup L -> (forall l, l ∈ L -> exists m f, has_landmark rc l m /\ m !! v = Some f) ->
  exists rc', foldM (rec_unobserve v) L rc = Ok rc' /\
    r_views rc' = r_views rc /\ r_cons rc' = r_cons rc /\ sm_next (r_lms rc') = sm_next (r_lms rc) /\
    forall l, sm_map (r_lms rc') !! l =
      if decide (l ∈ L) then sm_map (r_lms rc) !! l ≫= drop_view v else sm_map (r_lms rc) !! l.
Proof.
  revert rc. induction L as [|l L IH]; intros rc Hnd HL.
  - exists rc. cbn. repeat split; auto.
  - cbn [foldM]. destruct (HL l) as (m & f & Hl & Hv); [left|]. inversion_clear Hnd as [|? ? HlL Hnd'].
    assert (exists rc1, rec_unobserve v rc l = Ok rc1 /\ r_views rc1 = r_views rc /\ r_cons rc1 = r_cons rc /\
      sm_next (r_lms rc1) = sm_next (r_lms rc) /\
      sm_map (r_lms rc1) !! l = drop_view v m /\
      forall l', l' <> l -> sm_map (r_lms rc1) !! l' = sm_map (r_lms rc) !! l') as (rc1 & Hrun & Hv1 & Hc1 & Hn1 & Hl1 & Ho1).
    { unfold rec_unobserve, sm_get. unfold has_landmark in Hl. rewrite Hl. cbn [unwrap bind].
      assert (size m = S (size (delete v m))) as Hsz.
      { rewrite <- (map_size_insert_None v f (delete v m)) by apply lookup_delete.
        f_equal. symmetry. apply insert_delete. exact Hv. }
      rewrite Hsz. unfold drop_view. destruct (decide (delete v m = ∅)) as [He|He].
      - rewrite He, map_size_empty. eexists. split; [reflexivity|]. cbn. rewrite lookup_delete. repeat split; auto.
        intros l' Hne. rewrite lookup_delete_ne by congruence. reflexivity.
      - assert (size (delete v m) <> 0) as Hs by (intros Hs; apply He; apply map_size_empty_iff; exact Hs).
        destruct (size (delete v m)) as [|q]; [lia|]. eexists. split; [reflexivity|]. cbn. rewrite lookup_insert.
        repeat split; auto. intros l' Hne. rewrite lookup_insert_ne by congruence. reflexivity. }
    rewrite Hrun. cbn [bind].
    destruct (IH rc1 Hnd') as (rc' & Hrun' & Hv' & Hc' & Hn' & Hl').
    { intros l' Hin. destruct (HL l') as (m' & f' & Hl'' & Hv'); [right; assumption|]. exists m', f'. split; [|exact Hv'].
      unfold has_landmark. rewrite Ho1; [exact Hl''|]. intros ->. contradiction. }
    exists rc'. split; [exact Hrun'|]. repeat split; try congruence.
    intros l'. rewrite Hl'. destruct (decide (l' = l)) as [->|Hne].
    + rewrite decide_False by assumption. rewrite decide_True by left. rewrite Hl1. unfold has_landmark in Hl. rewrite Hl. reflexivity.
    + rewrite Ho1 by assumption. destruct (decide (l' ∈ L)) as [Hin|Hnin].
      * rewrite decide_True by (right; assumption). reflexivity.
      * rewrite decide_False; [reflexivity|]. intros Hin. apply elem_of_cons in Hin as [|]; contradiction.
Qed.

(** What removing view [v] does. *)
Record view_removed (v : key) rc rc' : Prop := {
  vr_views : sm_map (r_views rc') = delete v (sm_map (r_views rc));
  vr_lms : forall l, sm_map (r_lms rc') !! l = sm_map (r_lms rc) !! l ≫= drop_view v;
  vr_cons : forall k c, has_constraint rc' k c <-> has_constraint rc k c /\ con_has c v = false;
  vr_next_views : sm_next (r_views rc') = sm_next (r_views rc);
  vr_next_lms : sm_next (r_lms rc') = sm_next (r_lms rc);
  vr_next_cons : sm_next (r_cons rc') = sm_next (r_cons rc)
}.

Lemma rec_remove_view_spec rc v w :
  core rc -> has_view rc v w ->
  exists rc', rec_remove_view v rc = Ok (rc', v_frame w) /\ view_removed v rc rc'.
Proof.
  intros Hc Hw. unfold rec_remove_view, sm_get. pose proof Hw as Hw'. unfold has_view in Hw'. rewrite Hw'. cbn [unwrap bind].
  destruct (unobserve_loop v (v_lms w) (set_views rc (sm_put v (set_v_lms w []) (r_views rc)))) as (rc1 & Hrun & Hv1 & Hc1 & Hn1 & Hl1).
  - apply (view_lms_NoDup rc v w (co_mirrored _ Hc) Hw).
  - intros l Hl. apply elem_of_list_lookup in Hl as (f & Hf).
    destruct (view_lm_exists rc v w f l (co_mirrored _ Hc) Hw Hf) as (m & Hm & Hmv). exists m, f. split; [exact Hm|exact Hmv].
  - rewrite Hrun. cbn [bind]. eexists. split; [reflexivity|].
    split; cbn; try congruence.
    + rewrite Hv1. cbn. apply delete_insert_delete.
    + intros l. rewrite Hl1. cbn. destruct (decide (l ∈ v_lms w)) as [|Hnin]; [reflexivity|].
      destruct (sm_map (r_lms rc) !! l) as [m|] eqn:Hl; [|reflexivity]. cbn. unfold drop_view.
      assert (m !! v = None) as Hnone.
      { destruct (m !! v) as [f|] eqn:E; [|reflexivity]. exfalso. apply Hnin.
        destruct (landmark_view_exists rc l m v f (co_mirrored _ Hc) Hl E) as (w' & Hw1 & Hf). unfold has_view in *.
        rewrite Hw in Hw1. injection Hw1 as <-. eapply elem_of_list_lookup_2. exact Hf. }
      rewrite (delete_notin m v Hnone). rewrite decide_False; [reflexivity|]. apply (co_no_empty _ Hc l m Hl).
    + intros k c. unfold has_constraint. cbn. rewrite Hc1. cbn. rewrite map_filter_lookup_Some. reflexivity.
    + rewrite Hv1. reflexivity.
    + exact Hn1.
    + rewrite Hc1. reflexivity.
Qed.

Lemma drop_view_Some v m m' : drop_view v m = Some m' <-> m' = delete v m /\ m' <> ∅.
Proof. unfold drop_view. destruct (decide (delete v m = ∅)); split; intros H; intuition congruence. Qed.

Lemma view_removed_assigned v rc rc' : view_removed v rc rc' ->
  forall v' f l, assigned rc' v' f l <-> v' <> v /\ assigned rc v' f l.
Proof.
  intros [Hv _ _ _ _ _] v' f l. unfold assigned, has_view. rewrite Hv. split.
  - intros (w & Hw & Hl). apply lookup_delete_Some in Hw as [Hne Hw]. split; [congruence|]. eauto.
  - intros (Hne & w & Hw & Hl). exists w. rewrite lookup_delete_ne by congruence. auto.
Qed.

Lemma con_has_live rc c v a :
  names_live_views rc c -> con_has c v = false ->
  (let '(x, y, z) := c_views c in a = x \/ a = y \/ a = z) -> a <> v.
Proof.
  unfold con_has. destruct (c_views c) as [[x y] z]. intros _ H Ha ->.
  apply orb_false_iff in H as [H Hz]. apply orb_false_iff in H as [Hx Hy].
  apply Nat.eqb_neq in Hx, Hy, Hz. destruct Ha as [-> | [-> | ->]]; congruence.
Qed.

Lemma view_removed_core v rc rc' : core rc -> view_removed v rc rc' -> core rc'.
Proof.
  intros [Hm Hne Hc Hfv Hfl Hfc] Hr. pose proof Hr as [Hv Hl Hcs Hn1 Hn2 Hn3]. split.
  - intros v' f l. rewrite (view_removed_assigned v rc rc' Hr v' f l). rewrite (Hm v' f l). unfold observes, has_landmark.
    rewrite Hl. split.
    + intros (Hvne & m & Hlm & Hvf). rewrite Hlm. cbn.
      assert (delete v m !! v' = Some f) as Hd by (rewrite lookup_delete_ne by congruence; exact Hvf).
      exists (delete v m). split; [|exact Hd]. apply drop_view_Some. split; [reflexivity|]. intros He.
      rewrite He, lookup_empty in Hd. discriminate.
    + intros (m & Hlm & Hvf). apply bind_Some in Hlm as (m0 & Hm0 & Hd). apply drop_view_Some in Hd as [-> Hnz].
      apply lookup_delete_Some in Hvf as [Hvne Hvf]. split; [congruence|]. eauto.
  - intros l m. unfold has_landmark. rewrite Hl. intros H. apply bind_Some in H as (m0 & _ & H).
    apply drop_view_Some in H as [_ H]. exact H.
  - intros k c Hk. apply Hcs in Hk as [Hk Hh]. specialize (Hc k c Hk). pose proof (con_has_live rc c v) as Hx.
    unfold names_live_views in *. destruct (c_views c) as [[x y] z].
    destruct Hc as (? & ? & ? & (wx & Hwx) & (wy & Hwy) & (wz & Hwz)).
    assert (x <> v) by (apply Hx; eauto 20). assert (y <> v) by (apply Hx; eauto 20). assert (z <> v) by (apply Hx; eauto 20).
    unfold has_view. rewrite Hv. rewrite !lookup_delete_ne by congruence. eauto 10.
  - intros v' w. rewrite Hv, Hn1. intros H. apply lookup_delete_Some in H as [_ H]. eauto.
  - intros l m. rewrite Hl, Hn2. intros H. apply bind_Some in H as (m0 & H & _). eauto.
  - intros k c. rewrite Hn3. intros H. apply Hcs in H as [H _]. eauto.
Qed.

(** ** Splitting an observation *)
Record observation_split (v : key) (f : nat) rc rc' : Prop := {
  sp_inside : exists w l m, has_view rc v w /\ v_lms w !! f = Some l /\ has_landmark rc l m /\ 2 <= size m /\
    sm_map (r_views rc') = <[v := set_v_lms w (<[f := sm_next (r_lms rc)]> (v_lms w))]> (sm_map (r_views rc)) /\
    sm_map (r_lms rc') = <[sm_next (r_lms rc) := {[v := f]}]> (<[l := delete v m]> (sm_map (r_lms rc)));
  sp_next_views : sm_next (r_views rc') = sm_next (r_views rc);
  sp_next_lms : sm_next (r_lms rc') = S (sm_next (r_lms rc));
  sp_cons : r_cons rc' = r_cons rc
}.

Lemma split_observation_spec rc v f l :
  core rc -> assigned rc v f l ->
  exists rc' b, split_observation rc v f = Ok (rc', b) /\
    if b then observation_split v f rc rc' else rc' = rc /\ forall v' f', observes rc l v' f' -> v' = v.
Proof.
  intros Hc (w & Hw & Hl). unfold split_observation, sm_get. pose proof Hw as Hw'. unfold has_view in Hw'. rewrite Hw'.
  cbn [unwrap bind]. rewrite Hl. cbn [unwrap bind].
  destruct (view_lm_exists rc v w f l (co_mirrored _ Hc) Hw Hl) as (m & Hm & Hmv).
  pose proof Hm as Hm'. unfold has_landmark in Hm'. rewrite Hm'. cbn [unwrap bind].
  destruct (Nat.leb_spec 2 (size m)) as [Hsz|Hsz].
  - rewrite bool_decide_true by exact Hmv. cbn [assert_]. eexists _, true. split; [reflexivity|]. cbn.
    split; cbn; auto. exists w, l, m. auto 10.
  - exists rc, false. split; [reflexivity|]. split; [reflexivity|]. intros v' f' (m' & Hm2 & Hv').
    assert (m' = m) as -> by (unfold has_landmark in *; congruence).
    destruct (decide (v' = v)) as [|Hne]; [assumption|]. exfalso.
    assert (size m = S (size (delete v m))) as H1.
    { rewrite <- (map_size_insert_None v f (delete v m)) by apply lookup_delete.
      f_equal. symmetry. apply insert_delete. exact Hmv. }
    assert (size (delete v m) <> 0); [|lia]. intros H0. apply map_size_empty_iff in H0.
    assert (delete v m !! v' = Some f') as Hx by (rewrite lookup_delete_ne by congruence; exact Hv').
    rewrite H0, lookup_empty in Hx. discriminate.
Qed.

Lemma observation_split_assigned v f rc rc' : core rc -> observation_split v f rc rc' ->
  forall v' f' l', assigned rc' v' f' l' <->
    (if decide ((v', f') = (v, f)) then l' = sm_next (r_lms rc) else assigned rc v' f' l').
Proof.
  intros Hc [(w & l & m & Hw & Hf & Hl & Hsz & Hv & Hlm) _ _ _] v' f' l'. unfold assigned, has_view. rewrite Hv.
  unfold has_view in Hw. destruct (decide ((v', f') = (v, f))) as [Heq|Hne].
  - injection Heq as -> ->. rewrite lookup_insert. split.
    + intros (w' & [= <-] & H). cbn in H. rewrite list_lookup_insert in H by (apply lookup_lt_Some in Hf; exact Hf). congruence.
    + intros ->. eexists. split; [reflexivity|]. cbn. apply list_lookup_insert. apply lookup_lt_Some in Hf; exact Hf.
  - destruct (decide (v = v')) as [<-|Hvne].
    + rewrite lookup_insert. assert (f <> f') by congruence. split.
      * intros (w' & [= <-] & H'). cbn in H'. rewrite list_lookup_insert_ne in H' by assumption. eauto.
      * intros (w' & Hw' & H'). rewrite Hw in Hw'. injection Hw' as <-. eexists. split; [reflexivity|]. cbn.
        rewrite list_lookup_insert_ne by assumption. exact H'.
    + rewrite lookup_insert_ne by assumption. reflexivity.
Qed.

Lemma observation_split_core v f rc rc' : core rc -> observation_split v f rc rc' -> core rc'.
Proof.
  intros Hcore Hs. pose proof (observation_split_assigned v f rc rc' Hcore Hs) as Has.
  destruct Hcore as [Hm Hne Hc Hfv Hfl Hfc].
  destruct Hs as [(w & l & m & Hw & Hf & Hl & Hsz & Hv & Hlm) Hn1 Hn2 Hcs].
  assert (l < sm_next (r_lms rc)) as Hlt by eauto.
  destruct (view_lm_exists rc v w f l Hm Hw Hf) as (m' & Hl' & Hmv).
  assert (m' = m) as -> by (unfold has_landmark in *; congruence). clear Hl'.
  split.
  - intros v' f' l'. rewrite Has. unfold observes, has_landmark. rewrite Hlm.
    destruct (decide ((v', f') = (v, f))) as [Heq|Hneq].
    + injection Heq as -> ->. split.
      * intros ->. exists {[v := f]}. rewrite lookup_insert, lookup_singleton. auto.
      * intros (m' & Hm' & Hv'). destruct (decide (sm_next (r_lms rc) = l')) as [|Hne1]; [congruence|]. exfalso.
        rewrite lookup_insert_ne in Hm' by assumption. destruct (decide (l = l')) as [<-|Hne2].
        -- rewrite lookup_insert in Hm'. injection Hm' as <-. rewrite lookup_delete in Hv'. discriminate.
        -- rewrite lookup_insert_ne in Hm' by assumption. apply Hne2.
           apply (assigned_fun rc v f); apply Hm; [exists m|exists m']; auto.
    + rewrite (Hm v' f' l'). unfold observes, has_landmark. split.
      * intros (m' & Hm' & Hv'). assert (l' < sm_next (r_lms rc)) by eauto. rewrite lookup_insert_ne by lia.
        destruct (decide (l = l')) as [<-|Hne2].
        -- rewrite lookup_insert. eexists. split; [reflexivity|]. assert (m' = m) as -> by (unfold has_landmark in *; congruence).
           rewrite lookup_delete_ne; [exact Hv'|]. intros <-. congruence.
        -- rewrite lookup_insert_ne by assumption. eauto.
      * intros (m' & Hm' & Hv'). destruct (decide (sm_next (r_lms rc) = l')) as [<-|Hne1].
        -- rewrite lookup_insert in Hm'. injection Hm' as <-. apply lookup_singleton_Some in Hv' as [<- <-]. congruence.
        -- rewrite lookup_insert_ne in Hm' by assumption. destruct (decide (l = l')) as [<-|Hne2].
           ++ rewrite lookup_insert in Hm'. injection Hm' as <-. apply lookup_delete_Some in Hv' as [_ Hv']. eauto.
           ++ rewrite lookup_insert_ne in Hm' by assumption. eauto.
  - intros l' m'. unfold has_landmark. rewrite Hlm. destruct (decide (sm_next (r_lms rc) = l')) as [<-|Hne1].
    + rewrite lookup_insert. intros [= <-]. apply map_non_empty_singleton.
    + rewrite lookup_insert_ne by assumption. destruct (decide (l = l')) as [<-|Hne2].
      * rewrite lookup_insert. intros [= <-] He.
        assert (size m = S (size (delete v m))) as H1.
        { rewrite <- (map_size_insert_None v f (delete v m)) by apply lookup_delete.
          f_equal. symmetry. apply insert_delete. exact Hmv. }
        rewrite He, map_size_empty in H1. lia.
      * rewrite lookup_insert_ne by assumption. apply Hne.
  - intros k c Hk. unfold has_constraint in Hk. rewrite Hcs in Hk. apply (names_live_views_mono rc); [|eauto].
    intros v' w' Hw'. unfold has_view in *. rewrite Hv. destruct (decide (v = v')) as [<-|Hvne].
    + rewrite lookup_insert. eauto.
    + rewrite lookup_insert_ne by assumption. eauto.
  - intros v' w'. rewrite Hv, Hn1. destruct (decide (v = v')) as [<-|Hvne]; [eauto|].
    rewrite lookup_insert_ne by assumption. eauto.
  - intros l' m'. rewrite Hlm, Hn2. destruct (decide (sm_next (r_lms rc) = l')) as [<-|Hne1]; [lia|].
    rewrite lookup_insert_ne by assumption. destruct (decide (l = l')) as [<-|Hne2]; [lia|].
    rewrite lookup_insert_ne by assumption. intros H. apply Hfl in H. lia.
  - rewrite Hcs. exact Hfc.
Qed.

End facts.
