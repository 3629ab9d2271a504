(** Facts about starting a reconstruction from three frames. *)
From stdpp Require Import gmap list.
From Verif Require Import Outcome OutcomeFacts Matching MatchingSpec MatchingFacts.
From Verif Require Import Sfm SfmSpec SfmUse SfmRec SfmTrack SfmData SfmPrim SfmCons SfmApply SfmOps SfmInc.

Section facts.
Context {P F : Type} (pone : P).
Implicit Types (rc : recon P) (d : vdata P F) (e : env P F) (fr : frame F).

Lemma recon_empty_ok d : recon_ok d recon_empty.
Proof.
  split.
  - intros v f l. split; intros (w & H & _); unfold has_view, has_landmark in H; cbn in H; rewrite lookup_empty in H; discriminate.
  - intros l m H. unfold has_landmark in H. cbn in H. rewrite lookup_empty in H. discriminate.
  - intros v w H. unfold has_view in H. cbn in H. rewrite lookup_empty in H. discriminate.
  - intros k c H. unfold has_constraint in H. cbn in H. rewrite lookup_empty in H. discriminate.
  - intros k x H. cbn in H. rewrite lookup_empty in H. discriminate.
  - intros k x H. cbn in H. rewrite lookup_empty in H. discriminate.
  - intros k x H. cbn in H. rewrite lookup_empty in H. discriminate.
Qed.

Definition grow_recs d : vdata P F := set_recs d (sm_ins recon_empty (d_recs d)).

Lemma grow_recon d r rc : keys_fresh (d_recs d) -> has_recon (grow_recs d) r rc <-> (r = sm_next (d_recs d) /\ rc = recon_empty) \/ has_recon d r rc.
Proof.
  intros Hf. unfold has_recon, grow_recs. cbn. destruct (decide (sm_next (d_recs d) = r)) as [<-|Hne].
  - rewrite lookup_insert, (keys_fresh_next _ Hf). split; [intros [= <-]; auto|]. intros [[_ ->]|H]; [reflexivity|discriminate].
  - rewrite lookup_insert_ne by assumption. split; [auto|]. intros [[-> _]|H]; [congruence|exact H].
Qed.

Lemma grow_inv bad ex d : inv bad ex d -> inv bad ex (grow_recs d).
Proof.
  intros [H1 H2 H3 H4 H5]. assert (same_base d (grow_recs d)) as Hsb by (split; reflexivity). split.
  - eapply base_ok_same; eassumption.
  - intros r rc Hr Hb. apply (recon_ok_base d); [exact Hsb|]. apply (grow_recon d r rc H5) in Hr as [[_ ->]|Hr]; [apply recon_empty_ok|eauto].
  - intros r rc Hr. apply (grow_recon d r rc H5) in Hr as [[_ ->]|Hr]; [apply recon_ok_weak, recon_empty_ok|]. apply (H3 r rc Hr).
  - intros k fr Hf r v. rewrite (H4 k fr Hf r v). split; intros [(rc & w & Hr & Hw & Hk) Hex]; (split; [|exact Hex]); exists rc, w.
    + split; [apply (grow_recon d r rc H5); auto|auto].
    + apply (grow_recon d r rc H5) in Hr as [[_ ->]|Hr]; [unfold has_view in Hw; cbn in Hw; rewrite lookup_empty in Hw; discriminate|auto].
  - apply keys_fresh_ins. exact H5.
Qed.

Lemma collect_map_elem (l : list (nat * key)) f x : collect_map l !! f = Some x -> (f, x) ∈ l.
Proof. intros H. apply elem_of_list_to_map_2 in H. rewrite elem_of_reverse in H. exact H. Qed.

Lemma collect_map_some (l : list (nat * key)) f x : (f, x) ∈ l -> is_Some (collect_map l !! f).
Proof.
  intros H. destruct (collect_map l !! f) eqn:E; [eauto|]. apply not_elem_of_list_to_map_2 in E. exfalso. apply E. apply elem_of_list_fmap. exists (f, x).
  split; [reflexivity|]. apply elem_of_reverse. exact H.
Qed.


Record center_map rc (cv : key) (ms : list (nat * nat)) (fl : gmap nat key) : Prop := {
  cm_from : forall f l, fl !! f = Some l -> exists c, (c, f) ∈ ms /\ assigned rc cv c l;
  cm_all : forall c f, (c, f) ∈ ms -> is_Some (fl !! f)
}.

Lemma center_post T rc cv w ms : has_view rc cv w ->
  (T \/ forall c f, (c, f) ∈ ms -> c < length (v_lms w)) ->
  post T (center_landmarks rc cv ms) (center_map rc cv ms).
Proof.
  intros Hw HT. unfold center_landmarks. apply post_bind.
  apply (post_mapM T _ (fun cf fl => cf.2 = fl.1 /\ assigned rc cv cf.1 fl.2)).
  - intros [c f] Hin. unfold obs_landmark, sm_get. unfold has_view in Hw. rewrite Hw. cbn [unwrap bind fst snd]. apply post_bind, post_unwrap.
    + destruct HT as [HT|HT]; [left; exact HT|]. right. apply lookup_lt_is_Some. eauto.
    + intros l Hl. cbn. split; [reflexivity|]. exists w. auto.
  - intros l Hl. cbn [post]. split.
    + intros f x H. apply collect_map_elem in H. apply elem_of_list_lookup in H as (i & Hi). destruct (Forall2_lookup_r _ _ _ _ _ Hl Hi) as ([c f'] & Hc & E & Ha). cbn in *. subst f'.
      exists c. split; [eapply elem_of_list_lookup_2; exact Hc|exact Ha].
    + intros c f H. apply elem_of_list_lookup in H as (i & Hi). destruct (Forall2_lookup_l _ _ _ _ _ Hl Hi) as ([f' x] & Hx & E & _). cbn in *. subst f'.
      eapply collect_map_some. eapply elem_of_list_lookup_2. exact Hx.
Qed.

Definition singles (fl : gmap nat key) (f : nat) : option (list key) := (fun l => [l]) <$> fl !! f.

Lemma center_good rc cv ms fl n : mirrored rc -> one_other ms -> center_map rc cv ms fl -> good_matches rc n (singles fl).
Proof.
  intros Hm Ho [H1 H2]. unfold singles. split.
  - intros f ls _ E. apply fmap_Some in E as (l & El & ->). left. destruct (H1 f l El) as (c & _ & Ha). apply Hm in Ha as (m & Hl & _). eauto.
  - intros f f' ls ls' l _ _ E E' Hl Hl'. apply fmap_Some in E as (x & Ex & ->). apply fmap_Some in E' as (x' & Ex' & ->).
    apply elem_of_list_singleton in Hl as <-. apply elem_of_list_singleton in Hl' as <-.
    destruct (H1 f l Ex) as (c & Hc & Ha). destruct (H1 f' l Ex') as (c' & Hc' & Ha'). assert (c = c') as -> by (eapply assigned_inj; eassumption). eapply Ho; eassumption.
Qed.

Lemma renames_singles fl n l : renames (singles fl) n l = l.
Proof. induction n as [|n IH]; [reflexivity|]. cbn. unfold singles at 1. destruct (fl !! n); cbn; exact IH. Qed.

(** One of the three views of a new reconstruction. *)
Record placed d d' (r k v : key) pose rc rc' (ls : list key) (fl : gmap nat key) : Prop := {
  pl_recon : has_recon d' r rc';
  pl_views : sm_map (r_views rc') = <[v := View k pose ls]> (sm_map (r_views rc));
  pl_lms : forall f l, ls !! f = Some l -> match fl !! f with Some x => l = x | None => sm_next (r_lms rc) <= l end;
  pl_next : sm_next (r_views rc') = S v;
  pl_next_lms : sm_next (r_lms rc) <= sm_next (r_lms rc');
  pl_cons : r_cons rc' = r_cons rc;
  pl_within : within (eq r) d d';
  pl_frames : forall k' fr', k' <> k -> has_frame d k' fr' -> has_frame d' k' fr'
}.

Lemma add_placed T o bad ex d r k pose fl fr rc :
  orders_ok o -> inv bad ex d -> ~ bad r -> (forall v, ~ ex r v) -> has_frame d k fr -> f_view fr = None -> has_recon d r rc ->
  good_matches rc (length (f_feats fr)) (singles fl) ->
  post T (add_view o d r k pose (singles fl)) (fun dv => inv bad ex dv.1 /\ dv.2 = sm_next (r_views rc) /\
     exists rc' ls, length ls = length (f_feats fr) /\ placed d dv.1 r k dv.2 pose rc rc' ls fl).
Proof.
  intros Ho Hinv Hbad Hex Hf Hfree Hr Hgm. eapply post_mono.
  { apply (add_view_post T o bad ex d r k pose (singles fl) fr Ho Hinv Hbad Hex Hf); [right; eauto|].
    intros rc' Hr'. assert (rc' = rc) as -> by (eapply has_recon_fun; eassumption). exact Hgm. }
  intros [d' v] [Hinv' Hva]. cbn [fst snd] in *. split.
  { eapply inv_ext; [eauto| |exact Hinv']. intros r' v'. unfold also_old. rewrite Hfree. split; [|auto]. intros [H|[=]]. exact H. }
  pose proof (within_view_added (eq r) _ _ _ _ _ _ _ eq_refl Hva) as Hwi.
  destruct Hva as [(rc0 & rc' & fr0 & Hr0 & Hf0 & -> & Hai & Ed)].
  assert (rc0 = rc) as -> by (eapply has_recon_fun; eassumption). assert (fr0 = fr) as -> by (eapply has_frame_fun; eassumption).
  split; [reflexivity|]. destruct (ai_view _ _ _ _ _ _ _ _ Hai) as (ls & Hv & Hlen & Hls). exists rc', ls. split; [exact Hlen|]. split.
  - rewrite Ed. apply relink_recon, upd_recon_same.
  - apply map_eq. intros v'. destruct (decide (sm_next (r_views rc) = v')) as [<-|Hne].
    + rewrite lookup_insert. exact Hv.
    + rewrite lookup_insert_ne by assumption. rewrite (ai_others _ _ _ _ _ _ _ _ Hai v') by congruence. destruct (sm_map (r_views rc) !! v') as [[k' p' l']|]; [|reflexivity].
      cbn. unfold set_v_lms. cbn. f_equal. f_equal. rewrite <- (list_fmap_id l') at 2. apply list_fmap_ext. intros i x _. apply renames_singles.
  - intros f l Hl. pose proof (lookup_lt_Some _ _ _ Hl) as Hlt. destruct (Hls f ltac:(lia)) as (l' & Hl' & Hm). assert (l' = l) as -> by congruence.
    unfold singles in Hm. destruct (fl !! f); cbn in Hm; exact Hm.
  - apply (ai_next_views _ _ _ _ _ _ _ _ Hai).
  - apply (ai_next_lms _ _ _ _ _ _ _ _ Hai).
  - apply (ai_cons _ _ _ _ _ _ _ _ Hai).
  - exact Hwi.
  - intros k' fr' Hk' Hf'. rewrite Ed. apply relink_frame; [exact Hf|]. right. auto.
Qed.

(** The observations of view [w] match the center view as [ms] says: matched features are on
    the landmark of a center feature they are matched with, the others are on landmarks that
    occur in none of the earlier views. *)
Definition follows (ms : list (nat * nat)) (center : list key) (earlier : list (list key)) (ls : list key) : Prop :=
  forall f l, ls !! f = Some l ->
    (exists c, (c, f) ∈ ms /\ center !! c = Some l) \/
    ((forall c, (c, f) ∉ ms) /\ forall old, old ∈ earlier -> l ∉ old).

Record started d (center first second : key) p1 p2 (ms1 ms2 : list (nat * nat)) (r : key) d' : Prop := {
  st_base : same_base d d';
  st_key : r = sm_next (d_recs d);
  st_others : forall r', r' <> r -> sm_map (d_recs d') !! r' = sm_map (d_recs d) !! r';
  st_next : sm_next (d_recs d') = S r;
  st_rec : exists rc lc lf ls, has_recon d' r rc /\
     sm_map (r_views rc) = {[0 := View center pone lc; 1 := View first p1 lf; 2 := View second p2 ls]} /\
     sm_map (r_cons rc) = {[0 := Con3 (0, 1, 2) (p1, p2)]} /\
     follows ms1 lc [lc] lf /\ follows ms2 lc [lc; lf] ls
}.


Lemma add_reconstruction_post T o (bad : key -> Prop) ex d center first second p1 p2 combined firsts seconds fc ff fs :
  orders_ok o -> inv bad ex d -> ~ bad (sm_next (d_recs d)) -> (forall v, ~ ex (sm_next (d_recs d)) v) ->
  has_frame d center fc -> has_frame d first ff -> has_frame d second fs ->
  f_view fc = None -> f_view ff = None -> f_view fs = None ->
  center <> first -> center <> second -> first <> second ->
  one_other (first_matches combined firsts) -> one_other (second_matches combined seconds) ->
  (T \/ forall c f, (c, f) ∈ first_matches combined firsts \/ (c, f) ∈ second_matches combined seconds -> c < length (f_feats fc)) ->
  post T (add_reconstruction pone o d center first second p1 p2 combined firsts seconds) (fun x =>
    inv bad ex x.1 /\ started d center first second p1 p2 (first_matches combined firsts) (second_matches combined seconds) x.2 x.1).
Proof.
  intros Ho Hinv Hbad Hex Hfc Hff Hfs Ec Ef Es Hcf Hcs Hfs' Hm1 Hm2 HT. unfold add_reconstruction. cbv zeta.
  change (set_recs d (sm_ins recon_empty (d_recs d))) with (grow_recs d). change (firsts ++ _) with (first_matches combined firsts). change (seconds ++ _) with (second_matches combined seconds).
  set (ms1 := first_matches combined firsts) in *. set (ms2 := second_matches combined seconds) in *. set (r := sm_next (d_recs d)) in *.
  pose proof (grow_inv _ _ _ Hinv) as Hi0. assert (has_recon (grow_recs d) r recon_empty) as Hr0 by (apply grow_recon; [apply (in_fresh_recs _ _ _ Hinv)|auto]).
  change (fun _ : nat => None) with (singles ∅) in |- * || idtac.
  apply post_bind. eapply (post_mono _ _ (fun dv => inv bad ex dv.1 /\ dv.2 = 0 /\ exists rc' ls, length ls = length (f_feats fc) /\ placed (grow_recs d) dv.1 r center dv.2 pone recon_empty rc' ls ∅)).
  { pose proof (add_placed T o bad ex (grow_recs d) r center pone ∅ fc recon_empty Ho Hi0 Hbad Hex Hfc Ec Hr0) as H.
    assert (forall f, singles ∅ f = None) as E by (intros f; unfold singles; rewrite lookup_empty; reflexivity).
    apply H. split; intros f ls; intros; rewrite E in *; discriminate. }
  intros [d1 cv] (Hi1 & Ecv & rc1 & lc & Hlc & Hp1). cbn [fst snd] in *. subst cv.
  assert (has_frame d1 first ff) as Hff1 by (apply (pl_frames _ _ _ _ _ _ _ _ _ _ Hp1); [congruence|exact Hff]).
  assert (has_frame d1 second fs) as Hfs1 by (apply (pl_frames _ _ _ _ _ _ _ _ _ _ Hp1); [congruence|exact Hfs]).
  pose proof (pl_recon _ _ _ _ _ _ _ _ _ _ Hp1) as Hr1. pose proof (in_good _ _ _ Hi1 r rc1 Hr1 Hbad) as Hok1.
  assert (sm_map (r_views rc1) = {[0 := View center pone lc]}) as Ev1 by (rewrite (pl_views _ _ _ _ _ _ _ _ _ _ Hp1); reflexivity).
  assert (has_view rc1 0 (View center pone lc)) as Hv1 by (unfold has_view; rewrite Ev1; apply lookup_singleton).
  apply post_bind, post_unwrap; [right; exists rc1; exact Hr1|]. intros x Hx. assert (x = rc1) as -> by (eapply has_recon_fun; [exact Hx|exact Hr1]). clear Hx.
  apply post_bind. eapply post_mono.
  { apply (center_post T rc1 0 _ ms1 Hv1). cbn. destruct HT as [HT|HT]; [left; exact HT|]. right. intros c f H. rewrite Hlc. eapply HT. left. exact H. }
  intros fl Hfl. change (fun f => (fun l => [l]) <$> fl !! f) with (singles fl).
  apply post_bind. eapply post_mono.
  { apply (add_placed T o bad ex d1 r first p1 fl ff rc1 Ho Hi1 Hbad Hex Hff1 Ef Hr1). eapply center_good; [apply (ok_mirrored _ _ Hok1)|exact Hm1|exact Hfl]. }
  intros [d2 fv] (Hi2 & Efv & rc2 & lf & Hlf & Hp2). cbn [fst snd] in *. rewrite (pl_next _ _ _ _ _ _ _ _ _ _ Hp1) in Efv. subst fv.
  assert (has_frame d2 second fs) as Hfs2 by (apply (pl_frames _ _ _ _ _ _ _ _ _ _ Hp2); [congruence|exact Hfs1]).
  pose proof (pl_recon _ _ _ _ _ _ _ _ _ _ Hp2) as Hr2. pose proof (in_good _ _ _ Hi2 r rc2 Hr2 Hbad) as Hok2.
  assert (sm_map (r_views rc2) = {[0 := View center pone lc; 1 := View first p1 lf]}) as Ev2.
  { rewrite (pl_views _ _ _ _ _ _ _ _ _ _ Hp2), Ev1. apply insert_commute. discriminate. }
  assert (has_view rc2 0 (View center pone lc)) as Hv2 by (unfold has_view; rewrite Ev2; apply lookup_insert).
  apply post_bind, post_unwrap; [right; exists rc2; exact Hr2|]. intros x Hx. assert (x = rc2) as -> by (eapply has_recon_fun; [exact Hx|exact Hr2]). clear Hx.
  apply post_bind. eapply post_mono.
  { apply (center_post T rc2 0 _ ms2 Hv2). cbn. destruct HT as [HT|HT]; [left; exact HT|]. right. intros c f H. rewrite Hlc. eapply HT. right. exact H. }
  intros sl Hsl. change (fun f => (fun l => [l]) <$> sl !! f) with (singles sl).
  apply post_bind. eapply post_mono.
  { apply (add_placed T o bad ex d2 r second p2 sl fs rc2 Ho Hi2 Hbad Hex Hfs2 Es Hr2). eapply center_good; [apply (ok_mirrored _ _ Hok2)|exact Hm2|exact Hsl]. }
  intros [d3 sv] (Hi3 & Esv & rc3 & ls & Hls & Hp3). cbn [fst snd] in *. rewrite (pl_next _ _ _ _ _ _ _ _ _ _ Hp2) in Esv. subst sv.
  pose proof (pl_recon _ _ _ _ _ _ _ _ _ _ Hp3) as Hr3. pose proof (in_good _ _ _ Hi3 r rc3 Hr3 Hbad) as Hok3.
  assert (sm_map (r_views rc3) = {[0 := View center pone lc; 1 := View first p1 lf; 2 := View second p2 ls]}) as Ev3.
  { rewrite (pl_views _ _ _ _ _ _ _ _ _ _ Hp3), Ev2. rewrite (insert_commute _ 2 0) by discriminate. f_equal. apply insert_commute. discriminate. }
  apply post_bind, with_rec_post; [right; eauto|]. intros x Hx. assert (x = rc3) as -> by (eapply has_recon_fun; [exact Hx|exact Hr3]). clear Hx. cbn [post fst snd].
  assert (r_cons rc3 = sm_empty) as Ecs.
  { rewrite (pl_cons _ _ _ _ _ _ _ _ _ _ Hp3), (pl_cons _ _ _ _ _ _ _ _ _ _ Hp2), (pl_cons _ _ _ _ _ _ _ _ _ _ Hp1). reflexivity. }
  change (sort3 0 1 2) with (0, 1, 2). set (rc4 := set_cons rc3 (sm_ins (Con3 (0, 1, 2) (p1, p2)) (r_cons rc3))).
  assert (forall rcx v w, has_view rcx v w -> forall f l, v_lms w !! f = Some l -> recon_ok d3 rcx \/ recon_ok d2 rcx \/ recon_ok d1 rcx -> l < sm_next (r_lms rcx)) as Hlt.
  { intros rcx v w Hw f l Hl Hok. assert (mirrored rcx /\ keys_fresh (r_lms rcx)) as [Hm Hk] by (destruct Hok as [[]|[[]|[]]]; auto).
    destruct (view_lm_exists rcx v w f l Hm Hw Hl) as (m & Hlm & _). apply (Hk l m Hlm). }
  split.
  - eapply upd_inv; [exact Hi3|exact Hr3| |reflexivity]. apply core_recon_ok; [|apply (ok_entries _ _ Hok3)].
    destruct (recon_ok_core _ _ Hok3) as [A1 A2 A3 A4 A5 A6]. split; auto.
    + intros k c Hc. unfold has_constraint in Hc. cbn in Hc. rewrite Ecs in Hc. cbn in Hc. destruct (decide (k = 0)) as [->|Hk].
      * rewrite lookup_insert in Hc. injection Hc as <-. unfold names_live_views. cbn.
        split; [discriminate|]. split; [discriminate|]. split; [discriminate|]. unfold has_view. cbn. rewrite Ev3. split; [eexists; apply lookup_insert|].
        split; [eexists; rewrite lookup_insert_ne by discriminate; apply lookup_insert|]. eexists. rewrite !lookup_insert_ne by discriminate. apply lookup_singleton.
      * rewrite lookup_insert_ne, lookup_empty in Hc by congruence. discriminate.
    + apply keys_fresh_ins. exact A6.
  - assert (forall r', r' <> r -> sm_map (d_recs d3) !! r' = sm_map (d_recs d) !! r') as Hoth.
    { intros r' Hne0. assert (r <> r') as Hne by (intros E; apply Hne0; symmetry; exact E). rewrite (wi_recs _ _ _ (pl_within _ _ _ _ _ _ _ _ _ _ Hp3) r') by exact Hne. rewrite (wi_recs _ _ _ (pl_within _ _ _ _ _ _ _ _ _ _ Hp2) r') by exact Hne.
      rewrite (wi_recs _ _ _ (pl_within _ _ _ _ _ _ _ _ _ _ Hp1) r') by exact Hne. unfold grow_recs. cbn. apply lookup_insert_ne. exact Hne. }
    split.
    + eapply same_base_trans; [|apply upd_base]. eapply same_base_trans; [|apply (wi_base _ _ _ (pl_within _ _ _ _ _ _ _ _ _ _ Hp3))].
      eapply same_base_trans; [|apply (wi_base _ _ _ (pl_within _ _ _ _ _ _ _ _ _ _ Hp2))]. eapply same_base_trans; [|apply (wi_base _ _ _ (pl_within _ _ _ _ _ _ _ _ _ _ Hp1))]. split; reflexivity.
    + reflexivity.
    + intros r' Hne. cbn. rewrite lookup_insert_ne; [apply Hoth; exact Hne|]. intros E. apply Hne. symmetry. exact E.
    + cbn. rewrite (wi_next _ _ _ (pl_within _ _ _ _ _ _ _ _ _ _ Hp3)), (wi_next _ _ _ (pl_within _ _ _ _ _ _ _ _ _ _ Hp2)), (wi_next _ _ _ (pl_within _ _ _ _ _ _ _ _ _ _ Hp1)). reflexivity.
    + exists rc4, lc, lf, ls. split; [apply upd_recon_same|]. split; [exact Ev3|]. split; [unfold rc4; cbn; rewrite Ecs; reflexivity|]. split.
      * intros f l Hl. pose proof (pl_lms _ _ _ _ _ _ _ _ _ _ Hp2 f l Hl) as Hm. destruct (fl !! f) as [x|] eqn:E.
        -- subst x. left. destruct (cm_from _ _ _ _ Hfl f l E) as (c & Hc & (w & Hw & Hcl)). exists c. split; [exact Hc|]. assert (w = View center pone lc) as -> by (eapply has_view_fun; eassumption). exact Hcl.
        -- right. split; [intros c Hc; destruct (cm_all _ _ _ _ Hfl c f Hc) as [y Hy]; congruence|]. intros old Hold. apply elem_of_list_singleton in Hold as ->. intros Hin.
           apply elem_of_list_lookup in Hin as (i & Hi). pose proof (Hlt rc1 0 _ Hv1 i l Hi ltac:(auto)). lia.
      * intros f l Hl. pose proof (pl_lms _ _ _ _ _ _ _ _ _ _ Hp3 f l Hl) as Hm. destruct (sl !! f) as [x|] eqn:E.
        -- subst x. left. destruct (cm_from _ _ _ _ Hsl f l E) as (c & Hc & (w & Hw & Hcl)). exists c. split; [exact Hc|]. assert (w = View center pone lc) as -> by (eapply has_view_fun; eassumption). exact Hcl.
        -- right. split; [intros c Hc; destruct (cm_all _ _ _ _ Hsl c f Hc) as [y Hy]; congruence|]. intros old Hold Hin. apply elem_of_list_lookup in Hin as (i & Hi).
           apply elem_of_cons in Hold as [->|Hold]; [|apply elem_of_list_singleton in Hold as ->].
           ++ pose proof (Hlt rc2 0 _ Hv2 i l Hi ltac:(auto)). lia.
           ++ assert (has_view rc2 1 (View first p1 lf)) as Hv2' by (unfold has_view; rewrite Ev2, lookup_insert_ne by discriminate; apply lookup_singleton).
              pose proof (Hlt rc2 1 _ Hv2' i l Hi ltac:(auto)). lia.
Qed.

(** ** Initialisation from candidate frames *)

Lemma init_two_view_post T e s d a b fa fb :
  env_ok e -> has_frame d a fa -> has_frame d b fb ->
  post T (init_two_view e s d a b) (fun x => forall p ms, x = Some (p, ms) -> one_to_one ms /\
     forall i j, (i, j) ∈ ms -> mutual (e_knn e) (f_feats fa) (f_feats fb) (two_view_match_better_by s) i j).
Proof.
  intros He Ha Hb. unfold init_two_view. apply post_bind, post_unwrap; [right; exists fa; exact Ha|]. intros x Hx. assert (x = fa) as -> by (eapply has_frame_fun; [exact Hx|exact Ha]). clear Hx.
  apply post_bind, post_unwrap; [right; exists fb; exact Hb|]. intros x Hx. assert (x = fb) as -> by (eapply has_frame_fun; [exact Hx|exact Hb]). clear Hx.
  destruct (symmetric_matching_total (e_knn e) (f_feats fa) (f_feats fb) (two_view_match_better_by s)) as (ms & Hms & _).
  { intros fs f Hlen. destruct (eo_knn _ He fs f 2) as (H1 & _ & H2). split; [lia|exact H2]. }
  rewrite Hms. cbn [bind]. destruct (symmetric_matching_ok (e_knn e) _ _ _ _ Hms) as (Hmut & Hnd1 & Hnd2).
  destruct (e_two_view e d a b ms) as [[p ixs]|] eqn:Etv; [|cbn; discriminate].
  apply post_bind. apply (post_mapM T _ (fun ix x => ms !! ix = Some x)).
  - intros ix Hix. apply post_unwrap; [|auto]. right. apply lookup_lt_is_Some. eapply (eo_two_view _ He); eassumption.
  - intros kept Hk. cbn [post]. intros p' ms' [= <- <-]. assert (forall x, x ∈ kept -> x ∈ ms) as Hin.
    { intros x Hx. apply elem_of_list_lookup in Hx as (i & Hi). destruct (Forall2_lookup_r _ _ _ _ _ Hk Hi) as (ix & _ & H). eapply elem_of_list_lookup_2. exact H. }
    split; [|intros i j H; apply Hmut, Hin, H].
    intros c f c' f' H H'. apply Hin in H, H'. apply elem_of_list_lookup in H as (i & Hi), H' as (i' & Hi'). split.
    + intros <-. assert (i = i') as ->; [|congruence]. apply (NoDup_lookup ms.*1 i i' c Hnd1); rewrite list_lookup_fmap, ?Hi, ?Hi'; reflexivity.
    + intros <-. assert (i = i') as ->; [|congruence]. apply (NoDup_lookup ms.*2 i i' f Hnd2); rewrite list_lookup_fmap, ?Hi, ?Hi'; reflexivity.
Qed.

Lemma elem_of_pairs {A} (l : list A) x y : (x, y) ∈ pairs l -> exists i j, i < j /\ l !! i = Some x /\ l !! j = Some y.
Proof.
  induction l as [|z l IH]; cbn [pairs]; [intros H; apply elem_of_nil in H as []|]. intros H. apply elem_of_app in H as [H|H].
  - apply elem_of_list_fmap in H as (y' & [= -> ->] & Hy). apply elem_of_list_lookup in Hy as (j & Hj). exists 0, (S j). split; [lia|auto].
  - destruct (IH H) as (i & j & Hij & Hi & Hj). exists (S i), (S j). split; [lia|auto].
Qed.

Lemma init_pairs_spec e d center ps first p1 second p2 combined firsts seconds :
  init_pairs e d center ps = Some (first, p1, (second, p2), combined, firsts, seconds) ->
  exists q1 ms1 q2 ms2, ((first, (q1, ms1)), (second, (q2, ms2))) ∈ ps /\
    (forall x, x ∈ first_matches combined firsts -> x ∈ ms1) /\ (forall x, x ∈ second_matches combined seconds -> x ∈ ms2).
Proof.
  induction ps as [|[[a [q1 ms1]] [b [q2 ms2]]] ps IH]; cbn [init_pairs]; [discriminate|].
  destruct (e_three_view _ _ _ _ _) as [| |p1' p2' tri bi1 bi2]; intros H.
  - destruct (IH H) as (q1' & m1' & q2' & m2' & Hin & H1 & H2). exists q1', m1', q2', m2'. split; [right; exact Hin|auto].
  - discriminate.
  - injection H as <- <- <- <- <- <- <-. exists q1, ms1, q2, ms2. split; [left|]. unfold first_matches, second_matches, common_matches. split.
    + intros x Hx. apply elem_of_app in Hx as [Hx|Hx]; [apply elem_of_list_filter in Hx as [_ Hx]; exact Hx|].
      apply elem_of_list_fmap in Hx as (t & -> & Ht). apply elem_of_list_filter in Ht as [_ Ht]. apply elem_of_list_omap in Ht as ([c f] & Hcf & E).
      apply fmap_Some in E as (sx & _ & ->). exact Hcf.
    + intros x Hx. apply elem_of_app in Hx as [Hx|Hx]; [apply elem_of_list_filter in Hx as [_ Hx]; exact Hx|].
      apply elem_of_list_fmap in Hx as (t & -> & Ht). apply elem_of_list_filter in Ht as [_ Ht]. apply elem_of_list_omap in Ht as ([c f] & Hcf & E).
      apply fmap_Some in E as (sx & E & ->). cbn in *. apply collect_map_elem in E. exact E.
Qed.

(** The matches are mutual between frames [a] and [b]. *)
Definition mutual_matches e s d (a b : key) (ms : list (nat * nat)) : Prop := forall fa fb, has_frame d a fa -> has_frame d b fb ->
  forall i j, (i, j) ∈ ms -> mutual (e_knn e) (f_feats fa) (f_feats fb) (two_view_match_better_by s) i j.

Record initialized e s d (center : key) (options : list key) d' : Prop := {
  iz_rest : d' = d \/ exists first second p1 p2 ms1 ms2, first ∈ options /\ second ∈ options /\ first <> second /\
     one_to_one ms1 /\ one_to_one ms2 /\ mutual_matches e s d center first ms1 /\ mutual_matches e s d center second ms2 /\ started d center first second p1 p2 ms1 ms2 (sm_next (d_recs d)) d'
}.

Lemma try_init_post T e s d center options fc :
  env_ok e -> inv none1 none2 d -> has_frame d center fc -> f_view fc = None -> NoDup options -> center ∉ options ->
  (forall k, k ∈ options -> exists fr, has_frame d k fr /\ f_view fr = None) ->
  post T (try_init pone e s d center options) (fun d' => inv none1 none2 d' /\ initialized e s d center options d').
Proof.
  intros He Hinv Hfc Ec Hnd Hnc Hopt. unfold try_init, init_options. apply post_bind, post_bind.
  apply (post_mapM T _ (fun o x => forall k p ms, x = Some (k, (p, ms)) -> k = o /\ one_to_one ms /\ (forall i j, (i, j) ∈ ms -> i < length (f_feats fc)) /\ mutual_matches e s d center k ms)).
  { intros o Ho. destruct (Hopt o Ho) as (fo & Hfo & _). apply post_bind. eapply post_mono; [apply (init_two_view_post T e s d center o fc fo He Hfc Hfo)|].
    intros x Hx. cbn [post]. intros k p ms E. apply fmap_Some in E as ([p' ms'] & -> & [= -> -> ->]). destruct (Hx p' ms' eq_refl) as [H1 H2].
    split; [reflexivity|]. split; [exact H1|]. split; [|intros fa fb Ha Hb i j Hij; replace fa with fc by (eapply has_frame_fun; eassumption); replace fb with fo by (eapply has_frame_fun; eassumption); apply H2; exact Hij]. intros i j Hij. destruct (H2 i j Hij) as (_ & _ & da & _ & Hd & _). eapply lookup_lt_Some. exact Hd. }
  intros l Hl. cbn [post]. destruct (init_pairs e d center (pairs (omap id l))) as [[[[[[first p1] [second p2]] combined] firsts] seconds]|] eqn:Eip.
  2:{ cbn [post]. split; [exact Hinv|]. constructor. auto. }
  apply init_pairs_spec in Eip as (q1 & m1 & q2 & m2 & Hin & H1 & H2). apply elem_of_pairs in Hin as (i & j & Hij & Hi & Hj).
  assert (forall i k (x : P * list (nat * nat)), omap id l !! i = Some (k, x) -> exists i', options !! i' = Some k /\ length (omap id (take i' l)) = i /\ one_to_one x.2 /\ (forall a b, (a, b) ∈ x.2 -> a < length (f_feats fc)) /\ mutual_matches e s d center k x.2) as Hlook.
  { clear -Hl. induction Hl as [|o x options l Hx Hl IH]; intros i k y Hi; cbn in Hi; [discriminate|].
    destruct x as [[k' y']|]; cbn in Hi.
    - destruct i as [|i].
      + injection Hi as -> ->. destruct y as [p ms]. destruct (Hx k p ms eq_refl) as (-> & H1 & H2). exists 0. auto.
      + destruct (IH i k y Hi) as (i' & A1 & A2 & A3). exists (S i'). cbn. auto.
    - destruct (IH i k y Hi) as (i' & A1 & A2 & A3). exists (S i'). cbn. auto. }
  destruct (Hlook i first (q1, m1) Hi) as (i' & A1 & A2 & A3 & A4 & A5). destruct (Hlook j second (q2, m2) Hj) as (j' & B1 & B2 & B3 & B4 & B5). cbn [fst snd] in *.
  pose proof (elem_of_list_lookup_2 _ _ _ A1) as Hf1. pose proof (elem_of_list_lookup_2 _ _ _ B1) as Hf2.
  assert (first <> second) as Hne. { intros <-. assert (i' = j') as -> by (eapply NoDup_lookup; [exact Hnd|exact A1|exact B1]). lia. }
  destruct (Hopt first Hf1) as (ff & Hff & Eff). destruct (Hopt second Hf2) as (fs & Hfs & Efs).
  assert (forall ms ms', (forall x, x ∈ ms -> x ∈ ms') -> one_to_one ms' -> one_to_one ms) as Hsub. { intros ms ms' Hs Ho c f c' f' Ha Hb. apply Ho; auto. }
  apply post_bind. eapply post_mono.
  { apply (add_reconstruction_post T (e_ord e) none1 none2 d center first second p1 p2 combined firsts seconds fc ff fs); auto.
    - apply (eo_orders _ He).
    - intros ->. contradiction.
    - intros ->. contradiction.
    - intros c f f' Ha Hb. apply (A3 c f c f' (H1 _ Ha) (H1 _ Hb)). reflexivity.
    - intros c f f' Ha Hb. apply (B3 c f c f' (H2 _ Ha) (H2 _ Hb)). reflexivity.
    - right. intros c f [H|H]; [apply (A4 c f), H1, H|apply (B4 c f), H2, H]. }
  intros [d' r'] [Hi' Hst]. cbn [fst snd post] in *. split; [exact Hi'|]. constructor. right.
  exists first, second, p1, p2, (first_matches combined firsts), (second_matches combined seconds).
  split; [exact Hf1|]. split; [exact Hf2|]. split; [exact Hne|]. split; [apply (Hsub _ m1 H1 A3)|]. split; [apply (Hsub _ m2 H2 B3)|].
  split; [intros fa fb Ha Hb a b Hab; apply (A5 fa fb Ha Hb), H1, Hab|]. split; [intros fa fb Ha Hb a b Hab; apply (B5 fa fb Ha Hb), H2, Hab|].
  rewrite <- (st_key _ _ _ _ _ _ _ _ _ _ Hst). exact Hst.
Qed.
End facts.
