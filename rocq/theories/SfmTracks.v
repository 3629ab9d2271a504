(** What adding, removing and merging do to the tracks. *)
From stdpp Require Import gmap list.
From Verif Require Import Outcome OutcomeFacts.
From Verif Require Import Sfm SfmSpec SfmUse SfmEffects SfmRec SfmTrack SfmData SfmPrim SfmCons SfmApply SfmOps SfmReg SfmInc SfmThms.

Section facts.
Context {P F : Type}.
Implicit Types (rc : recon P) (d : vdata P F) (e : env P F) (fr : frame F).

(** ** Merging two landmarks *)
Lemma renamed_assigned (g : key -> key) rc rc' v :
  sm_map (r_views rc') !! v = (fun w => set_v_lms w (g <$> v_lms w)) <$> sm_map (r_views rc) !! v ->
  forall f l, assigned rc' v f l <-> exists l0, assigned rc v f l0 /\ l = g l0.
Proof.
  intros E f l. unfold assigned, has_view. rewrite E. split.
  - intros (w & Hw & Hl). apply fmap_Some in Hw as (w0 & Hw0 & ->). cbn in Hl. rewrite list_lookup_fmap in Hl. apply fmap_Some in Hl as (l0 & Hl0 & ->). eauto.
  - intros (l0 & (w0 & Hw0 & Hl0) & ->). rewrite Hw0. eexists. split; [reflexivity|]. cbn. rewrite list_lookup_fmap, Hl0. reflexivity.
Qed.

Lemma assigned_fun rc v f l l' : assigned rc v f l -> assigned rc v f l' -> l = l'.
Proof. intros (w & Hw & Hl) (w' & Hw' & Hl'). assert (w' = w) as -> by (eapply has_view_fun; eassumption). congruence. Qed.

Lemma merged_tracks a b rc rc' : merged a b rc rc' -> tracks_merged rc a b rc'.
Proof.
  intros [Hv _ _ _ Hc]. assert (forall v f l, assigned rc' v f l <-> exists l0, assigned rc v f l0 /\ l = rename a b l0) as Ha by (intros v; apply renamed_assigned, Hv).
  split.
  - split; [|intros k c; unfold has_constraint; rewrite Hc; reflexivity]. intros v. rewrite Hv, <- option_fmap_compose. unfold compose. apply option_fmap_ext. intros w. unfold view_facts. cbn. rewrite fmap_length. reflexivity.
  - intros [v f]. unfold observation. cbn. setoid_rewrite Ha. split; [intros (l & l0 & H & _); eauto|intros (l & H); eauto].
  - intros [v f] [v' f']. unfold same_track, on_pair. cbn. setoid_rewrite Ha. split.
    + intros (l & (l0 & H0 & E0) & (l1 & H1 & E1)). unfold rename in *. destruct (decide (l0 = b)) as [->|N0], (decide (l1 = b)) as [->|N1]; subst; [eauto|right; auto|right; auto|eauto].
    + intros [(l & H0 & H1)|[[H0 H1]|[H0 H1]]].
      * exists (rename a b l). split; exists l; auto.
      * exists a. split; [exists a|exists b]; (split; [assumption|]); unfold rename; [destruct (decide (a = b)); reflexivity|rewrite decide_True by reflexivity; reflexivity].
      * exists a. split; [exists b|exists a]; (split; [assumption|]); unfold rename; [rewrite decide_True by reflexivity; reflexivity|destruct (decide (a = b)); reflexivity].
Qed.

(** ** Adding a view *)
Lemma renames_cases rc N (existing : nat -> option (list key)) : good_matches rc N existing -> forall n, n <= N -> forall l,
  (renames existing n l = l /\ (forall f a, f < n -> existing f <> Some [a; l])) \/
  exists f a, f < n /\ existing f = Some [a; l] /\ renames existing n l = a.
Proof.
  intros Hgm n. induction n as [|n IH]; intros Hn l; cbn [renames]; [left; split; [reflexivity|intros; lia]|].
  specialize (IH ltac:(lia) l).
  assert ((renames existing n l = l /\ (forall f a, f < n -> existing f <> Some [a; l])) \/ (exists f a, f < n /\ existing f = Some [a; l] /\ renames existing n l = a) ->
    (forall a b, existing n <> Some [a; b]) ->
    (renames existing n l = l /\ (forall f a, f < S n -> existing f <> Some [a; l])) \/ (exists f a, f < S n /\ existing f = Some [a; l] /\ renames existing n l = a)) as Hskip.
  { intros [[E H]|(f & a & Hf & H & E)] Hno; [left|right; exists f, a; auto]. split; [exact E|]. intros f a Hf. destruct (decide (f = n)) as [->|]; [apply Hno|apply H; lia]. }
  destruct (existing n) as [[|a [|b [|c ls]]]|] eqn:En; try (apply Hskip; [exact IH|intros ? ?; discriminate]).
  destruct IH as [[E H]|(f & a' & Hf & H & E)].
  - rewrite E. unfold rename. destruct (decide (l = b)) as [->|Hne]; [right; exists n, a; auto|left]. split; [reflexivity|].
    intros f a' Hf. destruct (decide (f = n)) as [->|]; [congruence|apply H; lia].
  - right. exists f, a'. split; [lia|]. split; [exact H|]. rewrite E. unfold rename. destruct (decide (a' = b)) as [->|]; [|reflexivity].
    exfalso. assert (f = n); [|lia]. apply (gm_disjoint _ _ _ Hgm f n [b; l] [a; b] b); [lia|lia|exact H|exact En|left|right; left].
Qed.

Lemma view_inserted_ok d rc k pose existing n rc' :
  recon_ok d rc -> good_matches rc n existing -> add_inv existing n k pose (sm_next (r_views rc)) rc n rc' ->
  view_inserted rc k pose existing n (sm_next (r_views rc)) rc'.
Proof.
  intros Hok Hgm Hai. set (v := sm_next (r_views rc)) in *. pose proof (renames_cases rc n existing Hgm n (le_n _)) as Hren.
  destruct (ai_view _ _ _ _ _ _ _ _ Hai) as (ls & Hv & Hlen & Hls).
  assert (sm_map (r_views rc) !! v = None) as Hfresh.
  { destruct (sm_map (r_views rc) !! v) as [w|] eqn:E; [|reflexivity]. pose proof (ok_fresh_views _ _ Hok v w E). unfold v in *. lia. }
  assert (forall x, observation rc x -> x.1 <> v) as Hobs.
  { intros x (l & w & Hw & _) E. unfold has_view in Hw. rewrite E in Hw. congruence. }
  assert (forall v' f l, v' <> v -> assigned rc' v' f l <-> exists l0, assigned rc v' f l0 /\ l = renames existing n l0) as Hold.
  { intros v' f l Hne. apply renamed_assigned. apply (ai_others _ _ _ _ _ _ _ _ Hai). exact Hne. }
  assert (forall f l, assigned rc' v f l <-> ls !! f = Some l) as Hnew.
  { intros f l. split; [intros (w & Hw & Hl); assert (w = View k pose ls) as -> by (eapply has_view_fun; eassumption); exact Hl|intros Hl; eexists; split; [exact Hv|exact Hl]]. }
  assert (forall f a b, f < n -> existing f = Some [a; b] -> renames existing n b = a /\ renames existing n a = a) as Hpair.
  { intros f a b Hf Ef.
    assert (a <> b) as Nab by (destruct (gm_shape _ _ _ Hgm f _ Hf Ef) as [(l & m & E & _)|(a' & b' & ma & mb & E & N & _)]; [discriminate|injection E as <- <-; exact N]). split.
    - destruct (Hren b) as [[_ H]|(f' & a' & Hf' & Ef' & E)]; [exfalso; exact (H f a Hf Ef)|].
      assert (f = f') as -> by (apply (gm_disjoint _ _ _ Hgm f f' [a; b] [a'; b] b Hf Hf' Ef Ef'); right; left). congruence.
    - destruct (Hren a) as [[E _]|(f' & a' & Hf' & Ef' & E)]; [exact E|].
      assert (f = f') as -> by (apply (gm_disjoint _ _ _ Hgm f f' [a; b] [a'; a] a Hf Hf' Ef Ef'); [left|right; left]). congruence. }
  assert (forall l, (exists m, has_landmark rc l m) -> exists m, has_landmark rc (renames existing n l) m) as Hlive.
  { intros l Hl. destruct (Hren l) as [[E _]|(f' & a' & Hf' & Ef' & E)]; rewrite E; [exact Hl|].
    destruct (gm_shape _ _ _ Hgm f' _ Hf' Ef') as [(l' & m & E' & _)|(a2 & b2 & ma & mb & E' & _ & Hma & _)]; [discriminate|]. injection E' as <- <-. eauto. }
  assert (forall x l, assigned rc x.1 x.2 l -> exists m, has_landmark rc l m) as Hasl.
  { intros x l H. apply (ok_mirrored _ _ Hok) in H as (m & Hm & _). eauto. }
  split.
  - exact Hfresh.
  - unfold has_view in Hv. rewrite Hv. cbn. unfold view_facts. cbn. rewrite Hlen. reflexivity.
  - intros v' Hne. rewrite (ai_others _ _ _ _ _ _ _ _ Hai v' Hne), <- option_fmap_compose. apply option_fmap_ext. intros w. unfold view_facts. cbn. rewrite fmap_length. reflexivity.
  - apply (ai_cons _ _ _ _ _ _ _ _ Hai).
  - intros x y Hx Hy. pose proof (Hobs x Hx) as Nx. pose proof (Hobs y Hy) as Ny. unfold same_track, on_pair. setoid_rewrite (Hold x.1 x.2 _ Nx). setoid_rewrite (Hold y.1 y.2 _ Ny). split.
    + intros (l & (lx & Hlx & Ex) & (ly & Hly & Ey)).
      destruct (Hren lx) as [[E1 Nlx]|(f1 & a1 & Hf1 & Ef1 & E1)], (Hren ly) as [[E2 Nly]|(f2 & a2 & Hf2 & Ef2 & E2)].
      * left. exists lx. split; [exact Hlx|]. replace lx with ly by congruence. exact Hly.
      * right. exists f2, lx, ly. assert (a2 = lx) as <- by congruence. auto.
      * right. exists f1, ly, lx. assert (a1 = ly) as <- by congruence. auto.
      * left. assert (a1 = a2) as -> by congruence. assert (f1 = f2) as -> by (apply (gm_disjoint _ _ _ Hgm f1 f2 _ _ a2 Hf1 Hf2 Ef1 Ef2); left).
        exists lx. split; [exact Hlx|]. replace lx with ly by congruence. exact Hly.
    + intros [(l & Hlx & Hly)|(f & a & b & Hf & Ef & H)].
      * exists (renames existing n l). split; exists l; auto.
      * destruct (Hpair f a b Hf Ef) as [Eb Ea]. exists a. destruct H as [[H1 H2]|[H1 H2]]; (split; eexists; (split; [eassumption|congruence])).
  - intros f y Hf Hy. pose proof (Hobs y Hy) as Ny. unfold same_track. cbn [fst snd]. setoid_rewrite Hnew. setoid_rewrite (Hold y.1 y.2 _ Ny).
    destruct (Hls f Hf) as (l & Hl & Hex). split.
    + intros (l' & Hl' & (ly & Hly & Ey)). assert (l' = l) as -> by congruence. destruct (existing f) as [[|a xs]|] eqn:Ef.
      * exfalso. destruct (gm_shape _ _ _ Hgm f _ Hf Ef) as [(? & ? & ? & _)|(? & ? & ? & ? & ? & _)]; discriminate.
      * subst a. exists (l :: xs), ly. split; [reflexivity|]. split; [|exact Hly]. destruct (Hren ly) as [[E1 _]|(f1 & a1 & Hf1 & Ef1 & E1)].
        -- replace ly with l by congruence. left.
        -- assert (a1 = l) as -> by congruence. assert (f1 = f) as -> by (apply (gm_disjoint _ _ _ Hgm f1 f _ _ l Hf1 Hf Ef1 Ef); left).
           assert (xs = [ly]) as -> by congruence. right. left.
      * exfalso. destruct (Hlive ly (Hasl y ly Hly)) as (m & Hm). rewrite <- Ey in Hm. pose proof (ok_fresh_lms _ _ Hok l m Hm). lia.
    + intros (xs & lz & Ef & Hin & Hly). rewrite Ef in Hex. exists l. split; [exact Hl|]. exists lz. split; [exact Hly|].
      destruct (gm_shape _ _ _ Hgm f _ Hf Ef) as [(l0 & m & -> & _)|(a & b & ma & mb & -> & _)].
      * apply elem_of_list_singleton in Hin as ->. destruct (Hren l0) as [[E1 _]|(f1 & a1 & Hf1 & Ef1 & E1)]; [congruence|].
        assert (f1 = f) as -> by (apply (gm_disjoint _ _ _ Hgm f1 f _ _ l0 Hf1 Hf Ef1 Ef); [right|]; left). congruence.
      * destruct (Hpair f a b Hf Ef) as [Eb Ea]. apply elem_of_cons in Hin as [->|Hin]; [congruence|]. apply elem_of_list_singleton in Hin as ->. congruence.
  - intros f f' (l & H1 & H2). cbn in H1, H2. apply (co_mirrored _ (ai_core _ _ _ _ _ _ _ _ Hai)) in H1 as (m & Hm & Hf), H2 as (m' & Hm' & Hf'). unfold has_landmark in *. congruence.
Qed.

Lemma add_view_thm o d r k pose existing rc fr : orders_ok o -> data_ok d -> has_recon d r rc -> has_frame d k fr -> f_view fr = None ->
  good_matches rc (length (f_feats fr)) existing ->
  exists d' v rc', add_view o d r k pose existing = Ok (d', v) /\ data_ok d' /\ only_recon r d d' /\ has_recon d' r rc' /\
    view_inserted rc k pose existing (length (f_feats fr)) v rc'.
Proof.
  intros Ho Hd Hr Hf Hfree Hgm. pose proof (proj1 (data_ok_inv d) Hd) as Hinv. pose proof (ok_recons _ Hd r rc Hr) as Hok.
  pose proof (add_view_post False o none1 none2 d r k pose existing fr Ho Hinv id (fun _ => id) Hf (or_intror (ex_intro _ rc Hr))) as Ha.
  destruct (add_view o d r k pose existing) as [[d' v]| |]; cbn [post] in Ha; try (destruct Ha; intros rc' Hr'; assert (rc' = rc) as -> by (eapply has_recon_fun; eassumption); exact Hgm).
  destruct Ha as [Hi Hva]. { intros rc' Hr'. assert (rc' = rc) as -> by (eapply has_recon_fun; eassumption). exact Hgm. } cbn [fst snd] in *.
  pose proof (within_only r d d' (within_view_added (eq r) _ _ _ _ _ _ _ eq_refl Hva)) as Hwi.
  destruct Hva as [(rc0 & rc' & fr0 & Hr0 & Hf0 & -> & Hai & Ed)].
  assert (rc0 = rc) as -> by (eapply has_recon_fun; eassumption). assert (fr0 = fr) as -> by (eapply has_frame_fun; eassumption).
  exists d', (sm_next (r_views rc)), rc'. split; [reflexivity|]. split; [|split; [exact Hwi|split]].
  - apply data_ok_inv. eapply inv_ext; [| |exact Hi]; [auto|]. intros r' v'. unfold also_old. rewrite Hfree. split; [intros [H|H]; [exact H|discriminate]|auto].
  - rewrite Ed. apply relink_recon, upd_recon_same.
  - eapply view_inserted_ok; eassumption.
Qed.

(** ** Removing a view *)
Lemma view_removed_deleted v rc rc' : view_removed v rc rc' -> view_deleted rc v rc'.
Proof.
  intros [Hv _ Hc _ _ _]. split.
  - intros v' w. unfold has_view. rewrite Hv, lookup_delete_Some. split; intros [H1 H2]; split; congruence.
  - intros k c. rewrite Hc. unfold con_has. destruct (c_views c) as [[x y] z]. rewrite !orb_false_iff, !Nat.eqb_neq. intuition congruence.
Qed.

Lemma remove_view_effect d r v rc w : data_ok d -> has_recon d r rc -> has_view rc v w ->
  exists d' rc', remove_view d r v = Ok d' /\ data_ok d' /\ only_recon r d d' /\ has_recon d' r rc' /\ view_deleted rc v rc'.
Proof.
  intros Hd Hr Hw. apply data_ok_inv in Hd. pose proof (remove_view_post False none1 none2 d r v Hd id id) as Hp.
  destruct (remove_view d r v) as [d'| |]; cbn [post] in Hp; [|destruct Hp; right; eauto..]. destruct Hp as [Hi Hrv]; [right; eauto|].
  pose proof (within_only _ _ _ (within_removed_view (eq r) _ _ _ _ eq_refl Hrv)) as Hwi.
  destruct Hrv as [(rc0 & rc' & w0 & fr & Hr0 & Hw0 & Hvd & _ & Ed)]. assert (rc0 = rc) as -> by (eapply has_recon_fun; eassumption).
  exists d', rc'. split; [reflexivity|]. split; [apply data_ok_inv; exact Hi|]. split; [exact Hwi|]. split; [rewrite Ed; apply relink_recon, upd_recon_same|].
  apply view_removed_deleted. exact Hvd.
Qed.

Lemma merge_effect o d r rc a b rc' : orders_ok o -> data_ok d -> has_recon d r rc -> rec_merge o rc a b = Ok rc' ->
  recon_ok d rc' /\ tracks_merged rc a b rc'.
Proof.
  intros Ho Hd Hr E. pose proof (ok_recons _ Hd r rc Hr) as Hok. pose proof (recon_ok_core _ _ Hok) as Hc.
  destruct (rec_merge_core o rc a b rc' Ho Hc E) as (_ & Hm & Hc'). pose proof (proj1 (data_ok_inv d) Hd) as Hinv.
  split; [eapply (merge_inv none1 none2 d r rc a b rc' Hinv id Hr Hc' Hm)|apply merged_tracks; exact Hm].
Qed.
End facts.
