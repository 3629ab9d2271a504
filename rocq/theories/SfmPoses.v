(** Every pose of a database belongs to a group, along every history (C63). *)
From stdpp Require Import gmap list.
From Verif Require Import Outcome OutcomeFacts Sfm SfmSpec.
Open Scope nat_scope.

Section poses.
Context {P F : Type} (pone : P) (pmul : P -> P -> P) (pinv : P -> P) (Q : P -> Prop).
Implicit Types (rc : recon P) (d : vdata P F) (e : env P F).
Context (Qone : Q pone) (Qmul : forall p q, Q p -> Q q -> Q (pmul p q)) (Qinv : forall p, Q p -> Q (pinv p)).

Definition RQ rc : Prop := (forall v w, has_view rc v w -> Q (v_pose w)) /\ (forall k c, has_constraint rc k c -> Q (c_poses c).1 /\ Q (c_poses c).2).
Definition DQ d : Prop := forall r rc, has_recon d r rc -> RQ rc.

Record keeps e : Prop := {
  ke_register : forall d r k ms p ok, DQ d -> e_register e d r k ms = Some (p, ok) -> Q p;
  ke_two : forall d a b ms p ixs, e_two_view e d a b ms = Some (p, ixs) -> Q p;
  ke_three : forall d c x y p1 p2 t1 t2 t3, Q x.2.1 -> Q y.2.1 -> e_three_view e d c x y = TVaccept p1 p2 t1 t2 t3 -> Q p1 /\ Q p2;
  ke_optimize : forall d r t ls ps, DQ d -> e_optimize3 e d r t ls = Some ps -> Q ps.1 /\ Q ps.2;
  ke_update : forall p others p', Q p -> (forall x, x ∈ others -> Q x.1 /\ Q x.2) -> e_update e p others = Some p' -> Q p';
  ke_rescale : forall d r v f p, Q p -> e_rescale e d r v = Some f -> Q (f p)
}.

Definition op_keeps (x : op P F) : Prop :=
  match x with
  | OpAddFeed => True
  | OpAddFrame e _ _ | OpOptimize e _ | OpApplyConstraints e _ | OpRegenerate e _ | OpFilterObservations e _ | OpFilterLandmarks e _
  | OpNormalize e _ | OpMergeDedup e _ _ _ | OpMerge e _ _ _ => keeps e
  | OpIncorporate e _ _ t _ => keeps e /\ Q t
  | OpAddReconstruction e _ _ _ p1 p2 _ _ _ => keeps e /\ Q p1 /\ Q p2
  end.

(** ** Stepping through programs *)
Lemma p_bind {A B} (m : outcome A) (k : A -> outcome B) (I : A -> Prop) (J : B -> Prop) : post True m I -> (forall a, I a -> post True (k a) J) -> post True (bind m k) J.
Proof. intros H1 H2. apply post_bind. eapply post_mono; [exact H1|exact H2]. Qed.
Lemma p_unwrap {A B} (o : option A) (k : A -> outcome B) (J : B -> Prop) : (forall a, o = Some a -> post True (k a) J) -> post True (bind (unwrap o) k) J.
Proof. intros H. apply post_bind, post_unwrap; [left; exact I|exact H]. Qed.
Lemma p_any {A} (m : outcome A) : post True m (fun _ => True).
Proof. destruct m; exact I. Qed.
Lemma p_assert {A} b (m : outcome A) (J : A -> Prop) : post True m J -> post True (assert_ b m) J.
Proof. intros H. apply post_assert; [left; exact I|intros _; exact H]. Qed.
Lemma p_fold {A X} (f : A -> X -> outcome A) (I : A -> Prop) l a : I a -> (forall a x, x ∈ l -> I a -> post True (f a x) I) -> post True (foldM f l a) I.
Proof.
  revert a. induction l as [|x l IH]; intros a Ha H; cbn [foldM]; [exact Ha|]. eapply p_bind; [apply H; [left|exact Ha]|]. intros a' Ha'. apply IH; [exact Ha'|]. intros b y Hy. apply H. right. exact Hy.
Qed.
Lemma p_mapM {X Y} (f : X -> outcome Y) (R : Y -> Prop) l : (forall x, x ∈ l -> post True (f x) R) -> post True (mapM f l) (fun ys => forall y, y ∈ ys -> R y).
Proof.
  intros H. apply (post_mapM True f (fun _ y => R y) l _ H). intros ys Hys. induction Hys as [|x y xs ys Hy _ IH]; intros z Hz; [apply elem_of_nil in Hz as []|].
  apply elem_of_cons in Hz as [->|Hz]; [exact Hy|]. apply IH; [intros u Hu; apply H; right; exact Hu|exact Hz].
Qed.

(** ** Reconstructions *)
Lemma RQ_lms rc x : RQ rc -> RQ (set_lms rc x).
Proof. exact id. Qed.
Lemma RQ_put rc v w : RQ rc -> Q (v_pose w) -> RQ (set_views rc (sm_put v w (r_views rc))).
Proof.
  intros [H1 H2] Hw. split; [|exact H2]. intros u w' Hu. unfold has_view in Hu. cbn in Hu. apply lookup_insert_Some in Hu as [[_ <-]|[_ Hu]]; [exact Hw|]. eapply H1, Hu.
Qed.
Lemma RQ_keep rc v w x : RQ rc -> sm_get (r_views rc) v = Some w -> RQ (set_views rc (sm_put v (set_v_lms w x) (r_views rc))).
Proof. intros H Hw. apply RQ_put; [exact H|]. apply (proj1 H v w Hw). Qed.
Lemma RQ_ins rc w : RQ rc -> Q (v_pose w) -> RQ (set_views rc (sm_ins w (r_views rc))).
Proof. intros [H1 H2] Hw. split; [|exact H2]. intros u w' Hu. unfold has_view in Hu. cbn in Hu. apply lookup_insert_Some in Hu as [[_ <-]|[_ Hu]]; [exact Hw|]. eapply H1, Hu. Qed.
Lemma RQ_del rc v : RQ rc -> RQ (set_views rc (sm_del v (r_views rc))).
Proof. intros [H1 H2]. split; [|exact H2]. intros u w' Hu. unfold has_view in Hu. cbn in Hu. apply lookup_delete_Some in Hu as [_ Hu]. eapply H1, Hu. Qed.
Lemma RQ_con rc c : RQ rc -> Q (c_poses c).1 -> Q (c_poses c).2 -> RQ (set_cons rc (sm_ins c (r_cons rc))).
Proof. intros [H1 H2] Hw Hw'. split; [exact H1|]. intros k c' Hk. unfold has_constraint in Hk. cbn in Hk. apply lookup_insert_Some in Hk as [[_ <-]|[_ Hk]]; [auto|]. eapply H2, Hk. Qed.
Lemma RQ_empty : RQ recon_empty.
Proof. split; intros k x H; unfold has_view, has_constraint in H; cbn in H; rewrite lookup_empty in H; discriminate H. Qed.

Lemma DQ_put d r rc : DQ d -> RQ rc -> DQ (set_recs d (sm_put r rc (d_recs d))).
Proof. intros H Hr r' rc' H'. unfold has_recon in H'. cbn in H'. apply lookup_insert_Some in H' as [[_ <-]|[_ H']]; [exact Hr|]. eapply H, H'. Qed.
Lemma DQ_ins d rc : DQ d -> RQ rc -> DQ (set_recs d (sm_ins rc (d_recs d))).
Proof. intros H Hr r' rc' H'. unfold has_recon in H'. cbn in H'. apply lookup_insert_Some in H' as [[_ <-]|[_ H']]; [exact Hr|]. eapply H, H'. Qed.
Lemma DQ_del d r : DQ d -> DQ (set_recs d (sm_del r (d_recs d))).
Proof. intros H r' rc' H'. unfold has_recon in H'. cbn in H'. apply lookup_delete_Some in H' as [_ H']. eapply H, H'. Qed.
Lemma q_with_rec {A} d r (k : recon P -> outcome (recon P * A)) (R : A -> Prop) : DQ d -> (forall rc, sm_get (d_recs d) r = Some rc -> RQ rc -> post True (k rc) (fun x => RQ x.1 /\ R x.2)) ->
  post True (with_rec d r k) (fun x => DQ x.1 /\ R x.2).
Proof.
  intros Hd Hk. unfold with_rec. apply p_unwrap. intros rc Hrc. eapply p_bind; [apply (Hk rc Hrc); eapply Hd, Hrc|]. intros [rc' a] [H1 H2]. split; [apply DQ_put; assumption|exact H2].
Qed.
Lemma q_frame d k x : DQ d -> post True (set_frame_view d k x) DQ.
Proof. intros H. unfold set_frame_view. apply p_unwrap. intros fr _. exact H. Qed.

Lemma q_merge o rc a b : RQ rc -> post True (rec_merge o rc a b) RQ.
Proof.
  intros H. unfold rec_merge. apply p_unwrap. intros m _. apply p_fold; [exact H|]. clear H. intros r [v f] _ H. cbn [rec_merge_step]. apply p_unwrap. intros w Hw. apply p_assert. cbv zeta. apply p_unwrap. intros m' _. apply p_assert. cbn [post].
  exact (RQ_keep r v w _ H Hw).
Qed.
Lemma q_observe rc l v f : RQ rc -> post True (rec_observe rc l v f) RQ.
Proof. intros H. unfold rec_observe. apply p_unwrap. intros m _. exact H. Qed.
Lemma q_push rc v l : RQ rc -> post True (rec_push rc v l) RQ.
Proof. intros H. unfold rec_push. apply p_unwrap. intros w Hw. exact (RQ_keep rc v w _ H Hw). Qed.
Lemma q_feature o v ex rc f : RQ rc -> post True (rec_add_feature o v ex rc f) RQ.
Proof.
  intros H. unfold rec_add_feature. destruct (ex f) as [[|l [|l' [|]]]|]; try exact I.
  - eapply p_bind; [apply q_observe, H|]. intros r1 H1. apply q_push, H1.
  - eapply p_bind; [apply q_merge, H|]. intros r1 H1. eapply p_bind; [apply q_observe, H1|]. intros r2 H2. apply q_push, H2.
  - apply q_push. exact H.
Qed.
Lemma q_add_view o d r k pose ex : DQ d -> Q pose -> post True (add_view o d r k pose ex) (fun x => DQ x.1).
Proof.
  intros Hd Hp. unfold add_view. apply p_unwrap. intros fr _. eapply p_bind; [apply (q_with_rec d r _ (fun _ => True) Hd)|].
  - intros rc _ Hrc. cbv zeta. eapply p_bind.
    + apply (p_fold _ RQ); [apply RQ_ins; [exact Hrc|exact Hp]|]. intros r1 f _ H1. apply q_feature, H1.
    + intros rc2 H2. split; [exact H2|exact I].
  - intros [d1 v] [H1 _]. eapply p_bind; [apply q_frame, H1|]. intros d2 H2. exact H2.
Qed.
Lemma q_remove_view d r v : DQ d -> post True (remove_view d r v) DQ.
Proof.
  intros Hd. unfold remove_view. eapply p_bind; [apply (q_with_rec d r _ (fun _ => True) Hd)|].
  - intros rc _ Hrc. unfold rec_remove_view. apply p_unwrap. intros w Hw. cbv zeta. eapply p_bind.
    + apply (p_fold _ RQ); [exact (RQ_keep rc v w _ Hrc Hw)|]. intros r1 l _ H1. unfold rec_unobserve. apply p_unwrap. intros m _. destruct (size m) as [|[|n]]; [exact I|exact H1|exact H1].
    + intros r2 [H1 H2]. split; [|exact I]. apply RQ_del. split; [exact H1|]. intros k c Hc. unfold has_constraint in Hc. cbn in Hc. apply map_filter_lookup_Some in Hc as [Hc _]. eapply H2, Hc.
  - intros [d1 k] [H1 _]. apply q_frame, H1.
Qed.
Lemma q_bundle d r updated removed : DQ d -> (forall x, x ∈ updated -> Q x.2) -> post True (apply_bundle_adjust d r updated removed) DQ.
Proof.
  intros Hd Hu. unfold apply_bundle_adjust. eapply p_bind; [apply (q_with_rec d r _ (fun _ => True) Hd)|].
  - intros rc _ Hrc. eapply p_bind; [|intros rc' H'; split; [exact H'|exact I]]. apply (p_fold _ RQ); [exact Hrc|]. intros r1 vp Hvp H1. unfold rec_set_pose. apply p_unwrap. intros w Hw. apply RQ_put; [exact H1|]. apply Hu, Hvp.
  - intros [d1 x] [H1 _]. apply p_fold; [exact H1|]. intros d2 v _ H2. apply q_remove_view, H2.
Qed.
Lemma q_split rc v f : RQ rc -> post True (split_observation rc v f) (fun x => RQ x.1).
Proof.
  intros H. unfold split_observation. apply p_unwrap. intros w Hw. apply p_unwrap. intros l _. apply p_unwrap. intros m _. destruct (2 <=? size m); [|exact H]. apply p_assert. exact (RQ_keep rc v w _ H Hw).
Qed.
Lemma q_remove_recon o d r : DQ d -> post True (remove_reconstruction o d r) DQ.
Proof.
  intros Hd. unfold remove_reconstruction. apply p_unwrap. intros rc _. eapply p_bind; [apply (p_fold _ DQ); [exact Hd|]|].
  - intros d1 v _ H1. apply p_unwrap. intros w _. apply q_frame, H1.
  - intros d1 H1. apply DQ_del, H1.
Qed.
Lemma q_add_recon o d c f s p1 p2 co fi se : DQ d -> Q p1 -> Q p2 -> post True (add_reconstruction pone o d c f s p1 p2 co fi se) (fun x => DQ x.1).
Proof.
  intros Hd H1 H2. unfold add_reconstruction. cbv zeta. eapply p_bind; [apply q_add_view; [apply DQ_ins; [exact Hd|exact RQ_empty]|exact Qone]|]. intros [d1 cv] Hd1.
  apply p_unwrap. intros rc1 _. eapply p_bind; [apply p_any|]. intros fl _. eapply p_bind; [apply q_add_view; [exact Hd1|exact H1]|]. intros [d2 fv] Hd2.
  apply p_unwrap. intros rc2 _. eapply p_bind; [apply p_any|]. intros sl _. eapply p_bind; [apply q_add_view; [exact Hd2|exact H2]|]. intros [d3 sv] Hd3.
  eapply p_bind; [apply (q_with_rec d3 _ _ (fun _ => True) Hd3)|].
  - intros rc _ Hrc. split; [|exact I]. apply RQ_con; assumption.
  - intros [d4 x] [H4 _]. exact H4.
Qed.

(** ** Constraints *)
Section env.
Context (e : env P F) (s : settings) (He : keeps e).
Lemma q_triples d r rc n ts : DQ d -> post True (optimize_triples e d r rc n ts) (fun cs => forall c, c ∈ cs -> Q (c_poses c).1 /\ Q (c_poses c).2).
Proof.
  intros Hd. revert n. induction ts as [|t ts IH]; intros [|n]; cbn [optimize_triples]; try (intros c Hc; apply elem_of_nil in Hc as []). apply p_assert.
  destruct (e_optimize3 e d r t.1 t.2) as [ps|] eqn:E; [|apply IH]. eapply p_bind; [apply IH|]. intros rest Hrest c Hc. apply elem_of_cons in Hc as [->|Hc]; [|apply Hrest, Hc].
  cbn. eapply ke_optimize; eassumption.
Qed.
Lemma q_record d r v : DQ d -> post True (record_view_constraints e s d r v) (fun x => DQ x.1).
Proof.
  intros Hd. unfold record_view_constraints. eapply p_bind.
  - unfold generate_view_constraints. apply p_unwrap. intros rc Hrc. eapply p_bind; [apply p_any|]. intros cov _. cbv zeta. apply q_triples, Hd.
  - intros cs Hcs. eapply post_mono; [apply (q_with_rec d r _ (fun _ => True) Hd)|intros x [H _]; exact H]. intros rc _ Hrc. destruct (_ && _); [split; [exact Hrc|exact I]|]. split; [|exact I]. cbn [fst].
    destruct Hrc as [H1 H2]. split; [exact H1|]. intros k c. unfold has_constraint. cbn. intros Hc. assert (forall cs (m : smap (constraint3 P)), (forall c, c ∈ cs -> Q (c_poses c).1 /\ Q (c_poses c).2) -> (forall k c, sm_map m !! k = Some c -> Q (c_poses c).1 /\ Q (c_poses c).2) ->
      forall k c, sm_map (foldl (fun m c => sm_ins c m) m cs) !! k = Some c -> Q (c_poses c).1 /\ Q (c_poses c).2) as Hfold.
    { clear. intros cs. induction cs as [|c cs IH]; intros m Hcs Hm k c' H; [eapply Hm, H|]. cbn [foldl] in H. eapply (IH _ (fun c Hc => Hcs c (elem_of_list_further _ _ _ Hc))); [|exact H].
      intros k0 c0 H0. cbn in H0. apply lookup_insert_Some in H0 as [[_ <-]|[_ H0]]; [apply Hcs; left|]. eapply Hm, H0. }
    eapply (Hfold cs (r_cons rc) Hcs H2), Hc.
Qed.
Lemma edges_Q rc v es x : RQ rc -> flatten_constraints pmul pinv (e_ord e) rc !! v = Some es -> x ∈ es -> Q x.2.
Proof.
  intros [_ Hc] Hes Hx. unfold flatten_constraints in Hes. set (l := mjoin _) in Hes.
  assert (forall ve, ve ∈ l -> Q ve.2.2) as Hl.
  { intros ve Hve. unfold l in Hve. apply elem_of_list_join in Hve as (l0 & Hve & Hl0). apply elem_of_list_fmap in Hl0 as (c & -> & Hin). apply elem_of_list_omap in Hin as (k & _ & Hk). destruct (Hc k c Hk) as [Q1 Q2].
    unfold edge_constraints in Hve. destruct (c_views c) as [[v0 v1] v2]. destruct (c_poses c) as [p1 p2]. cbn in Q1, Q2. rewrite !elem_of_cons, elem_of_nil in Hve. destruct Hve as [->|[->|[->|[->|[->|[->|[]]]]]]]; cbn; auto. }
  assert (forall l acc, (forall ve, ve ∈ l -> Q ve.2.2) -> (forall v es x, acc !! v = Some es -> x ∈ es -> Q x.2) ->
     forall v es x, foldl (fun (acc : gmap key (list (key * P))) (ve : key * (key * P)) => <[ve.1 := default [] (acc !! ve.1) ++ [ve.2]]> acc) acc l !! v = Some es -> x ∈ es -> Q x.2) as Hfold.
  { clear. intros l. induction l as [|ve l IH]; intros acc Hl Hacc v es x; [apply Hacc|]. cbn [foldl]. apply IH; [intros u Hu; apply Hl; right; exact Hu|]. intros v' es' x' H Hx'.
    apply lookup_insert_Some in H as [[_ <-]|[_ H]]; [|eapply Hacc; eassumption]. apply elem_of_app in Hx' as [Hx'|Hx']; [|apply elem_of_list_singleton in Hx' as ->; apply Hl; left].
    destruct (acc !! ve.1) as [es0|] eqn:E0; cbn in Hx'; [eapply Hacc; eassumption|apply elem_of_nil in Hx' as []]. }
  eapply (Hfold l ∅ Hl); [|exact Hes|exact Hx]. intros v' es' x' H. rewrite lookup_empty in H. discriminate H.
Qed.
Lemma q_iterations n : forall d r edges, DQ d -> (forall v es x, edges !! v = Some es -> x ∈ es -> Q x.2) -> post True (constraint_iterations e n d r edges) (fun x => DQ x.1).
Proof.
  induction n as [|n IH]; intros d r edges Hd Hed; cbn [constraint_iterations]; [exact Hd|]. apply p_unwrap. intros rc Hrc. pose proof (Hd r rc Hrc) as HR.
  eapply (p_bind _ _ (fun ba => match ba with Some (u, _) => forall x, x ∈ u -> Q x.2 | None => True end)).
  - unfold compute_bundle_adjust. eapply (p_bind _ _ (fun ba => forall x, x ∈ ba.1 -> Q x.2)).
    + apply (p_fold _ (fun ba : list (key * P) * list key => forall x, x ∈ ba.1 -> Q x.2)); [intros x Hx; apply elem_of_nil in Hx as []|]. intros ba v _ Hba. unfold ba_step. eapply (p_bind _ _ (fun p => match p with Some p => Q p | None => True end)).
      * unfold constrain_view. destruct (edges !! v) as [es|] eqn:E; [|exact I]. apply p_assert. apply p_unwrap. intros w Hw. eapply p_bind; [apply (p_mapM _ (fun x : P * P => Q x.1 /\ Q x.2))|].
        -- intros ve Hve. apply p_unwrap. intros w' Hw'. split; cbn; [eapply Hed; eassumption|]. eapply (proj1 HR), Hw'.
        -- intros others Ho. cbn [post]. destruct (e_update e (v_pose w) others) as [p|] eqn:Eu; [|exact I]. eapply ke_update; [exact He| |exact Ho|exact Eu]. eapply (proj1 HR), Hw.
      * intros [p|] Hp; cbn [post fst]; [|exact Hba]. intros x Hx. apply elem_of_app in Hx as [Hx|Hx]; [apply Hba, Hx|]. apply elem_of_list_singleton in Hx as ->. exact Hp.
    + intros [u rem] Hu. cbn [post fst]. destruct (3 <=? length u); [exact Hu|exact I].
  - intros [[u rem]|] Hu.
    + eapply p_bind; [apply q_bundle; [exact Hd|exact Hu]|]. intros d' Hd'. apply IH; assumption.
    + eapply p_bind; [apply q_remove_recon, Hd|]. intros d' Hd'. exact Hd'.
Qed.
Lemma q_constraints d r : DQ d -> post True (apply_constraints pmul pinv e s d r) (fun x => DQ x.1).
Proof. intros Hd. unfold apply_constraints. apply p_unwrap. intros rc Hrc. apply q_iterations; [exact Hd|]. intros v es x H Hx. eapply edges_Q; [eapply Hd, Hrc|exact H|exact Hx]. Qed.

(** ** Filtering *)
Lemma q_splits rc (l : list (key * nat)) : RQ rc -> post True (foldM (fun rc vf => let! (rc', _) := split_observation rc vf.1 vf.2 in Ok rc') l rc) RQ.
Proof. intros H. apply p_fold; [exact H|]. intros r vf _ Hr. eapply p_bind; [apply q_split, Hr|]. intros [r' b] H'. exact H'. Qed.
Lemma q_split_landmark o rc l : RQ rc -> post True (split_landmark o rc l) RQ.
Proof. intros H. unfold split_landmark. apply p_unwrap. intros m _. destruct (obs_list o l m); [exact I|]. apply q_splits, H. Qed.
Lemma q_filter_landmark r d l : DQ d -> post True (filter_landmark e r d l) DQ.
Proof.
  intros Hd. unfold filter_landmark. eapply p_bind; [apply (q_with_rec d r _ (fun _ => True) Hd)|intros [d' x] [H' _]; exact H']. intros rc _ Hrc. apply p_unwrap. intros m _. cbv zeta. eapply p_bind; [|intros rc' H'; split; [exact H'|exact I]].
  destruct (length _) as [|[|[|n]]]; [exact I|exact Hrc| |]; apply p_assert.
  - destruct (e_bi_robust e d r l); [exact Hrc|]. apply q_split_landmark, Hrc.
  - destruct (e_disagree e d r l) as [bad|]; [|apply q_split_landmark, Hrc]. apply p_fold; [exact Hrc|]. intros r1 vf _ H1. destruct (bad vf); [|exact H1]. eapply p_bind; [apply q_split, H1|]. intros [r' b] H'. exact H'.
Qed.
Lemma q_filter_observations d r : DQ d -> post True (filter_observations e d r) (fun x => DQ x.1).
Proof.
  intros Hd. unfold filter_observations. apply p_unwrap. intros rc _. apply p_assert. eapply p_bind; [apply (p_fold _ DQ); [exact Hd|]; intros d1 l _ H1; apply q_filter_landmark, H1|]. intros d1 H1. apply p_unwrap. intros rc1 _. apply p_assert.
  destruct (e_too_few e d1 r); [|exact H1]. eapply p_bind; [apply q_remove_recon, H1|]. intros d2 H2. exact H2.
Qed.
Lemma q_filter_landmarks d r : DQ d -> post True (filter_landmarks e d r) DQ.
Proof.
  intros Hd. unfold filter_landmarks. apply p_unwrap. intros rc _. apply p_fold; [exact Hd|]. intros d1 l _ H1. eapply p_bind; [apply (q_with_rec d1 r _ (fun _ => True) H1)|intros [d' x] [H' _]; exact H'].
  intros rc1 _ Hrc1. apply p_unwrap. intros m _. apply p_assert. destruct (e_robust e d1 r l); [split; [exact Hrc1|exact I]|]. eapply p_bind; [apply q_split_landmark, Hrc1|]. intros rc' H'. split; [exact H'|exact I].
Qed.
Lemma q_dedup d r a b : DQ d -> post True (merge_landmarks_dedup e d r a b) (fun x => DQ x.1).
Proof.
  intros Hd. unfold merge_landmarks_dedup. eapply post_mono; [apply (q_with_rec d r _ (fun _ => True) Hd)|intros x [H _]; exact H]. intros rc _ Hrc. apply p_unwrap. intros ma _. apply p_unwrap. intros mb _. cbv zeta.
  eapply (p_bind _ _ (fun x => RQ x.1)).
  - apply (p_fold _ (fun x : recon P * bool => RQ x.1)); [exact Hrc|]. intros [r1 ok] [v [fa fb]] _ H1. cbn [fst dedup_step] in *. cbv zeta. eapply p_bind; [apply p_any|]. intros la _. eapply p_bind; [apply p_any|]. intros lb _. apply p_assert. eapply p_bind; [apply q_split, H1|]. intros [r2 did] H2. exact H2.
  - intros [rc1 ok] H1. destruct ok; [|split; [exact H1|exact I]]. eapply p_bind; [apply q_merge, H1|]. intros rc2 H2. split; [exact H2|exact I].
Qed.
Lemma q_optimize n : forall d r, DQ d -> post True (optimize_iterations pmul pinv e s n d r) (fun x => DQ x.1).
Proof.
  induction n as [|n IH]; intros d r Hd; cbn [optimize_iterations]; [exact Hd|]. eapply p_bind; [apply q_constraints, Hd|]. intros [d1 [|]] H1; [|exact H1]. eapply p_bind; [apply q_filter_observations, H1|]. intros [d2 [|]] H2; [|exact H2]. apply IH, H2.
Qed.
Lemma q_regenerate d r : DQ d -> post True (regenerate_reconstruction pmul pinv e s d r) (fun x => DQ x.1).
Proof.
  intros Hd. unfold regenerate_reconstruction. eapply p_bind; [apply (q_with_rec d r _ (fun _ => True) Hd)|].
  - intros rc _ [H1 _]. split; [|exact I]. split; [exact H1|]. intros k c Hc. unfold has_constraint in Hc. cbn in Hc. rewrite lookup_empty in Hc. discriminate Hc.
  - intros [d1 ks] [H1 _]. eapply p_bind; [apply (p_fold _ DQ); [exact H1|]|].
    + intros d2 v _ H2. eapply p_bind; [apply q_record, H2|]. intros [d3 x] H3. exact H3.
    + intros d2 H2. apply q_optimize, H2.
Qed.
Lemma q_normalize d r : DQ d -> post True (normalize_reconstruction pmul pinv e d r) DQ.
Proof.
  intros Hd. unfold normalize_reconstruction. eapply p_bind; [apply (q_with_rec d r _ (fun _ => True) Hd)|intros [d' x] [H' _]; exact H']. intros rc _ Hrc. destruct (o_views _ _) as [|v0 vs]; [exact I|]. apply p_unwrap. intros w0 Hw0. apply p_assert.
  destruct (e_rescale e d r v0) as [f|] eqn:Ef; [|split; [exact Hrc|exact I]]. cbn [post fst snd]. split; [|exact I]. destruct Hrc as [H1 H2]. split.
  - intros v w Hw. unfold has_view in Hw. cbn in Hw. rewrite lookup_fmap in Hw. apply fmap_Some in Hw as (w1 & Hw1 & ->). cbn. eapply ke_rescale; [exact He| |exact Ef]. apply Qmul; [eapply H1, Hw1|]. apply Qinv. eapply H1, Hw0.
  - intros k c Hc. unfold has_constraint in Hc. cbn in Hc. rewrite lookup_fmap in Hc. apply fmap_Some in Hc as (c1 & Hc1 & ->). cbn. destruct (H2 k c1 Hc1). split; (eapply ke_rescale; [exact He| |exact Ef]; assumption).
Qed.

(** ** Incorporating *)
Lemma q_register d r k views : DQ d -> post True (register_frame e s d r k views) (fun res => match res with Some (p, _) => Q p | None => True end).
Proof.
  intros Hd. unfold register_frame. apply p_unwrap. intros fr _. cbv zeta. generalize (Nat.min (single_view_initial_features s) (length (f_feats fr))) (@nil (list key * nat)) 0. generalize (e_fuel e). intros fuel.
  induction fuel as [|fuel IH]; intros hi acc lo; cbn [window_loop]; [exact I|]. eapply (p_bind _ _ (fun x => match x.2 with Some (p, _) => Q p | None => True end)).
  - unfold register_subset. apply p_unwrap. intros rc _. apply p_unwrap. intros fr' _. eapply p_bind; [apply p_any|]. intros ms _. cbv zeta. eapply p_bind; [apply p_any|]. intros y _.
    destruct (e_register e d r k (unique_matches ms)) as [[p ok]|] eqn:E; [|exact I]. cbn. eapply ke_register; eassumption.
  - intros [acc' [x|]] Hx; cbn [snd] in Hx; [exact Hx|]. destruct (hi =? _); [exact I|apply IH].
Qed.
Lemma q_incorporate_frame d r k views : DQ d -> post True (incorporate_frame e s d r k views) (fun x => DQ x.1).
Proof.
  intros Hd. unfold incorporate_frame. eapply p_bind; [apply q_register, Hd|]. intros [[pose ms]|] Hp; [|exact Hd]. eapply p_bind; [apply q_add_view; [exact Hd|exact Hp]|]. intros [d1 v] H1. eapply p_bind; [apply q_record, H1|]. intros [d2 [|]] H2; [exact H2|]. eapply p_bind; [apply q_remove_view, H2|]. intros d3 H3. exact H3.
Qed.
Lemma q_move_feature src sv dv acc f : RQ acc.1 -> post True (move_feature src sv dv acc f) (fun x => RQ x.1).
Proof.
  destruct acc as [dest lmap]. cbn [fst]. intros H. unfold move_feature. eapply p_bind; [apply p_any|]. intros sl _. destruct (lmap !! sl) as [dl|].
  - eapply p_bind; [apply q_observe, H|]. intros d1 H1. eapply p_bind; [apply q_push, H1|]. intros d2 H2. exact H2.
  - cbv zeta. eapply p_bind; [apply (q_push (rec_add_landmark dest dv f)); exact H|]. intros d1 H1. exact H1.
Qed.
Lemma q_incorporate_recon d src dest t lmap : DQ d -> Q t -> post True (incorporate_reconstruction pmul pinv e s d src dest t lmap) DQ.
Proof.
  intros Hd Ht. unfold incorporate_reconstruction. cbv zeta. apply p_unwrap. intros rs Hrs. pose proof (Hd src rs Hrs) as HR.
  eapply (p_bind _ _ (fun x => DQ x.1.1)).
  - apply (p_fold _ (fun x : vdata P F * gmap key key * list key => DQ x.1.1)); [exact Hd|]. intros [[d1 lm] dvs] sv _ H1. cbn [fst] in H1. unfold move_view. apply p_unwrap. intros w Hw. apply p_unwrap. intros fr _. cbv zeta.
    eapply p_bind; [apply (q_with_rec d1 dest _ (fun _ => True) H1)|].
    + intros rd _ Hrd. eapply (p_bind _ _ (fun x => RQ x.1)); [|intros [r2 lm'] H2; split; [exact H2|exact I]]. apply (p_fold _ (fun x : recon P * gmap key key => RQ x.1)).
      * cbn [fst]. apply RQ_ins; [exact Hrd|]. cbn. apply Qmul; [eapply (proj1 HR), Hw|]. apply Qinv, Ht.
      * intros acc f _ Ha. apply q_move_feature, Ha.
    + intros [d2 [lm' dv]] [H2 _]. eapply p_bind; [apply q_frame, H2|]. intros d3 H3. exact H3.
  - intros [[d1 lm] dvs] H1. cbn [fst] in H1. eapply p_bind; [apply (p_fold _ DQ); [exact H1|]|].
    + intros d2 v _ H2. eapply p_bind; [apply q_record, H2|]. intros [d3 [|]] H3; [exact H3|]. apply q_remove_view, H3.
    + intros d2 H2. apply DQ_del, H2.
Qed.
Lemma q_try_merge d src sv dest views : DQ d -> post True (try_merge_reconstructions pmul pinv e s d src sv dest views) (fun x => DQ x.1).
Proof.
  intros Hd. unfold try_merge_reconstructions. apply p_unwrap. intros rs Hrs. apply p_unwrap. intros w Hw. cbv zeta. assert (Q (v_pose w)) as Hqw by (eapply (proj1 (Hd src rs Hrs)), Hw).
  eapply p_bind; [apply q_register, Hd|]. intros [[pose ms]|] Hp; [|exact Hd]. eapply p_bind; [apply q_add_view; [exact Hd|exact Hp]|]. intros [d1 dv] H1. eapply p_bind; [apply q_record, H1|]. intros [d2 ok] H2. cbn [fst] in H2. destruct (negb ok).
  - eapply p_bind; [apply q_remove_view, H2|]. intros d3 H3. eapply p_bind; [apply q_frame, H3|]. intros d4 H4. exact H4.
  - eapply p_bind; [apply p_any|]. intros lm _. eapply p_bind; [apply (q_with_rec d2 src _ (fun _ => True) H2)|].
    + intros rc _ Hrc. split; [|exact I]. apply RQ_del, Hrc.
    + intros [d3 x] [H3 _]. eapply p_bind; [apply q_incorporate_recon; [exact H3|]; apply Qmul; [apply Qinv, Hp|exact Hqw]|]. intros d4 H4. exact H4.
Qed.

(** ** Initialisation and localisation *)
Lemma q_two_view d a b : post True (init_two_view e s d a b) (fun x => match x with Some (p, _) => Q p | None => True end).
Proof.
  unfold init_two_view. apply p_unwrap. intros fa _. apply p_unwrap. intros fb _. eapply p_bind; [apply p_any|]. intros ms _. destruct (e_two_view e d a b ms) as [[p ixs]|] eqn:E; [|exact I].
  eapply p_bind; [apply p_any|]. intros kept _. cbn. eapply ke_two; eassumption.
Qed.
Lemma pairs_in {A} (l : list A) x y : (x, y) ∈ pairs l -> x ∈ l /\ y ∈ l.
Proof.
  induction l as [|z l IH]; cbn [pairs]; [intros H; apply elem_of_nil in H as []|]. rewrite elem_of_app, elem_of_list_fmap. intros [(y' & [= -> ->] & Hy)|H].
  - split; [left|right; exact Hy].
  - apply IH in H as [H1 H2]. split; right; assumption.
Qed.
Lemma q_init_pairs d c ps : (forall x y, (x, y) ∈ ps -> Q x.2.1 /\ Q y.2.1) ->
  match init_pairs e d c ps with Some (_, p1, (_, p2), _, _, _) => Q p1 /\ Q p2 | None => True end.
Proof.
  induction ps as [|[x y] ps IH]; intros H; cbn [init_pairs]; [exact I|]. destruct (H x y) as [Hx Hy]; [left|]. destruct (e_three_view e d c x y) as [| |p1 p2 t1 t2 t3] eqn:E; [apply IH; intros u v Huv; apply H; right; exact Huv|exact I|].
  pose proof (ke_three _ He _ _ _ _ _ _ _ _ _ Hx Hy E) as Hp. destruct x as [first [q1 firsts]], y as [second [q2 seconds]]. exact Hp.
Qed.
Lemma q_init d c options : DQ d -> post True (try_init pone e s d c options) DQ.
Proof.
  intros Hd. unfold try_init. eapply (p_bind _ _ (fun l => forall x, x ∈ l -> Q x.2.1)).
  - unfold init_options. eapply p_bind; [apply (p_mapM _ (fun y : option (key * (P * list (nat * nat))) => match y with Some x => Q x.2.1 | None => True end))|].
    + intros o _. eapply p_bind; [apply q_two_view|]. intros [[p k]|] Hp; [exact Hp|exact I].
    + intros l Hl x Hx. apply elem_of_list_omap in Hx as (y & Hy & Exy). specialize (Hl y Hy). cbn in Exy. unfold id in Exy. subst y. exact Hl.
  - intros opts Ho. pose proof (q_init_pairs d c (pairs opts)) as Hp. destruct (init_pairs e d c (pairs opts)) as [[[[[[first p1] [second p2]] co] fi] se]|]; [|exact Hd].
    destruct Hp as [Q1 Q2]; [intros x y Hxy; apply pairs_in in Hxy as [Hx Hy]; split; apply Ho; assumption|]. eapply p_bind; [apply q_add_recon; assumption|]. intros [d' r] H'. exact H'.
Qed.
Lemma q_localize_incorporate d r k : DQ d -> post True (try_localize_and_incorporate pmul pinv e s d r k) DQ.
Proof.
  intros Hd. unfold try_localize_and_incorporate. eapply p_bind; [apply p_any|]. intros [recs fr] _. destruct (recs !! r) as [views|]; [|exact Hd]. eapply p_bind; [apply q_incorporate_frame, Hd|]. intros [d1 [|]] H1; [|exact H1].
  eapply p_bind; [apply q_optimize, H1|]. intros [d2 x] H2. exact H2.
Qed.
Lemma q_localize_step k d x : DQ d -> post True (localize_step pmul pinv e s k d x) DQ.
Proof.
  intros Hd. destruct x as [dest views]. unfold localize_step. apply p_unwrap. intros fr _. destruct (f_view fr) as [[src v]|].
  - destruct (src =? dest); [exact Hd|]. apply p_unwrap. intros rs _. destruct (3 <=? _); [|exact Hd]. apply p_unwrap. intros rd _. destruct (3 <=? _); [|exact Hd].
    eapply p_bind; [apply q_try_merge, Hd|]. intros [d1 [|]] H1; [|exact H1]. eapply p_bind; [apply q_optimize, H1|]. intros [d2 y] H2. exact H2.
  - eapply p_bind; [apply q_incorporate_frame, Hd|]. intros [d1 [|]] H1; [|exact H1]. eapply p_bind; [apply q_optimize, H1|]. intros [d2 y] H2. exact H2.
Qed.
Lemma q_free d r free : DQ d -> post True (incorporate_free pmul pinv e s d r free) DQ.
Proof.
  revert d. induction free as [|k free IH]; intros d Hd; cbn [incorporate_free]; [exact Hd|]. apply p_unwrap. intros fr _. destruct (f_view fr); [apply IH, Hd|]. eapply p_bind; [apply q_localize_incorporate, Hd|]. intros d1 H1. destruct (sm_get (d_recs d1) r); [apply IH, H1|exact H1].
Qed.
Lemma q_add_frame d feed fs : DQ d -> post True (add_frame pone pmul pinv e s d feed fs) (fun x => DQ x.1).
Proof.
  intros Hd. unfold add_frame. eapply (p_bind _ _ (fun x => DQ x.1)); [unfold data_add_frame; apply p_unwrap; intros l _; exact Hd|]. intros [d1 k] H1. eapply p_bind; [apply p_any|]. intros [recs free] _.
  eapply (p_bind _ _ DQ); [|intros d2 H2; exact H2]. unfold try_localize. cbv zeta. eapply p_bind; [apply (p_fold _ DQ); [exact H1|]; intros d2 x _ H2; apply q_localize_step, H2|]. intros d2 H2. apply p_unwrap. intros fr _.
  eapply (p_bind _ _ DQ); [destruct (f_view fr); [exact H2|apply q_init, H2]|]. intros d3 H3. apply p_unwrap. intros fr2 _. destruct (f_view fr2) as [[r v]|]; [apply q_free, H3|exact H3].
Qed.
End env.

Lemma q_step s d x : op_keeps x -> DQ d -> post True (step pone pmul pinv s d x) DQ.
Proof.
  intros Hx Hd. destruct x; cbn [op_keeps] in Hx; cbn [step].
  - exact Hd.
  - eapply p_bind; [apply q_add_frame; assumption|]. intros [d' y] H'. exact H'.
  - eapply p_bind; [apply q_optimize; assumption|]. intros [d' y] H'. exact H'.
  - eapply p_bind; [apply q_constraints; assumption|]. intros [d' y] H'. exact H'.
  - eapply p_bind; [apply q_regenerate; assumption|]. intros [d' y] H'. exact H'.
  - eapply p_bind; [apply q_filter_observations; assumption|]. intros [d' y] H'. exact H'.
  - apply q_filter_landmarks; assumption.
  - apply q_normalize; assumption.
  - eapply p_bind; [apply q_dedup; assumption|]. intros [d' y] H'. exact H'.
  - eapply p_bind; [apply (q_with_rec d _ _ (fun _ => True) Hd)|intros [d' y] [H' _]; exact H']. intros rc _ Hrc. eapply p_bind; [apply q_merge, Hrc|]. intros rc' H'. split; [exact H'|exact I].
  - destruct Hx. apply q_incorporate_recon; assumption.
  - destruct Hx as (? & ? & ?). eapply p_bind; [apply q_add_recon; assumption|]. intros [d' y] H'. exact H'.
Qed.
Lemma q_run s ops d : (forall x, x ∈ ops -> op_keeps x) -> run pone pmul pinv s ops = Ok d -> DQ d.
Proof.
  intros Hops E. assert (post True (run pone pmul pinv s ops) DQ) as H.
  { unfold run. apply p_fold; [|intros d1 x Hx H1; apply q_step; [apply Hops, Hx|exact H1]]. intros r rc Hr. unfold has_recon in Hr. cbn in Hr. rewrite lookup_empty in Hr. discriminate Hr. }
  rewrite E in H. exact H.
Qed.
End poses.
