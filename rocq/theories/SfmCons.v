(** Facts about generating, recording and applying three-view constraints. *)
From stdpp Require Import gmap list.
From Verif Require Import Outcome OutcomeFacts Sfm SfmSpec SfmRec SfmTrack SfmData SfmPrim.

Section facts.
Context {P F : Type}.
Implicit Types (rc : recon P) (d : vdata P F) (e : env P F).

(** ** Reading observations *)
Lemma feature_exists_ok d rc v f l : recon_ok d rc -> assigned rc v f l -> feature_exists d rc v f = true.
Proof.
  intros Hok (w & Hw & Hf). unfold feature_exists, sm_get. unfold has_view in Hw. rewrite Hw.
  destruct (ok_entries _ _ Hok v w Hw) as (fr & Hfr & Hlen). unfold has_frame in Hfr. rewrite Hfr.
  apply Nat.ltb_lt. rewrite <- Hlen. eapply lookup_lt_Some; exact Hf.
Qed.

Lemma obs_readable_ok d rc l m : recon_ok d rc -> has_landmark rc l m -> obs_readable d rc m = true.
Proof.
  intros Hok Hm. unfold obs_readable. apply bool_decide_eq_true_2. intros v f Hv.
  apply (feature_exists_ok d rc v f l Hok). apply (ok_mirrored _ _ Hok). exists m. auto.
Qed.

Lemma landmark_readable_ok d rc l m : recon_ok d rc -> has_landmark rc l m -> landmark_readable d rc l = true.
Proof.
  intros Hok Hm. unfold landmark_readable, sm_get. pose proof Hm as Hm'. unfold has_landmark in Hm'. rewrite Hm'.
  eapply obs_readable_ok; eassumption.
Qed.

Lemma all_readable_ok d rc : recon_ok d rc -> all_readable d rc = true.
Proof. intros Hok. apply bool_decide_eq_true_2. intros l m Hm. eapply obs_readable_ok; eassumption. Qed.

(** ** Covisibility *)
Section covis.
Variables (e : env P F) (d : vdata P F) (r : key) (rc : recon P) (v : key).

Definition covisible (u l : key) : Prop :=
  u <> v /\ e_robust e d r l = true /\ exists m f, has_landmark rc l m /\ m !! u = Some f.

Lemma covis_inner (L : list key) (l : key) (acc : gmap key (list key)) u :
  NoDup L ->
  foldl (fun acc w => if w =? v then acc else <[w := default [] (acc !! w) ++ [l]]> acc) acc L !! u =
    if decide (u ∈ L /\ u <> v) then Some (default [] (acc !! u) ++ [l]) else acc !! u.
Proof.
  revert acc. induction L as [|x L IH]; intros acc Hnd; cbn [foldl].
  - rewrite decide_False; [reflexivity|]. intros [H _]. apply elem_of_nil in H as [].
  - apply NoDup_cons in Hnd as [Hx Hnd]. rewrite IH by assumption. destruct (x =? v) eqn:E.
    + apply Nat.eqb_eq in E as ->. destruct (decide (u ∈ L /\ u <> v)) as [H|H].
      * rewrite decide_True; [reflexivity|]. destruct H. split; [right; assumption|assumption].
      * rewrite decide_False; [reflexivity|]. intros [H1 H2]. apply H. apply elem_of_cons in H1 as [->|H1]; [congruence|auto].
    + apply Nat.eqb_neq in E. destruct (decide (u = x)) as [->|Hne].
      * rewrite (decide_False (P := x ∈ L /\ x <> v)) by (intros [H _]; contradiction).
        rewrite lookup_insert, decide_True; [reflexivity|]. split; [left|exact E].
      * rewrite lookup_insert_ne by congruence. destruct (decide (u ∈ L /\ u <> v)) as [H|H].
        -- rewrite decide_True; [reflexivity|]. destruct H. split; [right; assumption|assumption].
        -- rewrite decide_False; [reflexivity|]. intros [H1 H2]. apply H. apply elem_of_cons in H1 as [->|H1]; [congruence|auto].
Qed.

Record covis_ok (done : key -> Prop) (acc : gmap key (list key)) : Prop := {
  cv_mem : forall u l, l ∈ default [] (acc !! u) <-> done l /\ covisible u l;
  cv_nodup : forall u, NoDup (default [] (acc !! u));
  cv_nonempty : forall u ls, acc !! u = Some ls -> ls <> []
}.

Lemma view_covisibilities_post T :
  orders_ok (e_ord e) -> recon_ok d rc -> (T \/ exists w, has_view rc v w) ->
  post T (view_covisibilities e d r rc v) (fun cov => exists w, has_view rc v w /\ covis_ok (fun l => l ∈ v_lms w) cov).
Proof.
  intros Ho Hok HT. unfold view_covisibilities. apply post_bind, post_unwrap.
  { destruct HT as [HT|[w Hw]]; [left; exact HT|]. right. exists w. exact Hw. }
  intros w Hw. change (has_view rc v w) in Hw.
  pose proof (view_lms_NoDup rc v w (ok_mirrored _ _ Hok) Hw) as Hnd.
  apply (post_foldM T _ (fun rest acc => NoDup rest /\ rest ⊆ v_lms w /\ covis_ok (fun l => l ∈ v_lms w /\ l ∉ rest) acc)).
  - intros l rest acc (Hnr & Hsub & Hc). apply NoDup_cons in Hnr as [Hl Hnr].
    assert (l ∈ v_lms w) as Hlw by (apply Hsub; left).
    apply elem_of_list_lookup in Hlw as Hf. destruct Hf as [f Hf].
    destruct (view_lm_exists rc v w f l (ok_mirrored _ _ Hok) Hw Hf) as (m & Hm & Hmv).
    unfold covis_step. apply post_bind, post_unwrap; [right; exists m; exact Hm|]. intros m' Hm'.
    assert (m' = m) as -> by (unfold sm_get in Hm'; unfold has_landmark in Hm; congruence).
    apply post_assert; [right; eapply obs_readable_ok; eassumption|]. intros _. cbn [post].
    split; [exact Hnr|]. split; [intros x Hx; apply Hsub; right; exact Hx|].
    assert (NoDup (o_obs (e_ord e) l (dom m))) as HndL.
    { rewrite (oo_obs _ Ho). apply NoDup_elements. }
    assert (forall u, u ∈ o_obs (e_ord e) l (dom m) <-> exists f, m !! u = Some f) as HL.
    { intros u. rewrite (oo_obs _ Ho), elem_of_elements, elem_of_dom. reflexivity. }
    destruct Hc as [Hc1 Hc2 Hc3]. destruct (e_robust e d r l) eqn:Hrob.
    + split.
      * intros u l'. rewrite covis_inner by exact HndL. destruct (decide _) as [[H1 H2]|H].
        -- cbn. rewrite elem_of_app, elem_of_list_singleton, Hc1. rewrite elem_of_cons. split.
           ++ intros [[[H3 H4] H5]| ->]; [tauto|]. split; [auto|]. split; [exact H2|]. split; [exact Hrob|].
              apply HL in H1 as [f' H1]. eauto.
           ++ intros [[H3 H4] H5]. destruct (decide (l' = l)) as [->|Hne]; [auto|]. left. split; [|exact H5]. split; [exact H3|]. intros [H6|H6]; contradiction.
        -- rewrite Hc1, elem_of_cons. split; [tauto|]. intros [[H3 H4] H5]. split; [|exact H5]. split; [exact H3|].
           intros [->|H6]; [|contradiction]. apply H. destruct H5 as (H5 & _ & m' & f' & H7 & H8).
           assert (m' = m) as -> by (unfold has_landmark in *; congruence). split; [apply HL; eauto|exact H5].
      * intros u. rewrite covis_inner by exact HndL. destruct (decide _) as [[H1 H2]|H]; [|apply Hc2].
        cbn. apply NoDup_app. split; [apply Hc2|]. split; [|apply NoDup_singleton]. intros x Hx Hx'. apply elem_of_list_singleton in Hx' as ->.
        apply Hc1 in Hx as [[_ Hx] _]. apply Hx. left.
      * intros u ls. rewrite covis_inner by exact HndL. destruct (decide _) as [[H1 H2]|H]; [|apply Hc3].
        intros [= <-] E. apply app_eq_nil in E as [_ E]. discriminate.
    + split; auto. intros u l'. rewrite Hc1, elem_of_cons. split; [tauto|]. intros [[H3 H4] H5]. split; [|exact H5]. split; [exact H3|].
      intros [->|H6]; [|contradiction]. destruct H5 as (_ & H5 & _). congruence.
  - split; [exact Hnd|]. split; [reflexivity|]. split.
    + intros u l. rewrite lookup_empty. cbn. split; [intros H; apply elem_of_nil in H as []|]. intros [[H1 H2] _]. contradiction.
    + intros u. rewrite lookup_empty. apply NoDup_nil_2.
    + intros u ls. rewrite lookup_empty. discriminate.
  - intros acc (_ & _ & [H1 H2 H3]). exists w. split; [exact Hw|]. split; auto. intros u l. rewrite H1.
    split; [tauto|]. intros [H4 H5]. split; [|exact H5]. split; [exact H4|]. apply not_elem_of_nil.
Qed.
End covis.

(** ** Sublists *)
Lemma sublist_elem_of {A} (l k : list A) x : l `sublist_of` k -> x ∈ l -> x ∈ k.
Proof. induction 1 as [|y l k Hlk IH|y l k Hlk IH]; intros H; [exact H| |right; auto]. apply elem_of_cons in H as [->|H]; [left|right; auto]. Qed.

Lemma sublist_NoDup {A} (l k : list A) : l `sublist_of` k -> NoDup k -> NoDup l.
Proof.
  induction 1 as [|x l k Hlk IH|x l k Hlk IH]; intros H; [exact H| |].
  - apply NoDup_cons in H as [Hx H]. apply NoDup_cons. split; [|auto]. intros Hin. apply Hx. eapply sublist_elem_of; eassumption.
  - apply NoDup_cons in H as [_ H]. auto.
Qed.

Lemma sublist_filter {A} (Q : A -> Prop) `{!forall x, Decision (Q x)} (l : list A) : filter Q l `sublist_of` l.
Proof. induction l as [|x l IH]; [constructor|]. rewrite filter_cons. destruct (decide (Q x)); constructor; exact IH. Qed.

(** ** Triples *)
Lemma sort3_spec a b c x y z : sort3 a b c = (x, y, z) -> a <> b -> a <> c -> b <> c ->
  x < y /\ y < z /\ forall u, (u = x \/ u = y \/ u = z) <-> (u = a \/ u = b \/ u = c).
Proof. unfold sort3. intros [= <- <- <-] H1 H2 H3. repeat split; lia. Qed.

Lemma elem_of_pairs {A} (l : list A) a b : NoDup l -> (a, b) ∈ pairs l -> a ∈ l /\ b ∈ l /\ a <> b.
Proof.
  induction l as [|x l IH]; cbn [pairs]; intros Hnd H; [apply elem_of_nil in H as []|].
  apply NoDup_cons in Hnd as [Hx Hnd]. apply elem_of_app in H as [H|H].
  - apply elem_of_list_fmap in H as (y & [= -> ->] & Hy). split; [left|]. split; [right; exact Hy|]. intros ->. contradiction.
  - destruct (IH Hnd H) as (H1 & H2 & H3). split; [right; exact H1|]. split; [right; exact H2|exact H3].
Qed.

Lemma pairs_sorted_NoDup (l : list key) v : NoDup l -> v ∉ l -> NoDup ((fun ab => sort3 v ab.1 ab.2) <$> pairs l).
Proof.
  induction l as [|x l IH]; cbn [pairs]; intros Hnd Hv; [apply NoDup_nil_2|].
  apply NoDup_cons in Hnd as [Hx Hnd]. apply not_elem_of_cons in Hv as [Hvx Hv].
  rewrite fmap_app, <- list_fmap_compose. apply NoDup_app. split; [|split; [|auto]].
  - clear IH. induction l as [|y l IHl]; [apply NoDup_nil_2|].
    apply NoDup_cons in Hnd as [Hy Hnd]. apply not_elem_of_cons in Hx as [Hxy Hx], Hv as [Hvy Hv].
    cbn. apply NoDup_cons. split; [|apply IHl; assumption].
    intros H. apply elem_of_list_fmap in H as (y' & E & Hy'). cbn in E.
    assert (y' <> y) by (intros ->; contradiction). assert (y' <> v) by (intros ->; contradiction). assert (y' <> x) by (intros ->; contradiction).
    unfold sort3 in E. injection E as E1 E2 E3. lia.
  - intros t H1 H2. apply elem_of_list_fmap in H1 as (b & -> & Hb). cbn in H2.
    apply elem_of_list_fmap in H2 as ([a' b'] & E & H). cbn in E. apply elem_of_pairs in H as (H1 & H2 & H3); [|exact Hnd].
    assert (b <> v) by (intros ->; contradiction). assert (b <> x) by (intros ->; contradiction).
    assert (a' <> v) by (intros ->; contradiction). assert (a' <> x) by (intros ->; contradiction).
    assert (b' <> v) by (intros ->; contradiction). assert (b' <> x) by (intros ->; contradiction).
    destruct (sort3 v x b) as [[p q] s] eqn:E1. symmetry in E. 
    destruct (sort3_spec v x b p q s E1) as (_ & _ & S1); [congruence|congruence|congruence|].
    destruct (sort3_spec v a' b' p q s E) as (_ & _ & S2); [congruence|congruence|congruence|].
    assert (x = v \/ x = a' \/ x = b') as S3 by (apply S2, S1; auto). intuition congruence.
Qed.

Lemma take_new_sublist seen n ts : take_new seen n ts `sublist_of` ts.
Proof.
  revert seen n. induction ts as [|t ts IH]; intros seen [|n]; cbn [take_new]; [constructor|constructor|apply sublist_nil_l|].
  destruct (visit seen t.1); [apply sublist_skip|apply sublist_cons]; apply IH.
Qed.

Definition triple_ok e d r rc v (minl : nat) (t : key * key * key * list key) : Prop :=
  exists a b, a <> b /\ a <> v /\ b <> v /\ t.1 = sort3 v a b /\ minl <= length t.2 /\ NoDup t.2 /\
    (exists w, has_view rc a w) /\ (exists w, has_view rc b w) /\ (exists w, has_view rc v w) /\
    forall l, l ∈ t.2 -> e_robust e d r l = true /\
      forall u, (u = v \/ u = a \/ u = b) -> exists f, assigned rc u f l.

Lemma triple_ok_readable e d r rc v minl t : recon_ok d rc -> triple_ok e d r rc v minl t -> triple_readable d rc t.1 t.2 = true.
Proof.
  intros Hok (a & b & Hab & Hav & Hbv & E & _ & _ & Ha & Hb & Hv & Hl). destruct t as [[[x y] z] ls]. cbn [fst snd] in *.
  symmetry in E. destruct (sort3_spec v a b x y z E) as (_ & _ & Hs); [congruence..|].
  unfold triple_readable. apply forallb_forall. intros u Hu%elem_of_list_In.
  assert (u = v \/ u = a \/ u = b) as Hu'.
  { apply Hs. rewrite !elem_of_cons in Hu. pose proof (not_elem_of_nil u). tauto. }
  assert (exists w, has_view rc u w) as [w Hw] by (destruct Hu' as [-> | [-> | ->]]; assumption).
  unfold sm_get. pose proof Hw as Hw'. unfold has_view in Hw'. rewrite Hw'.
  destruct (ok_entries _ _ Hok u w Hw) as (fr & Hfr & Hlen). unfold has_frame in Hfr. rewrite Hfr.
  apply forallb_forall. intros l Hin%elem_of_list_In. destruct (Hl l Hin) as [_ H]. destruct (H u Hu') as (f & Has).
  pose proof Has as Ho. apply (ok_mirrored _ _ Hok) in Ho as (m & Hm & Hmu). unfold has_landmark in Hm. rewrite Hm, Hmu.
  destruct Has as (w' & Hw2 & Hf). assert (w' = w) as -> by (eapply has_view_fun; eassumption).
  apply Nat.ltb_lt. rewrite <- Hlen. eapply lookup_lt_Some; exact Hf.
Qed.

Lemma optimize_triples_spec e d r rc v minl n ts :
  recon_ok d rc -> Forall (triple_ok e d r rc v minl) ts ->
  exists cs, optimize_triples e d r rc n ts = Ok cs /\ length cs <= n /\
    (c_views <$> cs) `sublist_of` (fst <$> ts) /\
    forall c, c ∈ cs -> exists t, t ∈ ts /\ c_views c = t.1 /\ e_optimize3 e d r t.1 t.2 = Some (c_poses c).
Proof.
  intros Hok. revert n. induction ts as [|t ts IH]; intros n Hts.
  - exists []. destruct n; cbn; (split; [reflexivity|]; split; [lia|]; split; [constructor|]; intros c H; apply elem_of_nil in H as []).
  - apply Forall_cons in Hts as [Ht Hts]. destruct n as [|n]; cbn [optimize_triples].
    { exists []. split; [reflexivity|]. split; [cbn; lia|]. split; [apply sublist_nil_l|]. intros c H; apply elem_of_nil in H as []. }
    rewrite (triple_ok_readable e d r rc v minl t Hok Ht). cbn [assert_].
    destruct (e_optimize3 e d r t.1 t.2) as [ps|] eqn:E.
    + destruct (IH n Hts) as (cs & Hrun & Hlen & Hsub & Hall). rewrite Hrun. cbn [bind].
      exists (Con3 t.1 ps :: cs). split; [reflexivity|]. split; [cbn; lia|]. split; [cbn; constructor; exact Hsub|].
      intros c Hc. apply elem_of_cons in Hc as [->|Hc].
      * exists t. split; [left|]. auto.
      * destruct (Hall c Hc) as (t' & Ht' & H). exists t'. split; [right; exact Ht'|exact H].
    + destruct (IH (S n) Hts) as (cs & Hrun & Hlen & Hsub & Hall). exists cs. split; [exact Hrun|]. split; [exact Hlen|].
      split; [cbn; constructor; exact Hsub|]. intros c Hc. destruct (Hall c Hc) as (t' & Ht' & H). exists t'. split; [right; exact Ht'|exact H].
Qed.

(** What [generate_view_constraints] returns. *)
Record generated e (s : settings) d r rc (v : key) (cs : list (constraint3 P)) : Prop := {
  ge_count : length cs <= optimization_maximum_three_view_constraints s;
  ge_distinct : NoDup (c_views <$> cs);
  ge_each : forall c, c ∈ cs -> exists ls,
     triple_ok e d r rc v (optimization_robust_covisibility_minimum_landmarks s) (c_views c, ls) /\
     e_optimize3 e d r (c_views c) ls = Some (c_poses c)
}.

Lemma triple_ok_live e d r rc v minl c ls : triple_ok e d r rc v minl (c_views c, ls) ->
  names_live_views rc c /\ con_has c v = true.
Proof.
  intros (a & b & Hab & Hav & Hbv & E & _ & _ & Ha & Hb & Hv & _). cbn [fst] in E. unfold names_live_views, con_has.
  destruct (c_views c) as [[x y] z]. symmetry in E. destruct (sort3_spec v a b x y z E) as (H1 & H2 & Hs); [congruence..|].
  assert (forall u, (u = x \/ u = y \/ u = z) -> exists w, has_view rc u w) as Hlive.
  { intros u Hu. apply Hs in Hu as [-> | [-> | ->]]; assumption. }
  split; [repeat split; try lia; apply Hlive; auto|].
  assert (v = x \/ v = y \/ v = z) as [-> | [-> | ->]] by (apply Hs; auto); rewrite Nat.eqb_refl, ?orb_true_r; reflexivity.
Qed.

Lemma generate_post T e s d r v :
  env_ok e -> (forall rc, has_recon d r rc -> recon_ok d rc) -> (T \/ exists rc w, has_recon d r rc /\ has_view rc v w) ->
  post T (generate_view_constraints e s d r v) (fun cs => exists rc w, has_recon d r rc /\ has_view rc v w /\ generated e s d r rc v cs).
Proof.
  intros He Hok HT. unfold generate_view_constraints. apply post_bind, post_unwrap.
  { destruct HT as [HT|(rc & w & Hr & _)]; [left; exact HT|]. right. exists rc. exact Hr. }
  intros rc Hr. change (has_recon d r rc) in Hr. specialize (Hok rc Hr).
  apply post_bind. eapply post_mono.
  { apply (view_covisibilities_post e d r rc v T (eo_orders _ He) Hok).
    destruct HT as [HT|(rc' & w & Hr' & Hw)]; [left; exact HT|]. right. exists w.
    assert (rc' = rc) as -> by (eapply has_recon_fun; eassumption). exact Hw. }
  intros cov (w & Hw & Hcov). set (minl := optimization_robust_covisibility_minimum_landmarks s).
  set (cov' := filter _ cov). set (cands := o_covis _ _). set (triples := filter _ _). set (sorted := e_sort e triples).
  set (uniq := take_new _ _ _). set (others := filter _ sorted).
  assert (NoDup cands) as Hnc. { unfold cands. rewrite (oo_covis _ (eo_orders _ He)). apply NoDup_elements. }
  assert (forall u l, l ∈ default [] (cov' !! u) -> l ∈ v_lms w /\ covisible e d r rc v u l) as Hmem.
  { intros u l Hl. unfold cov' in Hl. destruct (filter _ cov !! u) as [ls|] eqn:E; [|apply elem_of_nil in Hl as []].
    apply map_filter_lookup_Some in E as [E _]. apply (cv_mem _ _ _ _ _ _ _ Hcov). rewrite E. exact Hl. }
  assert (forall u, u ∈ cands -> u <> v /\ exists wu, has_view rc u wu) as Hcand.
  { intros u Hu. unfold cands in Hu. rewrite (oo_covis _ (eo_orders _ He)), elem_of_elements, elem_of_dom in Hu. destruct Hu as [ls E].
    unfold cov' in E. apply map_filter_lookup_Some in E as [E _]. pose proof (cv_nonempty _ _ _ _ _ _ _ Hcov u ls E) as Hne.
    destruct ls as [|l ls]; [congruence|]. destruct (cv_mem _ _ _ _ _ _ _ Hcov u l) as [Hin _]. rewrite E in Hin.
    destruct Hin as [_ (Hne1 & _ & m & f & Hm & Hf)]; [left|]. split; [exact Hne1|].
    destruct (landmark_view_exists rc l m u f (ok_mirrored _ _ Hok) Hm Hf) as (wu & Hwu & _). eauto. }
  assert (v ∉ cands) as Hvc. { intros H. apply Hcand in H as [H _]. congruence. }
  assert (NoDup (fst <$> triples)) as Hnt.
  { eapply sublist_NoDup; [apply fmap_sublist; apply sublist_filter|]. rewrite <- list_fmap_compose. apply (pairs_sorted_NoDup cands v Hnc Hvc). }
  assert (Forall (triple_ok e d r rc v minl) triples) as Htr.
  { apply Forall_forall. intros t Ht. unfold triples in Ht. apply elem_of_list_filter in Ht as [Hlen Ht].
    apply elem_of_list_fmap in Ht as ([a b] & -> & Hab). apply elem_of_pairs in Hab as (Ha & Hb & Hne); [|exact Hnc].
    destruct (Hcand a Ha) as [Hav [wa Hwa]], (Hcand b Hb) as [Hbv [wb Hwb]].
    exists a, b. cbn [triple_of fst snd] in *. split; [exact Hne|]. split; [exact Hav|]. split; [exact Hbv|]. split; [reflexivity|]. split; [exact Hlen|].
    split.
    { apply NoDup_filter. unfold cov'. destruct (filter _ cov !! a) as [ls|] eqn:E; [|apply NoDup_nil_2]. cbn.
      apply map_filter_lookup_Some in E as [E _]. pose proof (cv_nodup _ _ _ _ _ _ _ Hcov a) as H. rewrite E in H. exact H. }
    split; [eauto|]. split; [eauto|]. split; [eauto|].
    intros l Hl. apply elem_of_list_filter in Hl as [Hlb Hla]. apply Hmem in Hlb as [Hlv (_ & Hrob & mb & fb & Hmb & Hfb)], Hla as [_ (_ & _ & ma & fa & Hma & Hfa)].
    split; [exact Hrob|]. intros u [-> | [-> | ->]].
    - apply elem_of_list_lookup in Hlv as [f Hf]. exists f, w. auto.
    - exists fa. apply (ok_mirrored _ _ Hok). exists ma. auto.
    - exists fb. apply (ok_mirrored _ _ Hok). exists mb. auto. }
  assert (sorted ≡ₚ triples) as Hperm by apply (eo_sort _ He).
  assert (uniq `sublist_of` sorted) as Hus by apply take_new_sublist.
  assert (NoDup (fst <$> sorted)) as Hns by (rewrite Hperm; exact Hnt).
  assert (Forall (triple_ok e d r rc v minl) sorted) as Hso by (rewrite Hperm; exact Htr).
  destruct (optimize_triples_spec e d r rc v minl (optimization_maximum_three_view_constraints s) (uniq ++ others) Hok) as (cs & Hrun & Hlen & Hsub & Hall).
  { apply Forall_app. rewrite Forall_forall in Hso. split; apply Forall_forall; intros t Ht; apply Hso; [eapply sublist_elem_of; eassumption|].
    apply elem_of_list_filter in Ht as [_ Ht]. exact Ht. }
  rewrite Hrun. cbn [post]. exists rc, w. split; [exact Hr|]. split; [exact Hw|]. split.
  - exact Hlen.
  - eapply sublist_NoDup; [exact Hsub|]. rewrite fmap_app. apply NoDup_app. split.
    + eapply sublist_NoDup; [apply fmap_sublist; exact Hus|exact Hns].
    + split; [|eapply sublist_NoDup; [apply fmap_sublist; apply sublist_filter|exact Hns]].
      intros t H1 H2. apply elem_of_list_fmap in H2 as (t' & -> & H2). apply elem_of_list_filter in H2 as [H2 _]. contradiction.
  - intros c Hc. destruct (Hall c Hc) as (t & Ht & E & Hopt). exists t.2. rewrite E. split; [|exact Hopt].
    assert (triple_ok e d r rc v minl t) as H.
    { apply elem_of_app in Ht as [Ht|Ht].
      - rewrite Forall_forall in Hso. apply Hso. eapply sublist_elem_of; eassumption.
      - rewrite Forall_forall in Hso. apply Hso. apply elem_of_list_filter in Ht as [_ Ht]. exact Ht. }
    destruct t. exact H.
Qed.

End facts.
