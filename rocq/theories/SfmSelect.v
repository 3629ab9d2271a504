(** The constraints generated for a view are the ones wanted (C73). *)
From Coq Require Import Sorting.Sorted.
From stdpp Require Import gmap list.
From Verif Require Import Outcome OutcomeFacts Sfm SfmSpec SfmRec SfmTrack SfmData SfmPrim SfmCons SfmApply SfmSelectSpec.

Section facts.
Context {P F : Type}.
Implicit Types (rc : recon P) (d : vdata P F) (e : env P F) (t : key * key * key * list key).

(** ** Attempts *)
Lemma attempts e d r rc n ts cs : optimize_triples e d r rc n ts = Ok cs -> forall i t, ts !! i = Some t -> i < n \/ length cs < n ->
  e_optimize3 e d r t.1 t.2 = None \/ exists c, c ∈ cs /\ c_views c = t.1 /\ e_optimize3 e d r t.1 t.2 = Some (c_poses c).
Proof.
  revert n cs. induction ts as [|t0 ts IH]; intros n cs E i t Ht Hi; [discriminate Ht|].
  destruct n as [|n]; [lia|]. cbn [optimize_triples] in E. apply assert_ok in E as [_ E]. destruct (e_optimize3 e d r t0.1 t0.2) as [ps|] eqn:Eo.
  - apply bind_ok in E as (rest & E1 & E2). injection E2 as <-. destruct i as [|i]; cbn in Ht.
    + injection Ht as ->. right. exists (Con3 t.1 ps). split; [left|]. split; [reflexivity|exact Eo].
    + destruct (IH n rest E1 i t Ht) as [H|(c & Hc & H)]; [cbn in Hi; lia|left; exact H|]. right. exists c. split; [right; exact Hc|exact H].
  - destruct i as [|i]; cbn in Ht; [injection Ht as ->; left; exact Eo|]. apply (IH (S n) cs E i t Ht). lia.
Qed.

(** ** Triples with new views *)
Definition in_triple (u : key) (t : key * key * key) : Prop := let '(x, y, z) := t in u = x \/ u = y \/ u = z.
Lemma visit_spec (seen : gset key) (t : key * key * key) : match visit seen t with
  | Some seen' => exists x, in_triple x t /\ x ∉ seen /\ seen' = {[x]} ∪ seen
  | None => forall x, in_triple x t -> x ∈ seen end.
Proof.
  destruct t as [[a b] c]. unfold visit, in_triple. destruct (bool_decide_reflect (a ∉ seen)) as [Ha|Ha]; [exists a; auto|].
  destruct (bool_decide_reflect (b ∉ seen)) as [Hb|Hb]; [exists b; auto|]. destruct (bool_decide_reflect (c ∉ seen)) as [Hc|Hc]; [exists c; auto|].
  intros x [-> | [-> | ->]]; [destruct (decide (a ∈ seen))|destruct (decide (b ∈ seen))|destruct (decide (c ∈ seen))]; tauto.
Qed.
Lemma take_new_length seen n ts : length (take_new seen n ts) <= n.
Proof. revert seen n. induction ts as [|t ts IH]; intros seen [|n]; cbn [take_new length]; try lia. destruct (visit seen t.1) as [s'|]; [cbn; specialize (IH s' n); lia|apply IH]. Qed.
Lemma take_new_covers (vs : gset key) ts : forall seen n, (forall t x, t ∈ ts -> in_triple x t.1 -> x ∈ vs) -> size (vs ∖ seen) <= n ->
  forall t x, t ∈ ts -> in_triple x t.1 -> x ∈ seen \/ exists t', t' ∈ take_new seen n ts /\ in_triple x t'.1.
Proof.
  induction ts as [|t0 ts IH]; intros seen n Hvs Hn t x Ht Hx; [apply elem_of_nil in Ht as []|].
  destruct n as [|n].
  { left. pose proof (Hvs t x Ht Hx) as Hv. assert (E : vs ∖ seen ≡ ∅) by (apply size_empty_iff; lia). destruct (decide (x ∈ seen)); [assumption|set_solver]. }
  cbn [take_new]. pose proof (visit_spec seen t0.1) as V. destruct (visit seen t0.1) as [seen'|].
  - destruct V as (y & Hy & Hys & ->). apply elem_of_cons in Ht as [->|Ht]; [right; exists t0; split; [left|exact Hx]|].
    destruct (IH ({[y]} ∪ seen) n) with (t := t) (x := x) as [H|(t' & Ht' & H)]; try assumption.
    + intros t' z Ht' Hz. apply (Hvs t' z); [right; exact Ht'|exact Hz].
    + assert (y ∈ vs) by (apply (Hvs t0 y); [left|exact Hy]). assert (vs ∖ ({[y]} ∪ seen) ⊂ vs ∖ seen) as S by set_solver. apply subset_size in S. lia.
    + apply elem_of_union in H as [H|H]; [|left; exact H]. apply elem_of_singleton in H as ->. right. exists t0. split; [left|exact Hy].
    + right. exists t'. split; [right; exact Ht'|exact H].
  - apply elem_of_cons in Ht as [->|Ht]; [left; apply V; exact Hx|]. apply (IH seen (S n)) with (t := t); try assumption. intros t' z Ht' Hz. apply (Hvs t' z); [right; exact Ht'|exact Hz].
Qed.
Lemma take_new_first n t ts : exists rest, take_new ∅ (S n) (t :: ts) = t :: rest.
Proof. cbn [take_new]. pose proof (visit_spec ∅ t.1) as V. destruct (visit ∅ t.1); [eauto|]. destruct t.1 as [[a b] c]. specialize (V a (or_introl eq_refl)). set_solver. Qed.

(** ** The candidates *)
Lemma elem_of_pairs_either {A} (l : list A) a b : a ∈ l -> b ∈ l -> a <> b -> (a, b) ∈ pairs l \/ (b, a) ∈ pairs l.
Proof.
  induction l as [|x l IH]; intros Ha Hb Hab; [apply elem_of_nil in Ha as []|]. cbn [pairs]. rewrite !elem_of_app, !elem_of_list_fmap.
  apply elem_of_cons in Ha as [->|Ha], Hb as [->|Hb]; [congruence|left; left; eauto|right; left; eauto|]. destruct (IH Ha Hb Hab); auto.
Qed.
Lemma sort3_swap v a b : sort3 v a b = sort3 v b a.
Proof. unfold sort3. f_equal; [f_equal|]; lia. Qed.
Lemma common_swap e d r rc v a b ls : common e d r rc v a b ls -> common e d r rc v b a ls.
Proof. intros [H1 H2]. split; [exact H1|]. intros l. rewrite H2. apply and_iff_compat_l. split; intros H u Hu; apply H; set_solver. Qed.
Lemma eligible_swap e s d r rc v a b : eligible e s d r rc v a b -> eligible e s d r rc v b a.
Proof. intros (H1 & H2 & H3 & ls & H4 & H5). split; [exact H2|]. split; [exact H1|]. split; [congruence|]. exists ls. split; [now apply common_swap|exact H5]. Qed.
Lemma common_length e d r rc v a b ls ls' : common e d r rc v a b ls -> common e d r rc v a b ls' -> length ls = length ls'.
Proof. intros [H1 H2] [H3 H4]. apply Permutation_length, NoDup_Permutation; [exact H1|exact H3|]. intros l. now rewrite H2, H4. Qed.

Lemma generate_candidates e s d r rc v w cs :
  env_ok e -> recon_ok d rc -> has_recon d r rc -> has_view rc v w -> 1 <= optimization_robust_covisibility_minimum_landmarks s ->
  generate_view_constraints e s d r v = Ok cs ->
  exists triples, let sorted := e_sort e triples in let maxc := optimization_maximum_three_view_constraints s in
    (forall t, t ∈ sorted -> exists a b, t.1 = sort3 v a b /\ eligible e s d r rc v a b /\ common e d r rc v a b t.2) /\
    (forall a b, eligible e s d r rc v a b -> exists ls, common e d r rc v a b ls /\ (sort3 v a b, ls) ∈ sorted) /\
    optimize_triples e d r rc maxc (take_new ∅ maxc sorted ++ filter (fun t => t.1 ∉ fst <$> take_new ∅ maxc sorted) sorted) = Ok cs.
Proof.
  intros He Hok Hr Hw Hmin E. unfold generate_view_constraints in E. apply bind_ok in E as (rc0 & E0 & E). apply unwrap_ok in E0. change (has_recon d r rc0) in E0.
  assert (rc0 = rc) as -> by (eapply has_recon_fun; eassumption). clear E0.
  pose proof (view_covisibilities_post e d r rc v False (eo_orders _ He) Hok (or_intror (ex_intro _ w Hw))) as Hp. apply bind_ok in E as (cov & Ec & E). rewrite Ec in Hp. cbn [post] in Hp. destruct Hp as (w' & Hw' & Hcov).
  assert (w' = w) as -> by (eapply has_view_fun; eassumption). clear Hw' Ec.
  set (minl := optimization_robust_covisibility_minimum_landmarks s) in *. set (cov' := filter _ cov) in E. set (cands := o_covis _ _) in E. set (triples := filter _ _) in E.
  exists triples. cbv zeta. split; [|split; [|exact E]].
  - assert (NoDup cands) as Hnc. { unfold cands. rewrite (oo_covis _ (eo_orders _ He)). apply NoDup_elements. }
    intros t Ht. rewrite (eo_sort _ He) in Ht. unfold triples in Ht. apply elem_of_list_filter in Ht as [Hlen Ht].
    apply elem_of_list_fmap in Ht as ([a b] & -> & Hab). apply elem_of_pairs in Hab as (Ha & Hb & Hne); [|exact Hnc].
    assert (C : forall u, u ∈ cands -> u <> v /\ exists ls, cov !! u = Some ls /\ cov' !! u = Some ls).
    { intros u Hu. unfold cands in Hu. rewrite (oo_covis _ (eo_orders _ He)), elem_of_elements, elem_of_dom in Hu. destruct Hu as [ls Hu]. pose proof Hu as Hu'. unfold cov' in Hu. apply map_filter_lookup_Some in Hu as [Hu _].
      pose proof (cv_nonempty _ _ _ _ _ _ _ Hcov u ls Hu) as Hne1. split; [|eauto]. destruct ls as [|l ls]; [congruence|]. destruct (cv_mem _ _ _ _ _ _ _ Hcov u l) as [Hin _]. rewrite Hu in Hin. destruct Hin as [_ (H & _)]; [left|exact H]. }
    destruct (C a Ha) as (Hav & la & Ea & Ea'), (C b Hb) as (Hbv & lb & Eb & Eb'). cbn [triple_of fst snd] in *. rewrite Ea', Eb' in *. cbn [default] in *. exists a, b. split; [reflexivity|].
    assert (Cm : common e d r rc v a b (filter (fun l => l ∈ lb) la)).
    { split; [apply NoDup_filter; pose proof (cv_nodup _ _ _ _ _ _ _ Hcov a) as H; rewrite Ea in H; exact H|]. intros l. rewrite elem_of_list_filter.
      pose proof (cv_mem _ _ _ _ _ _ _ Hcov a l) as Ma. pose proof (cv_mem _ _ _ _ _ _ _ Hcov b l) as Mb. rewrite Ea in Ma. rewrite Eb in Mb. cbn [default] in Ma, Mb. split.
      - intros [Hb' Ha']. apply Ma in Ha' as [Hlv (_ & Hrob & ma & fa & Hma & Hfa)]. apply Mb in Hb' as [_ (_ & _ & mb & fb & Hmb & Hfb)]. split; [exact Hrob|].
        intros u Hu. rewrite !elem_of_cons in Hu. destruct Hu as [-> | [-> | [-> | Hu]]]; [| | |apply elem_of_nil in Hu as []].
        + apply elem_of_list_lookup in Hlv as [f Hf]. exists f, w. auto.
        + exists fa. apply (ok_mirrored _ _ Hok). exists ma. auto.
        + exists fb. apply (ok_mirrored _ _ Hok). exists mb. auto.
      - intros [Hrob Hall]. assert (Hlv : l ∈ v_lms w). { destruct (Hall v) as (f & w1 & Hw1 & Hf); [left|]. assert (w1 = w) as -> by (eapply has_view_fun; eassumption). eapply elem_of_list_lookup_2. exact Hf. }
        destruct (Hall a) as (fa & Hfa); [right; left|]. destruct (Hall b) as (fb & Hfb); [right; right; left|]. apply (ok_mirrored _ _ Hok) in Hfa as (ma & Hma & Hfa). apply (ok_mirrored _ _ Hok) in Hfb as (mb & Hmb & Hfb).
        split; [apply Mb|apply Ma]; (split; [exact Hlv|]; split; [assumption|]; split; [exact Hrob|eauto]). }
    split; [|exact Cm]. split; [congruence|]. split; [congruence|]. split; [exact Hne|]. eexists. split; [exact Cm|exact Hlen].
  - intros a b (Hva & Hvb & Hab & ls & Hc & Hlen).
    assert (C : forall u, u = a \/ u = b -> exists lu, cov !! u = Some lu /\ ls ⊆ lu /\ cov' !! u = Some lu /\ forall l, l ∈ lu <-> l ∈ v_lms w /\ covisible e d r rc v u l).
    { intros u Hu. assert (Hin : forall l, l ∈ ls -> l ∈ default [] (cov !! u)).
      { intros l Hl. apply (cv_mem _ _ _ _ _ _ _ Hcov). apply (proj2 Hc) in Hl as [Hrob Hall]. split.
        - destruct (Hall v) as (f & w1 & Hw1 & Hf); [left|]. assert (w1 = w) as -> by (eapply has_view_fun; eassumption). eapply elem_of_list_lookup_2. exact Hf.
        - split; [destruct Hu as [-> | ->]; congruence|]. split; [exact Hrob|]. destruct (Hall u) as (f & Hf); [destruct Hu as [-> | ->]; set_solver|]. apply (ok_mirrored _ _ Hok) in Hf as (m & Hm & Hf). eauto. }
      destruct ls as [|l0 ls0]; [cbn in Hlen; lia|]. pose proof (Hin l0 ltac:(left)) as H0. destruct (cov !! u) as [lu|] eqn:Eu; [|apply elem_of_nil in H0 as []]. cbn [default] in Hin. exists lu. split; [reflexivity|]. split; [exact Hin|].
      split; [|intros l; pose proof (cv_mem _ _ _ _ _ _ _ Hcov u l) as M; rewrite Eu in M; exact M]. unfold cov'. apply map_filter_lookup_Some. split; [exact Eu|]. cbn [snd].
      etransitivity; [exact Hlen|]. apply submseteq_length, NoDup_submseteq; [apply Hc|exact Hin]. }
    destruct (C a (or_introl eq_refl)) as (la & Ea & Sa & Ea' & Ma), (C b (or_intror eq_refl)) as (lb & Eb & Sb & Eb' & Mb).
    assert (Inc : forall u lu, cov' !! u = Some lu -> u ∈ cands) by (intros u lu Hu; unfold cands; rewrite (oo_covis _ (eo_orders _ He)), elem_of_elements, elem_of_dom; eauto).
    assert (Key : forall x y lx ly, cov' !! x = Some lx -> cov' !! y = Some ly -> cov !! x = Some lx -> (forall l, l ∈ lx <-> l ∈ v_lms w /\ covisible e d r rc v x l) -> (forall l, l ∈ ly <-> l ∈ v_lms w /\ covisible e d r rc v y l) -> common e d r rc v x y ls -> (x, y) ∈ pairs cands ->
      exists ls', common e d r rc v x y ls' /\ (sort3 v x y, ls') ∈ e_sort e triples).
    { intros x y lx ly Ex Ey Ex0 Mx My Hcx Hp. exists (filter (fun l => l ∈ ly) lx).
      assert (Hfl : forall l, l ∈ filter (fun l => l ∈ ly) lx <-> l ∈ ls).
      { intros l. rewrite elem_of_list_filter, Mx, My. rewrite (proj2 Hcx l). split.
        - intros [[_ (_ & _ & my & fy & Hmy & Hfy)] [Hlv (_ & Hrob & mx & fx & Hmx & Hfx)]]. split; [exact Hrob|]. intros u Hu. rewrite !elem_of_cons in Hu. destruct Hu as [-> | [-> | [-> | Hu]]]; [| | |apply elem_of_nil in Hu as []].
          + apply elem_of_list_lookup in Hlv as [f Hf]. exists f, w. auto.
          + exists fx. apply (ok_mirrored _ _ Hok). exists mx. auto.
          + exists fy. apply (ok_mirrored _ _ Hok). exists my. auto.
        - intros Hl. rewrite <- (proj2 Hcx l) in Hl. assert (Hxl : l ∈ ls) by exact Hl. apply (proj2 Hcx) in Hl as [Hrob Hall].
          assert (Hlv : l ∈ v_lms w). { destruct (Hall v) as (f & w1 & Hw1 & Hf); [left|]. assert (w1 = w) as -> by (eapply has_view_fun; eassumption). eapply elem_of_list_lookup_2. exact Hf. }
          destruct (Hall x) as (fx & Hfx); [right; left|]. destruct (Hall y) as (fy & Hfy); [right; right; left|]. apply (ok_mirrored _ _ Hok) in Hfx as (mx & Hmx & Hfx). apply (ok_mirrored _ _ Hok) in Hfy as (my & Hmy & Hfy).
          assert (x <> v /\ y <> v) as [Hxv Hyv].
          { split; intros ->; [pose proof (proj1 (Mx l)) as Q|pose proof (proj1 (My l)) as Q].
            - destruct (proj1 (Mx (hd l lx))) as [_ [Q' _]]; [|congruence]. pose proof (cv_nonempty _ _ _ _ _ _ _ Hcov v lx Ex0) as Hn. destruct lx; [congruence|left].
            - clear Q. unfold cov' in Ey. apply map_filter_lookup_Some in Ey as [Ey _]. destruct (proj1 (My (hd l ly))) as [_ [Q' _]]; [|congruence]. pose proof (cv_nonempty _ _ _ _ _ _ _ Hcov v ly Ey) as Hn. destruct ly; [congruence|left]. }
          split; (split; [exact Hlv|]; split; [assumption|]; split; [exact Hrob|eauto]). }
      assert (Cx : common e d r rc v x y (filter (fun l => l ∈ ly) lx)).
      { split; [apply NoDup_filter; pose proof (cv_nodup _ _ _ _ _ _ _ Hcov x) as H; rewrite Ex0 in H; exact H|]. intros l. rewrite Hfl. apply Hcx. }
      split; [exact Cx|]. rewrite (eo_sort _ He). unfold triples. apply elem_of_list_filter. cbn [snd]. split; [rewrite (common_length _ _ _ _ _ _ _ _ _ Cx Hcx); exact Hlen|].
      apply elem_of_list_fmap. exists (x, y). split; [|exact Hp]. unfold triple_of. cbn [fst snd]. now rewrite Ex, Ey. }
    destruct (elem_of_pairs_either cands a b (Inc a la Ea') (Inc b lb Eb') Hab) as [Hp|Hp].
    + apply (Key a b la lb); assumption.
    + destruct (Key b a lb la) as (ls' & H1 & H2); try assumption; [now apply common_swap|]. exists ls'. split; [now apply common_swap|]. rewrite sort3_swap. exact H2.
Qed.

Lemma in_sort3 v a b u : v <> a -> v <> b -> a <> b -> in_triple u (sort3 v a b) <-> u ∈ [v; a; b].
Proof.
  intros H1 H2 H3. destruct (sort3 v a b) as [[x y] z] eqn:E. destruct (sort3_spec v a b x y z E) as (_ & _ & Hs); [assumption..|]. unfold in_triple. rewrite Hs. set_solver.
Qed.
Lemma generate_selected e s d r rc v w cs :
  env_ok e -> recon_ok d rc -> has_recon d r rc -> has_view rc v w -> 1 <= optimization_robust_covisibility_minimum_landmarks s ->
  generate_view_constraints e s d r v = Ok cs -> selected e s d r rc v cs.
Proof.
  intros He Hok Hr Hw Hmin E. destruct (generate_candidates e s d r rc v w cs He Hok Hr Hw Hmin E) as (triples & Hs & Hall & Ho). cbv zeta in *.
  set (sorted := e_sort e triples) in *. set (maxc := optimization_maximum_three_view_constraints s) in *. set (uniq := take_new ∅ maxc sorted) in *. set (others := filter _ sorted) in Ho.
  assert (Uniq : forall t, t ∈ uniq -> e_optimize3 e d r t.1 t.2 = None \/ exists c, c ∈ cs /\ c_views c = t.1 /\ e_optimize3 e d r t.1 t.2 = Some (c_poses c)).
  { intros t Ht. apply elem_of_list_lookup in Ht as [i Hi]. apply (attempts _ _ _ _ _ _ _ Ho i t).
    - apply lookup_app_l_Some. exact Hi.
    - left. apply lookup_lt_Some in Hi. pose proof (take_new_length ∅ maxc sorted). unfold uniq in Hi. lia. }
  split.
  - intros Hroom a b Hel. destruct (Hall a b Hel) as (ls & Hc & Hin).
    destruct (decide (sort3 v a b ∈ fst <$> uniq)) as [Hu|Hu].
    + apply elem_of_list_fmap in Hu as (t & Et & Ht). exists t.2. assert (Hts : t ∈ sorted) by (eapply sublist_elem_of; [apply take_new_sublist|exact Ht]). destruct (Hs t Hts) as (a' & b' & Et' & (N1 & N2 & N3 & _) & Hc'). split.
      * destruct Hel as (M1 & M2 & M3 & _). assert (forall u, u ∈ [v; a; b] <-> u ∈ [v; a'; b']) as Same. { intros u. rewrite <- (in_sort3 v a b u), <- (in_sort3 v a' b' u) by assumption. now rewrite Et, Et'. }
        destruct Hc' as [C1 C2]. split; [exact C1|]. intros l. rewrite C2. apply and_iff_compat_l. split; intros H u Hu; apply H, Same, Hu.
      * unfold found. rewrite Et. apply Uniq. exact Ht.
    + exists ls. split; [exact Hc|]. assert (Ho' : (sort3 v a b, ls) ∈ uniq ++ others). { apply elem_of_app. right. apply elem_of_list_filter. split; [exact Hu|exact Hin]. }
      apply elem_of_list_lookup in Ho' as [i Hi]. exact (attempts _ _ _ _ _ _ _ Ho i _ Hi (or_intror Hroom)).
  - intros vs Hvs Hin Hopt a b u Hel Hu. destruct (Hall a b Hel) as (ls & Hc & Hts).
    destruct (take_new_covers (list_to_set vs) sorted ∅ maxc) with (t := (sort3 v a b, ls)) (x := u) as [H|(t & Ht & Hut)].
    + intros t x Ht Hx. destruct (Hs t Ht) as (a' & b' & Et & Hel' & _). rewrite Et in Hx. destruct (Hin a' b' Hel') as (I1 & I2 & I3). destruct Hel' as (N1 & N2 & N3 & _). apply (in_sort3 v a' b' x N1 N2 N3) in Hx. apply elem_of_list_to_set. set_solver.
    + replace (list_to_set vs ∖ ∅ : gset key) with (list_to_set vs : gset key) by set_solver. etransitivity; [|exact Hvs]. clear. induction vs as [|x vs IH]; [cbn; rewrite size_empty; lia|]. cbn [list_to_set length]. rewrite size_union_alt, size_singleton. pose proof (subseteq_size (list_to_set vs ∖ {[x]}) (list_to_set vs : gset key) ltac:(set_solver)). lia.
    + exact Hts.
    + apply in_sort3; [apply Hel..|exact Hu].
    + set_solver.
    + assert (Htso : t ∈ sorted) by (eapply sublist_elem_of; [apply take_new_sublist|exact Ht]). destruct (Hs t Htso) as (a' & b' & Et & Hel' & Hc').
      destruct (Uniq t Ht) as [Hn|(c & Hcc & Hv & _)]; [rewrite Et in Hn; destruct (Hopt a' b' t.2 Hel' Hc' Hn)|]. exists c. split; [exact Hcc|]. unfold mentions. rewrite Hv. exact Hut.
  - intros H1 Hsort (a0 & b0 & Hel0). destruct (Hall a0 b0 Hel0) as (ls0 & _ & Hin0). specialize (Hsort triples). fold sorted in Hsort.
    destruct sorted as [|t rest] eqn:Es; [apply elem_of_nil in Hin0 as []|]. destruct (Hs t) as (a & b & Et & Hel & Hc); [left|]. exists a, b, t.2. split; [exact Hel|]. split; [exact Hc|]. split.
    + intros a' b' ls' Hel' Hc'. destruct (Hall a' b' Hel') as (ls1 & Hc1 & Hin1). rewrite (common_length _ _ _ _ _ _ _ _ _ Hc' Hc1). apply elem_of_cons in Hin1 as [<-|Hin1]; [reflexivity|].
      apply Sorted_StronglySorted in Hsort; [|intros x y z; lia]. apply StronglySorted_inv in Hsort as [_ Hf]. rewrite Forall_forall in Hf. apply (Hf (sort3 v a' b', ls1)). exact Hin1.
    + unfold found. rewrite <- Et. apply Uniq. unfold uniq. destruct maxc as [|n] eqn:Em; [lia|]. destruct (take_new_first n t rest) as [rest' ->]. left.
Qed.

(** ** Recording them *)
Lemma record_selected e s d r rc v w : env_ok e -> data_ok d -> has_recon d r rc -> has_view rc v w -> 1 <= optimization_robust_covisibility_minimum_landmarks s ->
  exists d' b cs rc', record_view_constraints e s d r v = Ok (d', b) /\ has_recon d' r rc' /\ selected e s d r rc v cs /\
    (b = true <-> optimization_minimum_new_constraints s <= length cs \/ sm_size (r_views rc) <= length cs + 1) /\
    forall c, (exists k, has_constraint rc' k c) <-> (exists k, has_constraint rc k c) \/ b = true /\ c ∈ cs.
Proof.
  intros He Hd Hr Hw Hmin. pose proof (ok_recons _ Hd r rc Hr) as Hok.
  pose proof (generate_post False e s d r v He) as Hp. destruct (generate_view_constraints e s d r v) as [cs| |] eqn:E; cbn [post] in Hp.
  2,3: exfalso; apply Hp; [intros rc0 H0; exact (ok_recons _ Hd r rc0 H0)|right; eauto].
  clear Hp. pose proof (generate_selected e s d r rc v w cs He Hok Hr Hw Hmin E) as Hsel.
  unfold record_view_constraints. rewrite E. cbn [bind]. unfold with_rec. unfold has_recon, sm_get in *. rewrite Hr. cbn [unwrap bind].
  assert (B : (length cs <? optimization_minimum_new_constraints s) && (length cs + 1 <? sm_size (r_views rc)) = false <-> optimization_minimum_new_constraints s <= length cs \/ sm_size (r_views rc) <= length cs + 1).
  { rewrite andb_false_iff, !Nat.ltb_ge. reflexivity. }
  destruct (_ && _); cbn [bind].
  - eexists _, false, cs, rc. split; [reflexivity|]. split; [apply (upd_recon_same d r rc)|]. split; [exact Hsel|]. split; [split; [discriminate|intros Q; apply B in Q; discriminate]|]. intros c. split; [auto|]. intros [H|[H _]]; [exact H|discriminate].
  - eexists _, true, cs, _. split; [reflexivity|]. split; [apply upd_recon_same|]. split; [exact Hsel|]. split; [tauto|]. intros c. destruct (ins_many cs (r_cons rc) (ok_fresh_cons _ _ Hok)) as (_ & _ & Hin). unfold has_constraint. cbn. split.
    + intros (k & Hk). apply Hin in Hk as [Hk|[_ Hk]]; [left; eauto|]. right. split; [reflexivity|]. eapply elem_of_list_lookup_2. exact Hk.
    + intros [(k & Hk)|[_ Hc]]; [exists k; apply Hin; auto|]. apply elem_of_list_lookup in Hc as (i & Hi'). exists (sm_next (r_cons rc) + i). apply Hin. right. split; [lia|]. replace (sm_next (r_cons rc) + i - sm_next (r_cons rc)) with i by lia. exact Hi'.
Qed.
End facts.
