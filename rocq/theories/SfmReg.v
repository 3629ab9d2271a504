(** Facts about registering a frame. *)
From Coq Require Import Sorted.
From stdpp Require Import gmap list.
From Verif Require Import Outcome OutcomeFacts Sfm SfmSpec SfmUse SfmRec SfmTrack SfmData SfmPrim SfmCons.

Section facts.
Context {P F : Type}.
Implicit Types (rc : recon P) (d : vdata P F) (e : env P F).

(** ** Candidates *)
Lemma dedup_best_spec (raw : list (key * nat)) l x :
  dedup_best raw !! l = Some x <-> (l, x) ∈ raw /\ forall y, (l, y) ∈ raw -> x <= y.
Proof.
  unfold dedup_best.
  assert (forall acc : gmap key nat,
    foldl (fun acc ld => match acc !! ld.1 with Some d0 => if ld.2 <? d0 then <[ld.1 := ld.2]> acc else acc | None => <[ld.1 := ld.2]> acc end) acc raw !! l = Some x <->
    ((l, x) ∈ raw \/ acc !! l = Some x) /\ (forall y, (l, y) ∈ raw \/ acc !! l = Some y -> x <= y)) as H.
  { induction raw as [|[l' x'] raw IH]; intros acc; cbn [foldl fst snd].
    - split.
      + intros Hx. split; [auto|]. intros y [Hy|Hy]; [apply elem_of_nil in Hy as []|]. assert (x = y) by congruence. lia.
      + intros [[Hx|Hx] _]; [apply elem_of_nil in Hx as []|exact Hx].
    - rewrite IH. destruct (decide (l' = l)) as [->|Hne].
      + destruct (acc !! l) as [d0|] eqn:E.
        * destruct (x' <? d0) eqn:El; [rewrite lookup_insert|rewrite E].
          -- apply Nat.ltb_lt in El. setoid_rewrite elem_of_cons. split.
             ++ intros [[H1|[= <-]] H2]; (split; [auto|]); intros y [[[= <-]|Hy]|[= <-]]; auto.
                ** specialize (H2 x' (or_intror eq_refl)). lia.
                ** lia.
             ++ intros [H1 H2]. assert (x <= x') by (apply H2; auto). split.
                ** destruct H1 as [[[= <-]|H1]|[= <-]]; [auto|auto|lia].
                ** intros y [Hy|[= <-]]; auto.
          -- apply Nat.ltb_ge in El. setoid_rewrite elem_of_cons. split.
             ++ intros [[H1|[= <-]] H2]; (split; [auto|]); intros y [[[= <-]|Hy]|[= <-]]; auto.
                specialize (H2 d0 (or_intror eq_refl)). lia.
             ++ intros [H1 H2]. assert (x <= d0) by (apply H2; auto). split.
                ** destruct H1 as [[[= <-]|H1]|[= <-]]; [|auto|auto]. right. f_equal. lia.
                ** intros y [Hy|[= <-]]; auto.
        * rewrite lookup_insert. setoid_rewrite elem_of_cons. split.
          -- intros [[H1|[= <-]] H2]; (split; [auto|]); intros y [[[= <-]|Hy]|[=]]; auto.
          -- intros [[[[= <-]|H1]|[=]] H2]; (split; [auto|]); intros y [Hy|[= <-]]; auto.
      + assert (forall acc' : gmap key nat, acc' = acc \/ acc' = <[l' := x']> acc -> acc' !! l = acc !! l) as Hl.
        { intros acc' [-> | ->]; [reflexivity|]. apply lookup_insert_ne. exact Hne. }
        assert ((match acc !! l' with Some d0 => if x' <? d0 then <[l' := x']> acc else acc | None => <[l' := x']> acc end) !! l = acc !! l) as ->.
        { apply Hl. destruct (acc !! l'); [|auto]. destruct (x' <? n); auto. }
        assert (forall y, (l, y) ∈ (l', x') :: raw <-> (l, y) ∈ raw) as Hc.
        { intros y. rewrite elem_of_cons. split; [|auto]. intros [[= E _]|H]; [congruence|exact H]. }
        setoid_rewrite Hc. reflexivity. }
  rewrite H. setoid_rewrite lookup_empty. split.
  - intros [[H1|[=]] H2]. auto.
  - intros [H1 H2]. split; [auto|]. intros y [Hy|[=]]. auto.
Qed.

Lemma insert_dist_perm x (l : list (key * nat)) : insert_dist x l ≡ₚ x :: l.
Proof.
  induction l as [|y l IH]; cbn [insert_dist]; [reflexivity|]. destruct (x.2 <? y.2); [reflexivity|]. rewrite IH. constructor.
Qed.

Lemma insert_dist_sorted x (l : list (key * nat)) :
  StronglySorted (fun a b => a.2 <= b.2) l -> StronglySorted (fun a b => a.2 <= b.2) (insert_dist x l).
Proof.
  induction l as [|y l IH]; cbn [insert_dist]; intros H.
  - repeat constructor.
  - inversion H as [|? ? Hl Hy]; subst. destruct (x.2 <? y.2) eqn:E.
    + apply Nat.ltb_lt in E. constructor; [exact H|]. constructor; [lia|]. eapply Forall_impl; [exact Hy|]. cbn. intros z Hz. lia.
    + apply Nat.ltb_ge in E. constructor; [auto|]. rewrite insert_dist_perm. constructor; [exact E|exact Hy].
Qed.

Lemma sort_dist_perm (l : list (key * nat)) : sort_dist l ≡ₚ l.
Proof.
  unfold sort_dist. assert (forall acc, foldl (fun acc x => insert_dist x acc) acc l ≡ₚ acc ++ l) as H; [|apply (H [])].
  induction l as [|x l IH]; intros acc; cbn [foldl]; [rewrite app_nil_r; reflexivity|]. rewrite IH, insert_dist_perm.
  rewrite <- Permutation_middle. reflexivity.
Qed.

Lemma sort_dist_sorted (l : list (key * nat)) : StronglySorted (fun a b => a.2 <= b.2) (sort_dist l).
Proof.
  unfold sort_dist. assert (forall acc, StronglySorted (fun a b : key * nat => a.2 <= b.2) acc -> StronglySorted (fun a b => a.2 <= b.2) (foldl (fun acc x => insert_dist x acc) acc l)) as H; [|apply H; constructor].
  induction l as [|x l IH]; intros acc Hacc; cbn [foldl]; [exact Hacc|]. apply IH. apply insert_dist_sorted. exact Hacc.
Qed.

Lemma sort3_shape (x y z : key * nat) : exists b0 b1 b2, sort_dist [x; y; z] = [b0; b1; b2] /\ [b0; b1; b2] ≡ₚ [x; y; z] /\ b0.2 <= b1.2 /\ b1.2 <= b2.2.
Proof.
  pose proof (sort_dist_perm [x; y; z]) as Hp. pose proof (sort_dist_sorted [x; y; z]) as Hs.
  pose proof (Permutation_length Hp) as Hl. destruct (sort_dist [x; y; z]) as [|b0 [|b1 [|b2 [|b3 rest]]]]; cbn in Hl; try lia.
  exists b0, b1, b2. split; [reflexivity|]. split; [exact Hp|]. inversion Hs as [|? ? Hs1 Hf1]; subst. inversion Hs1 as [|? ? Hs2 Hf2]; subst.
  apply Forall_cons in Hf1 as [? _]. apply Forall_cons in Hf2 as [? _]. auto.
Qed.

(** The three best candidates are the three smallest. *)
Lemma best_loop (rest : list (key * nat)) b0 b1 b2 (seen : list (key * nat)) :
  b0.2 <= b1.2 -> b1.2 <= b2.2 -> Forall (fun x => b2.2 <= x.2) seen ->
  exists c0 c1 c2 others, foldl best_step [b0; b1; b2] rest = [c0; c1; c2] /\
    c0 :: c1 :: c2 :: others ≡ₚ b0 :: b1 :: b2 :: seen ++ rest /\ c0.2 <= c1.2 /\ c1.2 <= c2.2 /\ Forall (fun x => c2.2 <= x.2) others.
Proof.
  revert b0 b1 b2 seen. induction rest as [|x rest IH]; intros b0 b1 b2 seen H01 H12 Hs; cbn [foldl].
  - exists b0, b1, b2, seen. rewrite app_nil_r. auto.
  - unfold best_step at 2. destruct (x.2 <? b2.2) eqn:E.
    + apply Nat.ltb_lt in E. destruct (sort3_shape b0 b1 x) as (c0 & c1 & c2 & -> & Hp & H1 & H2).
      assert (c2.2 <= b2.2) as Hc2.
      { assert (c2 ∈ [b0; b1; x]) as Hin by (rewrite <- Hp; right; right; left). rewrite !elem_of_cons in Hin.
        destruct Hin as [-> | [-> | [-> | Hin]]]; [lia|lia|lia|apply elem_of_nil in Hin as []]. }
      destruct (IH c0 c1 c2 (b2 :: seen) H1 H2) as (d0 & d1 & d2 & others & Hr & Hperm & Hd1 & Hd2 & Hd3).
      { constructor; [exact Hc2|]. eapply Forall_impl; [exact Hs|]. cbn. intros y Hy. lia. }
      exists d0, d1, d2, others. split; [exact Hr|]. split; [|auto]. rewrite Hperm.
      transitivity ([c0; c1; c2] ++ (b2 :: seen) ++ rest); [reflexivity|]. rewrite Hp. cbn [app].
      apply Permutation_skip, Permutation_skip. rewrite Permutation_swap. apply Permutation_skip. rewrite <- Permutation_middle. reflexivity.
    + apply Nat.ltb_ge in E. destruct (IH b0 b1 b2 (seen ++ [x]) H01 H12) as (d0 & d1 & d2 & others & Hr & Hperm & Hd).
      { apply Forall_app. split; [exact Hs|]. constructor; [exact E|constructor]. }
      exists d0, d1, d2, others. split; [exact Hr|]. split; [|exact Hd]. rewrite Hperm, <- (assoc_L (++)). reflexivity.
Qed.

Lemma best3_post T (cands : list (key * nat)) (Q : (key * nat) * (key * nat) * (key * nat) -> Prop) :
  (T \/ 3 <= length cands) ->
  (forall b0 b1 b2 others, cands ≡ₚ b0 :: b1 :: b2 :: others -> b0.2 <= b1.2 -> b1.2 <= b2.2 -> Forall (fun x => b2.2 <= x.2) others -> Q (b0, b1, b2)) ->
  post T (best3 cands) Q.
Proof.
  intros HT HQ. destruct cands as [|x [|y [|z rest]]]; cbn [best3 post]; try (destruct HT as [HT|HT]; [exact HT|cbn in HT; lia]).
  destruct (sort3_shape x y z) as (b0 & b1 & b2 & -> & Hp & H1 & H2).
  destruct (best_loop rest b0 b1 b2 [] H1 H2 (Forall_nil_2 _)) as (c0 & c1 & c2 & others & -> & Hperm & H3 & H4 & H5).
  cbn [post]. apply (HQ c0 c1 c2 others); auto. rewrite Hperm. cbn [app]. change (x :: y :: z :: rest) with ([x; y; z] ++ rest). rewrite <- Hp. reflexivity.
Qed.

Lemma offered_landmark e d rc views desc l x : recon_ok d rc -> offered e d rc views desc l x -> exists m, has_landmark rc l m.
Proof.
  intros Hok (v & w & fr & i & _ & Hw & _ & _ & Hl). destruct (view_lm_exists rc v w i l (ok_mirrored _ _ Hok) Hw Hl) as (m & Hm & _). eauto.
Qed.

Lemma view_candidates_post T e d rc desc v :
  env_ok e -> recon_ok d rc -> (exists w, has_view rc v w) ->
  post T (view_candidates e d rc desc v) (fun c =>
    (forall l x, (l, x) ∈ c <-> offered e d rc [v] desc l x) /\
    NoDup c.*1 /\ forall w fr, has_view rc v w -> has_frame d (v_frame w) fr -> length c = Nat.min 3 (length (f_feats fr))).
Proof.
  intros He Hok [w Hw]. unfold view_candidates. apply post_bind, post_unwrap; [right; exists w; exact Hw|]. intros w' Hw'.
  assert (w' = w) as -> by (eapply has_view_fun; [exact Hw'|exact Hw]).
  destruct (ok_entries _ _ Hok v w Hw) as (fr & Hf & Hlen). apply post_bind, post_unwrap; [right; exists fr; exact Hf|]. intros fr' Hf'.
  assert (fr' = fr) as -> by (eapply has_frame_fun; [exact Hf'|exact Hf]).
  destruct (eo_knn _ He (f_feats fr) desc 3) as (Hkl & Hknd & Hkr).
  apply (post_mapM T _ (fun n y => v_lms w !! n.1 = Some y.1 /\ y.2 = n.2)).
  - intros [i x] Hin. apply Hkr in Hin. cbn [fst snd]. apply post_bind, post_unwrap; [right; apply lookup_lt_is_Some; lia|]. intros l Hl. cbn. auto.
  - intros c Hc. split; [|split].
    + intros l x. split.
      * intros Hin. apply elem_of_list_lookup in Hin as (j & Hj). destruct (Forall2_lookup_r _ _ _ _ _ Hc Hj) as ([i x'] & Hi & Hl & Hx).
        cbn in *. subst x'. exists v, w, fr, i. split; [left|]. split; [exact Hw|]. split; [exact Hf|]. split; [|exact Hl]. eapply elem_of_list_lookup_2. exact Hi.
      * intros (v' & w' & fr' & i & Hv' & Hw2 & Hf2 & Hin & Hl). apply elem_of_list_singleton in Hv' as ->.
        assert (w' = w) as -> by (eapply has_view_fun; [exact Hw2|exact Hw]).
        assert (fr' = fr) as -> by (eapply has_frame_fun; [exact Hf2|exact Hf]).
        apply elem_of_list_lookup in Hin as (j & Hj). destruct (Forall2_lookup_l _ _ _ _ _ Hc Hj) as ([l' x'] & Hi & Hl' & Hx).
        cbn in *. assert (l' = l) as -> by congruence. subst x'. eapply elem_of_list_lookup_2. exact Hi.
    + pose proof (view_lms_NoDup rc v w (ok_mirrored _ _ Hok) Hw) as Hnd. clear Hkl Hkr. revert Hknd. generalize dependent (e_knn e (f_feats fr) desc 3).
      intros K. clear -Hnd. revert c. induction K as [|[i x] K IH]; intros c Hc Hk; inversion Hc as [|? [l y] ? c' [H1 H2] Hc']; subst; [constructor|].
      cbn in *. apply NoDup_cons in Hk as [Hi Hk]. apply NoDup_cons. split; [|auto]. intros Hin.
      apply elem_of_list_fmap in Hin as ([l' y'] & E & Hin). cbn in E. subst l'. apply elem_of_list_lookup in Hin as (j & Hj).
      destruct (Forall2_lookup_r _ _ _ _ _ Hc' Hj) as ([i' x'] & Hi' & Hl' & _). cbn in Hl'. apply Hi.
      assert (i = i') as -> by (apply (NoDup_lookup (v_lms w) i i' l); [exact Hnd|congruence|congruence]). apply elem_of_list_fmap. exists (i', x'). split; [reflexivity|]. eapply elem_of_list_lookup_2. exact Hi'.
    + intros w2 fr2 Hw2 Hf2. assert (w2 = w) as -> by (eapply has_view_fun; [exact Hw2|exact Hw]).
      assert (fr2 = fr) as -> by (eapply has_frame_fun; [exact Hf2|exact Hf]). rewrite <- (Forall2_length _ _ _ Hc). exact Hkl.
Qed.

Lemma sharing_view_post T rc a b ma mb :
  has_landmark rc a ma -> has_landmark rc b mb -> post T (sharing_view rc a b) (fun sh => sh = false <-> ma ##ₘ mb).
Proof.
  intros Ha Hb. unfold sharing_view, sm_get. unfold has_landmark in *. rewrite Ha, Hb. cbn. rewrite negb_false_iff, bool_decide_eq_true.
  rewrite map_disjoint_spec. split.
  - intros H v f f' H1 H2. assert (v ∈ (∅ : gset nat)) as Hv; [|apply elem_of_empty in Hv as []].
    rewrite <- H. apply elem_of_intersection. rewrite !elem_of_dom. eauto.
  - intros H. apply set_eq. intros v. rewrite elem_of_intersection, !elem_of_dom. split; [|intros Hv; apply elem_of_empty in Hv as []].
    intros [[f Hf] [f' Hf']]. exfalso. eapply H; eassumption.
Qed.

(** Some view has at least three features. *)
Definition rich_view d rc (v : key) : Prop := exists w fr, has_view rc v w /\ has_frame d (v_frame w) fr /\ 3 <= length (f_feats fr).

Lemma match_feature_post T e s d rc feats views ms f desc :
  env_ok e -> recon_ok d rc -> feats !! f = Some desc ->
  (forall v, v ∈ views -> exists w, has_view rc v w) ->
  (T \/ exists v, v ∈ views /\ rich_view d rc v) ->
  post T (match_feature e s d rc feats views ms f) (fun ms' =>
    (ms' = ms /\ (0 < single_view_match_better_by s -> forall ls, ~ clear_match e s d rc views desc ls)) \/
    exists ls, ms' = ms ++ [(ls, f)] /\ clear_match e s d rc views desc ls).
Proof.
  intros He Hok Hd Hviews HT. unfold match_feature. apply post_bind, post_unwrap; [right; eauto|]. intros desc' E.
  assert (desc' = desc) as -> by congruence. apply post_bind.
  apply (post_mapM T _ (fun v c => (forall l x, (l, x) ∈ c <-> offered e d rc [v] desc l x) /\
    NoDup c.*1 /\ forall w fr, has_view rc v w -> has_frame d (v_frame w) fr -> length c = Nat.min 3 (length (f_feats fr)))).
  { intros v Hv. apply view_candidates_post; auto. }
  intros raw Hraw.
  assert (forall l x, (l, x) ∈ mjoin raw <-> offered e d rc views desc l x) as Hoff.
  { intros l x. rewrite elem_of_list_join. split.
    - intros (c & Hin & Hc). apply elem_of_list_lookup in Hc as (j & Hj). destruct (Forall2_lookup_r _ _ _ _ _ Hraw Hj) as (v & Hv & Hspec & _).
      apply Hspec in Hin as (v' & w & fr & i & Hv' & H). apply elem_of_list_singleton in Hv' as ->. exists v, w, fr, i. split; [eapply elem_of_list_lookup_2; exact Hv|exact H].
    - intros (v & w & fr & i & Hv & H). apply elem_of_list_lookup in Hv as (j & Hj). destruct (Forall2_lookup_l _ _ _ _ _ Hraw Hj) as (c & Hc & Hspec & _).
      exists c. split; [|eapply elem_of_list_lookup_2; exact Hc]. apply Hspec. exists v, w, fr, i. split; [left|exact H]. }
  cbv zeta. set (best := dedup_best (mjoin raw)).
  assert (forall l x, best !! l = Some x <-> best_offer e d rc views desc l x) as Hbest.
  { intros l x. unfold best. rewrite dedup_best_spec, Hoff. unfold best_offer. setoid_rewrite Hoff. reflexivity. }
  pose proof (oo_match _ (eo_orders _ He) (dom best)) as Hperm.
  set (cands := omap _ _).
  assert (forall l x, (l, x) ∈ cands <-> best_offer e d rc views desc l x) as Hcands.
  { intros l x. unfold cands. rewrite elem_of_list_omap, <- Hbest. split.
    - intros (l' & _ & H). apply fmap_Some in H as (x' & Hx' & [= -> ->]). exact Hx'.
    - intros H. exists l. rewrite H. split; [|reflexivity]. rewrite Hperm. apply elem_of_elements, elem_of_dom. eauto. }
  assert (NoDup cands.*1) as Hnd.
  { unfold cands. assert (NoDup (o_match (e_ord e) (dom best))) as H by (rewrite Hperm; apply NoDup_elements). revert H. generalize (o_match (e_ord e) (dom best)). clear.
    intros L. induction L as [|l L IH]; [constructor|]. intros H. apply NoDup_cons in H as [Hl H]. cbn [omap list_omap].
    destruct (best !! l) as [x|]; cbn [fmap option_fmap option_map]; [|auto]. cbn [fmap list_fmap fst]. apply NoDup_cons. split; [|auto].
    intros Hin. apply Hl. apply elem_of_list_fmap in Hin as ([l' x'] & E1 & Hin). cbn in E1. subst l'. apply elem_of_list_omap in Hin as (l'' & Hin & E2).
    apply fmap_Some in E2 as (y & _ & [= -> _]). exact Hin. }
  assert (T \/ 3 <= length cands) as HT'.
  { destruct HT as [HT|(v & Hv & w & fr & Hw & Hf & H3)]; [auto|]. right. apply elem_of_list_lookup in Hv as (j & Hj).
    destruct (Forall2_lookup_l _ _ _ _ _ Hraw Hj) as (c & Hc & Hspec & Hcnd & Hclen). specialize (Hclen w fr Hw Hf).
    rewrite <- (fmap_length fst cands). transitivity (length c.*1); [rewrite fmap_length, Hclen; lia|].
    apply submseteq_length, NoDup_submseteq; [exact Hcnd|]. intros l Hl. apply elem_of_list_fmap in Hl as ([l' x] & -> & Hl). cbn.
    assert ((l', x) ∈ mjoin raw) as Hin. { apply elem_of_list_join. exists c. split; [exact Hl|]. eapply elem_of_list_lookup_2. exact Hc. }
    assert (is_Some (best !! l')) as [y Hy].
    { unfold best, dedup_best. destruct (dedup_best (mjoin raw) !! l') eqn:E2; [unfold dedup_best in E2; rewrite E2; eauto|]. exfalso.
      clear -Hin E2. assert (exists m, (l', m) ∈ mjoin raw /\ forall y, (l', y) ∈ mjoin raw -> m <= y) as (m & Hm).
      { revert Hin. induction (lt_wf x) as [x _ IH]. intros Hin.
        destruct (decide (Exists (fun p => p.1 = l' /\ p.2 < x) (mjoin raw))) as [H|H].
        - apply Exists_exists in H as ([l2 y] & Hy & E & Hlt). cbn in *. subst l2. eauto.
        - exists x. split; [exact Hin|]. intros y Hy. destruct (decide (x <= y)); [assumption|]. exfalso. apply H. apply Exists_exists. exists (l', y). split; [exact Hy|]. cbn. split; [reflexivity|lia]. }
      apply dedup_best_spec in Hm. congruence. }
    apply elem_of_list_fmap. exists (l', y). split; [reflexivity|]. apply Hcands, Hbest. exact Hy. }
  apply post_bind, best3_post; [exact HT'|]. intros [l0 x0] [l1 x1] [l2 x2] others Hp H01 H12 Hothers. cbn [fst snd] in *.
  assert (forall l x, best_offer e d rc views desc l x <-> (l, x) = (l0, x0) \/ (l, x) = (l1, x1) \/ (l, x) = (l2, x2) \/ (l, x) ∈ others) as Hall.
  { intros l x. rewrite <- Hcands, Hp, !elem_of_cons. reflexivity. }
  rewrite Hp in Hnd. cbn [fmap list_fmap fst] in Hnd. apply NoDup_cons in Hnd as [Hn0 Hnd]. apply NoDup_cons in Hnd as [Hn1 _].
  assert (l0 <> l1) as Hne by (intros ->; apply Hn0; left).
  assert (best_offer e d rc views desc l0 x0) as Hb0 by (apply Hall; auto).
  assert (best_offer e d rc views desc l1 x1) as Hb1 by (apply Hall; auto).
  assert (forall l y, offered e d rc views desc l y -> exists x, best_offer e d rc views desc l x /\ x <= y) as Hex.
  { intros l y Hy. assert (exists m, offered e d rc views desc l m /\ forall y, offered e d rc views desc l y -> m <= y) as (m & Hm).
    { revert Hy. induction (lt_wf y) as [y _ IH]. intros Hin.
      destruct (decide (Exists (fun p => p.1 = l /\ p.2 < y) (mjoin raw))) as [H|H].
      - apply Exists_exists in H as ([l3 z] & Hz & E2 & Hlt). cbn in *. subst l3. apply Hoff in Hz. eauto.
      - exists y. split; [exact Hin|]. intros z Hz. destruct (decide (y <= z)); [assumption|]. exfalso. apply H. apply Exists_exists. exists (l, z). apply Hoff in Hz. split; [exact Hz|]. cbn. split; [reflexivity|lia]. }
    exists m. split; [exact Hm|]. apply Hm. exact Hy. }
  assert (forall l y, l <> l0 -> l <> l1 -> offered e d rc views desc l y -> x2 <= y) as Hrest.
  { intros l y N0 N1 Hy. destruct (Hex l y Hy) as (x & Hx & Hle). apply Hall in Hx as [[= -> ->]|[[= -> ->]|[[= -> ->]|Hx]]]; [congruence|congruence|lia|].
    rewrite Forall_forall in Hothers. specialize (Hothers _ Hx). cbn in Hothers. lia. }
  assert (forall l x, best_offer e d rc views desc l x -> x0 <= x /\ (l <> l0 -> x1 <= x)) as Hlow.
  { intros l x Hx. apply Hall in Hx as [[= -> ->]|[[= -> ->]|[[= -> ->]|Hx]]]; [split; [lia|congruence]|lia|lia|].
    rewrite Forall_forall in Hothers. specialize (Hothers _ Hx). cbn in Hothers. lia. }
  assert (forall a b x y, a <> b -> best_offer e d rc views desc a x -> best_offer e d rc views desc b y -> x <= y -> x1 <= y) as Htwo.
  { intros a b x y Nab Ha Hb Hxy. destruct (Hlow a x Ha) as [_ H1]. destruct (Hlow b y Hb) as [_ H2].
    destruct (decide (b = l0)) as [->|Nb]; [|auto]. transitivity x; [|exact Hxy]. apply H1. exact Nab. }
  assert (0 < single_view_match_better_by s -> x1 < x0 + single_view_match_better_by s -> forall a x, best_offer e d rc views desc a x ->
    ~ (forall l y, l <> a -> offered e d rc views desc l y -> x + single_view_match_better_by s <= y)) as Hone.
  { intros Hm Hlt a x Ha H. destruct (Hlow a x Ha) as [Hx _]. destruct (decide (a = l0)) as [->|Na].
    - specialize (H l1 x1 (not_eq_sym Hne) (proj1 Hb1)). lia.
    - specialize (H l0 x0 (not_eq_sym Na) (proj1 Hb0)). lia. }
  destruct (x0 + single_view_match_better_by s <=? x1) eqn:E1.
  - apply Nat.leb_le in E1. cbn [post]. right. exists [l0]. split; [reflexivity|]. apply (clear_one e s d rc views desc l0 x0 Hb0).
    intros l y Hl Hy. destruct (Hex l y Hy) as (x & Hx & Hle). apply Hall in Hx as [[= -> ->]|[[= -> ->]|[[= -> ->]|Hx]]]; [congruence|lia|lia|].
    rewrite Forall_forall in Hothers. specialize (Hothers _ Hx). cbn in Hothers. lia.
  - apply Nat.leb_gt in E1. destruct (x1 + single_view_match_better_by s <=? x2) eqn:E2.
    2:{ apply Nat.leb_gt in E2. cbn [post]. left. split; [reflexivity|]. intros Hm ls [a x Ha H|a b x y ma mb Nab Ha Hb Hxy _ H _ _ _]; [exact (Hone Hm E1 a x Ha H)|].
      assert (x1 <= y) as Hy by (eapply Htwo; eassumption).
      assert (best_offer e d rc views desc l2 x2) as Hb2 by (apply Hall; auto).
      assert (l0 <> l2) as N02 by (intros ->; apply Hn0; right; left). assert (l1 <> l2) as N12 by (intros ->; apply Hn1; left).
      assert (forall l z, best_offer e d rc views desc l z -> z <= x2 -> l = a \/ l = b) as Hin.
      { intros l z Hz Hle. destruct (decide (l = a)) as [->|Na]; [auto|]. destruct (decide (l = b)) as [->|Nb]; [auto|]. specialize (H l z Na Nb (proj1 Hz)). lia. }
      destruct (Hin l0 x0 Hb0 ltac:(lia)), (Hin l1 x1 Hb1 ltac:(lia)), (Hin l2 x2 Hb2 ltac:(lia)); congruence. }
    apply Nat.leb_le in E2.
    destruct (offered_landmark e d rc views desc l0 x0 Hok (proj1 Hb0)) as (m0 & Hm0).
    destruct (offered_landmark e d rc views desc l1 x1 Hok (proj1 Hb1)) as (m1 & Hm1).
    apply post_bind. eapply post_mono; [apply (sharing_view_post T rc l0 l1 m0 m1 Hm0 Hm1)|]. intros sh Hsh. cbn [post].
    destruct sh.
    { left. split; [reflexivity|]. intros Hm ls [a x Ha H|a b x y ma mb Nab Ha Hb Hxy _ H Hla Hlb Hdis]; [exact (Hone Hm E1 a x Ha H)|].
      assert (x1 <= y) as Hy by (eapply Htwo; eassumption).
      assert (forall l z, best_offer e d rc views desc l z -> z <= x1 -> l = a \/ l = b) as Hin.
      { intros l z Hz Hle. destruct (decide (l = a)) as [->|Na]; [auto|]. destruct (decide (l = b)) as [->|Nb]; [auto|]. specialize (H l z Na Nb (proj1 Hz)). lia. }
      assert (m0 ##ₘ m1) as Hd01; [|apply Hsh in Hd01; discriminate].
      destruct (Hin l0 x0 Hb0 ltac:(lia)) as [-> | ->], (Hin l1 x1 Hb1 ltac:(lia)) as [-> | ->]; try congruence; unfold has_landmark in *.
      - assert (ma = m0) as -> by congruence. assert (mb = m1) as -> by congruence. exact Hdis.
      - assert (ma = m1) as -> by congruence. assert (mb = m0) as -> by congruence. symmetry. exact Hdis. }
    right. exists [l0; l1]. split; [reflexivity|].
    apply (clear_two e s d rc views desc l0 l1 x0 x1 m0 m1); auto.
    + intros l z N0 N1 Hz. specialize (Hrest l z N0 N1 Hz). lia.
    + apply Hsh. reflexivity.
Qed.

(** With a positive margin a feature has at most one clear match. *)
Lemma clear_match_unique e s d rc views desc ls ls' : 0 < single_view_match_better_by s ->
  clear_match e s d rc views desc ls -> clear_match e s d rc views desc ls' -> ls ≡ₚ ls'.
Proof.
  assert (forall l x y, best_offer e d rc views desc l x -> best_offer e d rc views desc l y -> x = y) as Hbu.
  { intros l x y [H1 H2] [H3 H4]. specialize (H2 y H3). specialize (H4 x H1). lia. }
  assert (0 < single_view_match_better_by s -> forall a x, best_offer e d rc views desc a x ->
    (forall l y, l <> a -> offered e d rc views desc l y -> x + single_view_match_better_by s <= y) ->
    forall b c y z, b <> c -> best_offer e d rc views desc b y -> best_offer e d rc views desc c z -> y <= z -> z < y + single_view_match_better_by s ->
    (forall l w, l <> b -> l <> c -> offered e d rc views desc l w -> z + single_view_match_better_by s <= w) -> False) as H12.
  { intros Hm a x Ha H b c y z Nbc Hb Hc Hyz Hlt H'. destruct (decide (a = b)) as [->|Nab].
    - assert (x = y) as -> by (eapply Hbu; eassumption). specialize (H c z (not_eq_sym Nbc) (proj1 Hc)). lia.
    - pose proof (H b y (not_eq_sym Nab) (proj1 Hb)) as H1. destruct (decide (a = c)) as [->|Nac].
      + assert (x = z) as -> by (eapply Hbu; eassumption). lia.
      + specialize (H' a x Nab Nac (proj1 Ha)). lia. }
  intros Hm [a x Ha H|a b x y ma mb Nab Ha Hb Hxy Hlt H _ _ _] [a' x' Ha' H'|a' b' x' y' ma' mb' Nab' Ha' Hb' Hxy' Hlt' H' _ _ _].
  - destruct (decide (a = a')) as [->|Na]; [reflexivity|]. exfalso.
    pose proof (H a' x' (not_eq_sym Na) (proj1 Ha')). pose proof (H' a x Na (proj1 Ha)). lia.
  - exfalso. exact (H12 Hm a x Ha H a' b' x' y' Nab' Ha' Hb' Hxy' Hlt' H').
  - exfalso. exact (H12 Hm a' x' Ha' H' a b x y Nab Ha Hb Hxy Hlt H).
  - assert (forall l z, best_offer e d rc views desc l z -> z <= y' -> l = a \/ l = b \/ y < y') as H1.
    { intros l z Hz Hle. destruct (decide (l = a)) as [->|Na]; [auto|]. destruct (decide (l = b)) as [->|Nb]; [auto|]. specialize (H l z Na Nb (proj1 Hz)). lia. }
    assert (forall l z, best_offer e d rc views desc l z -> z <= y -> l = a' \/ l = b' \/ y' < y) as H2.
    { intros l z Hz Hle. destruct (decide (l = a')) as [->|Na]; [auto|]. destruct (decide (l = b')) as [->|Nb]; [auto|]. specialize (H' l z Na Nb (proj1 Hz)). lia. }
    destruct (decide (y' <= y)) as [Hy|Hy].
    + destruct (H1 a' x' Ha' Hxy') as [-> | [-> |?]]; [| |lia]; destruct (H1 b' y' Hb' ltac:(lia)) as [-> | [-> |?]]; try lia; try congruence; try reflexivity; try apply perm_swap.
    + destruct (H2 a x Ha Hxy) as [-> | [-> |?]]; [| |lia]; destruct (H2 b y Hb ltac:(lia)) as [-> | [-> |?]]; try lia; try congruence; try reflexivity; try apply perm_swap.
Qed.

(** ** Matches of a range of features *)
Record matched e s d rc (feats : list F) views (hi : nat) (ms : list (list key * nat)) : Prop := {
  mt_clear : forall ls f, (ls, f) ∈ ms -> exists desc, feats !! f = Some desc /\ clear_match e s d rc views desc ls;
  mt_below : forall ls f, (ls, f) ∈ ms -> f < hi;
  mt_once : NoDup ms.*2;
  mt_all : 0 < single_view_match_better_by s -> forall ls f desc, f < hi -> feats !! f = Some desc ->
    clear_match e s d rc views desc ls -> exists ls', ls' ≡ₚ ls /\ (ls', f) ∈ ms
}.

Lemma matched_nil e s d rc feats views : matched e s d rc feats views 0 [].
Proof. split; [intros ? ? H; apply elem_of_nil in H as []|intros ? ? H; apply elem_of_nil in H as []|constructor|intros; lia]. Qed.

Lemma match_range_post T e s d rc feats views lo n ms :
  env_ok e -> recon_ok d rc -> lo + n <= length feats ->
  (forall v, v ∈ views -> exists w, has_view rc v w) -> (T \/ exists v, v ∈ views /\ rich_view d rc v) ->
  matched e s d rc feats views lo ms ->
  post T (foldM (match_feature e s d rc feats views) (seq lo n) ms) (matched e s d rc feats views (lo + n)).
Proof.
  intros He Hok. revert lo ms. induction n as [|n IH]; intros lo ms Hlen Hv HT Hm; cbn [seq foldM].
  - cbn [post]. rewrite Nat.add_0_r. exact Hm.
  - destruct (lookup_lt_is_Some_2 feats lo ltac:(lia)) as [desc Hd]. apply post_bind. eapply post_mono; [apply (match_feature_post T e s d rc feats views ms lo desc); auto|].
    intros ms' Hms'. replace (lo + S n) with (S lo + n) by lia. apply IH; [lia|exact Hv|exact HT|].
    destruct Hm as [H1 H2 H3 H4]. destruct Hms' as [[-> Hnone]|(ls & -> & Hc)].
    + split; auto; [intros ls f H; apply H2 in H; lia|]. intros Hmg ls f desc' Hlt Hd' Hc. destruct (decide (f = lo)) as [->|Hne].
      * exfalso. assert (desc' = desc) as -> by congruence. exact (Hnone Hmg ls Hc).
      * apply (H4 Hmg ls f desc'); [lia|exact Hd'|exact Hc].
    + split.
      * intros ls' f H. apply elem_of_app in H as [H|H]; [auto|]. apply elem_of_list_singleton in H as [= -> ->]. eauto.
      * intros ls' f H. apply elem_of_app in H as [H|H]; [apply H2 in H; lia|]. apply elem_of_list_singleton in H as [= -> ->]. lia.
      * rewrite fmap_app. apply NoDup_app. split; [exact H3|]. split; [|apply NoDup_singleton]. intros f Hf Hf'. cbn in Hf'. apply elem_of_list_singleton in Hf' as ->.
        apply elem_of_list_fmap in Hf as ([ls' f'] & E & Hf). cbn in E. subst f'. apply H2 in Hf. lia.
      * intros Hmg ls' f desc' Hlt Hd' Hc'. destruct (decide (f = lo)) as [->|Hne].
        -- assert (desc' = desc) as -> by congruence. exists ls. split; [eapply clear_match_unique; eassumption|]. apply elem_of_app. right. left.
        -- destruct (H4 Hmg ls' f desc' ltac:(lia) Hd' Hc') as (ls2 & Hp & Hin). exists ls2. split; [exact Hp|]. apply elem_of_app. auto.
Qed.

(** ** No landmark is used twice *)
Lemma filter_count_app (A B : list key) l : length (filter (fun x => x = l) (A ++ B)) = length (filter (fun x => x = l) A) + length (filter (fun x => x = l) B).
Proof. rewrite filter_app, app_length. reflexivity. Qed.

Lemma join_app (A B : list (list key)) : mjoin (A ++ B) = mjoin A ++ mjoin B.
Proof. induction A as [|x A IH]; [reflexivity|]. cbn. rewrite <- (assoc_L (++)). f_equal. exact IH. Qed.

Lemma count_pos (A : list key) l : l ∈ A -> 1 <= length (filter (fun x => x = l) A).
Proof.
  intros H. assert (l ∈ filter (fun x => x = l) A) as Hf by (apply elem_of_list_filter; auto).
  destruct (filter _ A); [apply elem_of_nil in Hf as []|cbn; lia].
Qed.

Lemma lm_count_twice (ms : list (list key * nat)) ls f ls' f' l :
  (ls, f) ∈ ms -> (ls', f') ∈ ms -> f <> f' -> l ∈ ls -> l ∈ ls' -> 2 <= lm_count ms l.
Proof.
  intros H1 H2 Hne Hl Hl'. unfold lm_count. apply elem_of_list_split in H1 as (A & B & ->).
  rewrite fmap_app, join_app. change (mjoin (((ls, f) :: B).*1)) with (ls ++ mjoin B.*1). rewrite !filter_count_app. pose proof (count_pos ls l Hl).
  rewrite elem_of_app, elem_of_cons in H2. destruct H2 as [H2|[[= -> ->]|H2]]; [|congruence|].
  - pose proof (count_pos (mjoin (fst <$> A)) l) as Hc. rewrite elem_of_list_join in Hc.
    specialize (Hc ltac:(exists ls'; split; [exact Hl'|apply elem_of_list_fmap; exists (ls', f'); auto])). lia.
  - pose proof (count_pos (mjoin (fst <$> B)) l) as Hc. rewrite elem_of_list_join in Hc.
    specialize (Hc ltac:(exists ls'; split; [exact Hl'|apply elem_of_list_fmap; exists (ls', f'); auto])). lia.
Qed.

Lemma elem_of_unique (ms : list (list key * nat)) ls f : (ls, f) ∈ unique_matches ms -> (ls, f) ∈ ms /\ forall l, l ∈ ls -> lm_count ms l = 1.
Proof.
  unfold unique_matches. rewrite elem_of_list_filter. cbn [fst]. intros [H1 H2]. split; [exact H2|]. rewrite forallb_forall in H1.
  intros l Hl. apply elem_of_list_In in Hl. apply Nat.eqb_eq, H1. exact Hl.
Qed.

(** What a successful registration hands over: for some features of the frame a clear match,
    no landmark in two of them. *)
Record registration e s d rc (feats : list F) views (matches : gmap nat (list key)) : Prop := {
  rg_clear : forall f ls, matches !! f = Some ls -> exists desc, feats !! f = Some desc /\ clear_match e s d rc views desc ls;
  rg_once : forall f f' ls ls' l, matches !! f = Some ls -> matches !! f' = Some ls' -> l ∈ ls -> l ∈ ls' -> f = f'
}.

Lemma clear_landmarks e s d rc views desc ls : recon_ok d rc -> clear_match e s d rc views desc ls ->
  (exists l m, ls = [l] /\ has_landmark rc l m) \/
  (exists a b ma mb, ls = [a; b] /\ a <> b /\ has_landmark rc a ma /\ has_landmark rc b mb /\ ma ##ₘ mb).
Proof.
  intros Hok [a x [Hx _] _|a b x y ma mb Hne _ _ _ _ _ Ha Hb Hd].
  - left. destruct (offered_landmark _ _ _ _ _ _ _ Hok Hx) as (m & Hm). eauto.
  - right. exists a, b, ma, mb. auto.
Qed.

Lemma registration_good e s d rc feats views matches : recon_ok d rc -> registration e s d rc feats views matches ->
  good_matches rc (length feats) (fun f => matches !! f).
Proof.
  intros Hok [H1 H2]. split.
  - intros f ls _ Hf. destruct (H1 f ls Hf) as (desc & _ & Hc). eapply clear_landmarks; eassumption.
  - intros f f' ls ls' l _ _ Hf Hf' Hl Hl'. eapply H2; eassumption.
Qed.

Lemma register_subset_post T e s d r k views lo hi ms rc fr :
  env_ok e -> has_recon d r rc -> recon_ok d rc -> has_frame d k fr -> lo <= hi -> hi <= length (f_feats fr) ->
  (forall v, v ∈ views -> exists w, has_view rc v w) -> (T \/ lo = hi \/ exists v, v ∈ views /\ rich_view d rc v) ->
  matched e s d rc (f_feats fr) views lo ms ->
  post T (register_subset e s d r k views lo hi ms) (fun x => matched e s d rc (f_feats fr) views hi x.1 /\
    forall p matches, x.2 = Some (p, matches) -> registration e s d rc (f_feats fr) views matches).
Proof.
  intros He Hr Hok Hf Hle Hhi Hviews HT Hm. unfold register_subset. apply post_bind, post_unwrap; [right; exists rc; exact Hr|]. intros rc' Hr'.
  assert (rc' = rc) as -> by (eapply has_recon_fun; [exact Hr'|exact Hr]).
  apply post_bind, post_unwrap; [right; exists fr; exact Hf|]. intros fr' Hf'. assert (fr' = fr) as -> by (eapply has_frame_fun; [exact Hf'|exact Hf]).
  apply post_bind. apply (post_mono T _ (matched e s d rc (f_feats fr) views hi)).
  { destruct (decide (lo = hi)) as [->|Hne].
    - rewrite Nat.sub_diag. cbn. exact Hm.
    - replace hi with (lo + (hi - lo)) at 2 by lia. apply match_range_post; auto; [lia|]. destruct HT as [HT|[HT|HT]]; [auto|lia|auto]. }
  clear ms Hm. intros ms Hm. cbv zeta. apply post_bind.
  apply (post_mapM T _ (fun _ _ => True)).
  { intros l Hl. apply elem_of_list_join in Hl as (ls & Hl & Hls). apply elem_of_list_fmap in Hls as ([ls' f] & -> & Hin). cbn [fst] in Hl.
    apply elem_of_unique in Hin as [Hin _]. destruct (mt_clear _ _ _ _ _ _ _ _ Hm ls' f Hin) as (desc & _ & Hc).
    assert (exists m, has_landmark rc l m) as (m & Hlm).
    { destruct (clear_landmarks _ _ _ _ _ _ _ Hok Hc) as [(a & m & -> & Ha)|(a & b & ma & mb & -> & _ & Ha & Hb & _)].
      - apply elem_of_list_singleton in Hl as ->. eauto.
      - rewrite !elem_of_cons in Hl. destruct Hl as [-> | [-> | Hl]]; [eauto|eauto|apply elem_of_nil in Hl as []]. }
    apply post_bind, post_unwrap; [right; exists m; exact Hlm|]. intros m' Hm'.
    assert (m' = m) as -> by (unfold sm_get in Hm'; unfold has_landmark in Hlm; congruence).
    apply post_assert; [|intros _; exact I]. right. rewrite (obs_readable_ok d rc l m Hok Hlm). cbn [andb]. apply negb_true_iff, Nat.eqb_neq.
    intros Hs. apply map_size_empty_inv in Hs. apply (ok_no_empty _ _ Hok l m Hlm). exact Hs. }
  intros _ _. destruct (e_register e d r k (unique_matches ms)) as [[pose ok]|]; cbn [post fst snd]; (split; [exact Hm|]).
  - intros p matches [= <- <-].
    assert (forall f ls, (list_to_map ((λ m, (m.2, m.1)) <$> filter (λ m, ok m = true) (unique_matches ms)) : gmap nat (list key)) !! f = Some ls -> (ls, f) ∈ unique_matches ms) as Hin.
    { intros f ls H. apply elem_of_list_to_map_2 in H. apply elem_of_list_fmap in H as ([ls' f'] & [= -> ->] & H). cbn. apply elem_of_list_filter in H as [_ H]. exact H. }
    split.
    + intros f ls H. apply Hin, elem_of_unique in H as [H _]. apply (mt_clear _ _ _ _ _ _ _ _ Hm ls f H).
    + intros f f' ls ls' l H H' Hl Hl'. apply Hin, elem_of_unique in H as [H Hc]. apply Hin, elem_of_unique in H' as [H' _].
      destruct (decide (f = f')) as [|Hne]; [assumption|]. specialize (Hc l Hl). pose proof (lm_count_twice ms ls f ls' f' l H H' Hne Hl Hl'). lia.
  - intros p matches [=].
Qed.

(** ** The growing window *)
Lemma window_loop_post {S R} T (I : nat -> S -> Prop) (Q : R -> Prop) (attempt : nat -> nat -> S -> outcome (S * option R)) n fuel lo hi acc :
  (forall lo hi acc, I lo acc -> lo <= hi -> hi <= n -> post T (attempt lo hi acc) (fun x => I hi x.1 /\ forall y, x.2 = Some y -> Q y)) ->
  I lo acc -> lo <= hi -> hi <= n -> (T \/ n - hi < fuel /\ (0 < hi \/ n = 0)) ->
  post T (window_loop fuel n attempt lo hi acc) (fun x => forall y, x = Some y -> Q y).
Proof.
  intros Ha. revert lo hi acc. induction fuel as [|fuel IH]; intros lo hi acc HI Hle Hhi HT; cbn [window_loop post].
  - destruct HT as [HT|[HT _]]; [exact HT|lia].
  - apply post_bind. eapply post_mono; [apply (Ha lo hi acc HI Hle Hhi)|]. intros [acc' res] [HI' HQ]. cbn [fst snd] in *.
    destruct res as [x|]; [cbn [post]; auto|]. destruct (hi =? n) eqn:E; [cbn [post]; intros y [=]|]. apply Nat.eqb_neq in E.
    apply IH; [exact HI'|lia|lia|]. destruct HT as [HT|[HT H0]]; [auto|]. right. destruct H0 as [H0|H0]; lia.
Qed.

Definition window_ok e (s : settings) (n : nat) : Prop := n < e_fuel e /\ (0 < single_view_initial_features s \/ n = 0).

Lemma register_frame_post T e s d r k views rc fr :
  env_ok e -> has_recon d r rc -> recon_ok d rc -> has_frame d k fr ->
  (forall v, v ∈ views -> exists w, has_view rc v w) ->
  (T \/ window_ok e s (length (f_feats fr)) /\ (f_feats fr = [] \/ exists v, v ∈ views /\ rich_view d rc v)) ->
  post T (register_frame e s d r k views) (fun x => forall p matches, x = Some (p, matches) -> registration e s d rc (f_feats fr) views matches).
Proof.
  intros He Hr Hok Hf Hviews HT. unfold register_frame. apply post_bind, post_unwrap; [right; exists fr; exact Hf|]. intros fr' Hf'.
  assert (fr' = fr) as -> by (eapply has_frame_fun; [exact Hf'|exact Hf]). cbv zeta.
  eapply post_mono.
  { apply (window_loop_post T (matched e s d rc (f_feats fr) views) (fun y => registration e s d rc (f_feats fr) views y.2)).
    - intros lo hi acc Hm Hle Hhi. eapply post_mono; [apply (register_subset_post T e s d r k views lo hi acc rc fr He Hr Hok Hf Hle Hhi Hviews)|].
      + destruct HT as [HT|[_ [HT|HT]]]; [auto| |auto]. right. left. rewrite HT in Hhi. cbn in Hhi. lia.
      + exact Hm.
      + intros [ms res] [H1 H2]. split; [exact H1|]. intros [p y] Hy. eapply H2. exact Hy.
    - apply matched_nil.
    - lia.
    - lia.
    - destruct HT as [HT|[[HT H0] _]]; [auto|]. right. lia. }
  intros x Hx p matches ->. apply (Hx (p, matches) eq_refl).
Qed.

(** ** What is handed to the pose solver *)
Lemma lm_count_once (ms : list (list key * nat)) ls f l : NoDup ms.*2 -> (ls, f) ∈ ms -> NoDup ls -> l ∈ ls ->
  (forall ls' f', (ls', f') ∈ ms -> f' <> f -> l ∉ ls') -> lm_count ms l = 1.
Proof.
  intros Hnd Hin Hls Hl Hno. unfold lm_count. apply elem_of_list_split in Hin as (A & B & ->).
  rewrite fmap_app, join_app. change (mjoin (((ls, f) :: B).*1)) with (ls ++ mjoin B.*1). rewrite !filter_count_app.
  rewrite fmap_app, fmap_cons in Hnd. cbn [snd] in Hnd. apply NoDup_app in Hnd as (_ & HA & HB). apply NoDup_cons in HB as [HB _].
  assert (forall L : list (list key * nat), f ∉ L.*2 -> (forall m, m ∈ L -> m ∈ A ++ (ls, f) :: B) -> length (filter (fun x => x = l) (mjoin L.*1)) = 0) as H0.
  { intros L HL Hsub. assert (filter (fun x => x = l) (mjoin L.*1) = []) as ->; [|reflexivity].
    destruct (filter _ _) as [|y ys] eqn:E; [reflexivity|]. exfalso. assert (y ∈ filter (fun x => x = l) (mjoin L.*1)) as Hy by (rewrite E; left).
    apply elem_of_list_filter in Hy as [-> Hy]. apply elem_of_list_join in Hy as (ls' & Hy & Hls'). apply elem_of_list_fmap in Hls' as ([ls2 f2] & -> & H2). cbn in Hy.
    refine (Hno ls2 f2 (Hsub _ H2) _ Hy). intros ->. apply HL. apply elem_of_list_fmap. exists (ls2, f). auto. }
  rewrite (H0 A), (H0 B).
  - assert (length (filter (fun x => x = l) ls) = 1) as ->; [|lia]. clear -Hls Hl. induction ls as [|y ls IH]; [apply elem_of_nil in Hl as []|].
    apply NoDup_cons in Hls as [Hy Hls]. rewrite filter_cons. destruct (decide (y = l)) as [->|Hne].
    + cbn [length]. f_equal. assert (filter (fun x => x = l) ls = []) as ->; [|reflexivity]. destruct (filter _ ls) as [|z zs] eqn:E; [reflexivity|]. exfalso.
      assert (z ∈ filter (fun x => x = l) ls) as Hz by (rewrite E; left). apply elem_of_list_filter in Hz as [-> Hz]. auto.
    + apply IH; [exact Hls|]. apply elem_of_cons in Hl as [->|Hl]; [congruence|exact Hl].
  - exact HB.
  - intros m Hm. apply elem_of_app. right. right. exact Hm.
  - intros Hf. apply (HA f Hf). left.
  - intros m Hm. apply elem_of_app. left. exact Hm.
Qed.

Lemma clear_match_NoDup e s d rc views desc ls : clear_match e s d rc views desc ls -> NoDup ls.
Proof.
  intros [a x _ _|a b x y ma mb Nab _ _ _ _ _ _ _ _]; [apply NoDup_singleton|]. apply NoDup_cons. split; [|apply NoDup_singleton].
  intros H. apply elem_of_list_singleton in H. congruence.
Qed.

Lemma NoDup_snd_filter (q : list key * nat -> Prop) `{!forall m, Decision (q m)} (ms : list (list key * nat)) : NoDup ms.*2 -> NoDup (filter q ms).*2.
Proof.
  induction ms as [|m ms IH]; intros Hnd; [constructor|]. rewrite fmap_cons in Hnd. apply NoDup_cons in Hnd as [H1 H2]. rewrite filter_cons. destruct (decide (q m)); [|auto].
  rewrite fmap_cons. apply NoDup_cons. split; [|auto]. intros Hin. apply H1. apply elem_of_list_fmap in Hin as (m' & E & Hin). apply elem_of_list_filter in Hin as [_ Hin].
  apply elem_of_list_fmap. eauto.
Qed.

Lemma unique_usable e s d rc feats views hi ms : 0 < single_view_match_better_by s -> hi <= length feats ->
  matched e s d rc feats views hi ms -> usable_matches e s d rc feats views hi (unique_matches ms).
Proof.
  intros Hmg Hhi [H1 H2 H3 H4]. specialize (H4 Hmg). split.
  - apply NoDup_snd_filter. exact H3.
  - intros f desc Hd Hlt ls Hc. split.
    + intros (ls' & Hp & Hin) (f' & desc' & ls2 & l & Hne & Hlt' & Hd' & Hc' & Hl & Hl2). apply elem_of_unique in Hin as [Hin Hcount].
      destruct (H4 ls2 f' desc' Hlt' Hd' Hc') as (ls3 & Hp3 & Hin3). assert (l ∈ ls') as Hl' by (rewrite Hp; exact Hl). specialize (Hcount l Hl').
      assert (l ∈ ls3) as Hl3 by (rewrite Hp3; exact Hl2). pose proof (lm_count_twice ms ls' f ls3 f' l Hin Hin3 (not_eq_sym Hne) Hl' Hl3). lia.
    + intros Hno. destruct (H4 ls f desc Hlt Hd Hc) as (ls' & Hp & Hin). exists ls'. split; [exact Hp|]. unfold unique_matches. apply elem_of_list_filter. split; [|exact Hin].
      cbn [fst]. apply forallb_forall. intros l Hl. apply elem_of_list_In in Hl. apply Nat.eqb_eq. apply (lm_count_once ms ls' f l H3 Hin); [|exact Hl|].
      * rewrite Hp. eapply clear_match_NoDup. exact Hc.
      * intros ls2 f2 Hin2 Hne Hl2. apply Hno. destruct (H1 ls2 f2 Hin2) as (desc2 & Hd2 & Hc2). exists f2, desc2, ls2, l.
        repeat split; [exact Hne|exact (H2 _ _ Hin2)|exact Hd2|exact Hc2|rewrite <- Hp; exact Hl|exact Hl2].
  - intros ls f Hin. apply elem_of_unique in Hin as [Hin _]. split; [exact (H2 _ _ Hin)|exact (H1 _ _ Hin)].
Qed.

Lemma register_subset_answer e s d r k views lo hi ms rc fr :
  env_ok e -> has_recon d r rc -> recon_ok d rc -> has_frame d k fr -> lo <= hi -> hi <= length (f_feats fr) ->
  (forall v, v ∈ views -> exists w, has_view rc v w) -> 0 < single_view_match_better_by s ->
  matched e s d rc (f_feats fr) views lo ms ->
  post True (register_subset e s d r k views lo hi ms) (fun x => matched e s d rc (f_feats fr) views hi x.1 /\ answered e s d rc r k (f_feats fr) views hi x.2).
Proof.
  intros He Hr Hok Hf Hle Hhi Hviews Hmg Hm. unfold register_subset. apply post_bind, post_unwrap; [auto|]. intros rc' Hr'.
  assert (rc' = rc) as -> by (eapply has_recon_fun; [exact Hr'|exact Hr]).
  apply post_bind, post_unwrap; [auto|]. intros fr' Hf'. assert (fr' = fr) as -> by (eapply has_frame_fun; [exact Hf'|exact Hf]).
  apply post_bind. apply (post_mono True _ (matched e s d rc (f_feats fr) views hi)).
  { replace hi with (lo + (hi - lo)) at 2 by lia. apply match_range_post; auto. lia. }
  clear ms Hm. intros ms Hm. cbv zeta. apply post_bind.
  apply (post_mapM True _ (fun _ _ => True)).
  { intros l _. apply post_bind, post_unwrap; [auto|]. intros m _. apply post_assert; [auto|intros _; exact I]. }
  intros _ _. pose proof (unique_usable e s d rc (f_feats fr) views hi ms Hmg Hhi Hm) as Hu.
  destruct (e_register e d r k (unique_matches ms)) as [[pose ok]|] eqn:E; cbn [post fst snd]; (split; [exact Hm|]); exists (unique_matches ms); (split; [exact Hu|]).
  - exists ok. split; [exact E|]. intros f ls.
    assert (NoDup (((λ m : list key * nat, (m.2, m.1)) <$> filter (λ m, ok m = true) (unique_matches ms)).*1)) as Hnd.
    { rewrite <- list_fmap_compose. apply (NoDup_snd_filter (fun m => ok m = true)). exact (um_once _ _ _ _ _ _ _ _ Hu). }
    rewrite <- (elem_of_list_to_map _ _ _ Hnd), elem_of_list_fmap. split.
    + intros ([ls' f'] & [= -> ->] & H). apply elem_of_list_filter in H as [H1 H2]. auto.
    + intros [H1 H2]. exists (ls, f). split; [reflexivity|]. apply elem_of_list_filter. auto.
  - exact E.
Qed.

Lemma window_loop_answer {S R} (I : nat -> S -> Prop) (A : nat -> option R -> Prop) (attempt : nat -> nat -> S -> outcome (S * option R)) n fuel lo hi acc :
  (forall lo hi acc, I lo acc -> lo <= hi -> hi <= n -> post True (attempt lo hi acc) (fun x => I hi x.1 /\ A hi x.2)) ->
  I lo acc -> lo <= hi -> hi <= n ->
  post True (window_loop fuel n attempt lo hi acc) (fun x => exists m, m <= n /\ A m x /\ (x = None -> m = n)).
Proof.
  intros Ha. revert lo hi acc. induction fuel as [|fuel IH]; intros lo hi acc HI Hle Hhi; cbn [window_loop post]; [exact Logic.I|].
  apply post_bind. eapply post_mono; [apply (Ha lo hi acc HI Hle Hhi)|]. intros [acc' res] [HI' HA]. cbn [fst snd] in *.
  destruct res as [x|]; [cbn [post]; exists hi; split; [exact Hhi|]; split; [exact HA|intros [=]]|].
  destruct (hi =? n) eqn:E; [apply Nat.eqb_eq in E; cbn [post]; exists hi; auto|]. apply Nat.eqb_neq in E. apply IH; [exact HI'|lia|lia].
Qed.

Lemma register_frame_answer e s d r k views rc fr res :
  env_ok e -> has_recon d r rc -> recon_ok d rc -> has_frame d k fr ->
  (forall v, v ∈ views -> exists w, has_view rc v w) -> 0 < single_view_match_better_by s ->
  register_frame e s d r k views = Ok res ->
  exists hi, hi <= length (f_feats fr) /\ answered e s d rc r k (f_feats fr) views hi res /\ (res = None -> hi = length (f_feats fr)).
Proof.
  intros He Hr Hok Hf Hviews Hmg E.
  enough (post True (register_frame e s d r k views) (fun x => exists hi, hi <= length (f_feats fr) /\
    answered e s d rc r k (f_feats fr) views hi x /\ (x = None -> hi = length (f_feats fr)))) as H by (rewrite E in H; exact H).
  unfold register_frame. apply post_bind, post_unwrap; [auto|]. intros fr' Hf'.
  assert (fr' = fr) as -> by (eapply has_frame_fun; [exact Hf'|exact Hf]). cbv zeta.
  apply (window_loop_answer (matched e s d rc (f_feats fr) views) (answered e s d rc r k (f_feats fr) views)).
  - intros lo hi acc Hm Hle Hhi. apply register_subset_answer; assumption.
  - apply matched_nil.
  - lia.
  - lia.
Qed.

End facts.
