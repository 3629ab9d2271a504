(** Pose-graph optimisation moves all views at once. *)
From stdpp Require Import gmap list.
From Verif Require Import Outcome OutcomeFacts.
From Verif Require Import Sfm SfmSpec SfmUse SfmEffects SfmRec SfmTrack SfmData SfmPrim SfmCons SfmApply SfmOps SfmReg SfmInc SfmThms.

Section facts.
Context {P F : Type} (pmul : P -> P -> P) (pinv : P -> P).
Implicit Types (rc : recon P) (d : vdata P F) (e : env P F).

Lemma omap_mjoin {A B C} (f : B -> option C) (g : A -> list B) (l : list A) :
  omap f (mjoin (g <$> l)) = mjoin ((fun x => omap f (g x)) <$> l).
Proof. induction l as [|x l IH]; [reflexivity|]. cbn [fmap list_fmap mjoin list_join]. rewrite omap_app. f_equal. exact IH. Qed.

Lemma mjoin_perm {A B} (g : A -> list B) (l k : list A) : l ≡ₚ k -> mjoin (g <$> l) ≡ₚ mjoin (g <$> k).
Proof.
  induction 1 as [|x l k _ IH|x y l|l k m _ IH1 _ IH2]; cbn [fmap list_fmap mjoin list_join]; [reflexivity| | |etrans; eassumption].
  - f_equiv. exact IH.
  - rewrite !(assoc_L (++)). f_equiv. apply Permutation_app_comm.
Qed.

Lemma omap_perm {A B} (f : A -> option B) (l k : list A) : l ≡ₚ k -> omap f l ≡ₚ omap f k.
Proof.
  induction 1 as [|x l k _ IH|x y l|l k m _ IH1 _ IH2]; cbn [omap list_omap]; [reflexivity| | |etrans; eassumption].
  - destruct (f x); [f_equiv|]; exact IH.
  - destruct (f x), (f y); try reflexivity. apply perm_swap.
Qed.

Lemma values_perm {A} (m : gmap key A) (l : list key) : l ≡ₚ elements (dom m) -> omap (fun k => m !! k) l ≡ₚ (map_to_list m).*2.
Proof.
  intros Hl. assert (elements (dom m) ≡ₚ (map_to_list m).*1) as Hd.
  { apply NoDup_Permutation; [apply NoDup_elements|apply NoDup_fst_map_to_list|]. intros k. rewrite elem_of_elements, elem_of_dom, elem_of_list_fmap. split.
    - intros [x Hx]. exists (k, x). split; [reflexivity|]. apply elem_of_map_to_list. exact Hx.
    - intros ([k' x] & -> & Hx). apply elem_of_map_to_list in Hx. eauto. }
  rewrite (omap_perm _ _ _ (Permutation_trans Hl Hd)).
  assert (forall L : list (key * A), (forall k x, (k, x) ∈ L -> m !! k = Some x) -> omap (fun k => m !! k) L.*1 = L.*2) as H.
  { induction L as [|[k x] L IH]; intros HL; [reflexivity|]. cbn [fmap list_fmap fst snd omap list_omap]. rewrite (HL k x) by left. f_equal. apply IH. intros k' x' H. apply HL. right. exact H. }
  rewrite H; [reflexivity|]. intros k x Hx. apply elem_of_map_to_list. exact Hx.
Qed.

Lemma edges_perm o rc v : orders_ok o ->
  omap (fun ve => if decide (ve.1 = v) then Some ve.2 else None) (edge_list pmul pinv o rc) ≡ₚ
  mjoin ((fun kc : key * constraint3 P => edges_at pmul pinv kc.2 v) <$> map_to_list (sm_map (r_cons rc))).
Proof.
  intros Ho. unfold edge_list. rewrite omap_mjoin. fold (edges_at pmul pinv).
  rewrite (mjoin_perm (fun c => edges_at pmul pinv c v) _ _ (values_perm (sm_map (r_cons rc)) _ (oo_cons _ Ho _))).
  rewrite <- list_fmap_compose. reflexivity.
Qed.

Lemma new_next o e rc0 rc v w res : orders_ok o -> has_view rc v w ->
  new_pose e rc (flatten_constraints pmul pinv o rc0) v res -> next_pose pmul pinv e rc0 rc v w res.
Proof.
  intros Ho Hw. unfold new_pose. rewrite flatten_lookup. pose proof (edges_perm o rc0 v Ho) as Hp. destruct (omap _ _) as [|x xs].
  - intros ->. exists [], []. split; [exact Hp|]. split; [constructor|reflexivity].
  - intros (w' & others & Hw' & Hes & ->). assert (w' = w) as -> by (eapply has_view_fun; eassumption). exists (x :: xs), others. split; [exact Hp|]. split; [exact Hes|reflexivity].
Qed.

Lemma rounds_snoc e rc0 n next rc rc1 rc' : planned pmul pinv e rc0 rc next -> 3 <= remaining rc next -> all_moved rc next rc1 ->
  rounds pmul pinv e rc0 n rc1 rc' -> rounds pmul pinv e rc0 (S n) rc rc'.
Proof. intros. exists next, rc1. auto. Qed.

Lemma iterations_rounds e rc0 n : orders_ok (e_ord e) -> forall d r rc, inv none1 none2 d -> has_recon d r rc ->
  post True (constraint_iterations e n d r (flatten_constraints pmul pinv (e_ord e) rc0))
    (fun x => inv none1 none2 x.1 /\ within (eq r) d x.1 /\
       if x.2 then exists rc', has_recon x.1 r rc' /\ rounds pmul pinv e rc0 n rc rc'
       else sm_map (d_recs x.1) !! r = None /\ exists m rcm next, m < n /\ rounds pmul pinv e rc0 m rc rcm /\ planned pmul pinv e rc0 rcm next /\ remaining rcm next < 3).
Proof.
  intros Ho. induction n as [|n IH]; intros d r rc Hinv Hr; cbn [constraint_iterations].
  - cbn [post fst snd]. split; [exact Hinv|]. split; [apply within_refl|]. exists rc. split; [exact Hr|reflexivity].
  - apply post_bind, post_unwrap; [left; exact I|]. intros rc' Hr'. assert (rc' = rc) as -> by (eapply has_recon_fun; eassumption).
    apply post_bind. eapply post_mono; [apply (compute_post True e rc _ Ho (or_introl I))|]. intros ba ([ups rem] & Haj & ->). cbn [fst].
    pose proof (aj_perm _ _ _ _ _ Haj) as Hperm. cbn [fst snd] in Hperm.
    assert (NoDup (ups.*1 ++ rem)) as Hnd by (rewrite Hperm; apply NoDup_elements). apply NoDup_app in Hnd as (Hnu & Hdisj & Hnr).
    set (next := fun v => (list_to_map ups : gmap key P) !! v).
    assert (forall v, v ∈ rem -> next v = None) as Hrem.
    { intros v Hv. unfold next. apply not_elem_of_list_to_map_1. intros H. exact (Hdisj v H Hv). }
    assert (forall v p, next v = Some p <-> (v, p) ∈ ups) as Hnx.
    { intros v p. unfold next. split; [apply elem_of_list_to_map_2|apply elem_of_list_to_map_1; exact Hnu]. }
    assert (planned pmul pinv e rc0 rc next) as Hpl.
    { intros v w Hw. eapply new_next; [exact Ho|exact Hw|]. assert (v ∈ ups.*1 ++ rem) as Hv by (rewrite Hperm, elem_of_elements, elem_of_dom; eexists; exact Hw).
      apply elem_of_app in Hv as [Hv|Hv].
      - apply elem_of_list_fmap in Hv as ([v' p] & -> & Hv). cbn [fst]. rewrite (proj2 (Hnx v' p) Hv). apply (aj_updated _ _ _ _ _ Haj). exact Hv.
      - rewrite (Hrem v Hv). apply (aj_removed _ _ _ _ _ Haj). exact Hv. }
    assert (remaining rc next = length ups) as Hcount.
    { unfold remaining. rewrite <- (fmap_length fst ups). apply Permutation_length. rewrite <- Hperm, filter_app.
      assert (forall L : list key, (forall v, v ∈ L -> is_Some (next v)) -> filter (fun v => is_Some (next v)) L = L) as Hall.
      { induction L as [|v L IHL]; intros HL; [reflexivity|]. rewrite filter_cons_True by (apply HL; left). f_equal. apply IHL. intros; apply HL; right; assumption. }
      assert (forall L : list key, (forall v, v ∈ L -> next v = None) -> filter (fun v => is_Some (next v)) L = []) as Hno.
      { induction L as [|v L IHL]; intros HL; [reflexivity|]. rewrite filter_cons_False by (rewrite (HL v) by left; apply is_Some_None). apply IHL. intros; apply HL; right; assumption. }
      rewrite (Hno rem Hrem), app_nil_r, Hall; [reflexivity|]. intros v Hv. apply elem_of_list_fmap in Hv as ([v' p] & -> & Hv). exists p. apply Hnx. exact Hv. }
    destruct (3 <=? length ups) eqn:E3.
    + apply Nat.leb_le in E3. apply post_bind. eapply post_mono.
      { apply (apply_bundle_adjust_post True none1 none2 d r ups rem Hinv id (fun _ => id)); [eauto|].
        intros rc' Hr2. assert (rc' = rc) as -> by (eapply has_recon_fun; eassumption). exact Hperm. }
      intros d' (Hinv' & Hwi & rc1' & rc1 & Hr1 & Hr2 & Had). assert (rc1' = rc) as -> by (eapply has_recon_fun; eassumption).
      assert (all_moved rc next rc1) as Hmv.
      { assert (forall v w, has_view rc v w -> (v ∈ rem <-> next v = None)) as Hiff.
        { intros v w Hw. split; [apply Hrem|]. intros Hn. assert (v ∈ ups.*1 ++ rem) as Hv by (rewrite Hperm, elem_of_elements, elem_of_dom; eexists; exact Hw).
          apply elem_of_app in Hv as [Hv|Hv]; [|exact Hv]. apply elem_of_list_fmap in Hv as ([v' p] & -> & Hv). apply Hnx in Hv. cbn [fst] in Hn. rewrite Hv in Hn. discriminate Hn. }
        split.
        - intros v w'. unfold has_view. rewrite (ad_views _ _ _ _ Had). split.
          + intros H. destruct (decide (v ∈ rem)) as [|Hv]; [discriminate|]. apply fmap_Some in H as (w & Hw & ->). unfold posed. fold (next v).
            destruct (next v) as [p|] eqn:En; [|exfalso; apply Hv; apply (Hiff v w Hw); exact En]. eauto.
          + intros (w & p & Hw & En & ->). destruct (decide (v ∈ rem)) as [Hv|Hv]; [rewrite (Hrem v Hv) in En; discriminate|]. rewrite Hw. cbn. unfold posed. fold (next v). rewrite En. reflexivity.
        - intros k c. rewrite (ad_cons _ _ _ _ Had). split; intros [Hk H]; (split; [exact Hk|]);
            pose proof (ok_constraints _ _ (in_good _ _ _ Hinv r rc Hr id) k c Hk) as Hl; unfold names_live_views in Hl; unfold con_has in *; destruct (c_views c) as [[x y] z];
            destruct Hl as (_ & _ & _ & (wx & Hx) & (wy & Hy) & (wz & Hz)).
          + assert (forall u wu, has_view rc u wu -> u = x \/ u = y \/ u = z -> is_Some (next u)) as Hs.
            { intros u wu Hu Hc. destruct (next u) as [p|] eqn:En; [eauto|]. apply (Hiff u wu Hu) in En. apply H in En. rewrite !orb_false_iff, !Nat.eqb_neq in En. lia. }
            repeat split; eapply Hs; eauto.
          + intros v Hv. rewrite !orb_false_iff, !Nat.eqb_neq. destruct H as ((? & H1) & (? & H2) & (? & H3)). pose proof (Hrem v Hv). repeat split; congruence.
        - intros v f l. rewrite (ad_assigned _ _ _ _ Had). split; intros [H1 H2].
          + split; [exact H2|]. destruct (next v) as [p|] eqn:En; [eauto|]. destruct H2 as (w & Hw & _). exfalso. apply H1. apply (Hiff v w Hw). exact En.
          + split; [|exact H1]. intros Hv. rewrite (Hrem v Hv) in H2. destruct H2 as [? [=]]. }
      eapply post_mono; [apply (IH d' r rc1 Hinv' Hr2)|]. intros [d2 b] (H1 & H2 & H3). cbn [fst snd] in *. split; [exact H1|]. split; [eapply within_trans; eassumption|]. destruct b.
      * destruct H3 as (rc' & Hr3 & Hro). exists rc'. split; [exact Hr3|]. eapply rounds_snoc; [exact Hpl|lia|exact Hmv|exact Hro].
      * destruct H3 as (Hg & m & rcm & nx & Hm & Hro & Hpm & Hf). split; [exact Hg|]. exists (S m), rcm, nx. split; [lia|]. split; [|auto]. eapply rounds_snoc; [exact Hpl|lia|exact Hmv|exact Hro].
    + apply Nat.leb_gt in E3. apply post_bind. eapply post_mono; [apply (remove_reconstruction_post True (e_ord e) none1 none2 d r Ho Hinv (fun _ => id)); eauto|].
      intros d' [Hinv' Hrr]. cbn [post fst snd]. split; [exact Hinv'|]. split; [eapply within_recon_removed; [reflexivity|exact Hrr]|].
      split; [rewrite (rr_recs _ _ _ Hrr); cbn; apply lookup_delete|]. exists 0, rc, next. split; [lia|]. split; [reflexivity|]. split; [exact Hpl|lia].
Qed.

Lemma apply_rounds e s d r rc d' b : orders_ok (e_ord e) -> data_ok d -> has_recon d r rc -> apply_constraints pmul pinv e s d r = Ok (d', b) ->
  data_ok d' /\ only_recon r d d' /\
  if b : bool then exists rc', has_recon d' r rc' /\ rounds pmul pinv e rc (optimization_iterations s) rc rc'
  else sm_map (d_recs d') !! r = None /\ exists m rcm next, m < optimization_iterations s /\ rounds pmul pinv e rc m rc rcm /\
    planned pmul pinv e rc rcm next /\ remaining rcm next < 3.
Proof.
  intros Ho Hd Hr E. unfold apply_constraints in E. unfold sm_get in E. pose proof Hr as Hr'. unfold has_recon in Hr'. rewrite Hr' in E. cbn [unwrap bind] in E.
  pose proof (iterations_rounds e rc (optimization_iterations s) Ho d r rc (proj1 (data_ok_inv d) Hd) Hr) as Hp. rewrite E in Hp. destruct Hp as (H1 & H2 & H3). cbn [fst snd] in *.
  split; [apply data_ok_inv; exact H1|]. split; [apply within_only; exact H2|]. exact H3.
Qed.
End facts.
