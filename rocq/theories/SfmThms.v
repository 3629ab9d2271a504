(** The mapping facts in the form in which the properties state them. *)
From stdpp Require Import gmap list.
From Verif Require Import Outcome OutcomeFacts.
From Verif Require Import Sfm SfmSpec SfmUse SfmEffects SfmRec SfmTrack SfmData SfmPrim SfmCons SfmApply SfmOps SfmReg SfmInc SfmFind SfmInit SfmLoc SfmHist.

Section facts.
Context {P F : Type} (pone : P) (pmul : P -> P -> P) (pinv : P -> P).
Implicit Types (rc : recon P) (d : vdata P F) (e : env P F) (fr : frame F).

Lemma same_base_images d d' : same_base d d' -> same_images d d'.
Proof.
  intros [H1 H2 H3 _]. split; [exact H1|]. split; [exact H2|]. intros k. specialize (H3 k).
  destruct (sm_map (d_frames d') !! k) as [fr'|], (sm_map (d_frames d) !! k) as [fr|]; cbn in *; try discriminate; [|reflexivity]. injection H3 as H3. unfold set_f_view in H3. congruence.
Qed.

Lemma within_only r d d' : within (eq r) d d' -> only_recon r d d'.
Proof. intros [H1 H2 _ _]. split; [apply same_base_images; exact H1|]. intros r' Hr'. apply H2. congruence. Qed.

(** ** Removing views and reconstructions *)
Lemma remove_view_thm d r v rc w : data_ok d -> has_recon d r rc -> has_view rc v w ->
  exists d', remove_view d r v = Ok d' /\ data_ok d' /\ only_recon r d d' /\
    forall r' v' k, is_view_of d' r' v' k <-> is_view_of d r' v' k /\ (r', v') <> (r, v).
Proof.
  intros Hd Hr Hw. apply data_ok_inv in Hd. pose proof (remove_view_post False none1 none2 d r v Hd id id) as Hp.
  destruct (remove_view d r v) as [d'| |]; cbn [post] in Hp; [|destruct Hp; right; eauto..]. destruct Hp as [Hi Hrv]; [right; eauto|].
  exists d'. split; [reflexivity|]. split; [apply data_ok_inv; exact Hi|]. split; [apply within_only; eapply within_removed_view; [reflexivity|exact Hrv]|].
  destruct Hrv as [(rc0 & rc' & w0 & fr & Hr0 & Hw0 & Hvd & _ & ->)]. assert (rc0 = rc) as -> by (eapply has_recon_fun; eassumption).
  intros r' v' k. destruct (decide (r' = r)) as [->|Hne].
  - split.
    + intros (rc1 & w1 & H1 & H2 & H3). apply (relink_recon (upd d r rc')) in H1. unfold has_recon in H1. cbn in H1. rewrite lookup_insert in H1. injection H1 as <-.
      unfold has_view in H2. rewrite (vr_views _ _ _ Hvd) in H2. apply lookup_delete_Some in H2 as [Hv H2]. split; [exists rc, w1; auto|congruence].
    + intros [(rc1 & w1 & H1 & H2 & H3) Hne]. assert (rc1 = rc) as -> by (eapply has_recon_fun; eassumption). exists rc', w1. split; [apply relink_recon, upd_recon_same|].
      split; [|exact H3]. unfold has_view. rewrite (vr_views _ _ _ Hvd). apply lookup_delete_Some. split; [congruence|exact H2].
  - unfold is_view_of, has_recon. cbn. rewrite lookup_insert_ne by congruence. split; [intros H; split; [exact H|congruence]|intros [H _]; exact H].
Qed.

Lemma remove_reconstruction_thm o d r rc : orders_ok o -> data_ok d -> has_recon d r rc ->
  exists d', remove_reconstruction o d r = Ok d' /\ data_ok d' /\ only_recon r d d' /\ sm_map (d_recs d') !! r = None /\
    forall r' v' k, is_view_of d' r' v' k <-> is_view_of d r' v' k /\ r' <> r.
Proof.
  intros Ho Hd Hr. apply data_ok_inv in Hd. pose proof (remove_reconstruction_post False o none1 none2 d r Ho Hd (fun _ => id)) as Hp.
  destruct (remove_reconstruction o d r) as [d'| |]; cbn [post] in Hp; [|destruct Hp; right; eauto..]. destruct Hp as [Hi Hrr]; [right; eauto|].
  exists d'. split; [reflexivity|]. split; [apply data_ok_inv; exact Hi|]. split; [apply within_only; eapply within_recon_removed; [reflexivity|exact Hrr]|].
  split; [rewrite (rr_recs _ _ _ Hrr); cbn; apply lookup_delete|].
  intros r' v' k. rewrite (del_is_view_of d d' r r' v' k (rr_recs _ _ _ Hrr)). split; intros [H1 H2]; split; assumption.
Qed.

(** ** Splitting *)
Lemma split_observation_thm d rc v f l : recon_ok d rc -> assigned rc v f l ->
  exists rc' b, split_observation rc v f = Ok (rc', b) /\ recon_ok d rc' /\ separated rc rc' /\ alone rc' (v, f) /\
    (forall v' f' l', (v', f') <> (v, f) -> (assigned rc' v' f' l' <-> assigned rc v' f' l')).
Proof.
  intros Hok Ha. pose proof (recon_ok_core _ _ Hok) as Hc. destruct (split_one rc v f l Hc Ha) as (rc' & b & E & Hso & _). exists rc', b. split; [exact E|].
  split; [eapply separated_ok; [exact Hok|apply (so_core _ _ _ Hso)|apply (so_sep _ _ _ Hso)]|]. split; [apply (so_sep _ _ _ Hso)|]. split; [apply (so_alone _ _ _ Hso); left|].
  intros v' f' l' Hne. apply (so_rest _ _ _ Hso). rewrite elem_of_list_singleton. exact Hne.
Qed.

Lemma split_landmark_thm o d rc l m : orders_ok o -> recon_ok d rc -> has_landmark rc l m ->
  exists rc', split_landmark o rc l = Ok rc' /\ recon_ok d rc' /\ separated rc rc' /\ scattered rc rc' l /\
    (forall v' f' l', ~ assigned rc v' f' l -> (assigned rc' v' f' l' <-> assigned rc v' f' l')).
Proof.
  intros Ho Hok Hm. pose proof (recon_ok_core _ _ Hok) as Hc. destruct (split_landmark_spec o rc l m Ho Hc Hm) as (rc' & v & f & rest & El & E & Hso & Hal). exists rc'. split; [exact E|].
  split; [eapply separated_ok; [exact Hok|apply (so_core _ _ _ Hso)|apply (so_sep _ _ _ Hso)]|]. split; [apply (so_sep _ _ _ Hso)|]. split; [exact Hal|].
  intros v' f' l' Hna. apply (so_rest _ _ _ Hso). intros Hin. apply Hna. apply (ok_mirrored _ _ Hok). exists m. split; [exact Hm|].
  apply elem_of_map_to_list. rewrite <- (obs_list_perm o l m Ho). rewrite El. right. exact Hin.
Qed.

(** ** Filtering *)
Lemma same_frames d d' : data_ok d -> data_ok d' -> same_images d d' -> (forall r v k, is_view_of d' r v k <-> is_view_of d r v k) ->
  forall k, sm_map (d_frames d') !! k = sm_map (d_frames d) !! k.
Proof.
  intros Hd Hd' (_ & _ & Hf) Hv k. specialize (Hf k). destruct (sm_map (d_frames d') !! k) as [fr'|] eqn:E', (sm_map (d_frames d) !! k) as [fr|] eqn:E; cbn in Hf; try discriminate; [|reflexivity].
  injection Hf as H1 H2 H3. f_equal. assert (forall r v, f_view fr' = Some (r, v) <-> f_view fr = Some (r, v)) as Hl.
  { intros r v. rewrite (ok_links _ Hd' k fr' E' r v), (ok_links _ Hd k fr E r v). apply Hv. }
  assert (f_view fr' = f_view fr) as H4.
  { destruct (f_view fr') as [[r v]|] eqn:Ex; [symmetry; apply Hl; reflexivity|]. destruct (f_view fr) as [[r v]|] eqn:Ey; [|reflexivity]. apply Hl. reflexivity. }
  destruct fr, fr'. cbn in *. congruence.
Qed.

Lemma separated_views d d' r rc rc' : only_recon r d d' -> has_recon d r rc -> has_recon d' r rc' -> separated rc rc' ->
  forall r0 v k, is_view_of d' r0 v k <-> is_view_of d r0 v k.
Proof.
  intros [_ Ho] Hr Hr' Hs r0 v k. destruct (decide (r0 = r)) as [->|Hne].
  - pose proof (separated_frames rc rc' v Hs) as Hf. split; intros (rc1 & w & H1 & H2 & H3).
    + assert (rc1 = rc') as -> by (eapply has_recon_fun; eassumption). unfold has_view in H2. rewrite H2 in Hf. cbn in Hf. symmetry in Hf. apply fmap_Some in Hf as (w0 & Hw0 & E). exists rc, w0. split; [exact Hr|]. split; [exact Hw0|congruence].
    + assert (rc1 = rc) as -> by (eapply has_recon_fun; eassumption). unfold has_view in H2. rewrite H2 in Hf. cbn in Hf. apply fmap_Some in Hf as (w0 & Hw0 & E). exists rc', w0. split; [exact Hr'|]. split; [exact Hw0|congruence].
  - unfold is_view_of, has_recon. rewrite (Ho r0 Hne). reflexivity.
Qed.

Lemma pass_filtered (V : vdata P F -> key -> gmap nat nat -> recon P -> recon P -> Prop) d r d' rc : has_recon d r rc -> recon_ok d rc -> pass_done V d r d' ->
  only_recon r d d' /\ exists rc', has_recon d' r rc' /\ filtered V d r rc rc'.
Proof.
  intros Hr Hok [Hwi (rc0 & rc' & Hr0 & Hr' & Hc' & Hs & Heach)]. assert (rc0 = rc) as -> by (eapply has_recon_fun; eassumption). split; [apply within_only; exact Hwi|].
  exists rc'. split; [exact Hr'|]. split; [eapply separated_ok; eassumption|exact Hs|]. intros l m Hm. destruct (Heach l m Hm) as (dl & rcl & H1 & H2 & H0 & H3 & H4 & H5). exists dl, rcl. split; [apply within_only; exact H1|auto 10].
Qed.

Lemma filter_landmarks_thm e d r rc : orders_ok (e_ord e) -> data_ok d -> has_recon d r rc ->
  exists d' rc', filter_landmarks e d r = Ok d' /\ data_ok d' /\ only_recon r d d' /\ (forall k, sm_map (d_frames d') !! k = sm_map (d_frames d) !! k) /\
    has_recon d' r rc' /\ filtered (robust_verdict e r) d r rc rc'.
Proof.
  intros Ho Hd Hr. pose proof (proj1 (data_ok_inv d) Hd) as Hinv. pose proof (filter_landmarks_post False e none1 none2 d r Ho Hinv id) as Hp.
  destruct (filter_landmarks e d r) as [d'| |]; cbn [post] in Hp; [|destruct Hp; right; eauto..]. destruct Hp as [Hi Hpd]; [right; eauto|].
  destruct (pass_filtered _ d r d' rc Hr (ok_recons _ Hd r rc Hr) Hpd) as (Honly & rc' & Hr' & Hfi). apply data_ok_inv in Hi. exists d', rc'. split; [reflexivity|]. split; [exact Hi|]. split; [exact Honly|].
  split; [|auto]. apply same_frames; auto; [apply Honly|]. eapply separated_views; eauto. apply (fi_sep _ _ _ _ _ Hfi).
Qed.

Lemma filter_observations_thm e d r rc : orders_ok (e_ord e) -> data_ok d -> has_recon d r rc ->
  exists d' b, filter_observations e d r = Ok (d', b) /\ data_ok d' /\ only_recon r d d' /\
    if b then (forall k, sm_map (d_frames d') !! k = sm_map (d_frames d) !! k) /\ e_too_few e d' r = false /\
              exists rc', has_recon d' r rc' /\ filtered (fun d l m => filter_verdict e d r l m) d r rc rc'
    else sm_map (d_recs d') !! r = None /\
         exists d1 rc', e_too_few e d1 r = true /\ only_recon r d d1 /\ has_recon d1 r rc' /\ filtered (fun d l m => filter_verdict e d r l m) d r rc rc'.
Proof.
  intros Ho Hd Hr. pose proof (proj1 (data_ok_inv d) Hd) as Hinv. pose proof (filter_observations_post False e none1 none2 d r Ho Hinv id (fun _ => id)) as Hp.
  destruct (filter_observations e d r) as [[d' b]| |]; cbn [post] in Hp; [|destruct Hp; right; eauto..]. destruct Hp as [[Hi Hwi _ Hfl] (d1 & Hpd & Hx & Hb)]; [right; eauto|]. cbn [fst snd] in *.
  destruct (pass_filtered _ d r d1 rc Hr (ok_recons _ Hd r rc Hr) Hpd) as (Honly & rc' & Hr' & Hfi). apply data_ok_inv in Hi. exists d', b. split; [reflexivity|]. split; [exact Hi|]. split; [apply within_only; exact Hwi|].
  destruct b.
  - subst d1. split; [|split; [destruct (e_too_few e d' r); [discriminate|reflexivity]|eauto]]. apply same_frames; auto; [apply Honly|]. eapply separated_views; eauto. apply (fi_sep _ _ _ _ _ Hfi).
  - split; [exact Hfl|]. exists d1, rc'. split; [destruct (e_too_few e d1 r); [reflexivity|discriminate]|]. auto.
Qed.

(** ** Recording constraints *)
Lemma recorded_effect e s d r rc v d' b : recon_ok d rc -> has_recon d r rc -> recorded e s d r v d' b ->
  exists rc', has_recon d' r rc' /\ if b then recorded_for e s d r rc v rc' else rc' = rc.
Proof.
  intros Hok Hr Hrec.
  destruct Hrec as [(rc0 & w0 & cs & Hr0 & _ & [G1 G2 G3] & _ & ->)]. assert (rc0 = rc) as -> by (eapply has_recon_fun; eassumption). eexists. split; [apply upd_recon_same|].
  destruct b; [|reflexivity]. split; [|split; reflexivity]. exists cs.
  destruct (ins_many cs (r_cons rc) (ok_fresh_cons _ _ Hok)) as (_ & _ & Hin). split; [|split; [|split; [exact G1|split; [exact G2|]]]].
  - intros c. unfold has_constraint. cbn. split.
    + intros (k & Hk). apply Hin in Hk as [Hk|[_ Hk]]; [left; eauto|]. right. eapply elem_of_list_lookup_2. exact Hk.
    + intros [(k & Hk)|Hc]; [exists k; apply Hin; auto|]. apply elem_of_list_lookup in Hc as (i & Hi'). exists (sm_next (r_cons rc) + i). apply Hin. right. split; [lia|]. replace (sm_next (r_cons rc) + i - sm_next (r_cons rc)) with i by lia. exact Hi'.
  - intros k c Hk. unfold has_constraint. cbn. apply Hin. left. exact Hk.
  - intros c Hc. destruct (G3 c Hc) as (ls & Htr & Hopt). destruct (triple_ok_live _ _ _ _ _ _ _ _ Htr) as [Hlive Hhas]. split; [exact Hlive|].
    destruct (c_views c) as [[x y] z] eqn:Ec. exists x, y, z, ls. split; [reflexivity|].
    destruct Htr as (a & b & Hab & Hav & Hbv & E & Hmin & Hnd & _ & _ & _ & Hl). cbn [fst snd] in *. symmetry in E. destruct (sort3_spec v a b x y z E) as (_ & _ & Hs); [congruence..|].
    split; [apply Hs; auto|]. split; [exact Hnd|]. split; [exact Hmin|]. split; [|exact Hopt].
    intros l Hll. destruct (Hl l Hll) as [H1 H2]. split; [exact H1|]. split; [|split]; apply H2, Hs; auto.
Qed.
Lemma record_thm e s d r rc v w : env_ok e -> data_ok d -> has_recon d r rc -> has_view rc v w ->
  exists d' b, record_view_constraints e s d r v = Ok (d', b) /\ data_ok d' /\ only_recon r d d' /\ exists rc', has_recon d' r rc' /\
    if b then recorded_for e s d r rc v rc' else rc' = rc.
Proof.
  intros He Hd Hr Hw. apply data_ok_inv in Hd. pose proof (record_post False e s none1 none2 d r v He Hd id) as Hp.
  destruct (record_view_constraints e s d r v) as [[d' b]| |]; cbn [post] in Hp; [|destruct Hp; right; eauto..]. destruct Hp as [Hi Hrec]; [right; eauto|]. cbn [fst snd] in *.
  exists d', b. split; [reflexivity|]. split; [apply data_ok_inv; exact Hi|]. split; [apply within_only; eapply recorded_within; [reflexivity|exact Hrec]|].
  exact (recorded_effect e s d r rc v d' b (in_good _ _ _ Hd r rc Hr id) Hr Hrec).
Qed.

(** ** Registering *)
Lemma register_add_thm e s d r k views rc fr p ms : env_ok e -> data_ok d -> has_recon d r rc -> has_frame d k fr -> f_view fr = None ->
  (forall v, v ∈ views -> exists w, has_view rc v w) -> register_frame e s d r k views = Ok (Some (p, ms)) ->
  exists d' v, add_view (e_ord e) d r k p (fun f => ms !! f) = Ok (d', v) /\ data_ok d' /\ only_recon r d d' /\ is_view_of d' r v k.
Proof.
  intros He Hd Hr Hf Hfree Hvs E. pose proof (proj1 (data_ok_inv d) Hd) as Hinv. pose proof (ok_recons _ Hd r rc Hr) as Hok.
  pose proof (register_frame_post True e s d r k views rc fr He Hr Hok Hf Hvs (or_introl I)) as Hp. rewrite E in Hp. cbn [post] in Hp. specialize (Hp p ms eq_refl).
  pose proof (add_view_post False (e_ord e) none1 none2 d r k p (fun f => ms !! f) fr (eo_orders _ He) Hinv id (fun _ => id) Hf (or_intror (ex_intro _ rc Hr))) as Ha.
  destruct (add_view (e_ord e) d r k p (fun f => ms !! f)) as [[d' v]| |]; cbn [post] in Ha; try (destruct Ha; intros rc' Hr'; assert (rc' = rc) as -> by (eapply has_recon_fun; eassumption); eapply registration_good; eassumption).
  destruct Ha as [Hi Hva]. { intros rc' Hr'. assert (rc' = rc) as -> by (eapply has_recon_fun; eassumption). eapply registration_good; eassumption. } cbn [fst snd] in *.
  exists d', v. split; [reflexivity|]. split; [|split].
  - apply data_ok_inv. eapply inv_ext; [| |exact Hi]; [auto|]. intros r' v'. unfold also_old. rewrite Hfree. split; [intros [H|H]; [exact H|discriminate]|auto].
  - apply within_only. eapply within_view_added; [reflexivity|exact Hva].
  - destruct Hva as [(rc0 & rc' & fr' & _ & _ & _ & Hai & ->)]. destruct (ai_view _ _ _ _ _ _ _ _ Hai) as (ls & Hv & _). exists rc', (View k p ls). split; [apply relink_recon, upd_recon_same|]. auto.
Qed.

(** ** Merging two landmarks completes exactly when they are distinct and share no view *)
Lemma merge_exact e d r rc a b ma mb : orders_ok (e_ord e) -> data_ok d -> has_recon d r rc -> has_landmark rc a ma -> has_landmark rc b mb ->
  ((exists rc', rec_merge (e_ord e) rc a b = Ok rc') <-> a <> b /\ forall v, ma !! v = None \/ mb !! v = None).
Proof.
  intros Ho Hd Hr Ha Hb. apply data_ok_inv in Hd as Hinv. pose proof (recon_ok_core _ _ (ok_recons _ Hd r rc Hr)) as Hc. split.
  - intros (rc' & E). destruct (rec_merge_core (e_ord e) rc a b rc' Ho Hc E) as (Hne & Hm & Hc'). split; [exact Hne|]. intros v.
    destruct (ma !! v) as [f|] eqn:Ef; [|auto]. destruct (mb !! v) as [g|] eqn:Eg; [|auto]. exfalso.
    destruct (mg_lms _ _ _ _ Hm) as (ma' & mb' & Ha' & Hb' & El).
    assert (ma' = ma) as -> by (unfold has_landmark in *; congruence). assert (mb' = mb) as -> by (unfold has_landmark in *; congruence).
    assert (assigned rc v g b) as Hag by (apply (co_mirrored _ Hc); exists mb; auto). destruct Hag as (w & Hw & Hg).
    assert (assigned rc' v g a) as Hag'.
    { exists (set_v_lms w (rename a b <$> v_lms w)). split; [unfold has_view; rewrite (mg_views _ _ _ _ Hm); unfold has_view in Hw; rewrite Hw; reflexivity|].
      cbn. rewrite list_lookup_fmap, Hg. cbn. unfold rename. rewrite decide_True by reflexivity. reflexivity. }
    assert (assigned rc v f a) as Haf by (apply (co_mirrored _ Hc); exists ma; auto). destruct Haf as (w' & Hw' & Hf). assert (w' = w) as -> by (eapply has_view_fun; eassumption).
    assert (assigned rc' v f a) as Haf'.
    { exists (set_v_lms w (rename a b <$> v_lms w)). split; [unfold has_view; rewrite (mg_views _ _ _ _ Hm); unfold has_view in Hw; rewrite Hw; reflexivity|].
      cbn. rewrite list_lookup_fmap, Hf. cbn. unfold rename. rewrite decide_False by exact Hne. reflexivity. }
    apply (co_mirrored _ Hc') in Hag' as (m1 & H1 & H2). apply (co_mirrored _ Hc') in Haf' as (m2 & H3 & H4).
    assert (f = g) as -> by (unfold has_landmark in *; congruence). congruence.
  - intros [Hne Hdis]. pose proof (merge_post False e none1 none2 d r a b Ho Hinv id) as Hp. unfold with_rec, sm_get in Hp. unfold has_recon in Hr. rewrite Hr in Hp. cbn [unwrap bind] in Hp.
    destruct (rec_merge (e_ord e) rc a b) as [rc'| |]; [eauto|..]; cbn [bind post] in Hp; destruct Hp; right; exists rc, ma, mb; (split; [exact Hr|]; split; [exact Hne|]; split; [exact Ha|]; split; [exact Hb|]; apply map_disjoint_alt; exact Hdis).
Qed.

(** ** Merging reconstructions *)
Lemma moved_absorbed d src dest t lmap M dest1 lmap' (D : gset key) dest' : recon_ok d dest -> M.*1 ≡ₚ elements (dom (sm_map (r_views src))) -> moved pmul src t dest lmap M dest1 lmap' ->
  (forall v, v ∈ D -> v ∈ M.*2) -> (forall v, sm_map (r_views dest') !! v = if decide (v ∈ D) then None else sm_map (r_views dest1) !! v) ->
  absorbed pmul src dest lmap t M dest'.
Proof.
  intros Hokd HM Hmv HD Hviews.
  assert (forall sv dv, (sv, dv) ∈ M -> dv ∈ M.*2) as HM2. { intros sv dv H. apply elem_of_list_fmap. exists (sv, dv). auto. }
  assert (forall v w, has_view dest' v w <-> v ∉ D /\ has_view dest1 v w) as Hv'.
  { intros v w. unfold has_view. rewrite Hviews. destruct (decide (v ∈ D)); [split; [discriminate|intros [? _]; contradiction]|]. split; [auto|intros [_ H]; exact H]. }
  assert (forall v w, has_view dest v w -> v < sm_next (r_views dest)) as Hlt. { intros v w H. exact (ok_fresh_views _ _ Hokd v w H). }
  assert (forall dv, dv ∈ M.*2 -> sm_next (r_views dest) <= dv) as Hge.
  { intros dv H. apply elem_of_list_fmap in H as ([sv dv'] & -> & H). apply (mv_keys _ _ _ _ _ _ _ _ Hmv sv dv' H). }
  assert (forall sv dv f x, (sv, dv) ∈ M -> assigned dest' dv f x -> exists sl, assigned src sv f sl /\ lmap' !! sl = Some x) as Hback.
  { intros sv dv f x Hin (w' & Hw' & Hx). apply Hv' in Hw' as [_ Hw']. destruct (mv_new _ _ _ _ _ _ _ _ Hmv sv dv Hin) as (w & ls & Hw & Hw1 & Hlen & Hf).
    assert (w' = View (v_frame w) (pmul (v_pose w) t) ls) as -> by (eapply has_view_fun; eassumption). cbn in Hx.
    assert (f < length (v_lms w)) as Hfl by (rewrite <- Hlen; eapply lookup_lt_Some; exact Hx). apply lookup_lt_is_Some in Hfl as (sl & Hsl). destruct (Hf f sl Hsl) as (dl & E1 & E2).
    exists sl. split; [exists w; auto|congruence]. }
  assert (forall sv dv f sl, (sv, dv) ∈ M -> (exists w', has_view dest' dv w') -> assigned src sv f sl -> exists x, lmap' !! sl = Some x /\ assigned dest' dv f x) as Hforth.
  { intros sv dv f sl Hin (w' & Hw') (w & Hw & Hsl). destruct (mv_new _ _ _ _ _ _ _ _ Hmv sv dv Hin) as (w0 & ls & Hw0 & Hw1 & Hlen & Hf). assert (w0 = w) as -> by (eapply has_view_fun; eassumption).
    apply Hv' in Hw' as Hw2. destruct Hw2 as [_ Hw2]. destruct (Hf f sl Hsl) as (dl & E1 & E2). exists dl. split; [exact E1|]. exists w'. split; [exact Hw'|].
    assert (w' = View (v_frame w) (pmul (v_pose w) t) ls) as -> by (eapply has_view_fun; eassumption). exact E2. }
  split.
  - exact HM.
  - split; [apply (mv_distinct _ _ _ _ _ _ _ _ Hmv)|]. intros dv Hdv. destruct (sm_map (r_views dest) !! dv) as [w|] eqn:E; [|reflexivity]. exfalso. apply Hlt in E. apply Hge in Hdv. lia.
  - intros sv dv w Hin Hw w' Hw'. apply Hv' in Hw' as [_ Hw']. destruct (mv_new _ _ _ _ _ _ _ _ Hmv sv dv Hin) as (w0 & ls & Hw0 & Hw1 & Hlen & _). assert (w0 = w) as -> by (eapply has_view_fun; eassumption).
    assert (w' = View (v_frame w) (pmul (v_pose w) t) ls) as -> by (eapply has_view_fun; eassumption). cbn. auto.
  - intros v w. split.
    + intros Hw. pose proof (Hlt v w Hw) as Hl. assert (v ∉ M.*2) as HvM by (intros H; apply Hge in H; lia). split; [|exact HvM]. apply Hv'. split; [intros H; apply HD in H; contradiction|].
      unfold has_view. rewrite (mv_old _ _ _ _ _ _ _ _ Hmv v Hl). exact Hw.
    + intros [Hw HvM]. apply Hv' in Hw as [_ Hw]. destruct (mv_only _ _ _ _ _ _ _ _ Hmv v w Hw) as [Hl|H]; [|contradiction]. unfold has_view in *. rewrite (mv_old _ _ _ _ _ _ _ _ Hmv v Hl) in Hw. exact Hw.
  - intros sv dv f l l' Hin Hw' Ha Hl. destruct (Hforth sv dv f l Hin Hw' Ha) as (x & Hx & Hax). pose proof (lookup_weaken _ _ _ _ Hl (mv_grow _ _ _ _ _ _ _ _ Hmv)). congruence.
  - intros sv1 dv1 f1 sv2 dv2 f2 H1 H2 Hw1 Hw2. split.
    + intros (x & Ha & Hb). cbn in Ha, Hb. destruct (Hback _ _ _ _ H1 Ha) as (a & Ha1 & Ha2). destruct (Hback _ _ _ _ H2 Hb) as (b & Hb1 & Hb2).
      assert (a = b) as <- by (eapply (mv_inj _ _ _ _ _ _ _ _ Hmv); eassumption). exists a. auto.
    + intros (x & Ha & Hb). cbn in Ha, Hb. destruct (Hforth _ _ _ _ H1 Hw1 Ha) as (a & Ha1 & Ha2). destruct (Hforth _ _ _ _ H2 Hw2 Hb) as (b & Hb1 & Hb2). assert (a = b) as <- by congruence. exists a. auto.
  - intros sv dv f l v fv Hin Ha Hl (w & Hw) (x & Hx & Hy). cbn in Hx, Hy. destruct (Hback _ _ _ _ Hin Hx) as (a & Ha1 & Ha2).
    assert (a = l) as -> by (eapply assigned_fun; eassumption). destruct (mv_fresh _ _ _ _ _ _ _ _ Hmv l x Ha2) as [H|H]; [congruence|].
    destruct Hy as (wy & Hwy & Hy). apply Hv' in Hwy as [_ Hwy]. unfold has_view in Hwy. rewrite (mv_old _ _ _ _ _ _ _ _ Hmv v (Hlt v w Hw)) in Hwy.
    assert (assigned dest v fv x) as Hold by (exists wy; auto). apply (ok_mirrored _ _ Hokd) in Hold as (m & Hm & _). apply (ok_fresh_lms _ _ Hokd) in Hm. lia.
Qed.
Lemma incorporate_thm e s d src_k dest_k src dest wt lmap : env_ok e -> data_ok d -> src_k <> dest_k ->
  has_recon d src_k src -> has_recon d dest_k dest -> injective lmap -> targets_live lmap dest ->
  exists d' dest' M, incorporate_reconstruction pmul pinv e s d src_k dest_k wt lmap = Ok d' /\ data_ok d' /\ same_images d d' /\
    sm_map (d_recs d') !! src_k = None /\ has_recon d' dest_k dest' /\
    (forall r, r <> src_k -> r <> dest_k -> sm_map (d_recs d') !! r = sm_map (d_recs d) !! r) /\
    absorbed pmul src dest lmap (pinv wt) M dest' /\
    (forall sv dv, (sv, dv) ∈ M -> sm_map (r_views dest') !! dv = None -> lacks_constraints e s d dest_k dv).
Proof.
  intros He Hd Hne Hs Hr Hinj Hlive. pose proof (proj1 (data_ok_inv d) Hd) as Hinv. pose proof (ok_recons _ Hd _ _ Hr) as Hokd.
  pose proof (incorporate_reconstruction_post pmul pinv False e s none1 none2 d src_k dest_k wt lmap src dest He Hinv Hne id (fun _ => id) (fun _ => id) Hs Hr Hinj Hlive) as Hp.
  destruct (incorporate_reconstruction pmul pinv e s d src_k dest_k wt lmap) as [d'| |]; cbn [post] in Hp; [|destruct Hp..].
  destruct Hp as [Hi [(src1 & dest0 & dest1 & M & lmap' & D & Hs1 & Hr1 & HM & Hmv & [Hdrop (dest' & Hr' & Hviews)]) Hgone Hbase Hoth _]].
  assert (src1 = src) as -> by (eapply has_recon_fun; eassumption). assert (dest0 = dest) as -> by (eapply has_recon_fun; eassumption).
  exists d', dest', M. split; [reflexivity|]. split; [apply data_ok_inv; eapply inv_ext; [| |exact Hi]; [intros r0 [[] _]|reflexivity]|]. split; [apply same_base_images; exact Hbase|].
  split; [exact Hgone|]. split; [exact Hr'|]. split; [exact Hoth|]. split.
  - exact (moved_absorbed d src dest (pinv wt) lmap M dest1 lmap' D dest' Hokd HM Hmv (fun v H => proj1 (Hdrop v H)) Hviews).
  - intros sv dv Hin Hnone. destruct (decide (dv ∈ D)) as [HD|HD].
    + apply Hdrop in HD as (_ & da & db & Hb & E). exists da, db. split; [apply same_base_images; exact Hb|exact E].
    + exfalso. rewrite Hviews, decide_False in Hnone by exact HD. destruct (mv_new _ _ _ _ _ _ _ _ Hmv sv dv Hin) as (w & ls & _ & Hw1 & _). unfold has_view in Hw1. congruence.
Qed.

Lemma relative_pose_kept one t p q : group_laws one pmul pinv -> pmul (pmul p t) (pinv (pmul q t)) = pmul p (pinv q).
Proof.
  intros [A L R IL IR].
  assert (pinv (pmul q t) = pmul (pinv t) (pinv q)) as ->.
  { rewrite <- (L (pmul (pinv t) (pinv q))). rewrite <- (IL (pmul q t)). rewrite <- A, <- (A q t), (A t (pinv t)), IR, L, IR, R. reflexivity. }
  rewrite <- A, (A t (pinv t)), IR, L. reflexivity.
Qed.

(** ** Pose-graph optimisation *)
Lemma apply_constraints_thm e s d r rc : orders_ok (e_ord e) -> data_ok d -> has_recon d r rc -> (optimization_iterations s <= 1 \/ update_total e) ->
  exists d' b, apply_constraints pmul pinv e s d r = Ok (d', b) /\ data_ok d' /\ only_recon r d d' /\
    (if b : bool then exists rc', has_recon d' r rc' else sm_map (d_recs d') !! r = None).
Proof.
  intros Ho Hd Hr HT. apply data_ok_inv in Hd. pose proof (apply_constraints_post pmul pinv False e s none1 none2 d r Ho Hd id (fun _ => id) (or_intror (ex_intro _ rc Hr)) (or_intror HT)) as Hp.
  destruct (apply_constraints pmul pinv e s d r) as [[d' b]| |]; cbn [post] in Hp; [|destruct Hp..]. destruct Hp as [A1 A2 _ A3]. cbn [fst snd] in *.
  exists d', b. split; [reflexivity|]. split; [apply data_ok_inv; exact A1|]. split; [apply within_only; exact A2|exact A3].
Qed.

(** ** Candidate search *)
Lemma find_thm d answers k fr num_similar num_recent threshold : data_ok d -> has_frame d k fr -> NoDup answers -> (forall x, x ∈ answers -> x ∈ d_lsh d) ->
  exists recs free, find_frames d answers k num_similar num_recent threshold = Ok (recs, free) /\ candidates d answers k num_similar num_recent threshold recs free.
Proof.
  intros Hd Hf Hnd Hl. pose proof (proj1 (data_ok_inv d) Hd) as Hinv.
  pose proof (find_frames_post False d answers k num_similar num_recent threshold (in_base _ _ _ Hinv) (ok_links _ Hd) (ex_intro _ fr Hf) Hnd (or_intror Hl)) as Hp.
  destruct (find_frames d answers k num_similar num_recent threshold) as [[recs free]| |]; cbn [post] in Hp; [eauto|destruct Hp..].
Qed.
End facts.

(** ** The growing window *)
Lemma windows_exist n hi lo : lo <= hi <= n -> (0 < hi \/ n = 0) ->
  exists ws, ws <> [] /\ tiles ws lo n /\ length ws <= S (n - hi) /\
    forall S R (attempt : nat -> nat -> S -> outcome (S * option R)) fuel acc, n - hi < fuel ->
      window_loop fuel n attempt lo hi acc = try_windows attempt ws acc.
Proof.
  remember (n - hi) as m eqn:Em. revert lo hi Em. induction (lt_wf m) as [m _ IH]. intros lo hi -> Hle Hpos. destruct (decide (hi = n)) as [->|Hne].
  - exists [(lo, n)]. split; [discriminate|]. split; [cbn; lia|]. split; [cbn; lia|]. intros S R attempt fuel acc Hf. destruct fuel as [|fuel]; [lia|].
    cbn [window_loop try_windows]. destruct (attempt lo n acc) as [[acc' [x|]]| |]; cbn [bind]; try reflexivity. rewrite Nat.eqb_refl. reflexivity.
  - assert (0 < hi) as Hhi by lia. destruct (IH (n - Nat.min (hi * 2) n) ltac:(lia) hi (Nat.min (hi * 2) n) eq_refl ltac:(lia) ltac:(lia)) as (ws & Hws & Ht & Hlen & Hrun).
    exists ((lo, hi) :: ws). split; [discriminate|]. split; [cbn; repeat split; [lia|exact Ht]|]. split; [cbn; lia|].
    intros S R attempt fuel acc Hf. destruct fuel as [|fuel]; [lia|]. cbn [window_loop try_windows].
    destruct (attempt lo hi acc) as [[acc' [x|]]| |]; cbn [bind]; try reflexivity. destruct (Nat.eqb_spec hi n) as [E|E]; [contradiction|]. apply Hrun. lia.
Qed.

Lemma tiles_offered ws lo n : tiles ws lo n -> offered_features ws = seq lo (n - lo) /\ lo <= n.
Proof.
  revert lo. induction ws as [|[a b] ws IH]; intros lo H; cbn [tiles] in H.
  - subst. rewrite Nat.sub_diag. split; [reflexivity|lia].
  - destruct H as (-> & Hle & H). destruct (IH b H) as [E Hb]. split; [|lia]. unfold offered_features in *. rewrite fmap_cons. change (seq lo (b - lo) ++ mjoin ((fun w => seq w.1 (w.2 - w.1)) <$> ws) = seq lo (n - lo)). rewrite E.
    replace (n - lo) with ((b - lo) + (n - b)) by lia. rewrite seq_app. f_equal. f_equal. lia.
Qed.

Lemma windows_stuck {S R} n fuel (attempt : nat -> nat -> S -> outcome (S * option R)) acc :
  0 < n -> attempt 0 0 acc = Ok (acc, None) -> window_loop fuel n attempt 0 0 acc = Fuel.
Proof.
  intros Hn Ha. induction fuel as [|fuel IH]; [reflexivity|]. cbn [window_loop]. rewrite Ha. cbn [bind].
  destruct (Nat.eqb_spec 0 n) as [E|E]; [lia|]. cbn [Nat.mul Nat.min]. exact IH.
Qed.
