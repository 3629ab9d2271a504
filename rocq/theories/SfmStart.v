(** Starting a reconstruction: the tracks are the given matches. *)
From stdpp Require Import gmap list.
From Verif Require Import Outcome OutcomeFacts MatchingSpec.
From Verif Require Import Sfm SfmSpec SfmUse SfmEffects SfmRec SfmTrack SfmData SfmPrim SfmCons SfmApply SfmOps SfmReg SfmInc SfmFind SfmInit SfmLoc SfmThms.

Section facts.
Context {P F : Type} (pone : P) (pmul : P -> P -> P) (pinv : P -> P).
Implicit Types (rc : recon P) (d : vdata P F) (e : env P F) (fr : frame F).

Lemma started_new d center first second p1 p2 ms1 ms2 r d' :
  data_ok d -> data_ok d' -> one_to_one ms1 -> one_to_one ms2 ->
  started pone d center first second p1 p2 ms1 ms2 r d' -> new_reconstruction pone d center first second p1 p2 ms1 ms2 r d'.
Proof.
  intros Hd Hd' H1 H2 [Hb Hk Ho Hn (rc & lc & lf & ls & Hr & Ev & Ec & F1 & F2)]. pose proof (ok_recons _ Hd' r rc Hr) as Hok.
  assert (has_view rc 0 (View center pone lc)) as V0 by (unfold has_view; rewrite Ev; apply lookup_insert).
  assert (has_view rc 1 (View first p1 lf)) as V1 by (unfold has_view; rewrite Ev, lookup_insert_ne by discriminate; apply lookup_insert).
  assert (has_view rc 2 (View second p2 ls)) as V2 by (unfold has_view; rewrite Ev, !lookup_insert_ne by discriminate; apply lookup_singleton).
  assert (forall v w, has_view rc v w -> v = 0 \/ v = 1 \/ v = 2) as Vall.
  { intros v w Hw. unfold has_view in Hw. rewrite Ev in Hw. destruct (decide (v = 0)) as [|N0]; [auto|]. destruct (decide (v = 1)) as [|N1]; [auto|]. destruct (decide (v = 2)) as [|N2]; [auto|].
    rewrite !lookup_insert_ne, lookup_singleton_ne in Hw by congruence. discriminate. }
  assert (forall v w f l, has_view rc v w -> assigned rc v f l <-> v_lms w !! f = Some l) as Ha.
  { intros v w f l Hw. split; [intros (w' & Hw' & Hl); assert (w' = w) as -> by (eapply has_view_fun; eassumption); exact Hl|intros Hl; exists w; auto]. }
  pose proof (view_lms_NoDup rc 0 _ (ok_mirrored _ _ Hok) V0) as Hnd. cbn in Hnd.
  assert (forall c l, assigned rc 0 c l <-> lc !! c = Some l) as A0 by (intros; apply (Ha _ _ _ _ V0)).
  assert (forall c l, assigned rc 1 c l <-> lf !! c = Some l) as A1 by (intros; apply (Ha _ _ _ _ V1)).
  assert (forall c l, assigned rc 2 c l <-> ls !! c = Some l) as A2 by (intros; apply (Ha _ _ _ _ V2)).
  assert (forall ms earlier vs c f l, one_to_one ms -> follows ms lc (lc :: earlier) vs -> vs !! f = Some l -> (lc !! c = Some l -> (c, f) ∈ ms) /\ ((c, f) ∈ ms -> lc !! c = Some l)) as Hfol.
  { intros ms earlier vs c f l Hone Hfo Hl. split.
    - intros Hc. destruct (Hfo f l Hl) as [(c' & Hin & Hc')|[_ Hno]]; [|exfalso; apply (Hno lc); [left|]; eapply elem_of_list_lookup_2; exact Hc].
      assert (c = c') as -> by (eapply NoDup_lookup; eassumption). exact Hin.
    - intros Hin. destruct (Hfo f l Hl) as [(c' & Hin' & Hc')|[Hno _]]; [|exfalso; exact (Hno c Hin)].
      assert (c = c') as -> by (apply (Hone c f c' f Hin Hin'); reflexivity). exact Hc'. }
  split.
  - split; [|exact Ho]. destruct Hb as [B1 B2 B3 _]. split; [exact B1|]. split; [exact B2|]. intros k. specialize (B3 k).
    destruct (sm_map (d_frames d') !! k) as [fa|], (sm_map (d_frames d) !! k) as [fb|]; cbn in B3 |- *; try discriminate; [|reflexivity].
    injection B3 as E1 E2 E3. unfold set_f_view in *. congruence.
  - destruct (sm_map (d_recs d) !! r) as [rc0|] eqn:E; [|reflexivity]. exfalso. pose proof (ok_fresh_recs _ Hd r rc0 E). lia.
  - exists rc, 0, 1, 2. split; [exact Hr|]. do 3 (split; [discriminate|]). split; [|split; [|split; [|split; [|split; [|split; [|split; [|split]]]]]]].
    + intros v. split; [intros (w & Hw); eapply Vall; exact Hw|]. intros [-> | [-> | ->]]; eauto.
    + intros w Hw. assert (w = View center pone lc) as -> by (eapply has_view_fun; eassumption). auto.
    + intros w Hw. assert (w = View first p1 lf) as -> by (eapply has_view_fun; eassumption). auto.
    + intros w Hw. assert (w = View second p2 ls) as -> by (eapply has_view_fun; eassumption). auto.
    + intros c. unfold has_constraint. rewrite Ec. split; [intros (k & Hk'); apply lookup_singleton_Some in Hk' as [_ <-]; reflexivity|]. intros ->. exists 0. apply lookup_singleton.
    + intros v f f' (l & Hl & Hl'). cbn in Hl, Hl'. apply (ok_mirrored _ _ Hok) in Hl as (m & Hm & Hf), Hl' as (m' & Hm' & Hf'). unfold has_landmark in *. congruence.
    + intros c f [l0 _] [l Hl]. cbn in Hl. apply A1 in Hl. destruct (Hfol ms1 [] lf c f l H1 F1 Hl) as [G1 G2]. unfold same_track. cbn [fst snd]. split.
      * intros (l' & Hc & Hf). apply A0 in Hc. apply A1 in Hf. apply G1. congruence.
      * intros Hin. exists l. split; [apply A0, G2, Hin|apply A1, Hl].
    + intros c f [l0 _] [l Hl]. cbn in Hl. apply A2 in Hl. destruct (Hfol ms2 [lf] ls c f l H2 F2 Hl) as [G1 G2]. unfold same_track. cbn [fst snd]. split.
      * intros (l' & Hc & Hf). apply A0 in Hc. apply A2 in Hf. apply G1. congruence.
      * intros Hin. exists l. split; [apply A0, G2, Hin|apply A2, Hl].
    + intros f s [lx Hlx] [ly Hly]. cbn in Hlx, Hly. apply A1 in Hlx. apply A2 in Hly. unfold same_track, observation. cbn [fst snd]. split.
      * intros (l & Hf & Hs). apply A1 in Hf. apply A2 in Hs. destruct (F2 s l Hs) as [(c & Hin & Hc)|[_ Hno]].
        -- exists c. split; [exists l; apply A0, Hc|]. split; [|exact Hin]. apply (Hfol ms1 [] lf c f l H1 F1 Hf). exact Hc.
        -- exfalso. apply (Hno lf); [right; left|]. eapply elem_of_list_lookup_2. exact Hf.
      * intros (c & [l Hl] & Hin1 & Hin2). apply A0 in Hl. exists l. pose proof (proj2 (Hfol ms1 [] lf c f lx H1 F1 Hlx) Hin1). pose proof (proj2 (Hfol ms2 [lf] ls c s ly H2 F2 Hly) Hin2).
        split; [apply A1; congruence|apply A2; congruence].
Qed.

Lemma add_reconstruction_thm o d center first second p1 p2 combined firsts seconds d' r :
  orders_ok o -> data_ok d -> center <> first -> center <> second -> first <> second ->
  free_frame d center -> free_frame d first -> free_frame d second ->
  one_to_one (first_matches combined firsts) -> one_to_one (second_matches combined seconds) ->
  add_reconstruction pone o d center first second p1 p2 combined firsts seconds = Ok (d', r) ->
  data_ok d' /\ new_reconstruction pone d center first second p1 p2 (first_matches combined firsts) (second_matches combined seconds) r d'.
Proof.
  intros Ho Hd N1 N2 N3 [[fc Hc] Hc'] [[ff Hf] Hf'] [[fs Hs] Hs'] O1 O2 E. pose proof (proj1 (data_ok_inv d) Hd) as Hinv.
  assert (forall k fr, has_frame d k fr -> (forall r v, ~ is_view_of d r v k) -> f_view fr = None) as Hfv.
  { intros k fr Hk Hfr. apply (free_not_linked d k fr Hinv Hk). intros (r' & v & H). exact (Hfr r' v H). }
  assert (forall ms, one_to_one ms -> one_other ms) as Hone. { intros ms Hms c f f' H H'. apply (Hms c f c f' H H'). reflexivity. }
  pose proof (add_reconstruction_post pone True o none1 none2 d center first second p1 p2 combined firsts seconds fc ff fs Ho Hinv id (fun _ => id) Hc Hf Hs
    (Hfv _ _ Hc Hc') (Hfv _ _ Hf Hf') (Hfv _ _ Hs Hs') N1 N2 N3 (Hone _ O1) (Hone _ O2) (or_introl I)) as Hp.
  rewrite E in Hp. destruct Hp as [Hi Hst]. cbn [fst snd] in *. apply data_ok_inv in Hi. split; [exact Hi|]. apply started_new; assumption.
Qed.

Lemma try_init_thm e s d center options d' :
  env_ok e -> data_ok d -> free_frame d center -> NoDup options -> center ∉ options -> (forall k, k ∈ options -> free_frame d k) ->
  try_init pone e s d center options = Ok d' ->
  data_ok d' /\ (d' = d \/ exists first second fc ff fs p1 p2 ms1 ms2, first ∈ options /\ second ∈ options /\ first <> second /\
    has_frame d center fc /\ has_frame d first ff /\ has_frame d second fs /\
    (forall i j, (i, j) ∈ ms1 -> mutual (e_knn e) (f_feats fc) (f_feats ff) (two_view_match_better_by s) i j) /\
    (forall i j, (i, j) ∈ ms2 -> mutual (e_knn e) (f_feats fc) (f_feats fs) (two_view_match_better_by s) i j) /\
    new_reconstruction pone d center first second p1 p2 ms1 ms2 (sm_next (d_recs d)) d').
Proof.
  intros He Hd [[fc Hc] Hc'] Hnd Hnc Hopt E. pose proof (proj1 (data_ok_inv d) Hd) as Hinv.
  assert (forall k fr, has_frame d k fr -> (forall r v, ~ is_view_of d r v k) -> f_view fr = None) as Hfv.
  { intros k fr Hk Hfr. apply (free_not_linked d k fr Hinv Hk). intros (r' & v & H). exact (Hfr r' v H). }
  pose proof (try_init_post pone True e s d center options fc He Hinv Hc (Hfv _ _ Hc Hc') Hnd Hnc) as Hp. rewrite E in Hp.
  destruct Hp as [Hi [Hz]]. { intros k Hk. destruct (Hopt k Hk) as [[fr Hfr] Hno]. exists fr. split; [exact Hfr|exact (Hfv _ _ Hfr Hno)]. }
  apply data_ok_inv in Hi. split; [exact Hi|]. destruct Hz as [->|(first & second & p1 & p2 & ms1 & ms2 & I1 & I2 & Hne & O1 & O2 & M1 & M2 & Hst)]; [auto|]. right.
  destruct (Hopt first I1) as [[ff Hff] _]. destruct (Hopt second I2) as [[fs Hfs] _]. exists first, second, fc, ff, fs, p1, p2, ms1, ms2.
  do 6 (split; [assumption|]). split; [exact (M1 _ _ Hc Hff)|]. split; [exact (M2 _ _ Hc Hfs)|]. apply started_new; assumption.
Qed.
End facts.
