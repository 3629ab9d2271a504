(** Facts about histories of the public mapping operations. *)
From stdpp Require Import gmap list.
From Verif Require Import Outcome OutcomeFacts.
From Verif Require Import Sfm SfmSpec SfmUse SfmRec SfmTrack SfmData SfmPrim SfmCons SfmApply SfmOps SfmReg SfmInc SfmFind SfmInit SfmLoc.

Section facts.
Context {P F : Type} (pone : P) (pmul : P -> P -> P) (pinv : P -> P).
Implicit Types (rc : recon P) (d : vdata P F) (e : env P F) (fr : frame F).

Lemma step_post T s d x : data_ok d -> op_allowed d x -> (T \/ op_ready s d x) -> post T (step pone pmul pinv s d x) data_ok.
Proof.
  intros Hd [Henv Hargs] HT. apply data_ok_inv in Hd as Hinv.
  assert (forall d', inv none1 none2 d' -> data_ok d') as Hfin by (intros d' H; apply data_ok_inv; exact H).
  destruct x as [|e feed fs|e r|e r|e r|e r|e r|e r|e r a b|e r a b|e src dest t lmap|e c f s2 p1 p2 co fi se]; cbn [step op_args op_env] in *;
    try (specialize (Henv e eq_refl) as He; pose proof (eo_orders _ He) as Ho).
  - cbn [post]. apply Hfin, add_feed_inv. exact Hinv.
  - apply post_bind. eapply post_mono.
    { apply (add_frame_post pone pmul pinv T e s d feed fs He Hinv).
      - destruct HT as [HT|(H & _)]; auto.
      - destruct HT as [HT|(_ & H)]; auto. }
    intros [d' k] [Hi _]. cbn [post]. auto.
  - destruct (sm_map (d_recs d) !! r) as [rc|] eqn:Er.
    + apply post_bind. eapply post_mono.
      { apply (optimize_post pmul pinv T e s none1 none2 d r Ho Hinv id (fun _ => id)); [exists rc; exact Er|]. destruct HT as [HT|(_ & HT)]; auto. }
      intros [d' k] [Hi _ _ _]. cbn [post]. auto.
    + destruct HT as [HT|((rc & Hr) & _)]; [|unfold has_recon in Hr; congruence].
      unfold optimize_reconstruction. destruct (reconstruction_optimization_iterations s); cbn [optimize_iterations]; [cbn [bind post]; exact Hd|].
      unfold apply_constraints, sm_get. rewrite Er. cbn. exact HT.
  - apply post_bind. eapply post_mono.
    { apply (apply_constraints_post pmul pinv T e s none1 none2 d r Ho Hinv id (fun _ => id)); destruct HT as [HT|[H1 H2]]; auto. }
    intros [d' k] [Hi _ _ _]. cbn [post]. auto.
  - apply post_bind. eapply post_mono.
    { apply (regenerate_post pmul pinv T e s none1 none2 d r He Hinv id (fun _ => id)); destruct HT as [HT|[H1 H2]]; auto. }
    intros [d' k] [Hi _ _ _]. cbn [post]. auto.
  - apply post_bind. eapply post_mono.
    { apply (filter_observations_post T e none1 none2 d r Ho Hinv id (fun _ => id)). destruct HT as [HT|H1]; auto. }
    intros [d' k] [[Hi _ _ _] _]. cbn [post]. auto.
  - eapply post_mono.
    { apply (filter_landmarks_post T e none1 none2 d r Ho Hinv id). destruct HT as [HT|H1]; auto. }
    intros d' [Hi _]. auto.
  - eapply post_mono.
    { apply (normalize_post pmul pinv T e none1 none2 d r Ho Hinv id). destruct HT as [HT|H1]; auto. }
    intros d' [Hi _]. auto.
  - apply post_bind. eapply post_mono.
    { apply (merge_dedup_post T e none1 none2 d r a b Ho Hinv id). destruct HT as [HT|H1]; auto. }
    intros [d' k] [Hi _]. cbn [post]. auto.
  - apply post_bind. eapply post_mono.
    { apply (merge_post T e none1 none2 d r a b Ho Hinv id). destruct HT as [HT|(rc & ma & mb & Hr & Hne & Ha & Hb & Hv)]; [auto|]. right.
      exists rc, ma, mb. split; [exact Hr|]. split; [exact Hne|]. split; [exact Ha|]. split; [exact Hb|]. apply map_disjoint_alt. exact Hv. }
    intros [d' k] [Hi _]. cbn [post]. auto.
  - destruct Hargs as (Hne & Hinj & rd & Ed & Hlive). destruct (sm_map (d_recs d) !! src) as [rs|] eqn:Es.
    + eapply post_mono; [apply (incorporate_reconstruction_post pmul pinv T e s none1 none2 d src dest t lmap rs rd He Hinv Hne id (fun _ => id) (fun _ => id) Es Ed Hinj Hlive)|].
      intros d' [Hi _]. apply Hfin. eapply inv_ext; [| |exact Hi]; [intros r0 [[] _]|reflexivity].
    + destruct HT as [HT|(rc & Hr)]; [|unfold has_recon in Hr; congruence].
      unfold incorporate_reconstruction, sm_get. rewrite Es. cbn. exact HT.
  - destruct Hargs as (H1 & H2 & H3 & [[fc Hc] Hc'] & [[ff Hf] Hf'] & [[fs Hs] Hs'] & Hone1 & Hone2).
    assert (forall k fr, has_frame d k fr -> (forall r v, ~ is_view_of d r v k) -> f_view fr = None) as Hfv.
    { intros k fr Hk Hfr. apply (free_not_linked d k fr Hinv Hk). intros (r & v & H). exact (Hfr r v H). }
    apply post_bind. eapply post_mono.
    { apply (add_reconstruction_post pone T (e_ord e) none1 none2 d c f s2 p1 p2 co fi se fc ff fs Ho Hinv id (fun _ => id) Hc Hf Hs); eauto.
      destruct HT as [HT|(fr & Hfr & HT)]; [auto|]. right. assert (fr = fc) as -> by (eapply has_frame_fun; eassumption). exact HT. }
    intros [d' k] [Hi _]. cbn [post]. auto.
Qed.

Lemma init_ok : data_ok (vdata_init (P := P) (F := F)).
Proof.
  split; try (intros k x H; unfold has_recon, has_frame in H; cbn in H; rewrite lookup_empty in H; discriminate).
  - intros fd i k. split; intros (x & H & _); [unfold has_feed in H|unfold has_frame in H]; cbn in H; rewrite lookup_empty in H; discriminate.
  - intros k. cbn. rewrite elem_of_nil. split; [intros []|]. intros (fr & H). unfold has_frame in H. cbn in H. rewrite lookup_empty in H. discriminate.
Qed.

Lemma run_ok s ops d d' : data_ok d -> used_well pone pmul pinv s d ops -> foldM (step pone pmul pinv s) ops d = Ok d' -> data_ok d'.
Proof.
  revert d. induction ops as [|x ops IH]; intros d Hd Hu E; cbn [foldM used_well] in *; [congruence|].
  destruct Hu as [Ha Hu]. destruct (step pone pmul pinv s d x) as [d1| |] eqn:Es; try discriminate. cbn [bind] in E.
  pose proof (step_post True s d x Hd Ha (or_introl I)) as Hp. rewrite Es in Hp. cbn [post] in Hp. eapply IH; [exact Hp|apply Hu; reflexivity|exact E].
Qed.

Lemma step_total s d x : data_ok d -> op_allowed d x -> op_ready s d x -> exists d', step pone pmul pinv s d x = Ok d' /\ data_ok d'.
Proof.
  intros Hd Ha Hr. pose proof (step_post False s d x Hd Ha (or_intror Hr)) as Hp. destruct (step pone pmul pinv s d x) as [d'| |]; cbn [post] in Hp; [eauto|destruct Hp..].
Qed.
End facts.
