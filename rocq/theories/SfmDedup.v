(** Merging two landmarks which may share views. *)
From stdpp Require Import gmap list.
From Verif Require Import Outcome OutcomeFacts.
From Verif Require Import Sfm SfmSpec SfmUse SfmEffects SfmRec SfmTrack SfmData SfmPrim SfmCons SfmApply SfmOps SfmReg SfmInc SfmThms SfmTracks SfmReject.

Section facts.
Context {P F : Type}.
Implicit Types (rc : recon P) (d : vdata P F) (e : env P F).

Lemma same_track_sym rc x y : same_track rc x y -> same_track rc y x.
Proof. intros (l & H1 & H2). exists l. auto. Qed.

Lemma separated_skeleton rc rc' : separated rc rc' -> same_skeleton rc rc'.
Proof. intros [H1 H2 _ _]. split; [exact H1|]. intros k c. unfold has_constraint. rewrite H2. reflexivity. Qed.

Lemma skeleton_trans rc1 rc2 rc3 : same_skeleton rc1 rc2 -> same_skeleton rc2 rc3 -> same_skeleton rc1 rc3.
Proof. intros [A1 A2] [B1 B2]. split; [intros v; rewrite B1; apply A1|]. intros k c. rewrite B2. apply A2. Qed.

Lemma split_off_tracks X rc rc1 : split_off X rc rc1 -> tracks_apart_from rc X (same_track rc) rc1.
Proof.
  intros Hso x y. split.
  - intros H. destruct (same_track_observed _ _ _ H) as [Ox _]. apply (sep_observations _ _ (so_sep _ _ _ Hso)) in Ox.
    destruct (decide (x ∈ X)) as [Hx|Hx]; [left; split; [symmetry; apply (so_alone _ _ _ Hso x Hx); exact H|exact Ox]|].
    destruct (decide (y ∈ X)) as [Hy|Hy]; [left; split; [apply (so_alone _ _ _ Hso y Hy); apply same_track_sym; exact H|exact Ox]|].
    right. split; [exact Hx|]. split; [exact Hy|]. apply (sep_tracks _ _ (so_sep _ _ _ Hso)). exact H.
  - intros [[<- Ox]|(Hx & Hy & H)].
    + apply (sep_observations _ _ (so_sep _ _ _ Hso)) in Ox as (l & Hl). exists l. auto.
    + destruct H as (l & H1 & H2). exists l. destruct x as [v f], y as [v' f']. split; apply (so_rest _ _ _ Hso); assumption.
Qed.

Lemma merge_dedup_thm e d r rc a b ma mb :
  orders_ok (e_ord e) -> data_ok d -> has_recon d r rc -> has_landmark rc a ma -> has_landmark rc b mb ->
  exists d' res rc' X, merge_landmarks_dedup e d r a b = Ok (d', res) /\ data_ok d' /\ only_inside r d d' /\ has_recon d' r rc' /\
    same_skeleton rc rc' /\ given_up e d r rc a b X /\
    match res with
    | Some l => l = a /\ (exists x, assigned rc x.1 x.2 a /\ x ∉ X) /\ (exists x, assigned rc x.1 x.2 b /\ x ∉ X) /\
        tracks_apart_from rc X (fun x y => same_track rc x y \/ on_pair rc a b x y) rc'
    | None => ((forall x, assigned rc x.1 x.2 a -> x ∈ X) \/ (forall x, assigned rc x.1 x.2 b -> x ∈ X)) /\
        tracks_apart_from rc X (same_track rc) rc'
    end.
Proof.
  intros Ho Hd Hr Ha Hb. pose proof (proj1 (data_ok_inv d) Hd) as Hinv.
  pose proof (merge_dedup_post False e none1 none2 d r a b Ho Hinv id) as Hp.
  destruct (merge_landmarks_dedup e d r a b) as [[d' res]| |]; cbn [post fst snd] in Hp; try (destruct Hp; right; eauto 10).
  destruct Hp as (Hi & rc0 & rc1 & rc' & X & Hr0 & -> & Hdd & Hres); [right; eauto 10|]. assert (rc0 = rc) as -> by (eapply has_recon_fun; eassumption).
  destruct Hdd as [Hso Hch Hdone Hfrom Hone Hmost]. pose proof (ok_recons _ Hd r rc Hr) as Hok. pose proof (recon_ok_core _ _ Hok) as Hc.
  assert (given_up e d r rc a b X) as Hgu.
  { split.
    - intros v f Hf. destruct (Hfrom v f Hf) as [[H1 (f' & H2)]|[H1 (f' & H2)]]; eauto.
    - intros v fa fb H1 H2. destruct (Hch v fa fb H1 H2) as (rcv & A0 & A1 & A2 & A3 & A4). exists (upd d r rcv), rcv. split; [apply only_inside_upd|].
      split; [apply upd_recon_same|]. split; [exact A0|]. split; [exact A1|]. split; [exact A2|]. split; [exact A3|]. intros f. split; [intros Hf; eapply Hmost; eassumption|intros ->; exact A4]. }
  exists (upd d r rc'), res, rc', X. split; [reflexivity|]. split; [apply data_ok_inv; exact Hi|]. split; [apply only_inside_upd|]. split; [apply upd_recon_same|].
  pose proof (split_off_tracks _ _ _ Hso) as Htr.
  destruct res as [l|].
  - destruct Hres as (-> & Hne & Hm). pose proof (merged_tracks a b rc1 rc' Hm) as [Hsk _ Htm].
    split; [eapply skeleton_trans; [apply separated_skeleton, (so_sep _ _ _ Hso)|exact Hsk]|]. split; [exact Hgu|]. split; [reflexivity|].
    assert (forall v f l m, has_landmark rc l m -> assigned rc1 v f l -> assigned rc v f l /\ (v, f) ∉ X) as Hback.
    { intros v f l m Hl H. pose proof (co_lms _ Hc l m Hl) as Hlt. pose proof H as H'. apply (so_fresh _ _ _ Hso) in H' as [H'|H']; [|lia]. split; [exact H'|].
      intros Hx. exact (Hdone v f l Hx H' H). }
    assert (forall l m, has_landmark rc l m -> exists x, assigned rc x.1 x.2 l /\ x ∉ X) as Hleft.
    { intros l m Hl. destruct (so_kept _ _ _ Hso l m Hl) as (m1 & Hm1). pose proof (so_core _ _ _ Hso) as Hc1.
      assert (m1 <> ∅) as Hn by (apply (co_no_empty _ Hc1 l m1 Hm1)). apply map_choose in Hn as (v & f & Hf). exists (v, f). cbn [fst snd]. apply (Hback v f l m Hl). apply (co_mirrored _ Hc1). exists m1. auto. }
    split; [eapply Hleft; exact Ha|]. split; [eapply Hleft; exact Hb|].
    intros x y. rewrite Htm, (Htr x y). destruct x as [v f], y as [v' f']. unfold on_pair. cbn [fst snd]. split.
    + intros [[H|(H1 & H2 & H)]|[[H1 H2]|[H1 H2]]]; [auto|right; auto|right|right].
      * apply (Hback v f a ma Ha) in H1 as [H1 Hx]. apply (Hback v' f' b mb Hb) in H2 as [H2 Hy]. auto 10.
      * apply (Hback v f b mb Hb) in H1 as [H1 Hx]. apply (Hback v' f' a ma Ha) in H2 as [H2 Hy]. auto 10.
    + intros [H|(Hx & Hy & [H|[[H1 H2]|[H1 H2]]])]; [auto|auto|right; left|right; right]; split; apply (so_rest _ _ _ Hso); assumption.
  - subst rc'. split; [apply separated_skeleton, (so_sep _ _ _ Hso)|]. split; [exact Hgu|]. split; [|exact Htr].
    destruct Hdone as (l & [->| ->] & Hl); [left|right]; intros [v f] H; apply Hl; exact H.
Qed.
End facts.
