(** Cases for C80: the images of a row of points (SandboxDemo.v), the first two in one run and the third in another. *)
From stdpp Require Import gmap list.
From Coq Require Import Reals Lia.
From Verif Require Import Outcome OutcomeFacts Num Lin LinSpec Core CoreSpec Geom GeomSpec Sfm SfmSpec SfmUse SfmData SfmPose SfmPoseSpec SfmGeom SfmGeomSpec SfmStartDemo SfmSceneDemo SfmTruthDemo Bicubic SfmExport Sandbox SandboxSpec SandboxFacts SandboxDemo DataFile DataFileSpec DataFileFacts.
Open Scope nat_scope.

Definition row_trig : trig RNum := real_trig (fun _ => mid) 1.
Definition first_images : list (picture RNum nat) := [row_picture 0; row_picture 1].
Definition last_images : list (picture RNum nat) := [row_picture 2].
Definition first_run (e : ending) : run RNum nat := Run scene_settings row_options start_gs first_images true true e.
Definition last_run (opened : bool) (e : ending) : run RNum nat := Run scene_settings row_options start_gs last_images opened true e.

Lemma row_ok : pictures_ok row_trig scene_settings start_gs vdata_init (row_picture <$> seq 0 3).
Proof. exact (proj1 (proj2 (row_case (fun _ => (0, 0, 0)%Z)))). Qed.
Lemma sub_ok ps : (forall p, p ∈ ps -> p ∈ row_picture <$> seq 0 3) -> pictures_ok row_trig scene_settings start_gs vdata_init ps.
Proof.
  intros H. destruct row_ok as [P1 P2 P3 P4 P5]. split; auto.
  intros p k fr _ Hk. unfold has_frame in Hk. cbn in Hk. rewrite lookup_empty in Hk. discriminate Hk.
Qed.
Lemma first_in p : p ∈ first_images -> p ∈ row_picture <$> seq 0 3.
Proof. intros H. apply elem_of_cons in H as [->|H]; [left|]. apply elem_of_list_singleton in H as ->. right. left. Qed.
Lemma last_in p : p ∈ last_images -> p ∈ row_picture <$> seq 0 3.
Proof. intros H. apply elem_of_list_singleton in H as ->. right. right. left. Qed.
Lemma row_runs opened e e' : runs_ok row_trig [first_run e; last_run opened e'].
Proof.
  split.
  - intros r H. apply elem_of_cons in H as [->|H]; [apply sub_ok, first_in|]. apply elem_of_list_singleton in H as ->. apply sub_ok, last_in.
  - assert (forall r p, r ∈ [first_run e; last_run opened e'] -> p ∈ r_pictures r -> p ∈ row_picture <$> seq 0 3) as H.
    { intros r p Hr Hp. apply elem_of_cons in Hr as [->|Hr]; [apply first_in, Hp|]. apply elem_of_list_singleton in Hr as ->. apply last_in, Hp. }
    intros r p r' q Hr Hp Hr' Hq. apply (po_features _ _ _ _ _ row_ok); eauto.
Qed.
Lemma first_runs e : runs_ok row_trig [first_run e].
Proof. eapply runs_sub; [|apply (row_runs true e Completed)]. intros x Hx. apply elem_of_list_singleton in Hx as ->. left. Qed.

Section cases.
Context {B : Type} (colour_of : nat -> colour) (encode : vdata riso nat -> list B) (decode : list B -> option (vdata riso nat)) (Hen : encoding_ok encode decode).
Notation file_after_runs := (file_after_runs row_trig colour_of encode decode None).

Lemma interrupted_case : exists (T : trig RNum) (rs : list (run RNum nat)) (r : run RNum nat) (ps : list (picture RNum nat)),
  runs_ok T (rs ++ [r]) /\ Forall undisturbed rs /\ r_opened r = true /\ ps <> [] /\ stored encode decode (DataFile.file_after_runs T colour_of encode decode None rs) ps /\
  useless T colour_of encode decode (DataFile.file_after_runs T colour_of encode decode None (rs ++ [r])).
Proof.
  exists row_trig, [first_run Completed], (last_run true (Interrupted_after 0)), first_images.
  assert (Forall undisturbed [first_run Completed]) as Hu. { apply list.Forall_singleton. split; [reflexivity|]. intros n H. discriminate H. }
  split; [apply row_runs|]. split; [exact Hu|]. split; [reflexivity|]. split; [intros H; discriminate H|]. split.
  - exact (proj1 (history_stored row_trig colour_of encode decode Hen [first_run Completed] (first_runs Completed) Hu)).
  - destruct (interrupted_runs row_trig colour_of encode decode Hen [first_run Completed] (last_run true (Interrupted_after 0)) 0 []) as (d & _ & _ & H); [apply row_runs|exact Hu|reflexivity..|intros H; discriminate H|].
    destruct H as [H _]; [|constructor|exact H]. destruct (encode d) as [|b bs] eqn:E; [destruct (en_some _ _ Hen d E)|]. cbn. lia.
Qed.
Lemma unopened_case : exists (T : trig RNum) (rs : list (run RNum nat)) (r : run RNum nat) (ps : list (picture RNum nat)),
  runs_ok T (rs ++ [r]) /\ Forall undisturbed rs /\ r_ending r = Completed /\ ps <> [] /\ stored encode decode (DataFile.file_after_runs T colour_of encode decode None rs) ps /\
  stored encode decode (DataFile.file_after_runs T colour_of encode decode None (rs ++ [r])) (r_pictures r).
Proof.
  exists row_trig, [first_run Completed], (last_run false Completed), first_images.
  assert (Forall undisturbed [first_run Completed]) as Hu. { apply list.Forall_singleton. split; [reflexivity|]. intros n H. discriminate H. }
  split; [apply row_runs|]. split; [exact Hu|]. split; [reflexivity|]. split; [intros H; discriminate H|]. split.
  - exact (proj1 (history_stored row_trig colour_of encode decode Hen [first_run Completed] (first_runs Completed) Hu)).
  - rewrite file_after_app. apply (unopened_stored row_trig colour_of encode decode Hen); [reflexivity..|apply sub_ok, last_in|intros H; discriminate H].
Qed.
(** Two undisturbed runs, and one in which the second is interrupted before it saves. *)
Lemma plain_case : runs_ok row_trig [first_run Completed; last_run true Completed] /\ Forall undisturbed [first_run Completed; last_run true Completed] /\
  stored encode decode (file_after_runs [first_run Completed; last_run true Completed]) (row_picture <$> seq 0 3) /\
  stored encode decode (file_after_runs [first_run Completed; last_run true Interrupted_before]) first_images.
Proof.
  assert (forall e, e = Completed \/ e = Interrupted_before -> Forall undisturbed [first_run Completed; last_run true e]) as Hu.
  { intros e He. apply list.Forall_cons. split; [|apply list.Forall_singleton]; (split; [reflexivity|]); intros n H; [discriminate H|]. cbn in H. destruct He; subst e; discriminate H. }
  split; [apply row_runs|]. split; [apply Hu; auto|]. split.
  - exact (proj1 (history_stored row_trig colour_of encode decode Hen _ (row_runs _ _ _) (Hu Completed (or_introl eq_refl)))).
  - exact (proj1 (history_stored row_trig colour_of encode decode Hen _ (row_runs _ _ _) (Hu Interrupted_before (or_intror eq_refl)))).
Qed.
End cases.
(** An encoding: the data themselves, twice. *)
Lemma some_encoding : encoding_ok (fun d : vdata riso nat => [d; d]) (fun bytes => match bytes with [d; _] => Some d | _ => None end).
Proof. split; [reflexivity| |intros d H; discriminate H]. intros d n Hn. destruct n as [|[|n]]; [reflexivity..|]. cbn in Hn. lia. Qed.
