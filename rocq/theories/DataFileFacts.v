(** Proofs for C80. *)
From stdpp Require Import gmap list.
From Coq Require Import Reals Lia.
From Verif Require Import Outcome OutcomeFacts Num Lin LinSpec Core CoreSpec Geom GeomSpec Sfm SfmSpec SfmUse SfmData SfmPose SfmPoseSpec SfmGeom SfmGeomSpec Bicubic SfmExport Sandbox SandboxSpec SandboxFacts DataFile DataFileSpec.
Open Scope nat_scope.

Section facts.
Context (T : trig RNum) {F : Type} (colour_of : F -> colour) {B : Type}.
Context (encode : vdata riso F -> list B) (decode : list B -> option (vdata riso F)) (Hen : encoding_ok encode decode).
Implicit Types (f : disk B) (r : run RNum F) (rs : list (run RNum F)) (ps : list (picture RNum F)).
Notation work := (work T colour_of decode).
Notation file_after := (file_after T colour_of encode decode).
Notation file_after_runs := (file_after_runs T colour_of encode decode).
Notation stored := (stored encode decode).

(** [stored], with the number of frames. *)
Definition held f ps : Prop := (ps = [] /\ f = None) \/
  (ps <> [] /\ exists d, f = Some (encode d) /\ data_ok d /\ sm_next (d_frames d) = length ps /\ forall k, f_feats <$> sm_map (d_frames d) !! k = p_features <$> ps !! k).
Lemma held_stored f ps : held f ps -> stored f ps.
Proof. intros [H|(Hps & d & -> & Hd & _ & Hk)]; [left; exact H|]. right. split; [exact Hps|]. exists d. split; [reflexivity|]. split; [apply (en_decode _ _ Hen)|]. auto. Qed.
(** What a run finds. *)
Lemma held_load f ps : held f ps -> exists loaded, load decode f true = Ok loaded /\ data_ok (default vdata_init loaded) /\ sm_next (d_frames (default vdata_init loaded)) = length ps /\
  forall k, f_feats <$> sm_map (d_frames (default vdata_init loaded)) !! k = p_features <$> ps !! k.
Proof.
  intros [[-> ->]|(Hps & d & -> & Hd & Hn & Hk)].
  - exists None. split; [reflexivity|]. split; [apply (init_ok (Settings 0 0 0 0 0 0 0 0 0 0 0 0))|]. split; [reflexivity|]. intros k. cbn. rewrite lookup_empty. reflexivity.
  - exists (Some d). cbn [load default]. rewrite (en_decode _ _ Hen). auto.
Qed.
(** A run on it comes to its end. *)
Lemma held_work f ps r : held f ps -> r_opened r = true -> pictures_ok T (r_settings r) (r_geometry r) vdata_init (r_pictures r) ->
  (forall p q, p ∈ r_pictures r -> q ∈ ps -> 3 <= length (p_features q) < p_fuel p) ->
  exists ss, work f r = Ok ss /\ (r_pictures r <> [] -> held (Some (encode (ss_data ss))) (ps ++ r_pictures r)).
Proof.
  intros Hf Ho [P1 P2 P3 P4 P5] Hq. destruct (held_load f ps Hf) as (loaded & El & Hd & Hn & Hk).
  destruct (session_state T colour_of (r_settings r) (r_options r) (r_geometry r) loaded (r_pictures r) Hd) as (ss & E & [A1 _ _ A4 A5 _ _ _]).
  { split; auto. intros p k fr Hp Hfr. pose proof (Hk k) as E. unfold has_frame in Hfr. rewrite Hfr in E. symmetry in E. apply fmap_Some in E as (q & Hq' & ->). apply (Hq p q Hp). eapply elem_of_list_lookup_2. exact Hq'. }
  exists ss. unfold DataFile.work. rewrite Ho, El. cbn [bind]. split; [exact E|]. intros Hne. right. split; [intros H; apply app_eq_nil in H as [_ H]; exact (Hne H)|].
  exists (ss_data ss). split; [reflexivity|]. split; [exact A1|]. split; [rewrite A5, Hn, app_length; reflexivity|]. intros k. rewrite (A4 k), Hn. destruct (decide (k < length ps)) as [H|H].
  - rewrite Hk, lookup_app_l by exact H. reflexivity.
  - rewrite lookup_app_r by lia. reflexivity.
Qed.
Lemma held_after f ps r : held f ps -> undisturbed r -> pictures_ok T (r_settings r) (r_geometry r) vdata_init (r_pictures r) ->
  (forall p q, p ∈ r_pictures r -> q ∈ ps -> 3 <= length (p_features q) < p_fuel p) -> held (file_after f r) (ps ++ kept r).
Proof.
  intros Hf [Ho Hend] Hp Hq. destruct (held_work f ps r Hf Ho Hp Hq) as (ss & E & Hs). unfold DataFile.file_after, write, kept. rewrite E. unfold saved.
  destruct (r_pictures r) as [|p l]; [destruct (r_created r), (r_ending r); rewrite app_nil_r; exact Hf|].
  destruct (r_ending r) as [| |n]; [| |destruct (Hend n eq_refl)]; destruct (r_created r); rewrite ?app_nil_r; try exact Hf. apply Hs. discriminate.
Qed.
Lemma kept_in r p : p ∈ kept r -> p ∈ r_pictures r.
Proof. unfold kept. destruct (r_created r), (r_ending r); try (intros H; exact H); intros H; apply elem_of_nil in H as []. Qed.
Lemma kept_all rs p : p ∈ rs ≫= kept -> exists r, r ∈ rs /\ p ∈ r_pictures r.
Proof. rewrite elem_of_list_bind. intros (r & H & Hr). exists r. split; [exact Hr|apply kept_in, H]. Qed.
Lemma file_after_app f rs rs' : file_after_runs f (rs ++ rs') = file_after_runs (file_after_runs f rs) rs'.
Proof. unfold DataFile.file_after_runs. apply foldl_app. Qed.
Lemma runs_sub rs rs' : (forall r, r ∈ rs -> r ∈ rs') -> runs_ok T rs' -> runs_ok T rs.
Proof. intros H [H1 H2]. split; eauto. Qed.

Lemma held_runs rs : runs_ok T rs -> Forall undisturbed rs -> held (file_after_runs None rs) (rs ≫= kept).
Proof.
  induction rs as [|r rs IH] using rev_ind; intros Hok Hu; [left; auto|].
  apply Forall_app in Hu as [Hu Hr]. rewrite list.Forall_singleton in Hr. rewrite file_after_app, bind_app. cbn [list_bind mbind list_bind]. cbn. rewrite app_nil_r.
  apply held_after; [|exact Hr|apply (ro_pictures _ _ Hok); apply elem_of_app; right; left|].
  - apply IH; [|exact Hu]. eapply runs_sub; [|exact Hok]. intros x Hx. apply elem_of_app. auto.
  - intros p q Hp Hq. apply kept_all in Hq as (r' & Hr' & Hq). apply (ro_features _ _ Hok r p r' q); auto; apply elem_of_app; [right; left|left; exact Hr'].
Qed.
Lemma history_stored rs : runs_ok T rs -> Forall undisturbed rs ->
  stored (file_after_runs None rs) (rs ≫= kept) /\ forall before r after, rs = before ++ r :: after -> exists ss, work (file_after_runs None before) r = Ok ss.
Proof.
  intros Hok Hu. split; [apply held_stored, held_runs; assumption|]. intros before r after ->. apply Forall_app in Hu as [Hb Hr]. apply list.Forall_cons in Hr as [Hr _].
  assert (runs_ok T before) as Hokb by (eapply runs_sub; [|exact Hok]; intros x Hx; apply elem_of_app; auto).
  destruct (held_work _ _ r (held_runs before Hokb Hb) (proj1 Hr)) as (ss & E & _); [apply (ro_pictures _ _ Hok); apply elem_of_app; right; left| |exists ss; exact E].
  intros p q Hp Hq. apply kept_all in Hq as (r' & Hr' & Hq). apply (ro_features _ _ Hok r p r' q); auto; apply elem_of_app; [right; left|left; exact Hr'].
Qed.

(** What is left of a file that is not an encoding. *)
Lemma undecoded_useless bytes : decode bytes = None -> useless T colour_of encode decode (Some bytes).
Proof.
  intros E r Ho. assert (work (Some bytes) r = Panic) as Hw. { unfold DataFile.work. rewrite Ho. cbn [load]. rewrite E. reflexivity. }
  split; [exact Hw|]. unfold DataFile.file_after. rewrite Hw. reflexivity.
Qed.
Lemma useless_after f rs : useless T colour_of encode decode f -> Forall (fun r => r_opened r = true) rs -> file_after_runs f rs = f.
Proof.
  intros Hf. induction rs as [|r rs IH]; intros Hr; [reflexivity|]. apply list.Forall_cons in Hr as [Hr Hrs]. cbn [DataFile.file_after_runs foldl]. unfold DataFile.file_after_runs in *. cbn [foldl]. rewrite (proj2 (Hf r Hr)). exact (IH Hrs).
Qed.

Lemma interrupted_runs rs r n later : runs_ok T (rs ++ [r]) -> Forall undisturbed rs -> r_opened r = true -> r_created r = true -> r_ending r = Interrupted_after n -> r_pictures r <> [] ->
  exists d, file_after_runs None (rs ++ [r]) = Some (take n (encode d)) /\ stored (Some (encode d)) ((rs ≫= kept) ++ r_pictures r) /\
    (n < length (encode d) -> Forall (fun r => r_opened r = true) later ->
     useless T colour_of encode decode (file_after_runs None (rs ++ [r] ++ later)) /\ file_after_runs None (rs ++ [r] ++ later) = file_after_runs None (rs ++ [r])).
Proof.
  intros Hok Hu Ho Hc He Hne. assert (runs_ok T rs) as Hokb by (eapply runs_sub; [|exact Hok]; intros x Hx; apply elem_of_app; auto).
  destruct (held_work _ _ r (held_runs rs Hokb Hu) Ho) as (ss & E & Hs).
  { apply (ro_pictures _ _ Hok); apply elem_of_app; right; left. }
  { intros p q Hp Hq. apply kept_all in Hq as (r' & Hr' & Hq). apply (ro_features _ _ Hok r p r' q); auto; apply elem_of_app; [right; left|left; exact Hr']. }
  assert (file_after_runs None (rs ++ [r]) = Some (take n (encode (ss_data ss)))) as Hf.
  { rewrite file_after_app. unfold DataFile.file_after_runs at 1. cbn [foldl]. unfold DataFile.file_after. rewrite E. unfold saved, write. rewrite Hc, He. destruct (r_pictures r); [destruct (Hne eq_refl)|reflexivity]. }
  exists (ss_data ss). split; [exact Hf|]. split; [apply held_stored, Hs, Hne|]. intros Hn Hl.
  assert (useless T colour_of encode decode (file_after_runs None (rs ++ [r]))) as Hx. { rewrite Hf. apply undecoded_useless, (en_prefix _ _ Hen), Hn. }
  rewrite app_assoc, file_after_app. rewrite (useless_after _ _ Hx Hl). auto.
Qed.
(** A file that cannot be opened is replaced. *)
Lemma unopened_stored f r : r_opened r = false -> r_created r = true -> r_ending r = Completed -> pictures_ok T (r_settings r) (r_geometry r) vdata_init (r_pictures r) -> r_pictures r <> [] ->
  stored (file_after f r) (r_pictures r).
Proof.
  intros Ho Hc He Hp Hne. destruct (session_state T colour_of (r_settings r) (r_options r) (r_geometry r) None (r_pictures r) (init_ok (r_settings r)) Hp) as (ss & E & [A1 _ _ A4 _ _ _ _]).
  assert (work f r = Ok ss) as Hw. { unfold DataFile.work. rewrite Ho. exact E. }
  unfold DataFile.file_after. rewrite Hw. unfold saved, write. rewrite Hc, He. destruct (r_pictures r) as [|p l] eqn:Ep; [destruct (Hne eq_refl)|]. right. split; [discriminate|]. exists (ss_data ss). split; [reflexivity|]. split; [apply (en_decode _ _ Hen)|]. split; [exact A1|].
  intros k. rewrite (A4 k). cbn [default]. change (sm_next (d_frames (vdata_init : vdata riso F))) with 0. rewrite decide_False, Nat.sub_0_r by lia. reflexivity.
Qed.
Lemma untouched f r : r_pictures r = [] -> file_after f r = f.
Proof. intros E. unfold DataFile.file_after. rewrite E. destruct (work f r); reflexivity. Qed.
End facts.
