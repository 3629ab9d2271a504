(** Concrete cases for the properties of single mapping operations. *)
From Coq Require Import ZArith.
From stdpp Require Import gmap list.
From Verif Require Import Outcome OutcomeFacts.
From Verif Require Import Sfm SfmSpec SfmUse SfmEffects SfmDemo SfmHist SfmThms SfmTracks SfmProps.
Open Scope nat_scope.

(** Six frames; the first three make a reconstruction. *)
Definition six_data : vdata Z nat := get (demo_run (demo_settings 0 1) (OpAddFeed :: replicate 6 (demo_frame demo_e))).
Definition started_data : vdata Z nat := get (step 0%Z Z.add Z.opp (demo_settings 0 1) six_data demo_start_a).
Definition started_rc : recon Z := get_recon started_data 0.

Lemma six_data_ok : data_ok six_data.
Proof. eapply history_ok; [apply demo_six_used|]. apply is_ok_get. vm_compute. reflexivity. Qed.

Lemma started_data_ok : data_ok started_data.
Proof.
  eapply step_consistent; [apply six_data_ok| |apply is_ok_get; vm_compute; reflexivity].
  apply demo_start_allowed; [apply six_data_ok|lia..|vm_compute; reflexivity].
Qed.

Lemma demo_start_ready : data_ok six_data /\ free_frame six_data 0 /\ free_frame six_data 1 /\ free_frame six_data 2 /\
  one_to_one (first_matches [(0, 0, 0)] [(1, 1)]) /\ one_to_one (second_matches [(0, 0, 0)] [(2, 2)]) /\
  exists d', add_reconstruction 0%Z demo_orders six_data 0 1 2 1%Z 2%Z [(0, 0, 0)] [(1, 1)] [(2, 2)] = Ok (d', 0).
Proof.
  split; [apply six_data_ok|]. do 3 (split; [apply free_b_spec; [apply six_data_ok|vm_compute; reflexivity]|]).
  split; [|split]; [intros c f c' f' H H'; cbn in H, H'; set_solver..|].
  assert (match add_reconstruction 0%Z demo_orders six_data 0 1 2 1%Z 2%Z [(0, 0, 0)] [(1, 1)] [(2, 2)] with Ok (_, r) => r =? 0 | _ => false end = true) as H by (vm_compute; reflexivity).
  destruct (add_reconstruction _ _ _ _ _ _ _ _ _ _ _) as [[d' r]| |]; [|discriminate..]. apply Nat.eqb_eq in H as ->. eauto.
Qed.

Lemma demo_init_ready : data_ok six_data /\ env_ok demo_e /\ free_frame six_data 0 /\ (forall k, k ∈ [1; 2] -> free_frame six_data k) /\
  exists d', try_init 0%Z demo_e (demo_settings 0 1) six_data 0 [1; 2] = Ok d' /\ d' <> six_data.
Proof.
  split; [apply six_data_ok|]. split; [apply demo_env_ok|]. split; [apply free_b_spec; [apply six_data_ok|vm_compute; reflexivity]|].
  split; [intros k Hk; apply free_b_spec; [apply six_data_ok|]; repeat (apply elem_of_cons in Hk as [->|Hk]; [vm_compute; reflexivity|]); apply elem_of_nil in Hk as []|].
  assert (match try_init 0%Z demo_e (demo_settings 0 1) six_data 0 [1; 2] with Ok d' => sm_next (d_recs d') =? 1 | _ => false end = true) as H by (vm_compute; reflexivity).
  destruct (try_init _ _ _ _ _ _) as [d'| |]; [|discriminate..]. exists d'. split; [reflexivity|]. intros ->. vm_compute in H. discriminate.
Qed.

(** Registering the sixth frame of [demo_data] again. *)
Lemma demo_registered : data_ok demo_data /\ has_recon demo_data 0 demo_rc /\
  (forall v, v ∈ [0; 1] -> exists w, has_view demo_rc v w) /\
  exists pose found, register_frame demo_e (demo_settings 10 1) demo_data 0 5 [0; 1] = Ok (Some (pose, found)) /\
    found !! 0 = Some [0] /\ found !! 1 = Some [1] /\ found !! 2 = None.
Proof.
  split; [apply demo_data_ok|]. split; [apply demo_has_recon|]. split.
  - intros v Hv. unfold has_view. assert (is_some (sm_map (r_views demo_rc) !! v) = true) as H by (repeat (apply elem_of_cons in Hv as [->|Hv]; [vm_compute; reflexivity|]); apply elem_of_nil in Hv as []).
    destruct (sm_map (r_views demo_rc) !! v) as [w|]; [eauto|discriminate].
  - assert (match register_frame demo_e (demo_settings 10 1) demo_data 0 5 [0; 1] with
      | Ok (Some (_, found)) => (found !! 0, found !! 1, found !! 2) | _ => (None, None, Some []) end = (Some [0], Some [1], None)) as H by (vm_compute; reflexivity).
    destruct (register_frame _ _ _ _ _ _) as [[[pose found]|]| |]; [|discriminate..]. injection H as H0 H1 H2. eauto 10.
Qed.

(** The second feature of a new view joins two landmarks. *)
Definition demo_existing (f : nat) : option (list key) :=
  match f with 0 => Some [0] | 1 => Some [1; 4] | 2 => Some [2] | _ => None end.

Lemma landmark_b rc l m : sm_map (r_lms rc) !! l = Some m -> @has_landmark Z rc l m.
Proof. exact id. Qed.

Lemma demo_good_matches : good_matches started_rc 3 demo_existing.
Proof.
  assert (forall l, l < 5 -> exists m, has_landmark started_rc l m) as Hl.
  { intros l Hl. unfold has_landmark. assert (is_some (sm_map (r_lms started_rc) !! l) = true) as H by (do 5 (destruct l as [|l]; [vm_compute; reflexivity|]); lia).
    destruct (sm_map (r_lms started_rc) !! l) as [m|]; [eauto|discriminate]. }
  split.
  - intros f ls Hf E. destruct f as [|[|[|f]]]; [| | |lia]; cbn in E; injection E as <-.
    + left. destruct (Hl 0) as (m & Hm); [lia|]. eauto.
    + right. destruct (Hl 1) as (ma & Ha); [lia|]. destruct (Hl 4) as (mb & Hb); [lia|]. exists 1, 4, ma, mb.
      assert (match sm_map (r_lms started_rc) !! 1, sm_map (r_lms started_rc) !! 4 with Some ma, Some mb => bool_decide (dom ma ## (dom mb : gset nat)) | _, _ => false end = true) as H by (vm_compute; reflexivity).
      unfold has_landmark in Ha, Hb. rewrite Ha, Hb in H. apply bool_decide_eq_true in H. repeat split; [lia|exact Ha|exact Hb|]. apply map_disjoint_dom. exact H.
    + left. destruct (Hl 2) as (m & Hm); [lia|]. eauto.
  - intros f f' ls ls' l Hf Hf' E E' H H'. destruct f as [|[|[|f]]]; [| | |lia]; destruct f' as [|[|[|f']]]; [reflexivity| | |lia| |reflexivity| |lia| | |reflexivity|lia];
      cbn in E, E'; injection E as <-; injection E' as <-; set_solver.
Qed.

Lemma demo_add_ready : orders_ok demo_orders /\ data_ok started_data /\ has_recon started_data 0 started_rc /\
  (exists fr, has_frame started_data 3 fr /\ f_view fr = None /\ length (f_feats fr) = 3) /\
  good_matches started_rc 3 demo_existing /\ assigned started_rc 0 1 1 /\ assigned started_rc 2 1 4.
Proof.
  split; [apply (eo_orders _ (demo_env_ok demo_keep))|]. split; [apply started_data_ok|]. split; [apply is_some_recon; vm_compute; reflexivity|]. split.
  - assert (match sm_map (d_frames started_data) !! 3 with Some fr => match f_view fr with None => length (f_feats fr) =? 3 | _ => false end | _ => false end = true) as H by (vm_compute; reflexivity).
    unfold has_frame. destruct (sm_map (d_frames started_data) !! 3) as [fr|]; [|discriminate]. destruct (f_view fr) eqn:E; [discriminate|]. apply Nat.eqb_eq in H. eauto.
  - split; [apply demo_good_matches|]. split; apply assigned_b_spec; vm_compute; reflexivity.
Qed.

Lemma demo_remove_ready : data_ok started_data /\ has_recon started_data 0 started_rc /\ exists w, has_view started_rc 1 w.
Proof.
  split; [apply started_data_ok|]. split; [apply is_some_recon; vm_compute; reflexivity|]. unfold has_view.
  assert (is_some (sm_map (r_views started_rc) !! 1) = true) as H by (vm_compute; reflexivity). destruct (sm_map (r_views started_rc) !! 1) as [w|]; [eauto|discriminate].
Qed.

Lemma demo_merge_lms_ready : exists rc', rec_merge demo_orders started_rc 1 4 = Ok rc'.
Proof.
  assert (is_ok (rec_merge demo_orders started_rc 1 4) = true) as H by (vm_compute; reflexivity). destruct (rec_merge demo_orders started_rc 1 4) as [rc'| |]; [eauto|discriminate..].
Qed.

(** Three frames which could not be initialised, then made a reconstruction without matches,
    and a fourth frame which is registered but finds no constraints. *)
Definition shy_env (e : env Z nat) : env Z nat :=
  {| e_ord := e_ord e; e_similar := e_similar e; e_knn := e_knn e; e_two_view := fun _ _ _ _ => None; e_three_view := e_three_view e;
     e_register := e_register e; e_robust := e_robust e; e_bi_robust := e_bi_robust e; e_disagree := e_disagree e; e_too_few := e_too_few e;
     e_optimize3 := fun _ _ _ _ => None; e_sort := e_sort e; e_update := e_update e; e_second_worse := e_second_worse e; e_rescale := e_rescale e; e_fuel := e_fuel e |}.
Definition shy_e : env Z nat := shy_env demo_e.
Definition shy_ops : list (op Z nat) := OpAddFeed :: replicate 3 (demo_frame shy_e).
Definition shy_start : op Z nat := OpAddReconstruction shy_e 0 1 2 1%Z 2%Z [] [] [].
Definition shy_data0 : vdata Z nat := get (demo_run (demo_settings 3 1) shy_ops).
Definition shy_data : vdata Z nat := get (step 0%Z Z.add Z.opp (demo_settings 3 1) shy_data0 shy_start).
Definition shy_after : vdata Z nat := get (step 0%Z Z.add Z.opp (demo_settings 3 1) shy_data (demo_frame shy_e)).

Lemma shy_env_ok : env_ok shy_e.
Proof. destruct (demo_env_ok demo_keep) as [H1 H2 H3 H4 H5]. split; [exact H1|exact H2|exact H3| |exact H5]. intros ? ? ? ? ? ? [=]. Qed.

Lemma shy_ops_used s d : used_well 0%Z Z.add Z.opp s d shy_ops.
Proof.
  unfold shy_ops. cbn [replicate]. split; [split; [intros e [=]|exact I]|]. intros d1 _.
  do 3 (split; [split; [intros e [= <-]; apply shy_env_ok|exact I]|]; intros ? _). exact I.
Qed.

Lemma shy_run0 : demo_run (demo_settings 3 1) shy_ops = Ok shy_data0.
Proof. apply is_ok_get. vm_compute. reflexivity. Qed.
Lemma shy_data0_ok : data_ok shy_data0.
Proof. eapply history_ok; [apply shy_ops_used|apply shy_run0]. Qed.
Lemma shy_start_allowed : op_allowed shy_data0 shy_start.
Proof.
  split; [intros e [= <-]; apply shy_env_ok|]. do 3 (split; [lia|]). do 3 (split; [apply free_b_spec; [apply shy_data0_ok|vm_compute; reflexivity]|]).
  split; intros x f f' Hx Hy; cbn in Hx; set_solver.
Qed.
Lemma shy_step : step 0%Z Z.add Z.opp (demo_settings 3 1) shy_data0 shy_start = Ok shy_data.
Proof. apply is_ok_get. vm_compute. reflexivity. Qed.
Lemma shy_step2 : step 0%Z Z.add Z.opp (demo_settings 3 1) shy_data (demo_frame shy_e) = Ok shy_after.
Proof. apply is_ok_get. vm_compute. reflexivity. Qed.

Lemma shy_run : demo_run (demo_settings 3 1) (shy_ops ++ [shy_start]) = Ok shy_data.
Proof. unfold demo_run, run. rewrite foldM_app. pose proof shy_run0 as H. unfold demo_run, run in H. rewrite H. cbn [bind foldM]. rewrite shy_step. reflexivity. Qed.
Lemma shy_used : used_well 0%Z Z.add Z.opp (demo_settings 3 1) vdata_init (shy_ops ++ [shy_start]).
Proof.
  apply used_well_app; [apply shy_ops_used|]. intros d' E. assert (d' = shy_data0) as -> by (pose proof shy_run0 as H; unfold demo_run, run in H; congruence).
  split; [apply shy_start_allowed|]. intros; exact I.
Qed.

Lemma rejected_leaves_trace : exists (s : settings) (ops : list (op Z nat)) (x : op Z nat) d d' k rc rc' a b,
  used_well 0%Z Z.add Z.opp s vdata_init (ops ++ [x]) /\ demo_run s ops = Ok d /\ step 0%Z Z.add Z.opp s d x = Ok d' /\
  (exists feats e, x = OpAddFrame e 0 feats) /\ sm_map (d_frames d) !! k = None /\ free_frame d' k /\
  has_recon d 0 rc /\ has_recon d' 0 rc' /\ observation rc a /\ observation rc b /\ ~ same_track rc a b /\ same_track rc' a b.
Proof.
  assert (data_ok shy_data) as Hd by (eapply history_ok; [apply shy_used|apply shy_run]).
  assert (data_ok shy_after) as Hd' by (eapply step_consistent; [exact Hd| |apply shy_step2]; split; [intros e [= <-]; apply shy_env_ok|exact I]).
  exists (demo_settings 3 1), (shy_ops ++ [shy_start]), (demo_frame shy_e), shy_data, shy_after, 3, (get_recon shy_data 0), (get_recon shy_after 0), (1, 0), (2, 0).
  split; [|split; [apply shy_run|split; [apply shy_step2|split; [unfold demo_frame; eauto|]]]].
  - apply used_well_app; [apply shy_used|]. intros d' _. split; [split; [intros e [= <-]; apply shy_env_ok|exact I]|]. intros; exact I.
  - split; [assert (is_some (sm_map (d_frames shy_data) !! 3) = false) as H by (vm_compute; reflexivity); destruct (sm_map (d_frames shy_data) !! 3); [discriminate|reflexivity]|].
    split; [apply free_b_spec; [exact Hd'|vm_compute; reflexivity]|]. split; [apply is_some_recon; vm_compute; reflexivity|]. split; [apply is_some_recon; vm_compute; reflexivity|].
    assert (assigned (get_recon shy_data 0) 1 0 3) as A1 by (apply assigned_b_spec; vm_compute; reflexivity).
    assert (assigned (get_recon shy_data 0) 2 0 6) as A2 by (apply assigned_b_spec; vm_compute; reflexivity).
    split; [eexists; exact A1|]. split; [eexists; exact A2|]. split.
    + intros (l & H1 & H2). pose proof (assigned_fun _ _ _ _ _ H1 A1). pose proof (assigned_fun _ _ _ _ _ H2 A2). congruence.
    + exists 3. split; apply assigned_b_spec; vm_compute; reflexivity.
Qed.

(** The rejected frame is offered again, with other views, and joins two more landmarks. *)
Lemma shy_rejected : exists fr d' pose found,
  env_ok shy_e /\ data_ok shy_after /\ has_recon shy_after 0 (get_recon shy_after 0) /\ has_frame shy_after 3 fr /\ f_view fr = None /\
  (forall v, v ∈ [0; 1] -> exists w, has_view (get_recon shy_after 0) v w) /\
  incorporate_frame shy_e (demo_settings 3 1) shy_after 0 3 [0; 1] = Ok (d', false) /\
  register_frame shy_e (demo_settings 3 1) shy_after 0 3 [0; 1] = Ok (Some (pose, found)) /\ found !! 0 = Some [0; 3].
Proof.
  assert (data_ok shy_data) as Hd by (eapply history_ok; [apply shy_used|apply shy_run]).
  assert (data_ok shy_after) as Hd' by (eapply step_consistent; [exact Hd| |apply shy_step2]; split; [intros e [= <-]; apply shy_env_ok|exact I]).
  assert (free_b shy_after 3 = true) as Hf by (vm_compute; reflexivity). unfold free_b in Hf. destruct (sm_map (d_frames shy_after) !! 3) as [fr|] eqn:Ef; [|discriminate].
  destruct (f_view fr) eqn:Ev; [discriminate|].
  assert (match incorporate_frame shy_e (demo_settings 3 1) shy_after 0 3 [0; 1] with Ok (_, b) => negb b | _ => false end = true) as Hi by (vm_compute; reflexivity).
  destruct (incorporate_frame shy_e (demo_settings 3 1) shy_after 0 3 [0; 1]) as [[d' []]| |]; try discriminate Hi.
  assert (match register_frame shy_e (demo_settings 3 1) shy_after 0 3 [0; 1] with Ok (Some (_, found)) => found !! 0 | _ => None end = Some [0; 3]) as Hr by (vm_compute; reflexivity).
  destruct (register_frame shy_e (demo_settings 3 1) shy_after 0 3 [0; 1]) as [[[pose found]|]| |]; try discriminate Hr.
  exists fr, d', pose, found. split; [apply shy_env_ok|]. split; [exact Hd'|]. split; [apply is_some_recon; vm_compute; reflexivity|]. split; [exact Ef|]. split; [exact Ev|].
  split; [|split; [reflexivity|split; [reflexivity|exact Hr]]]. intros v Hv. unfold has_view.
  assert (is_some (sm_map (r_views (get_recon shy_after 0)) !! v) = true) as H by (repeat (apply elem_of_cons in Hv as [->|Hv]; [vm_compute; reflexivity|]); apply elem_of_nil in Hv as []).
  destruct (sm_map (r_views (get_recon shy_after 0)) !! v) as [w|]; [eauto|discriminate].
Qed.

(** Merging two landmarks which are both seen in the second view. *)
Lemma demo_dedup_ready : orders_ok (e_ord demo_e) /\ data_ok started_data /\ has_recon started_data 0 started_rc /\
  (exists ma mb, has_landmark started_rc 3 ma /\ has_landmark started_rc 1 mb /\ is_Some (ma !! 1) /\ is_Some (mb !! 1)) /\
  (exists d', merge_landmarks_dedup demo_e started_data 0 3 1 = Ok (d', Some 3)) /\
  (exists d', merge_landmarks_dedup demo_e started_data 0 1 3 = Ok (d', None)).
Proof.
  split; [apply (eo_orders _ (demo_env_ok demo_keep))|]. split; [apply started_data_ok|]. split; [apply is_some_recon; vm_compute; reflexivity|]. split; [|split].
  - assert (match sm_map (r_lms started_rc) !! 3, sm_map (r_lms started_rc) !! 1 with Some ma, Some mb => is_some (ma !! 1) && is_some (mb !! 1) | _, _ => false end = true) as H by (vm_compute; reflexivity).
    unfold has_landmark. destruct (sm_map (r_lms started_rc) !! 3) as [ma|]; [|discriminate H]. destruct (sm_map (r_lms started_rc) !! 1) as [mb|]; [|discriminate H].
    exists ma, mb. destruct (ma !! 1), (mb !! 1); try discriminate H. eauto 10.
  - assert (match merge_landmarks_dedup demo_e started_data 0 3 1 with Ok (_, Some l) => l =? 3 | _ => false end = true) as H by (vm_compute; reflexivity).
    destruct (merge_landmarks_dedup demo_e started_data 0 3 1) as [[d' [l|]]| |]; try discriminate H. apply Nat.eqb_eq in H as ->. eauto.
  - assert (match merge_landmarks_dedup demo_e started_data 0 1 3 with Ok (_, None) => true | _ => false end = true) as H by (vm_compute; reflexivity).
    destruct (merge_landmarks_dedup demo_e started_data 0 1 3) as [[d' [l|]]| |]; try discriminate H. eauto.
Qed.

(** Two rounds on the six views of [demo_data], all kept and moved; and a round in which the
    update gives every view up. *)
Definition demo_shift (p : Z) (xs : list (Z * Z)) : option Z := Some (p + Z.of_nat (length xs))%Z.
Lemma demo_rounds_ready : orders_ok (e_ord (demo_env demo_shift)) /\ data_ok demo_data /\ has_recon demo_data 0 demo_rc /\
  (exists d', apply_constraints Z.add Z.opp (demo_env demo_shift) (demo_settings 10 2) demo_data 0 = Ok (d', true) /\ d' <> demo_data) /\
  (exists d', apply_constraints Z.add Z.opp (demo_env (fun _ _ => None)) (demo_settings 10 2) demo_data 0 = Ok (d', false)).
Proof.
  split; [apply (eo_orders _ (demo_env_ok demo_shift))|]. split; [apply demo_data_ok|]. split; [apply demo_has_recon|].
  set (poses := fun d : vdata Z nat => (fun x : key * view Z => v_pose x.2) <$> map_to_list (sm_map (r_views (get_recon d 0)))). split.
  - assert (match apply_constraints Z.add Z.opp (demo_env demo_shift) (demo_settings 10 2) demo_data 0 with Ok (d', true) => negb (bool_decide (poses d' = poses demo_data)) | _ => false end = true) as H by (vm_compute; reflexivity).
    destruct (apply_constraints _ _ _ _ _ _) as [[d' []]| |]; try discriminate H. exists d'. split; [reflexivity|]. intros ->. rewrite bool_decide_eq_true_2 in H by reflexivity. discriminate H.
  - assert (match apply_constraints Z.add Z.opp (demo_env (fun _ _ => None)) (demo_settings 10 2) demo_data 0 with Ok (_, b) => negb b | _ => false end = true) as H by (vm_compute; reflexivity).
    destruct (apply_constraints _ _ _ _ _ _) as [[d' []]| |]; try discriminate H. eauto.
Qed.

(** Two reconstructions which are not merged although a frame of one registers in the other. *)
Lemma shy_merge_rejected : exists src w fr d' pose found,
  env_ok shy_e /\ data_ok demo_two_data /\ has_recon demo_two_data 1 src /\ has_view src 0 w /\ has_recon demo_two_data 0 (get_recon demo_two_data 0) /\
  has_frame demo_two_data (v_frame w) fr /\ (forall v, v ∈ [0; 1] -> exists w, has_view (get_recon demo_two_data 0) v w) /\
  try_merge_reconstructions Z.add Z.opp shy_e (demo_settings 3 1) demo_two_data 1 0 0 [0; 1] = Ok (d', false) /\
  register_frame shy_e (demo_settings 3 1) demo_two_data 0 (v_frame w) [0; 1] = Ok (Some (pose, found)) /\ is_Some (found !! 0).
Proof.
  assert (data_ok demo_two_data) as Hd by (eapply history_ok; [apply demo_two_used|apply is_ok_get; vm_compute; reflexivity]).
  assert (has_recon demo_two_data 1 (get_recon demo_two_data 1)) as Hs by (apply is_some_recon; vm_compute; reflexivity).
  assert (match sm_map (r_views (get_recon demo_two_data 1)) !! 0 with Some w => v_frame w =? 3 | None => false end = true) as Hw by (vm_compute; reflexivity).
  destruct (sm_map (r_views (get_recon demo_two_data 1)) !! 0) as [w|] eqn:Ew; [|discriminate Hw]. apply Nat.eqb_eq in Hw.
  assert (is_some (sm_map (d_frames demo_two_data) !! 3) = true) as Hf by (vm_compute; reflexivity).
  destruct (sm_map (d_frames demo_two_data) !! 3) as [fr|] eqn:Ef; [|discriminate Hf].
  assert (match try_merge_reconstructions Z.add Z.opp shy_e (demo_settings 3 1) demo_two_data 1 0 0 [0; 1] with Ok (_, b) => negb b | _ => false end = true) as Hi by (vm_compute; reflexivity).
  destruct (try_merge_reconstructions Z.add Z.opp shy_e (demo_settings 3 1) demo_two_data 1 0 0 [0; 1]) as [[d' []]| |]; try discriminate Hi.
  assert (match register_frame shy_e (demo_settings 3 1) demo_two_data 0 3 [0; 1] with Ok (Some (_, found)) => is_some (found !! 0) | _ => false end = true) as Hr by (vm_compute; reflexivity).
  destruct (register_frame shy_e (demo_settings 3 1) demo_two_data 0 3 [0; 1]) as [[[pose found]|]| |] eqn:Er; try discriminate Hr.
  exists (get_recon demo_two_data 1), w, fr, d', pose, found. rewrite Hw. split; [apply shy_env_ok|]. split; [exact Hd|]. split; [exact Hs|]. split; [exact Ew|].
  split; [apply is_some_recon; vm_compute; reflexivity|]. split; [exact Ef|]. split; [|split; [reflexivity|split; [exact Er|destruct (found !! 0); [eauto|discriminate Hr]]]].
  intros v Hv. unfold has_view.
  assert (is_some (sm_map (r_views (get_recon demo_two_data 0)) !! v) = true) as H by (repeat (apply elem_of_cons in Hv as [->|Hv]; [vm_compute; reflexivity|]); apply elem_of_nil in Hv as []).
  destruct (sm_map (r_views (get_recon demo_two_data 0)) !! v) as [w'|]; [eauto|discriminate H].
Qed.
