(** Last steps towards the property theorems: corollaries over histories and the facts about
    the concrete histories of SfmDemo.v. *)
From Coq Require Import ZArith.
From stdpp Require Import gmap list.
From Verif Require Import Outcome OutcomeFacts.
From Verif Require Import Sfm SfmSpec SfmUse SfmEffects SfmDemo SfmHist SfmThms.
Open Scope nat_scope.

Section facts.
Context (P F : Type) (one : P) (mul : P -> P -> P) (inv : P -> P).

Lemma history_ok s (ops : list (op P F)) d : used_well one mul inv s vdata_init ops -> run one mul inv s ops = Ok d -> data_ok d.
Proof. intros Hu E. eapply run_ok; [apply init_ok|exact Hu|exact E]. Qed.

Lemma history_mirrored s (ops : list (op P F)) d : used_well one mul inv s vdata_init ops -> run one mul inv s ops = Ok d ->
  forall r rc, has_recon d r rc -> mirrored rc /\ no_empty_landmark rc /\ one_entry_per_feature d rc.
Proof. intros Hu E r rc Hr. destruct (ok_recons _ (history_ok s ops d Hu E) r rc Hr) as [H1 H2 H3 _ _ _ _]. auto. Qed.

Lemma step_consistent s (d d' : vdata P F) x : data_ok d -> op_allowed d x -> step one mul inv s d x = Ok d' -> data_ok d'.
Proof. intros Hd Ha E. pose proof (step_post one mul inv True s d x Hd Ha (or_introl I)) as Hp. rewrite E in Hp. exact Hp. Qed.

Lemma links_unique (d : vdata P F) : data_ok d -> frame_links_exact d /\
    (forall r v k, is_view_of d r v k -> exists fr, has_frame d k fr) /\
    (forall k r v r' v', is_view_of d r v k -> is_view_of d r' v' k -> r = r' /\ v = v').
Proof.
  intros Hd. assert (forall r v k, is_view_of d r v k -> exists fr, has_frame d k fr) as Hex.
  { intros r v k (rc & w & Hr & Hw & <-). destruct (ok_entries _ _ (ok_recons _ Hd r rc Hr) v w Hw) as (fr & Hf & _). eauto. }
  split; [apply (ok_links _ Hd)|]. split; [exact Hex|]. intros k r v r' v' H1 H2. destruct (Hex r v k H1) as (fr & Hf).
  apply (ok_links _ Hd k fr Hf) in H1, H2. rewrite H1 in H2. injection H2 as -> ->. auto.
Qed.

Lemma history_links s (ops : list (op P F)) d : used_well one mul inv s vdata_init ops -> run one mul inv s ops = Ok d ->
    frame_links_exact d /\
    (forall r v k, is_view_of d r v k -> exists fr, has_frame d k fr) /\
    (forall k r v r' v', is_view_of d r v k -> is_view_of d r' v' k -> r = r' /\ v = v').
Proof. intros Hu E. apply links_unique. eapply history_ok; eassumption. Qed.

Lemma history_constraints s (ops : list (op P F)) d : used_well one mul inv s vdata_init ops -> run one mul inv s ops = Ok d ->
  forall r rc, has_recon d r rc -> constraints_live rc.
Proof. intros Hu E r rc Hr. apply (ok_constraints _ _ (ok_recons _ (history_ok s ops d Hu E) r rc Hr)). Qed.

Lemma history_positions s (ops : list (op P F)) d : used_well one mul inv s vdata_init ops -> run one mul inv s ops = Ok d -> feed_positions_exact d.
Proof. intros Hu E. apply (ok_positions _ (history_ok s ops d Hu E)). Qed.
End facts.

Lemma merge_relative_poses {P} (one : P) mul inv (src dest dest' : recon P) (lmap : gmap key key) t M :
  group_laws one mul inv -> absorbed mul src dest lmap t M dest' ->
  forall sv1 dv1 w1 w1' sv2 dv2 w2 w2', (sv1, dv1) ∈ M -> (sv2, dv2) ∈ M ->
    has_view src sv1 w1 -> has_view src sv2 w2 -> has_view dest' dv1 w1' -> has_view dest' dv2 w2' ->
    mul (v_pose w1') (inv (v_pose w2')) = mul (v_pose w1) (inv (v_pose w2)).
Proof.
  intros Hg Hab sv1 dv1 w1 w1' sv2 dv2 w2 w2' H1 H2 Hw1 Hw2 Hw1' Hw2'. destruct (ab_views _ _ _ _ _ _ _ Hab sv1 dv1 w1 H1 Hw1 w1' Hw1') as (_ & -> & _).
  destruct (ab_views _ _ _ _ _ _ _ Hab sv2 dv2 w2 H2 Hw2 w2' Hw2') as (_ & -> & _). eapply relative_pose_kept. exact Hg.
Qed.

Lemma registration_windows (n initial : nat) : 0 < initial \/ n = 0 ->
    exists ws, tiles ws 0 n /\ offered_features ws = seq 0 n /\ length ws <= S n /\
      forall (P F : Type) (e : env P F) (s : settings) (d : vdata P F) (r k : key) (views : list key) (fr : frame F),
        has_frame d k fr -> length (f_feats fr) = n -> single_view_initial_features s = initial -> n < e_fuel e ->
        register_frame e s d r k views = try_windows (register_subset e s d r k views) ws [].
Proof.
  intros Hi. destruct (windows_exist n (Nat.min initial n) 0) as (ws & _ & Ht & Hlen & Hrun); [lia|lia|]. exists ws. split; [exact Ht|].
  destruct (tiles_offered ws 0 n Ht) as [Ho _]. rewrite Nat.sub_0_r in Ho. split; [exact Ho|]. split; [lia|].
  intros P F e s d r k views fr Hf <- <- Hfuel. unfold register_frame, sm_get. unfold has_frame in Hf. rewrite Hf. cbn [unwrap bind]. apply Hrun. lia.
Qed.

(** ** Concrete histories *)
Lemma demo_data_ok : data_ok demo_data.
Proof. eapply history_ok; [apply demo_used_well|apply demo_run_ok]. Qed.

Lemma demo_history : exists d rc,
  used_well 0%Z Z.add Z.opp (demo_settings 10 1) vdata_init demo_ops /\ demo_run (demo_settings 10 1) demo_ops = Ok d /\
  has_recon d 0 rc /\ sm_size (r_views rc) = 6 /\ assigned rc 5 1 1 /\ assigned rc 0 1 1.
Proof.
  exists demo_data, demo_rc. split; [apply demo_used_well|]. split; [apply demo_run_ok|]. split; [apply demo_has_recon|].
  split; [vm_compute; reflexivity|]. split; apply assigned_b_spec; vm_compute; reflexivity.
Qed.

Lemma double_match_breaks : exists (ops : list (op Z nat)) d rc v f l,
  demo_run (demo_settings 0 1) ops = Ok d /\ has_recon d 0 rc /\ assigned rc v f l /\ ~ observes rc l v f.
Proof.
  exists (demo_three ++ [demo_double_match]), (get (demo_run (demo_settings 0 1) (demo_three ++ [demo_double_match]))).
  eexists (get_recon _ 0), 1, 0, 0. split; [apply is_ok_get; vm_compute; reflexivity|]. split; [apply is_some_recon; vm_compute; reflexivity|].
  split; [apply assigned_b_spec; vm_compute; reflexivity|apply observes_b_spec; vm_compute; reflexivity].
Qed.

Lemma demo_links : data_ok demo_data /\ has_recon demo_data 0 demo_rc /\ is_view_of demo_data 0 5 5 /\ is_view_of demo_data 0 0 2.
Proof.
  split; [apply demo_data_ok|]. split; [apply demo_has_recon|]. split; apply view_of_b_spec; vm_compute; reflexivity.
Qed.

Lemma same_frame_twice : exists (ops : list (op Z nat)) d k,
  demo_run (demo_settings 0 1) ops = Ok d /\ is_view_of d 0 0 k /\ is_view_of d 1 0 k.
Proof.
  exists (demo_three ++ [demo_start; demo_start]), (get (demo_run (demo_settings 0 1) (demo_three ++ [demo_start; demo_start]))), 0.
  split; [apply is_ok_get; vm_compute; reflexivity|]. split; apply view_of_b_spec; vm_compute; reflexivity.
Qed.

Lemma demo_frames_ready : forall k fr, has_frame demo_data k fr -> 3 <= length (f_feats fr) < 100.
Proof.
  assert (forallb (fun x : key * frame nat => (3 <=? length (f_feats x.2)) && (length (f_feats x.2) <? 100)) (map_to_list (sm_map (d_frames demo_data))) = true) as Hb by (vm_compute; reflexivity).
  intros k fr Hf. rewrite forallb_forall in Hb. unfold has_frame in Hf. apply elem_of_map_to_list, elem_of_list_In in Hf. apply Hb in Hf.
  cbn [snd] in Hf. apply andb_true_iff in Hf as [H1 H2]. apply Nat.leb_le in H1. apply Nat.ltb_lt in H2. lia.
Qed.

Lemma demo_next_ready : data_ok demo_data /\ op_allowed demo_data (demo_frame demo_e) /\ op_ready (demo_settings 10 1) demo_data (demo_frame demo_e).
Proof.
  split; [apply demo_data_ok|]. split; [split; [intros e [= <-]; apply demo_env_ok|exact I]|]. split.
  - assert (is_some (sm_map (d_feeds demo_data) !! 0) = true) as H by (vm_compute; reflexivity). unfold has_feed. destruct (sm_map (d_feeds demo_data) !! 0); [eauto|discriminate].
  - split; [|cbn; lia]. split; [apply demo_frames_ready|cbn; lia|left; cbn; lia].
Qed.

Lemma two_features_panic : exists (ops : list (op Z nat)),
  used_well 0%Z Z.add Z.opp (demo_settings 10 1) vdata_init ops /\ demo_run (demo_settings 10 1) ops = Panic.
Proof.
  exists (OpAddFeed :: replicate 4 (OpAddFrame demo_e 0 [10; 20])). split; [|vm_compute; reflexivity].
  cbn [replicate]. split; [split; [intros e [=]|exact I]|]. intros d1 _.
  do 4 (split; [split; [intros e [= <-]; apply demo_env_ok|exact I]|]; intros ? _). exact I.
Qed.

Lemma demo_one_iteration : data_ok demo_data /\ has_recon demo_data 0 demo_rc /\ optimization_iterations (demo_settings 10 1) <= 1.
Proof. split; [apply demo_data_ok|]. split; [apply demo_has_recon|cbn; lia]. Qed.

Lemma dropped_view_panics : exists (e : env Z nat) (s : settings) (d : vdata Z nat) (r : key) (rc : recon Z),
  env_ok e /\ data_ok d /\ has_recon d r rc /\ sm_size (r_views rc) = 6 /\ apply_constraints Z.add Z.opp e s d r = Panic.
Proof.
  exists (demo_env demo_drop), (demo_settings 10 2), demo_data, 0, demo_rc. split; [apply demo_env_ok|]. split; [apply demo_data_ok|]. split; [apply demo_has_recon|].
  split; vm_compute; reflexivity.
Qed.

Lemma demo_constraints : has_recon demo_data 0 demo_rc /\ sm_size (r_cons demo_rc) = 12 /\
  exists c, has_constraint demo_rc 1 c /\ c_views c = (0, 1, 3).
Proof.
  split; [apply demo_has_recon|]. split; [vm_compute; reflexivity|]. unfold has_constraint.
  assert (c_views <$> sm_map (r_cons demo_rc) !! 1 = Some (0, 1, 3)) as H by (vm_compute; reflexivity). apply fmap_Some in H as (c & Hc & E). exists c. split; [exact Hc|symmetry; exact E].
Qed.

Lemma used_well_app one mul inv s (a b : list (op Z nat)) : forall d, used_well one mul inv s d a ->
  (forall d', foldM (step one mul inv s) a d = Ok d' -> used_well one mul inv s d' b) -> used_well one mul inv s d (a ++ b).
Proof.
  induction a as [|x a IH]; intros d Ha Hb; [apply Hb; reflexivity|]. destruct Ha as [H1 H2]. split; [exact H1|]. intros d1 E1. apply IH; [apply H2; exact E1|].
  intros d' E'. apply Hb. cbn [foldM]. rewrite E1. exact E'.
Qed.

(** Whether frame [k] exists without a view. *)
Definition free_b (d : vdata Z nat) (k : key) : bool :=
  match sm_map (d_frames d) !! k with Some fr => match f_view fr with None => true | _ => false end | None => false end.

Lemma free_b_spec d k : data_ok d -> free_b d k = true -> free_frame d k.
Proof.
  intros Hd. unfold free_b. destruct (sm_map (d_frames d) !! k) as [fr|] eqn:E; [|discriminate]. destruct (f_view fr) eqn:Ev; [discriminate|]. intros _.
  split; [exists fr; exact E|]. intros r v H. apply (ok_links _ Hd k fr E) in H. congruence.
Qed.

Lemma demo_six_used s d : used_well 0%Z Z.add Z.opp s d (OpAddFeed :: replicate 6 (demo_frame demo_e)).
Proof. apply demo_used_well. Qed.

Definition demo_start_a : op Z nat := OpAddReconstruction demo_e 0 1 2 1%Z 2%Z [(0, 0, 0)] [(1, 1)] [(2, 2)].
Definition demo_start_b : op Z nat := OpAddReconstruction demo_e 3 4 5 1%Z 2%Z [(0, 0, 0)] [(1, 1)] [(2, 2)].

Lemma demo_start_allowed d a b c : data_ok d -> a <> b -> a <> c -> b <> c -> free_b d a && free_b d b && free_b d c = true ->
  op_allowed d (OpAddReconstruction demo_e a b c 1%Z 2%Z [(0, 0, 0)] [(1, 1)] [(2, 2)]).
Proof.
  intros Hd H1 H2 H3 Hf. apply andb_true_iff in Hf as [Hf Hc]. apply andb_true_iff in Hf as [Ha Hb]. split; [intros e [= <-]; apply demo_env_ok|].
  split; [exact H1|]. split; [exact H2|]. split; [exact H3|]. split; [apply free_b_spec; auto|]. split; [apply free_b_spec; auto|]. split; [apply free_b_spec; auto|].
  split; intros x f f' Hx Hy; cbn in Hx, Hy; set_solver.
Qed.

Lemma demo_two_used : used_well 0%Z Z.add Z.opp (demo_settings 0 1) vdata_init demo_two.
Proof.
  change demo_two with ((OpAddFeed :: replicate 6 (demo_frame demo_e)) ++ [demo_start_a] ++ [demo_start_b]).
  assert (is_ok (demo_run (demo_settings 0 1) (OpAddFeed :: replicate 6 (demo_frame demo_e))) = true) as E0 by (vm_compute; reflexivity).
  apply is_ok_get in E0. set (d0 := get (demo_run (demo_settings 0 1) (OpAddFeed :: replicate 6 (demo_frame demo_e)))) in *.
  assert (data_ok d0) as H0 by (eapply history_ok; [apply demo_six_used|exact E0]).
  assert (op_allowed d0 demo_start_a) as Ha by (apply demo_start_allowed; [exact H0|lia..|vm_compute; reflexivity]).
  assert (is_ok (step 0%Z Z.add Z.opp (demo_settings 0 1) d0 demo_start_a) = true) as E1 by (vm_compute; reflexivity).
  apply is_ok_get in E1. set (d1 := get (step 0%Z Z.add Z.opp (demo_settings 0 1) d0 demo_start_a)) in *.
  assert (data_ok d1) as H1 by (eapply step_consistent; [exact H0|exact Ha|exact E1]).
  apply used_well_app; [apply demo_six_used|]. intros d0' E0'. assert (d0' = d0) as -> by (unfold demo_run, run in E0; congruence).
  split; [exact Ha|]. intros d1' E1'. assert (d1' = d1) as -> by congruence.
  split; [|intros ? _; exact I]. apply demo_start_allowed; [exact H1|lia..|vm_compute; reflexivity].
Qed.

Lemma demo_merge_ready : exists src dest,
  data_ok demo_two_data /\ has_recon demo_two_data 1 src /\ has_recon demo_two_data 0 dest /\
  injective demo_lmap /\ targets_live demo_lmap dest /\ sm_size (r_views src) = 3 /\ sm_size (r_views dest) = 3.
Proof.
  exists (get_recon demo_two_data 1), (get_recon demo_two_data 0).
  split; [eapply history_ok; [apply demo_two_used|apply is_ok_get; vm_compute; reflexivity]|].
  split; [apply is_some_recon; vm_compute; reflexivity|]. split; [apply is_some_recon; vm_compute; reflexivity|].
  split; [intros a b l Ha Hb; unfold demo_lmap in *; apply lookup_singleton_Some in Ha as [<- _], Hb as [<- _]; reflexivity|].
  split; [|split; vm_compute; reflexivity].
  intros a l H. unfold demo_lmap in H. apply lookup_singleton_Some in H as [<- <-]. unfold has_landmark.
  assert (is_some (sm_map (r_lms (get_recon demo_two_data 0)) !! 0) = true) as Hs by (vm_compute; reflexivity). destruct (sm_map (r_lms (get_recon demo_two_data 0)) !! 0) as [m|]; [exists m; reflexivity|discriminate].
Qed.

Lemma demo_filter_ready : data_ok demo_data /\ recon_ok demo_data demo_rc /\ has_recon demo_data 0 demo_rc /\ orders_ok demo_orders /\ assigned demo_rc 5 1 1 /\ assigned demo_rc 0 1 1.
Proof.
  split; [apply demo_data_ok|]. split; [eapply ok_recons; [apply demo_data_ok|apply demo_has_recon]|]. split; [apply demo_has_recon|].
  split; [apply (eo_orders _ (demo_env_ok demo_keep))|]. split; apply assigned_b_spec; vm_compute; reflexivity.
Qed.

Lemma windows_example : exists ws, tiles ws 0 10 /\ offered_features ws = seq 0 10 /\ ws = [(0, 2); (2, 4); (4, 8); (8, 10)].
Proof. eexists. split; [|split; [|reflexivity]]; [cbn; lia|reflexivity]. Qed.

(** An environment whose registration rejects everything. *)
Definition rejecting (fuel : nat) : env Z nat :=
  let e := demo_e in
  Env (e_ord e) (e_similar e) (e_knn e) (e_two_view e) (e_three_view e) (fun _ _ _ _ => None) (e_robust e) (e_bi_robust e)
      (e_disagree e) (e_too_few e) (e_optimize3 e) (e_sort e) (e_update e) (e_second_worse e) (e_rescale e) fuel.

Lemma rejecting_ok fuel : env_ok (rejecting fuel).
Proof. destruct (demo_env_ok demo_keep) as [H1 H2 H3 H4 H5]. split; auto. Qed.

Lemma empty_window_diverges : exists (s : settings) (d : vdata Z nat) (r k : key) (views : list key) (e : nat -> env Z nat),
  data_ok d /\ (forall fuel, env_ok (e fuel) /\ e_fuel (e fuel) = fuel) /\
  forall fuel, register_frame (e fuel) s d r k views = Fuel.
Proof.
  exists (Settings 8 0 0 8 10 0 10 1 4 1 1 1), demo_data, 0, 5, [0], rejecting. split; [apply demo_data_ok|]. split; [intros fuel; split; [apply rejecting_ok|reflexivity]|].
  intros fuel. unfold register_frame. assert (exists fr, sm_get (d_frames demo_data) 5 = Some fr /\ length (f_feats fr) = 3) as (fr & Ef & El).
  { assert (length ∘ f_feats <$> sm_get (d_frames demo_data) 5 = Some 3) as H by (vm_compute; reflexivity). apply fmap_Some in H as (fr & Hf & E). exists fr. split; [exact Hf|symmetry; exact E]. }
  rewrite Ef. cbn [unwrap bind]. rewrite El. apply windows_stuck; [lia|].
  unfold register_subset. unfold sm_get in *. rewrite demo_has_recon, Ef. reflexivity.
Qed.

Lemma demo_search : exists recs free,
  find_frames demo_data [0; 5; 3] 5 8 2 2 = Ok (recs, free) /\ recs !! 0 = Some [4; 1; 3] /\ free = [].
Proof.
  assert (match find_frames demo_data [0; 5; 3] 5 8 2 2 with Ok (recs, free) => (recs !! 0, free) | _ => (None, []) end = (Some [4; 1; 3], [])) as H by (vm_compute; reflexivity).
  destruct (find_frames demo_data [0; 5; 3] 5 8 2 2) as [[recs free]| |]; [|discriminate..]. injection H as H1 H2. eauto.
Qed.
