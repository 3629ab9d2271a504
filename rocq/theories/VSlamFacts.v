(** Facts about VSlam.v: the program on images is the program on their features. *)
From stdpp Require Import gmap list.
From Coq Require Import Reals ZArith Sorted Lia Lra.
From Verif Require Import Outcome OutcomeFacts Num Lin LinSpec Core CoreSpec Gray GraySpec Diffuse Akaze AkazeSpec Bicubic BicubicSpec Pinhole Frame FrameSpec FrameFacts Sfm SfmSpec SfmUse SfmPose SfmGeom SfmGeomSpec SfmGeomReg
  SfmExport Sandbox SandboxSpec SandboxFacts VSlam VSlamSpec.
Open Scope nat_scope.

Lemma ok_inj {X} (x y : X) : Ok x = Ok y -> x = y. Proof. intros [= ->]. reflexivity. Qed.

Section any.
Context (P : widths) (M32 : math (single P)) (M64 : math (double P)) (A : angles (single P)) (K : casts (single P)) (T : trig (double P)).
Context (exp2 : double P -> double P) (fed : double P -> outcome (list (double P))).
Context (luma : single P * single P * single P -> single P) (lumaa : single P * single P * single P * single P -> single P).
Context (float_ord : single P -> single P -> bool) (sort : forall T : Type, (T -> T -> bool) -> list T -> list T).
Context (k : intrinsics (double P)) (k1 : double P).
Notation features := (photo_features P M32 M64 A K exp2 fed luma lumaa float_ord sort k k1).
Notation add := (add_photo P M32 M64 A K T exp2 fed luma lumaa float_ord sort k k1).
Notation program := (mapping P M32 M64 A K T exp2 fed luma lumaa float_ord sort k k1).

Lemma fold_features v opt feed photos : forall fss ss, Forall2 (fun p fs => features v p = Ok fs) photos fss ->
  foldM (add v opt feed) photos ss = foldM (add_picture T (described_colour P) (tracking_of v) opt feed) (zip_with (picture_of P v) photos fss) ss.
Proof.
  induction photos as [|p photos IH]; intros fss ss H; inversion H as [|? fs ? fss' Hp Hr]; subst; [reflexivity|].
  cbn [foldM zip_with]. unfold add_photo at 1. rewrite Hp. cbn [bind]. destruct (add_picture _ _ _ _ _ _ _) as [ss'| |]; cbn [bind]; [apply IH, Hr|reflexivity|reflexivity].
Qed.
Lemma program_features opt file loaded photos fss : Forall2 (fun p fs => features (default vslam_default file) p = Ok fs) photos fss ->
  program opt file loaded photos = session_of T (described_colour P) (tracking_of (default vslam_default file)) opt (geometry_of (default vslam_default file)) loaded
    (zip_with (picture_of P (default vslam_default file)) photos fss).
Proof. intros H. unfold mapping, session_of. destruct (add_feed _) as [d feed]. apply fold_features, H. Qed.
(** What is never read. *)
Lemma program_unused opt (v : vslam_settings (double P)) loaded photos a b :
  let v' := set_two_view a b v in
  vs_two_view_optimization_maximum_matches v' = a /\ vs_two_view_patience v' = b /\ program opt (Some v') loaded photos = program opt (Some v) loaded photos.
Proof. destruct v. split; [reflexivity|]. split; reflexivity. Qed.
End any.

Section reals.
Context (nearest : rmat3 -> rmat3) (eps : R) (checks : bool).
Notation T := (real_trig nearest eps).
Context (A : angles RNum) (luma : R * R * R -> R) (lumaa : R * R * R * R -> R) (float_ord : R -> R -> bool) (sort : forall T : Type, (T -> T -> bool) -> list T -> list T).
Context (k : intrinsics RNum) (k1 : R).
Notation features fuel := (photo_features Rwidths Rmath Rmath A Rcasts Rexp2 (fed_quarter checks fuel) luma lumaa float_ord sort k k1).
Notation program fuel := (mapping Rwidths Rmath Rmath A Rcasts T Rexp2 (fed_quarter checks fuel) luma lumaa float_ord sort k k1).
Hypothesis Hsort : forall T, sorts (sort T).
Hypothesis Htotal : forall a b, float_ord a b = true \/ float_ord b a = true.
Hypothesis Htrans : forall a b c, float_ord a b = true -> float_ord b c = true -> float_ord a c = true.

Lemma photo_returns v p : loadable p -> exists fuel0, forall fuel, fuel0 <= fuel -> exists fs, features fuel v p = Ok fs /\ proper_features float_ord (vs_tracking_features v) fs.
Proof.
  intros [(w & h & E & Hw & Hh) Hu].
  destruct (frame_returns checks (vs_tracking_features v) (vs_akaze_threshold v) k k1 luma lumaa A float_ord sort (ph_gray Rwidths p) (ph_rgb Rwidths p) w h E Hw Hh Hu Hsort) as (f0 & H).
  exists f0. intros fuel Hf. destruct (H fuel Hf) as (fs & Efs & Hfs). exists fs. split; [exact Efs|].
  destruct (frame_features Rwidths Rmath Rmath A Rcasts Rexp2 (fed_quarter checks fuel) luma lumaa float_ord sort (vs_tracking_features v) (vs_akaze_threshold v) k k1 (ph_gray Rwidths p) (ph_rgb Rwidths p) fs Hsort Htotal Htrans Efs)
    as (kps & ds & u & _ & _ & _ & L & _ & S & _).
  split; [|split; [exact L|exact S]]. apply Forall_forall. intros [d f] Hx. apply elem_of_list_In in Hx. exact (Hfs d f Hx).
Qed.
Lemma photos_return v photos : Forall loadable photos -> exists fuel0, forall fuel, fuel0 <= fuel -> exists fss, Forall2 (fun p fs => features fuel v p = Ok fs /\ proper_features float_ord (vs_tracking_features v) fs) photos fss.
Proof.
  induction 1 as [|p photos Hp _ (f1 & IH)]; [exists 0; intros; exists []; constructor|].
  destruct (photo_returns v p Hp) as (f2 & H2). exists (Nat.max f1 f2). intros fuel Hf. destruct (IH fuel ltac:(lia)) as (fss & Hfss). destruct (H2 fuel ltac:(lia)) as (fs & Hfs). exists (fs :: fss). constructor; assumption.
Qed.

Lemma update_never_fails st G o similar knn sorted fuel : update_total (geometric T st G o similar knn sorted fuel : env riso described).
Proof.
  intros p es. cbn [e_update geometric]. unfold pose_update. cbv zeta. destruct (forallb _ _) eqn:E; [intros H; discriminate H|]. exfalso.
  match type of E with forallb ?f ?l = false => assert (forallb f l = true) as E' by (apply forallb_forall; reflexivity) end. rewrite E' in E. discriminate E.
Qed.

Lemma photo_env_ok v n p fs : routines_ok n p -> env_ok (picture_env T (geometry_of v) (picture_of Rwidths v p fs)).
Proof.
  intros [H1 H2 H3 H4 H5 _]. apply geometric_ok; [|exact H2|exact H3|exact H4|exact H5].
  destruct (H1 (vs_single_view_consensus_threshold v) (vs_two_view_consensus_threshold v)) as [A1 A2 A3]. split; [exact A1|exact A2|exact A3].
Qed.

Lemma program_runs opt file loaded photos : let v := default vslam_default file in let d0 := default vdata_init loaded in
  0 < vs_single_view_initial_features v -> data_ok d0 -> Forall loadable photos ->
  Forall (routines_ok (vs_tracking_features v)) photos -> (forall p kf fr, p ∈ photos -> has_frame d0 kf fr -> 3 <= length (f_feats fr) < ph_fuel Rwidths p) ->
  exists fuel0, forall fuel, fuel0 <= fuel -> (forall p fs, p ∈ photos -> features fuel v p = Ok fs -> 3 <= length fs) ->
  exists fss ss, Forall2 (fun p fs => features fuel v p = Ok fs /\ proper_features float_ord (vs_tracking_features v) fs) photos fss /\
    program fuel opt file loaded photos = Ok ss /\ data_ok (ss_data ss) /\ ss_settings ss = geometry_of v /\
    (forall kf, f_feats <$> sm_map (d_frames (ss_data ss)) !! kf = if decide (kf < sm_next (d_frames d0)) then f_feats <$> sm_map (d_frames d0) !! kf else fss !! (kf - sm_next (d_frames d0))) /\
    let ps := zip_with (picture_of Rwidths v) photos fss in
    (forall q x, q ∈ ps -> t_bearing (p_tools q) x = f_bearing x.2) /\
    session_of T (fun x => f_color x.2) (tracking_of v) opt (geometry_of v) loaded ps = Ok ss /\
    orderly (fun x => f_color x.2) opt (geometry_of v) d0 ps (ss_events ss) /\ last_written opt d0 ps ss.
Proof.
  intros v d0 Hv Hd Hl Hr Hf. destruct (photos_return v photos Hl) as (f0 & H0). exists f0. intros fuel Hfuel H3. destruct (H0 fuel Hfuel) as (fss & Hfss).
  assert (Forall2 (fun p fs => features fuel v p = Ok fs) photos fss) as Hfs by (eapply Forall2_impl; [exact Hfss|]; intros ? ? [H _]; exact H).
  assert (Hzip : forall q, q ∈ zip_with (picture_of Rwidths v) photos fss -> exists p fs, p ∈ photos /\ q = picture_of Rwidths v p fs /\ features fuel v p = Ok fs /\ length fs <= vs_tracking_features v).
  { intros q Hq. apply elem_of_list_lookup in Hq as (i & Hi). apply lookup_zip_with_Some in Hi as (p & fs & -> & Hp & Hfs'). destruct (Forall2_lookup_lr _ _ _ _ _ _ Hfss Hp Hfs') as [E (_ & L & _)].
    exists p, fs. split; [eapply elem_of_list_lookup_2, Hp|]. auto. }
  assert (Hpo : pictures_ok T (tracking_of v) (geometry_of v) d0 (zip_with (picture_of Rwidths v) photos fss)).
  { rewrite Forall_forall in Hr. split.
    - intros q Hq. destruct (Hzip q Hq) as (p & fs & Hp & -> & _). apply photo_env_ok with (n := vs_tracking_features v), Hr, Hp.
    - intros q q' Hq Hq'. destruct (Hzip q Hq) as (p & fs & Hp & -> & _). destruct (Hzip q' Hq') as (p' & fs' & Hp' & -> & E' & L'). cbn [p_features p_fuel picture_of]. split; [exact (H3 p' fs' Hp' E')|]. pose proof (ro_fuel _ _ (Hr p Hp)). lia.
    - intros q kf fr Hq Hfr. destruct (Hzip q Hq) as (p & fs & Hp & -> & _). exact (Hf p kf fr Hp Hfr).
    - exact Hv.
    - intros q Hq. destruct (Hzip q Hq) as (p & fs & Hp & -> & _). right. apply update_never_fails. }
  destruct (session_runs T (described_colour Rwidths) (tracking_of v) opt (geometry_of v) loaded _ Hd Hpo) as (ss & E & K1 & K2 & K3 & K4 & K5).
  exists fss, ss. split; [exact Hfss|]. split; [etransitivity; [exact (program_features Rwidths Rmath Rmath A Rcasts T Rexp2 (fed_quarter checks fuel) luma lumaa float_ord sort k k1 opt file loaded photos fss Hfs)|exact E]|].
  split; [exact K1|]. split; [exact K2|]. split; [|split; [intros q x Hq; destruct (Hzip q Hq) as (p & fs & _ & -> & _); reflexivity|split; [exact E|split; [exact K4|exact K5]]]].
  intros kf. rewrite K3. case_decide as Hk; case_decide as Hk'; [reflexivity|exfalso; exact (Hk' Hk)|exfalso; exact (Hk Hk')|]. subst d0. clear -Hfs. revert Hfs. match goal with |- context [fss !! ?x] => change (Forall2 (fun p fs => features fuel v p = Ok fs) photos fss -> p_features <$> zip_with (picture_of Rwidths v) photos fss !! x = fss !! x); generalize x end. intros i H. revert i.
  induction H as [|p fs photos fss _ _ IH]; intros i; [destruct i; reflexivity|]. destruct i as [|i]; [reflexivity|]. apply IH.
Qed.

(** Either some image has fewer than three features, or the program runs through. *)
Lemma program_runs_or opt file loaded photos : let v := default vslam_default file in let d0 := default vdata_init loaded in
  0 < vs_single_view_initial_features v -> data_ok d0 -> Forall loadable photos ->
  Forall (routines_ok (vs_tracking_features v)) photos -> (forall p kf fr, p ∈ photos -> has_frame d0 kf fr -> 3 <= length (f_feats fr) < ph_fuel Rwidths p) ->
  exists fuel0, forall fuel, fuel0 <= fuel ->
  exists fss, Forall2 (fun p fs => features fuel v p = Ok fs /\ proper_features float_ord (vs_tracking_features v) fs) photos fss /\
  ((exists fs, fs ∈ fss /\ length fs < 3) \/
   exists ss, program fuel opt file loaded photos = Ok ss /\ data_ok (ss_data ss) /\ ss_settings ss = geometry_of v /\
    (forall kf, f_feats <$> sm_map (d_frames (ss_data ss)) !! kf = if decide (kf < sm_next (d_frames d0)) then f_feats <$> sm_map (d_frames d0) !! kf else fss !! (kf - sm_next (d_frames d0))) /\
    let ps := zip_with (picture_of Rwidths v) photos fss in
    (forall q x, q ∈ ps -> t_bearing (p_tools q) x = f_bearing x.2) /\
    session_of T (fun x => f_color x.2) (tracking_of v) opt (geometry_of v) loaded ps = Ok ss /\
    orderly (fun x => f_color x.2) opt (geometry_of v) d0 ps (ss_events ss) /\ last_written opt d0 ps ss).
Proof.
  intros v d0 Hv Hd Hl Hr Hf. destruct (program_runs opt file loaded photos Hv Hd Hl Hr Hf) as (f1 & H1). destruct (photos_return v photos Hl) as (f2 & H2).
  exists (Nat.max f1 f2). intros fuel Hfuel. destruct (H2 fuel ltac:(lia)) as (fss & Hfss). exists fss. split; [exact Hfss|].
  destruct (decide (Exists (fun fs => length fs < 3) fss)) as [E|E]; [left; apply Exists_exists in E; exact E|]. right.
  assert (Hlen : forall fs, fs ∈ fss -> 3 <= length fs). { intros fs Hfs. destruct (decide (length fs < 3)) as [Hs|Hs]; [|lia]. exfalso. apply E, Exists_exists. eauto. }
  destruct (H1 fuel ltac:(lia)) as (fss' & ss & Hfss' & H).
  { intros p fs Hp E'. apply elem_of_list_lookup in Hp as (i & Hi). destruct (Forall2_lookup_l _ _ _ _ _ Hfss Hi) as (fs' & Hfs' & E'' & _). assert (fs = fs') as -> by exact (ok_inj _ _ (eq_trans (eq_sym E') E'')). apply Hlen. eapply elem_of_list_lookup_2, Hfs'. }
  assert (fss' = fss) as ->.
  { clear -Hfss Hfss'. revert fss' Hfss'. induction Hfss as [|p fs photos fss [E _] _ IH]; intros fss' H'; inversion H' as [|? fs' ? fss'' [E' _] Hr]; subst; [reflexivity|]. f_equal; [exact (ok_inj _ _ (eq_trans (eq_sym E') E))|]. apply IH, Hr. }
  exists ss. exact H.
Qed.

(** An image that cannot be worked on ends the program. *)
Lemma program_panics opt file loaded photos p after : let v := default vslam_default file in let d0 := default vdata_init loaded in
  0 < vs_single_view_initial_features v -> data_ok d0 -> Forall loadable photos ->
  Forall (routines_ok (vs_tracking_features v)) photos -> (forall p kf fr, p ∈ photos -> has_frame d0 kf fr -> 3 <= length (f_feats fr) < ph_fuel Rwidths p) ->
  (sides (ph_gray Rwidths p) = None \/ exists w h, sides (ph_gray Rwidths p) = Some (w, h) /\ (w < 40 \/ h < 40)) ->
  exists fuel0, forall fuel, fuel0 <= fuel -> (forall p fs, p ∈ photos -> features fuel v p = Ok fs -> 3 <= length fs) ->
  program fuel opt file loaded (photos ++ p :: after) = Panic.
Proof.
  intros v d0 Hv Hd Hl Hr Hf Hbad. destruct (program_runs opt file loaded photos Hv Hd Hl Hr Hf) as (f0 & H0). exists f0. intros fuel Hfuel H3.
  destruct (H0 fuel Hfuel H3) as (_ & ss & _ & E & _). unfold mapping in *. destruct (add_feed _) as [d feed]. rewrite foldM_app. refine (eq_trans (f_equal (fun o => bind o _) E) _). cbn [bind foldM].
  unfold add_photo at 1. refine (f_equal (fun o => bind (bind o _) _) (frame_panics (vs_tracking_features v) (vs_akaze_threshold v) k k1 luma lumaa A (fed_quarter checks fuel) float_ord sort (ph_gray Rwidths p) (ph_rgb Rwidths p) Hbad)).
Qed.
End reals.

(** The settings by name (C77). *)
Lemma settings_used :
  forall (P : widths) (M32 : math (single P)) (M64 : math (double P)) (A : angles (single P)) (K : casts (single P)) exp2 fed luma lumaa float_ord sort k k1
    (v : vslam_settings (double P)) (p : photo P),
    tracking_similar_frames (tracking_of v) = vs_tracking_similar_frames v /\
    tracking_recent_frames (tracking_of v) = vs_tracking_recent_frames v /\
    tracking_similar_frame_recent_threshold (tracking_of v) = vs_tracking_similar_frame_recent_threshold v /\
    tracking_similar_frame_search_num (tracking_of v) = vs_tracking_similar_frame_search_num v /\
    two_view_match_better_by (tracking_of v) = vs_two_view_match_better_by v /\
    single_view_initial_features (tracking_of v) = vs_single_view_initial_features v /\
    single_view_match_better_by (tracking_of v) = vs_single_view_match_better_by v /\
    optimization_robust_covisibility_minimum_landmarks (tracking_of v) = vs_optimization_robust_covisibility_minimum_landmarks v /\
    optimization_maximum_three_view_constraints (tracking_of v) = vs_optimization_maximum_three_view_constraints v /\
    optimization_minimum_new_constraints (tracking_of v) = vs_optimization_minimum_new_constraints v /\
    optimization_iterations (tracking_of v) = vs_optimization_iterations v /\
    reconstruction_optimization_iterations (tracking_of v) = vs_reconstruction_optimization_iterations v /\
    maximum_cosine_distance (geometry_of v) = vs_maximum_cosine_distance v /\
    maximum_sine_distance (geometry_of v) = vs_maximum_sine_distance v /\
    robust_view_bearing_pair_minimum_cosine_distance (geometry_of v) = vs_robust_view_bearing_pair_minimum_cosine_distance v /\
    robust_view_num_robust_bearing_pair (geometry_of v) = vs_robust_view_num_robust_bearing_pair v /\
    minimum_robust_landmarks (geometry_of v) = vs_minimum_robust_landmarks v /\
    robust_minimum_observations (geometry_of v) = vs_robust_minimum_observations v /\
    robust_observation_incidence_minimum_cosine_distance (geometry_of v) = vs_robust_observation_incidence_minimum_cosine_distance v /\
    single_view_optimization_num_matches (geometry_of v) = vs_single_view_optimization_num_matches v /\
    single_view_filter_loop_iterations (geometry_of v) = vs_single_view_filter_loop_iterations v /\
    single_view_patience (geometry_of v) = vs_single_view_patience v /\
    single_view_optimization_rate (geometry_of v) = vs_single_view_optimization_rate v /\
    single_view_minimum_landmarks (geometry_of v) = vs_single_view_minimum_landmarks v /\
    single_view_minimum_robust_landmarks (geometry_of v) = vs_single_view_minimum_robust_landmarks v /\
    two_view_minimum_robust_matches (geometry_of v) = vs_two_view_minimum_robust_matches v /\
    three_view_patience (geometry_of v) = vs_three_view_patience v /\
    three_view_minimum_relative_scales (geometry_of v) = vs_three_view_minimum_relative_scales v /\
    three_view_filter_loop_iterations (geometry_of v) = vs_three_view_filter_loop_iterations v /\
    three_view_optimization_landmarks (geometry_of v) = vs_three_view_optimization_landmarks v /\
    three_view_minimum_robust_matches (geometry_of v) = vs_three_view_minimum_robust_matches v /\
    optimization_minimum_landmarks (geometry_of v) = vs_optimization_minimum_landmarks v /\
    optimization_maximum_landmarks (geometry_of v) = vs_optimization_maximum_landmarks v /\
    constraint_patience (geometry_of v) = vs_constraint_patience v /\
    graph_optimization_rate (geometry_of v) = vs_graph_optimization_rate v /\
    t_single_view (photo_tools P v p) = t_single_view (ph_tools P p (vs_single_view_consensus_threshold v) (vs_two_view_consensus_threshold v)) /\
    t_two_view (photo_tools P v p) = t_two_view (ph_tools P p (vs_single_view_consensus_threshold v) (vs_two_view_consensus_threshold v)) /\
    t_triangulate (photo_tools P v p) = t_triangulate (ph_tools P p (vs_single_view_consensus_threshold v) (vs_two_view_consensus_threshold v)) /\
    photo_features P M32 M64 A K exp2 fed luma lumaa float_ord sort k k1 v p =
      kps_descriptors P M32 M64 A K exp2 fed luma lumaa float_ord sort (vs_tracking_features v) (vs_akaze_threshold v) k k1 (ph_gray P p) (ph_rgb P p).
Proof. intros. repeat split. Qed.
