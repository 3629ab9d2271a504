(** What a constraint recorded for three views demands (C67). *)
From stdpp Require Import gmap list.
From Coq Require Import Reals Lra Lia.
From Verif Require Import Outcome OutcomeFacts Num Lin LinSpec LinFacts Core CoreSpec CoreFacts Geom GeomSpec GeomFacts Optimize OptimizeSpec OptimizeFacts Sfm SfmSpec SfmEffects SfmData SfmThms SfmPose SfmPoseSpec SfmPoseFacts.
From Verif Require Import SfmGeom SfmGeomSpec SfmGeomFacts SfmGeomRigid SfmGeomReg SfmGeomThms SfmGeomStart SfmGeomStartExact SfmTruthSpec.
Open Scope nat_scope.

Section demand.
Context {F : Type} (nearest : rmat3 -> rmat3) (eps : R) (st : gsettings RNum) (G : tools RNum F).
Implicit Types (rc : recon riso) (d : vdata riso F).
Notation T := (real_trig nearest eps).
Notation bo := (t_bearing G).

Lemma landmark_bearing_spec d rc l v (b : rvec3) : recon_ok d rc -> landmark_bearing G d rc l v = Some b <-> exists f p, assigned rc v f l /\ observed bo d rc (v, f) p /\ b = p.2.
Proof.
  intros Hok. unfold landmark_bearing, sm_get. split.
  - destruct (sm_map (r_lms rc) !! l) as [m|] eqn:El; [|congruence]. destruct (m !! v) as [f|] eqn:Ev; [|congruence]. intros Hb. assert (assigned rc v f l) as Ha by (apply (ok_mirrored _ _ Hok); exists m; auto).
    destruct (assigned_observed G d rc v f l (ok_entries _ _ Hok) Ha) as [p Hp]. exists f, p. split; [exact Ha|]. split; [exact Hp|]. destruct Hp as (w & fr & x & Hw & Hfr & Hx & ->). cbn [fst snd] in *.
    unfold observation_bearing, frame_bearing, sm_get in Hb. unfold has_view in Hw. unfold has_frame in Hfr. rewrite Hw, Hfr, Hx in Hb. cbn in Hb. congruence.
  - intros (f & p & Ha & (w & fr & x & Hw & Hfr & Hx & ->) & ->). apply (ok_mirrored _ _ Hok) in Ha as (m & Hm & Hv). unfold has_landmark in Hm. rewrite Hm, Hv. cbn [fst snd] in *.
    unfold observation_bearing, frame_bearing, sm_get. unfold has_view in Hw. unfold has_frame in Hfr. rewrite Hw, Hfr, Hx. reflexivity.
Qed.
Lemma landmark_bearings_spec d rc x y z l b : recon_ok d rc -> landmark_bearings G d rc (x, y, z) l = Some b <-> seen_by_three bo d rc x y z l b.
Proof.
  intros Hok. unfold landmark_bearings, seen_by_three. cbn [fst snd]. split.
  - destruct (landmark_bearing G d rc l x) as [bx|] eqn:Ex; [|congruence]. destruct (landmark_bearing G d rc l y) as [by_|] eqn:Ey; [|congruence]. destruct (landmark_bearing G d rc l z) as [bz|] eqn:Ez; [|congruence].
    apply (landmark_bearing_spec _ _ _ _ _ Hok) in Ex as (f & p & A1 & A2 & ->), Ey as (g & q & B1 & B2 & ->), Ez as (h & r & C1 & C2 & ->). intros H. exists f, g, h, p, q, r. assert (b = (p.2, q.2, r.2)) by congruence. auto 10.
  - intros (f & g & h & p & q & r & A1 & B1 & C1 & A2 & B2 & C2 & ->).
    rewrite (proj2 (landmark_bearing_spec d rc l x p.2 Hok)) by eauto. rewrite (proj2 (landmark_bearing_spec d rc l y q.2 Hok)) by eauto. rewrite (proj2 (landmark_bearing_spec d rc l z r.2 Hok)) by eauto. reflexivity.
Qed.
Lemma omap_total {A B} (g : A -> option B) (R : A -> B -> Prop) l : (forall a, a ∈ l -> exists b, g a = Some b /\ R a b) -> Forall2 R l (omap g l).
Proof. induction l as [|a l IH]; intros H; [constructor|]. cbn. destruct (H a) as (b & -> & Hb); [left|]. constructor; [exact Hb|]. apply IH. intros a' Ha'. apply H. right. exact Ha'. Qed.
Lemma reach_scale (p q : riso) (s : R) : (0 <= s)%R -> reach (pose_scale p s, pose_scale q s) = (s * reach (p, q))%R.
Proof.
  intros Hs. unfold reach, pose_scale. cbn [fst snd trans]. rewrite !norm_scale, (Rabs_pos_eq s Hs). rnum. ring.
Qed.
Lemma reach_pos (ps : riso * riso) : (0 <= reach ps)%R.
Proof. unfold reach. pose proof (norm_nonneg (trans ps.1)). pose proof (norm_nonneg (trans ps.2)). apply Rplus_le_le_0_compat; assumption. Qed.
Lemma reach_zero (ps : riso * riso) : reach ps = 0%R -> trans ps.1 = vzero /\ trans ps.2 = vzero.
Proof.
  intros H. unfold reach in H. pose proof (norm_nonneg (trans ps.1)) as H1. pose proof (norm_nonneg (trans ps.2)) as H2. revert H H1 H2. generalize (norm_zero (trans ps.1)) (norm_zero (trans ps.2)). generalize (norm (trans ps.1)) (norm (trans ps.2)). intros a b Ha Hb H H1 H2.
  change (a + b = 0)%R in H. change (0 <= a)%R in H1. change (0 <= b)%R in H2. split; [apply Ha|apply Hb]; rnum; lra.
Qed.
Lemma scale_still (p : riso) (s : R) : trans p = vzero -> pose_scale p s = p.
Proof. intros H. destruct p as [A t]. cbn in H. subst t. unfold pose_scale. lin. Qed.

Lemma used_choice d rc x y z ls : tools_ok G -> recon_ok d rc -> NoDup ls ->
  (forall l, l ∈ ls -> (exists f, assigned rc x f l) /\ (exists f, assigned rc y f l) /\ exists f, assigned rc z f l) ->
  exists used, most_seen rc (optimization_maximum_landmarks st) ls used /\ Forall2 (seen_by_three bo d rc x y z) used (opti_matches st G d rc (x, y, z) ls).
Proof.
  intros HG Hok Hnd Hls. set (sorted := sort_most (observation_count rc) (shuffled G [x; y; z] ls)). assert (sorted ≡ₚ ls) as Hperm by (unfold sorted; rewrite sort_most_perm; apply shuffled_perm, HG).
  assert (Forall2 (seen_by_three bo d rc x y z) sorted (omap (landmark_bearings G d rc (x, y, z)) sorted)) as Hall.
  { apply omap_total. intros l Hl. rewrite Hperm in Hl. destruct (Hls l Hl) as ((f & Hf) & (g & Hg) & (h & Hh)).
    destruct (assigned_observed G d rc x f l (ok_entries _ _ Hok) Hf) as [p Hp]. destruct (assigned_observed G d rc y g l (ok_entries _ _ Hok) Hg) as [q Hq]. destruct (assigned_observed G d rc z h l (ok_entries _ _ Hok) Hh) as [r Hr].
    assert (seen_by_three bo d rc x y z l (p.2, q.2, r.2)) as Hs by (exists f, g, h, p, q, r; auto 10). exists (p.2, q.2, r.2). split; [apply landmark_bearings_spec; assumption|exact Hs]. }
  apply (Forall2_take _ _ _ (optimization_maximum_landmarks st)) in Hall. exists (take (optimization_maximum_landmarks st) sorted). split; [|exact Hall].
  assert (NoDup sorted) as Hns by (rewrite Hperm; exact Hnd). split.
  - apply NoDup_take', Hns.
  - intros l Hl. rewrite <- Hperm. apply elem_of_take in Hl as (i & Hi & _). eapply elem_of_list_lookup_2, Hi.
  - rewrite take_length, Hperm. reflexivity.
  - intros l l' m m' Hl Hl' Hn Hm Hm'. apply elem_of_take in Hl as (i & Hi & Hlt). rewrite <- Hperm in Hl'. apply elem_of_list_lookup in Hl' as [j Hj].
    assert (i < j) as Hij. { destruct (decide (i < j)) as [L|L]; [exact L|]. exfalso. apply Hn. apply elem_of_take. exists j. split; [exact Hj|lia]. }
    pose proof (sort_most_descending (observation_count rc) (shuffled G [x; y; z] ls) i j l l' Hij Hi Hj) as H. unfold observation_count, sm_get in H. unfold has_landmark in Hm, Hm'. rewrite Hm, Hm' in H. exact H.
Qed.
Lemma apart_spec a b : apart st a b = true <-> far_apart (robust_view_bearing_pair_minimum_cosine_distance st) a b.
Proof.
  unfold apart, far_apart. assert (forall a b : R, (a <? b)%num = true <-> (a < b)%R) as Hlt by (intros a0 b0; apply (Rltb_spec a0 b0)). rewrite !andb_true_iff. split.
  - intros [[H1 H2] H3]. apply Hlt in H1, H2, H3. auto.
  - intros (H1 & H2 & H3). split; [split|]; apply Hlt; assumption.
Qed.
Lemma robust_pairs_spec (bs : list (three_bearings (N := RNum))) : exists far, far_pairs (robust_view_bearing_pair_minimum_cosine_distance st) bs far /\ length far = robust_pairs st bs /\
  forall far', far_pairs (robust_view_bearing_pair_minimum_cosine_distance st) bs far' -> length far' <= robust_pairs st bs.
Proof.
  set (ap := fun ij : nat * nat => match bs !! ij.1, bs !! ij.2 with Some a, Some b => apart st a b | _, _ => false end).
  assert (Forall2 (fun i b => bs !! i = Some b) (seq 0 (length bs)) bs) as Hseq.
  { apply Forall2_same_length_lookup_2; [rewrite seq_length; reflexivity|]. intros i a b Ha Hb. apply lookup_seq in Ha as [-> _]. exact Hb. }
  set (far := filter (fun ij => ap ij = true) (pairs (seq 0 (length bs)))). assert (length far = robust_pairs st bs) as Hlen.
  { unfold robust_pairs. eapply Forall2_length. apply (Forall2_filter _ _ _ _ _ (Forall2_pairs _ _ _ Hseq)). intros [i j] [a b] [Ha Hb]. cbn [fst snd] in *. unfold ap. cbn [fst snd]. rewrite Ha, Hb. reflexivity. }
  exists far. split; [|split; [exact Hlen|]].
  - split; [apply NoDup_filter, NoDup_pairs, NoDup_seq|]. intros i j H. apply elem_of_list_filter in H as [H1 H2]. apply SfmGeomFacts.elem_of_pairs in H2 as (i' & j' & Hij & Hi & Hj). apply lookup_seq in Hi as [-> _]. apply lookup_seq in Hj as [-> _]. split; [lia|].
    unfold ap in H1. cbn [fst snd Nat.add] in H1. destruct (bs !! i') as [a|] eqn:Ea; [|discriminate H1]. destruct (bs !! j') as [b|] eqn:Eb; [|discriminate H1]. exists a, b. split; [exact Ea|]. split; [exact Eb|]. apply apart_spec, H1.
  - intros far' [Hnd Hfar]. rewrite <- Hlen. apply submseteq_length, NoDup_submseteq; [exact Hnd|]. intros [i j] Hij. destruct (Hfar i j Hij) as (Hlt & a & b & Ha & Hb & Hab). apply elem_of_list_filter. split.
    + assert (bs !! i = Some (a : three_bearings (N := RNum))) as Ha' by exact Ha. assert (bs !! j = Some (b : three_bearings (N := RNum))) as Hb' by exact Hb. unfold ap. cbn [fst snd]. rewrite Ha', Hb'. apply apart_spec, Hab.
    + apply SfmGeomFacts.elem_of_pairs. exists i, j. split; [exact Hlt|]. rewrite !lookup_seq_lt by (eapply lookup_lt_Some; eassumption). auto.
Qed.

Lemma demanded_thm d rc x y z ls ps : tools_ok G -> recon_ok d rc -> rigid_views rc -> NoDup ls ->
  (forall l, l ∈ ls -> (exists f, assigned rc x f l) /\ (exists f, assigned rc y f l) /\ exists f, assigned rc z f l) ->
  optimize_three_view T st G d rc (x, y, z) ls = Some ps -> demanded bo st d rc x y z ls ps.
Proof.
  intros HG Hok Hrig Hnd Hls E. pose proof (optimize_rigid nearest eps st G d rc (x, y, z) ls ps Hrig E) as [P1 P2]. split; [split; assumption| |].
  - unfold optimize_three_view in E. destruct (length ls <? _) eqn:El; [congruence|]. apply Nat.ltb_ge in El. exact El.
  - unfold optimize_three_view in E. destruct (_ <? _); [congruence|]. destruct (relative_poses rc (x, y, z)) as [current|] eqn:Ec; [|congruence]. cbv zeta in E. destruct (robust_pairs st _ <? _) eqn:Ep; [congruence|]. apply Nat.ltb_ge in Ep.
    pose proof (relative_poses_rigid rc (x, y, z) current Hrig Ec) as Hcr. destruct (used_choice d rc x y z ls HG Hok Hnd Hls) as (used & Hused & Hall). set (bs := opti_matches st G d rc (x, y, z) ls) in *.
    destruct (robust_pairs_spec bs) as (far & Hfar & Hlen & _).
    unfold relative_poses, sm_get in Ec. cbn [fst snd] in Ec. destruct (sm_map (r_views rc) !! x) as [wx|] eqn:Ex; [|congruence]. destruct (sm_map (r_views rc) !! y) as [wy|] eqn:Ey; [|congruence]. destruct (sm_map (r_views rc) !! z) as [wz|] eqn:Ez; [|congruence].
    assert (forall a b : riso * riso, Some a = Some b -> b = a) as Hinj by congruence. apply Hinj in Ec. apply Hinj in E.
    exists wx, wy, wz, used, bs, far. split; [exact Ex|]. split; [exact Ey|]. split; [exact Ez|]. cbv zeta. fold (SfmPoseSpec.relative (v_pose wy) (v_pose wx)) in Ec. fold (SfmPoseSpec.relative (v_pose wz) (v_pose wx)) in Ec. rewrite <- Ec.
    split; [exact Hused|]. split; [exact Hall|]. split; [exact Hfar|]. split; [rewrite Hlen; exact Ep|]. split.
    + rewrite E. set (qs := three_view_adaptive T current (constraint_patience st) bs). change (both_lengths current) with (reach current). change (both_lengths qs) with (reach qs).
      pose proof (reach_pos current) as Hc. pose proof (reach_pos qs) as Hq. destruct (Req_dec (reach qs) 0) as [Z|Z].
      * right. apply reach_zero in Z as [Z1 Z2]. rewrite !scale_still by assumption. unfold reach. cbn [fst snd]. rewrite Z1, Z2. assert (norm (vzero : rvec3) = 0)%R as -> by (unfold norm; assert (norm2 (vzero : rvec3) = 0)%R as -> by lin; apply sqrt_0). rnum. ring.
      * left. change (reach current / reach qs)%num with (reach current / reach qs)%R. rewrite reach_scale by (apply Rmult_le_pos; [exact Hc|left; apply Rinv_0_lt_compat; lra]). rewrite <- (surjective_pairing qs). field. exact Z.
    + intros Hag. assert (three_view_adaptive T current (constraint_patience st) bs = current) as Hp.
      { apply (three_perfect nearest eps current 0%R 0%R (constraint_patience st) bs (proj1 Hcr) (proj2 Hcr)). intros b Hb. apply Hag, elem_of_list_In, Hb. }
      rewrite Hp in E. rewrite E. change (both_lengths current) with (reach current). change (reach current / reach current)%num with (reach current / reach current)%R. destruct (Req_dec (reach current) 0) as [Z|Z].
      * apply reach_zero in Z as [Z1 Z2]. rewrite !scale_still by assumption. symmetry. apply surjective_pairing.
      * assert (reach current / reach current = 1)%R as -> by (field; exact Z). rewrite !SfmGeomStartExact.scale_one. symmetry. apply surjective_pairing.
Qed.
Lemma refused_thm d rc x y z ls wx wy wz : tools_ok G -> recon_ok d rc -> NoDup ls ->
  (forall l, l ∈ ls -> (exists f, assigned rc x f l) /\ (exists f, assigned rc y f l) /\ exists f, assigned rc z f l) ->
  has_view rc x wx -> has_view rc y wy -> has_view rc z wz ->
  optimize_three_view T st G d rc (x, y, z) ls = None -> refused bo st d rc x y z ls.
Proof.
  intros HG Hok Hnd Hls Hx Hy Hz E. unfold optimize_three_view in E. destruct (length ls <? _) eqn:El; [left; apply Nat.ltb_lt, El|right]. unfold relative_poses, sm_get in E. cbn [fst snd] in E. rewrite Hx, Hy, Hz in E. cbv zeta in E.
  destruct (robust_pairs st _ <? _) eqn:Ep; [|congruence]. apply Nat.ltb_lt in Ep. destruct (used_choice d rc x y z ls HG Hok Hnd Hls) as (used & Hused & Hall). exists used, (opti_matches st G d rc (x, y, z) ls).
  split; [exact Hused|]. split; [exact Hall|]. intros far Hfar. destruct (robust_pairs_spec (opti_matches st G d rc (x, y, z) ls)) as (_ & _ & _ & H). specialize (H far Hfar). lia.
Qed.
End demand.

(** The optimisation as an oracle of the mapping. *)
Lemma optimize_demanded (F : Type) (nearest : rmat3 -> rmat3) (eps : R) (st : gsettings RNum) (G : tools RNum F) (o : orders) similar knn sort fuel
    (d : vdata riso F) (r : key) (rc : recon riso) (x y z : key) (ls : list key) (ps : riso * riso) :
    let e := geometric (real_trig nearest eps) st G o similar knn sort fuel in
    tools_ok G -> data_ok d -> has_recon d r rc -> rigid_views rc -> NoDup ls ->
    (forall l, l ∈ ls -> (exists f, assigned rc x f l) /\ (exists f, assigned rc y f l) /\ exists f, assigned rc z f l) ->
    e_optimize3 e d r (x, y, z) ls = Some ps -> demanded (t_bearing G) st d rc x y z ls ps.
Proof.
  intros e HG Hd Hr Hrig Hnd Hls E. unfold e in E. cbn [geometric e_optimize3] in E. unfold on_recon, sm_get in E. pose proof Hr as Hr'. unfold has_recon in Hr'. rewrite Hr' in E.
  exact (demanded_thm nearest eps st G d rc x y z ls ps HG (ok_recons _ Hd _ _ Hr) Hrig Hnd Hls E).
Qed.
Lemma optimize_refused (F : Type) (nearest : rmat3 -> rmat3) (eps : R) (st : gsettings RNum) (G : tools RNum F) (o : orders) similar knn sort fuel
    (d : vdata riso F) (r : key) (rc : recon riso) (x y z : key) (ls : list key) (wx wy wz : view riso) :
    let e := geometric (real_trig nearest eps) st G o similar knn sort fuel in
    tools_ok G -> data_ok d -> has_recon d r rc -> NoDup ls ->
    (forall l, l ∈ ls -> (exists f, assigned rc x f l) /\ (exists f, assigned rc y f l) /\ exists f, assigned rc z f l) ->
    has_view rc x wx -> has_view rc y wy -> has_view rc z wz ->
    e_optimize3 e d r (x, y, z) ls = None -> refused (t_bearing G) st d rc x y z ls.
Proof.
  intros e HG Hd Hr Hnd Hls Hx Hy Hz E. unfold e in E. cbn [geometric e_optimize3] in E. unfold on_recon, sm_get in E. pose proof Hr as Hr'. unfold has_recon in Hr'. rewrite Hr' in E.
  exact (refused_thm nearest eps st G d rc x y z ls wx wy wz HG (ok_recons _ Hd _ _ Hr) Hnd Hls Hx Hy Hz E).
Qed.
