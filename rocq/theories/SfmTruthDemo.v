(** A noise-free scene mapped from its frames alone: four cameras in a row look at forty points (C68). *)
From stdpp Require Import gmap list.
From Coq Require Import Reals Lra Lia.
From Verif Require Import Outcome OutcomeFacts Num Lin LinSpec LinFacts Core CoreSpec CoreFacts Geom GeomSpec GeomFacts Optimize OptimizeSpec Matching MatchingSpec MatchingFacts.
From Verif Require Import Sfm SfmSpec SfmUse SfmEffects SfmRec SfmTrack SfmData SfmPrim SfmInit SfmLoc SfmHist SfmProps SfmDemo SfmPose SfmPoseSpec SfmPoseFacts SfmGeom SfmGeomSpec SfmGeomFacts SfmGeomThms SfmGeomRigid SfmGeomReg SfmGeomExact SfmSceneDemo.
From Verif Require Import SfmGeomStart SfmGeomStartExact SfmStartDemo SfmTruthSpec SfmDemand.
Open Scope nat_scope.

(** The place in the row of the camera which takes frame [k]. *)
Definition row_cam (k : key) : nat := match k with 0 => 1 | 1 => 2 | 2 => 0 | _ => 3 end.
Definition row_pose (k : key) : riso := scene_pose (row_cam k).
Definition row_point (k : key) (f : nat) : rvec3 := scene_place (f + 1).
Definition row_frames (D : vdata riso nat) : Prop := forall k fr, has_frame D k fr -> k < 4 /\ f_feats fr = start_feats (row_cam k).
Lemma row_cam_small k : row_cam k < 4.
Proof. destruct k as [|[|[|k]]]; cbn; lia. Qed.
Lemma row_cam_ne k j : k < 4 -> j < 4 -> k <> j -> row_cam k <> row_cam j.
Proof. intros Hk Hj. destruct k as [|[|[|[|k]]]]; destruct j as [|[|[|[|j]]]]; cbn; lia. Qed.
Lemma row_centre k : centre (scene_pose k) = (V3 (INR k) 0 0 : rvec3)%R.
Proof. unfold centre, scene_pose. cbn [rot trans]. lin. Qed.
Lemma row_ray i k : vsub (scene_place i) (centre (scene_pose k)) = scene_ray i k.
Proof. rewrite row_centre. unfold scene_place, scene_ray. lin. Qed.
Lemma row_relative a b : relative (scene_pose a) (scene_pose b) = Iso (N := RNum) mid (V3 (INR b - INR a) 0 0 : rvec3)%R.
Proof. unfold relative, scene_pose, iso_mul, iso_inv. cbn [rot trans]. f_equal; lin. Qed.
Lemma row_seen i k : iso_point (scene_pose k) (scene_place i) = scene_ray i k.
Proof. unfold iso_point, scene_pose, scene_place, scene_ray. cbn [rot trans]. lin. Qed.

Lemma row_true D : row_frames D -> true_scene scene_bearing row_pose row_point D.
Proof.
  intros HD. split.
  - intros k fr _. apply scene_rigid.
  - intros k fr f x Hf Hx. destruct (HD k fr Hf) as [_ E]. rewrite E in Hx. apply start_feats_lookup in Hx as [_ ->]. apply scene_sees. pose proof (row_cam_small k). lia.
  - intros k fr f x j gr _ _ _. unfold row_pose, row_point. split.
    + rewrite row_centre. unfold scene_place. intros [= _ H]. lra.
    + rewrite !row_ray. assert (dot (scene_ray (f + 1) (row_cam k)) (scene_ray (f + 1) (row_cam j)) = (INR (f + 1) - INR (row_cam k)) * (INR (f + 1) - INR (row_cam j)) + 100)%R as -> by (unfold scene_ray; lin).
      assert (forall k, 0 <= INR (row_cam k) <= 3)%R as HK by (intros k'; split; [apply pos_INR|]; replace 3%R with (INR 3) by (cbn; ring); apply le_INR; pose proof (row_cam_small k'); lia).
      pose proof (HK k) as A. pose proof (HK j) as B. pose proof (Rle_0_sqr (INR (f + 1) - (INR (row_cam k) + INR (row_cam j)) / 2)) as H. unfold Rsqr in H. nra.
  - intros k fr f x j gr g y Hf _ Hg _ Hne _. destruct (HD k fr Hf) as [Hk _]. destruct (HD j gr Hg) as [Hj _]. unfold row_pose, row_point. rewrite !row_ray.
    assert (cross (scene_ray (f + 1) (row_cam k)) (scene_ray (f + 1) (row_cam j)) = V3 0 (10 * (INR (row_cam k) - INR (row_cam j))) 0)%R as -> by (unfold scene_ray; lin). intros [= H].
    pose proof (not_INR _ _ (row_cam_ne k j Hk Hj Hne)). lra.
Qed.

(** ** The external routines *)
Lemma row_matching a b : a < 4 -> b < 4 -> symmetric_matching scene_knn (start_feats a) (start_feats b) (two_view_match_better_by scene_settings) = Ok ((fun i => (i, i)) <$> seq 0 40).
Proof. intros Ha Hb. destruct a as [|[|[|[|a]]]]; [..|lia]; destruct b as [|[|[|[|b]]]]; try lia; vm_compute; reflexivity. Qed.
Lemma row_mutual a b i j : a < 4 -> b < 4 -> mutual scene_knn (start_feats a) (start_feats b) (two_view_match_better_by scene_settings) i j -> i = j /\ i < 40.
Proof.
  intros Ha Hb H. destruct (symmetric_matching_ok _ _ _ _ _ (row_matching a b Ha Hb)) as (E & _). apply E, elem_of_list_fmap in H as (i' & [= -> ->] & Hi). apply elem_of_seq in Hi. lia.
Qed.
Definition near_check (f : nat) (l : list (nat * nat)) : bool :=
  existsb (fun x => (x.1 =? f) && (x.2 =? 0)) l && forallb (fun x => (x.2 =? 100) || (x.2 =? 0) && (x.1 =? f)) l.
Lemma row_near_check : forallb (fun f => near_check f (demo_knn (seq 1 40) (f + 1) 3)) (seq 0 40) = true.
Proof. vm_compute. reflexivity. Qed.
Lemma row_knn a b f : a < 10 -> b < 10 -> scene_knn (start_feats a) (10 * (f + 1) + b) 3 = demo_knn (seq 1 40) (f + 1) 3.
Proof.
  intros Ha Hb. assert (forall i c, c < 10 -> (10 * (i + 1) + c) / 10 = i + 1) as Hdiv.
  { intros i c Hc. replace (10 * (i + 1) + c) with (c + (i + 1) * 10) by lia. rewrite Nat.div_add, Nat.div_small by lia. reflexivity. }
  unfold scene_knn. rewrite Hdiv by exact Hb. f_equal. unfold start_feats. rewrite <- list_fmap_compose. rewrite <- (seq_shift 40 0). apply map_ext.
  intros i. cbn [compose]. rewrite Hdiv by exact Ha. lia.
Qed.
Lemma row_near a b f : a < 10 -> b < 10 -> f < 40 -> (f, 0) ∈ scene_knn (start_feats a) (10 * (f + 1) + b) 3 /\
  forall i x, (i, x) ∈ scene_knn (start_feats a) (10 * (f + 1) + b) 3 -> x = 100 \/ x = 0 /\ i = f.
Proof.
  intros Ha Hb Hf. rewrite row_knn by assumption. pose proof row_near_check as H. rewrite forallb_forall in H. specialize (H f ltac:(apply in_seq; lia)). apply andb_true_iff in H as [H1 H2]. split.
  - apply existsb_exists in H1 as ([i x] & Hin & H1). cbn [fst snd] in H1. apply andb_true_iff in H1 as [H1 H1']. apply Nat.eqb_eq in H1, H1'. subst. apply elem_of_list_In, Hin.
  - intros i x Hix. rewrite forallb_forall in H2. apply elem_of_list_In in Hix. specialize (H2 _ Hix). cbn [fst snd] in H2. apply orb_true_iff in H2 as [H2|H2]; [left; apply Nat.eqb_eq, H2|right].
    apply andb_true_iff in H2 as [H2 H2']. apply Nat.eqb_eq in H2, H2'. auto.
Qed.

Section row.
Context (nearest : rmat3 -> rmat3) (eps : R) (Hnearest : nearest mid = mid) (Heps : (0 <= eps)%R).
Notation e := (start_e nearest eps).
Section database.
Context (D : vdata riso nat) (HD : row_frames D).

Lemma row_two_view k j fk fj order data p ixs : has_frame D k fk -> has_frame D j fj -> k <> j ->
  (forall a b, (a, b) ∈ order <-> mutual scene_knn (f_feats fk) (f_feats fj) (two_view_match_better_by scene_settings) a b) ->
  Forall2 (match_seen scene_bearing fk fj) order data -> row_two data = Some (p, ixs) ->
  exists unit, (0 < unit)%R /\ p = pose_scale (relative (row_pose j) (row_pose k)) unit.
Proof.
  intros Hfk Hfj Hne Ho Hd E. destruct (HD k fk Hfk) as [Hk Ek]. destruct (HD j fj Hfj) as [Hj Ej]. apply row_two_case in E as (_ & a & b & l & -> & H). inversion Hd as [|[i i'] ? order' ? Hm _ Eo]. subst.
  assert (i = i' /\ i < 40) as [<- Hi] by (apply (row_mutual (row_cam k) (row_cam j) i i' (row_cam_small k) (row_cam_small j)); rewrite <- Ek, <- Ej; apply Ho; left).
  destruct Hm as (x & y & Hx & Hy & Eab). cbn [fst snd] in *. rewrite Ek in Hx. rewrite Ej in Hy. apply start_feats_lookup in Hx as [_ ->], Hy as [_ ->].
  assert (a = scene_bearing (10 * (i + 1) + row_cam k) /\ b = scene_bearing (10 * (i + 1) + row_cam j)) as [-> ->] by (split; congruence).
  pose proof (row_cam_small k) as Ck. pose proof (row_cam_small j) as Cj. rewrite (row_order (i + 1) (row_cam k) (row_cam j)) in H by lia. unfold row_pose. rewrite row_relative. pose proof (not_INR _ _ (row_cam_ne k j Hk Hj Hne)) as Hx.
  revert H Hx. generalize (INR (row_cam k)) (INR (row_cam j)). intros u v H Hx. destruct H as [[H ->]|[H ->]].
  - exists (/ (v - u))%R. split; [apply Rinv_0_lt_compat; lra|]. unfold scene_pose, pose_scale. cbn [rot trans]. f_equal. unfold vscale. cbn [vx vy vz INR]. f_equal; rnum; field; lra.
  - exists (/ (u - v))%R. split; [apply Rinv_0_lt_compat; lra|]. assert (iso_inv (scene_pose 1) = Iso (N := RNum) mid (V3 1 0 0 : rvec3)%R) as -> by (unfold scene_pose, iso_inv; cbn [rot trans INR]; f_equal; lin).
    unfold pose_scale. cbn [rot trans]. f_equal. unfold vscale. cbn [vx vy vz]. f_equal; rnum; field; lra.
Qed.
Lemma row_single_view k0 (unit : R) k fr points p ixs fs : (0 < unit)%R -> has_frame D k fr ->
  Forall2 (fun f (bh : rvec3 * vec4 RNum) => exists x, f_feats fr !! f = Some x /\ bh = (scene_bearing x, from_point (place_from row_pose k0 unit (row_point k f)))) fs points ->
  row_single points = Some (p, ixs) -> p = seen_from row_pose k0 unit k.
Proof.
  intros Hu Hf Hd E. destruct (HD k fr Hf) as [Hk Ek]. apply row_single_case in E as (_ & b & h & l & q & -> & Hq & ->). inversion Hd as [|f ? fs' ? Hm _ Eo]. subst. destruct Hm as (x & Hx & Ebh). rewrite Ek in Hx. apply start_feats_lookup in Hx as [_ ->].
  assert (b = scene_bearing (10 * (f + 1) + row_cam k) /\ h = from_point (place_from row_pose k0 unit (row_point k f))) as [-> ->] by (split; congruence).
  assert (place_from row_pose k0 unit (row_point k f) = (V3 (unit * (INR (f + 1) - INR (row_cam k0))) 0 (unit * 10) : rvec3)%R) as Ep by (unfold place_from, row_pose, row_point; rewrite row_seen; unfold scene_ray; lin).
  rewrite Ep in Hq. rewrite point_from_point in Hq by (unfold vzero; intros [= _ H]; lra). assert (q = (V3 (unit * (INR (f + 1) - INR (row_cam k0))) 0 (unit * 10) : rvec3)%R) as -> by congruence.
  unfold seen_from, row_pose. rewrite row_relative. unfold pose_scale. cbn [rot trans vx vz]. f_equal. pose proof (row_cam_small k). rewrite scene_bearing_value by lia. unfold normalize. rewrite vdiv_scale. pose proof (scene_inv_pos (f + 1) (row_cam k)) as Pk.
  revert Pk. generalize (/ norm (scene_ray (f + 1) (row_cam k)))%R. intros n Pn. unfold scene_ray, vscale. cbn [vx vy vz]. f_equal; rnum; [field; lra|ring..].
Qed.

Lemma row_offered d r rc views k fr f x l y : data_ok d -> frames_of D d -> has_recon d r rc -> has_frame d k fr -> f_feats fr !! f = Some x -> offered e d rc views x l y ->
  (y = 100 \/ y = 0) /\ (y = 0 -> exists v w, has_view rc v w /\ v_lms w !! f = Some l) /\ exists l', offered e d rc views x l' 0.
Proof.
  intros Hd HF Hr Hf Hx (v & w & gr & i & Hv & Hw & Hg & Hi & Hl). change (e_knn e) with scene_knn in Hi. destruct (HF k fr Hf) as (fr' & Hf' & Ef). destruct (HD k fr' Hf') as [_ Ek]. rewrite <- Ef, Ek in Hx. apply start_feats_lookup in Hx as [Hfl ->].
  destruct (HF _ gr Hg) as (gr' & Hg' & Eg). destruct (HD _ gr' Hg') as [_ Ek']. rewrite <- Eg, Ek' in Hi. pose proof (row_cam_small k) as Ck. pose proof (row_cam_small (v_frame w)) as Cw.
  destruct (row_near (row_cam (v_frame w)) (row_cam k) f ltac:(lia) ltac:(lia) Hfl) as [N1 N2]. pose proof (N2 _ _ Hi) as Hy. split; [lia|]. split.
  - intros ->. destruct Hy as [[=]|[_ ->]]. eauto.
  - assert (exists l', v_lms w !! f = Some l') as [l' Hl'].
    { apply lookup_lt_is_Some. destruct (ok_entries _ _ (ok_recons _ Hd r rc Hr) v w Hw) as (gr2 & Hg2 & ->). assert (gr2 = gr) as -> by (eapply has_frame_fun; eassumption). rewrite <- Eg, Ek'. unfold start_feats. rewrite fmap_length, seq_length. exact Hfl. }
    exists l', v, w, gr, f. split; [exact Hv|]. split; [exact Hw|]. split; [exact Hg|]. split; [|exact Hl']. change (e_knn e) with scene_knn. rewrite <- Eg, Ek'. exact N1.
Qed.
Lemma row_clear d r rc views k fr f x ls l y p : data_ok d -> frames_of D d -> has_recon d r rc -> mapped row_pose row_point D rc -> has_frame d k fr -> f_feats fr !! f = Some x ->
  clear_match e scene_settings d rc views x ls -> l ∈ ls -> assigned rc y.1 y.2 l -> shows row_point rc y p -> p = row_point k f.
Proof.
  intros Hd HF Hr Hm Hf Hx Hc Hl Hy Hp.
  assert (offered e d rc views x l 0) as Ho.
  { destruct Hc as [a n [Ha Hb] Hn|a b n m ma mb Hab [Ha Ha'] [Hb Hb'] Hle Hlt Hn _ _ _].
    - apply elem_of_list_singleton in Hl as ->. destruct (row_offered d r rc views k fr f x a n Hd HF Hr Hf Hx Ha) as (Hv & _ & l' & Hl'). destruct (decide (l' = a)) as [->|Hne]; [exact Hl'|]. specialize (Hn l' 0 Hne Hl'). cbn in Hn. lia.
    - destruct (row_offered d r rc views k fr f x a n Hd HF Hr Hf Hx Ha) as (Hv & _ & l' & Hl'). destruct (row_offered d r rc views k fr f x b m Hd HF Hr Hf Hx Hb) as (Hv' & _ & _). cbn in Hlt. assert (n = m) as <- by lia.
      assert (n = 0) as ->. { destruct (decide (l' = a)) as [->|N1]; [specialize (Ha' _ Hl'); lia|]. destruct (decide (l' = b)) as [->|N2]; [specialize (Hb' _ Hl'); lia|]. specialize (Hn l' 0 N1 N2 Hl'). cbn in Hn. lia. }
      rewrite !elem_of_cons, elem_of_nil in Hl. destruct Hl as [->|[->|[]]]; assumption. }
  destruct (row_offered d r rc views k fr f x l 0 Hd HF Hr Hf Hx Ho) as (_ & H & _). destruct (H eq_refl) as (v & w & Hw & Hlw).
  refine (mp_tracks _ _ _ _ Hm y (v, f) p (row_point k f) _ Hp _).
  - exists l. split; [exact Hy|]. exists w. auto.
  - exists w. split; [exact Hw|]. reflexivity.
Qed.
Lemma row_truthful : truthful scene_bearing row_pose row_point D scene_settings nearest eps start_gs start_tools e.
Proof.
  split.
  - auto.
  - exact start_tools_ok.
  - exact start_inliers.
  - apply start_e_ok.
  - reflexivity.
  - exact two_ray_exact.
  - intros x. change (t_normal start_tools x) with (if Req_EM_T x 0 then false else true). destruct (Req_EM_T x 0) as [H|H]; [discriminate 1|intros _; exact H].
  - cbn. repeat split; first [lra|lia].
  - intros k j fk fj order data p ixs Hfk Hfj Hne _ Ho Hd _ E. exact (row_two_view k j fk fj order data p ixs Hfk Hfj Hne Ho Hd E).
  - intros k0 unit k fr points p ixs _ Hu Hf _ (fs & _ & Hd) E. exact (row_single_view k0 unit k fr points p ixs fs Hu Hf Hd E).
  - intros k j fk fj f g Hfk Hfj _ H. change (e_knn e) with scene_knn in H. rewrite (proj2 (HD k fk Hfk)), (proj2 (HD j fj Hfj)) in H. apply row_mutual in H as [<- _]; [reflexivity|apply row_cam_small..].
  - exact row_clear.
Qed.
Lemma row_faithful : faithful scene_bearing row_pose row_point D scene_settings e.
Proof. exists nearest, eps, start_gs, start_tools, demo_orders, (fun _ _ _ => []), scene_knn, (fun l => l), 100. split; [reflexivity|exact row_truthful]. Qed.
End database.
(** ** The database before anything is mapped *)
Section states.
Context {P : Type}.
Definition row_start (n : nat) : outcome (vdata P nat) := foldM (fun d k => let! (d', _) := data_add_frame d 0 (start_feats (row_cam k)) in Ok d') (seq 0 n) (add_feed vdata_init).1.
Definition row_data (n : nat) : vdata P nat := match row_start n with Ok d => d | _ => vdata_init end.
Lemma row_add n : n < 3 -> data_add_frame (row_data n) 0 (start_feats (row_cam n)) = Ok (row_data (S n), n).
Proof. intros Hn. destruct n as [|[|[|n]]]; [vm_compute; reflexivity..|lia]. Qed.
Lemma row_found n : n < 3 -> find_frames (row_data (S n)) [] n (tracking_similar_frames scene_settings) (tracking_recent_frames scene_settings) (tracking_similar_frame_recent_threshold scene_settings) = Ok (∅, seq 0 n).
Proof. intros Hn. destruct n as [|[|[|n]]]; [vm_compute; reflexivity..|lia]. Qed.
Lemma row_none n : n < 4 -> sm_map (d_recs (row_data n)) = ∅.
Proof. intros Hn. destruct n as [|[|[|[|n]]]]; [vm_compute; reflexivity..|lia]. Qed.
Lemma row_list n : n < 4 -> map (fun x : key * frame nat => (x.1, f_feats x.2, f_view x.2)) (map_to_list (sm_map (d_frames (row_data n)))) =
  match n with 0 => [] | 1 => [(0, start_feats 1, None)] | 2 => [(0, start_feats 1, None); (1, start_feats 2, None)] | _ => [(0, start_feats 1, None); (1, start_feats 2, None); (2, start_feats 0, None)] end.
Proof. intros Hn. destruct n as [|[|[|[|n]]]]; [vm_compute; reflexivity..|lia]. Qed.
Lemma row_next n : n < 4 -> sm_next (d_frames (row_data n)) = n.
Proof. intros Hn. destruct n as [|[|[|[|n]]]]; [vm_compute; reflexivity..|lia]. Qed.
Lemma row_frame n k : n < 4 -> k < n -> exists fr, has_frame (row_data n) k fr /\ f_feats fr = start_feats (row_cam k) /\ f_view fr = None.
Proof.
  intros Hn Hk. assert ((k, start_feats (row_cam k), @None (key * key)) ∈ map (fun x : key * frame nat => (x.1, f_feats x.2, f_view x.2)) (map_to_list (sm_map (d_frames (row_data n))))) as H.
  { rewrite row_list by exact Hn. destruct n as [|[|[|[|n]]]]; [lia| | | |lia]; destruct k as [|[|[|k]]]; try lia; cbn [row_cam]; rewrite !elem_of_cons; auto. }
  apply (elem_of_list_fmap (fun x : key * frame nat => (x.1, f_feats x.2, f_view x.2))) in H as ([k' fr] & E & H). apply elem_of_map_to_list in H. cbn [fst snd] in E. injection E as E1 E2 E3. subst k'. exists fr. auto.
Qed.
Lemma row_all n k fr : n < 4 -> has_frame (row_data n) k fr -> k < n /\ f_feats fr = start_feats (row_cam k) /\ f_view fr = None.
Proof.
  intros Hn H. apply elem_of_map_to_list in H. assert ((k, f_feats fr, f_view fr) ∈ map (fun x : key * frame nat => (x.1, f_feats x.2, f_view x.2)) (map_to_list (sm_map (d_frames (row_data n))))) as H'
    by exact (elem_of_list_fmap_1 (fun x : key * frame nat => (x.1, f_feats x.2, f_view x.2)) _ _ H). clear H. rename H' into H. rewrite row_list in H by exact Hn. destruct n as [|[|[|[|n]]]]; [| | | |lia]; rewrite ?elem_of_cons, elem_of_nil in H; repeat match type of H with _ \/ _ => destruct H as [H|H] end; match type of H with False => destruct H | _ => injection H as -> -> -> end; (split; [lia|auto]).
Qed.
End states.

Notation s := scene_settings.
Lemma row_free (n k : nat) : n < 4 -> k < n -> free_frame (row_data n : vdata riso nat) k.
Proof.
  intros Hn Hk. split; [destruct (row_frame (P := riso) n k Hn Hk) as (fr & Hf & _); eauto|]. intros r v (rc & w & Hr & _). unfold has_recon in Hr. rewrite row_none, lookup_empty in Hr by exact Hn. discriminate Hr.
Qed.
Lemma row_data_ok n : n < 4 -> data_ok (row_data n : vdata riso nat).
Proof.
  induction n as [|n IH]; intros Hn.
  - assert (used_well iso_id iso_mul iso_inv s vdata_init [OpAddFeed : op riso nat]) as Hu by (split; [split; [intros e' [=]|exact I]|intros d' _; exact I]). exact (history_ok riso nat iso_id iso_mul iso_inv s [OpAddFeed] _ Hu eq_refl).
  - pose proof (IH ltac:(lia)) as H. apply data_ok_inv in H. pose proof (data_add_frame_post True (row_data n : vdata riso nat) 0 (start_feats (row_cam n)) H (or_introl I)) as Hp.
    rewrite row_add in Hp by lia. cbn [post fst] in Hp. apply data_ok_inv, Hp.
Qed.
Lemma row_find n : n < 3 -> find_for e s (row_data (S n)) n = Ok (∅, seq 0 n).
Proof. intros Hn. unfold find_for. change (e_similar e (row_data (S n)) n (tracking_similar_frame_search_num s)) with (@nil key). apply row_found, Hn. Qed.
Lemma row_init n : n < 2 -> try_init iso_id e s (row_data (S n)) n (seq 0 n) = Ok (row_data (S n)).
Proof.
  intros Hn. pose proof (row_data_ok (S n) ltac:(lia)) as Hok. destruct (row_frame (P := riso) (S n) n ltac:(lia) ltac:(lia)) as (fr & Hf & _ & Hv).
  assert (NoDup (seq 0 n)) as Hnd by apply NoDup_seq. assert (n ∉ seq 0 n) as Hno by (rewrite elem_of_seq; lia). assert (forall k, k ∈ seq 0 n -> k < n) as Hlt by (intros k Hk; apply elem_of_seq in Hk; lia).
  pose proof Hok as Hinv. apply data_ok_inv in Hinv. pose proof (try_init_post iso_id False e s (row_data (S n)) n (seq 0 n) fr (start_e_ok nearest eps) Hinv Hf Hv Hnd Hno) as Hp.
  assert (forall k, k ∈ seq 0 n -> exists fr, has_frame (row_data (S n) : vdata riso nat) k fr /\ f_view fr = None) as Hopt by (intros k Hk; destruct (row_frame (P := riso) (S n) k ltac:(lia) ltac:(specialize (Hlt k Hk); lia)) as (fr' & H1 & _ & H2); eauto).
  specialize (Hp Hopt). destruct (try_init iso_id e s (row_data (S n)) n (seq 0 n)) as [d'| |] eqn:E; cbn [post] in Hp; [|destruct Hp..].
  destruct (try_init_geometric nearest eps start_gs start_tools demo_orders (fun _ _ _ => []) scene_knn (fun l => l) 100 s (row_data (S n)) n (seq 0 n) d' start_tools_ok start_inliers (start_e_ok nearest eps) Hok
    (row_free (S n) n ltac:(lia) ltac:(lia)) Hnd Hno (fun k Hk => row_free (S n) k ltac:(lia) ltac:(specialize (Hlt k Hk); lia)) E) as [-> |(a & b & fc & fa & fb & q1 & ms1 & q2 & ms2 & scale & p1 & p2 & k1 & k2 & r & Ha & Hb & Hab & _)]; [reflexivity|].
  apply Hlt in Ha, Hb. lia.
Qed.
Lemma row_localize n d' : n < 3 -> try_init iso_id e s (row_data (S n)) n (seq 0 n) = Ok d' ->
  add_frame iso_id iso_mul iso_inv e s (row_data n) 0 (start_feats (row_cam n)) =
  let! d2 := (let! fr2 := unwrap (sm_get (d_frames d') n) in match f_view fr2 with Some (r, _) => incorporate_free iso_mul iso_inv e s d' r (seq 0 n) | None => Ok d' end) in Ok (d2, n).
Proof.
  intros Hn E. unfold add_frame. rewrite row_add by exact Hn. cbn [bind]. rewrite row_find by exact Hn. cbn [bind]. unfold try_localize.
  match goal with |- context[foldM _ ?l _] => assert (l = []) as -> end. { change (o_recs (e_ord e) (dom (∅ : gmap key (list key)))) with (elements (dom (∅ : gmap key (list key)))). rewrite dom_empty_L, elements_empty. reflexivity. }
  cbn [foldM bind]. destruct (row_frame (P := riso) (S n) n ltac:(lia) ltac:(lia)) as (fr & Hf & _ & Hv). unfold sm_get at 1. rewrite Hf. cbn [unwrap bind]. rewrite Hv, E. reflexivity.
Qed.
Lemma row_step n : n < 2 -> step iso_id iso_mul iso_inv s (row_data n) (OpAddFrame e 0 (start_feats (row_cam n))) = Ok (row_data (S n)).
Proof.
  intros Hn. cbn [step]. rewrite (row_localize n _ ltac:(lia) (row_init n Hn)). destruct (row_frame (P := riso) (S n) n ltac:(lia) ltac:(lia)) as (fr & Hf & _ & Hv). unfold sm_get. rewrite Hf. cbn [unwrap bind]. rewrite Hv. reflexivity.
Qed.

(** The third frame starts a reconstruction. *)
Lemma row_third : exists d r rc unit, step iso_id iso_mul iso_inv s (row_data 2) (OpAddFrame e 0 (start_feats (row_cam 2))) = Ok d /\ data_ok d /\ only_recon r (row_data 3) d /\ same_base (row_data 3) d /\ has_recon d r rc /\
  (0 < unit)%R /\ forall k, k < 3 -> exists v w, has_view rc v w /\ v_frame w = k /\ v_pose w = pose_scale (row_pose k) unit.
Proof.
  assert (forall k, k < 3 -> exists fr, has_frame (row_data 3 : vdata riso nat) k fr /\ f_feats fr = start_feats (row_cam k)) as Hfr by (intros k Hk; destruct (row_frame (P := riso) 3 k ltac:(lia) Hk) as (fr & H1 & H2 & _); eauto).
  destruct (Hfr 2 ltac:(lia)) as (fc & Hfc & Ec). destruct (Hfr 0 ltac:(lia)) as (ff & Hff & Ef). destruct (Hfr 1 ltac:(lia)) as (fs & Hfs & Es). cbn [row_cam] in Ec, Ef, Es.
  assert (forall k fr, has_frame (row_data 3 : vdata riso nat) k fr -> f_feats fr = start_feats (row_cam k)) as Hfeats by (intros k fr H; apply (row_all (P := riso) 3 k fr ltac:(lia) H)).
  assert (forall k, k ∈ [0; 1] -> k = 0 \/ k = 1) as H01 by (intros k; rewrite !elem_of_cons, elem_of_nil; lia).
  destruct (try_init_progress nearest eps start_gs start_tools demo_orders two_ray_exact ltac:(cbn; lra) ltac:(cbn; lra) ltac:(cbn; lia) (fun _ _ _ => []) scene_knn (fun l => l) 100 s (row_data 3) 2 0 1 [] row_pose fc ff fs start_tools_ok start_inliers
    (start_e_ok nearest eps) (row_data_ok 3 ltac:(lia)) (row_free 3 2 ltac:(lia) ltac:(lia))) as (d' & unit & r & k1 & k2 & E & Hu & _ & _ & Hok & Hn).
  - repeat constructor; rewrite ?elem_of_cons, ?elem_of_nil; lia.
  - rewrite !elem_of_cons, elem_of_nil. lia.
  - intros k Hk. apply row_free; [lia|]. apply H01 in Hk. lia.
  - intros k fk Hk Hf. apply start_pair; [exact Ec|apply H01 in Hk as [-> | ->]; cbn; lia|apply Hfeats, Hf].
  - intros k l fk fl Hk Hl _ Hf Hf'. apply start_triples; [exact Ec|apply H01 in Hk as [-> | ->]; cbn; lia|apply H01 in Hl as [-> | ->]; cbn; lia|apply Hfeats, Hf|apply Hfeats, Hf'].
  - exact Hfc.
  - exact Hff.
  - exact Hfs.
  - apply (start_enough_pair fc Ec 1); [lia|exact Ef].
  - apply (start_enough_pair fc Ec 2); [lia|exact Es].
  - apply start_enough; assumption.
  - destruct (nr_made _ _ _ _ _ _ _ _ _ _ _ Hn) as (rc & cv & fv & sv & Hr & _ & _ & _ & Hviews & Hc & Hf & Hs & _).
    assert (forall k, k < 3 -> exists v w, has_view rc v w /\ v_frame w = k /\ v_pose w = pose_scale (row_pose k) unit) as Hall.
    { intros k Hk. assert (k = 0 \/ k = 1 \/ k = 2) as [-> | [-> | ->] ] by lia.
      - destruct (proj2 (Hviews fv) ltac:(auto)) as (w & Hw). exists fv, w. destruct (Hf w Hw). auto.
      - destruct (proj2 (Hviews sv) ltac:(auto)) as (w & Hw). exists sv, w. destruct (Hs w Hw). auto.
      - destruct (proj2 (Hviews cv) ltac:(auto)) as (w & Hw). exists cv, w. destruct (Hc w Hw) as [H1 H2]. split; [exact Hw|]. split; [exact H1|]. rewrite H2. unfold row_pose. cbn [row_cam]. rewrite scene_pose_0. symmetry. apply scale_id. }
    exists d', r, rc, unit.
    assert (add_frame iso_id iso_mul iso_inv e s (row_data 2) 0 (start_feats (row_cam 2)) = Ok (d', 2)) as Ea.
    { rewrite (row_localize 2 d' ltac:(lia) E). assert (forall k, k < 3 -> exists fr x, sm_get (d_frames d') k = Some fr /\ f_view fr = Some x) as Hlink.
      { intros k Hk. destruct (Hall k Hk) as (v & w & Hw & Hk' & _). destruct (ok_entries _ _ (ok_recons _ Hok r rc Hr) v w Hw) as (fr & Hfr' & _). rewrite Hk' in Hfr'. exists fr, (r, v). split; [exact Hfr'|]. apply (ok_links _ Hok k fr Hfr'). exists rc, w. auto. }
      destruct (Hlink 2 ltac:(lia)) as (f2 & [r2 v2] & H2 & V2). destruct (Hlink 0 ltac:(lia)) as (f0 & x0 & H0 & V0). destruct (Hlink 1 ltac:(lia)) as (f1 & x1 & H1 & V1).
      rewrite H2. cbn [unwrap bind]. rewrite V2. cbn [seq incorporate_free]. rewrite H0. cbn [unwrap bind]. rewrite V0, H1. cbn [unwrap bind]. rewrite V1. reflexivity. }
    split; [cbn [step]; rewrite Ea; reflexivity|]. split; [exact Hok|]. split; [apply (nr_only _ _ _ _ _ _ _ _ _ _ _ Hn)|]. split; [|auto].
    destruct (row_frame (P := riso) 3 2 ltac:(lia) ltac:(lia)) as (fr & Hf2 & _ & Hv2).
    assert (forall k, k ∈ seq 0 2 -> exists fr, has_frame (row_data 3 : vdata riso nat) k fr /\ f_view fr = None) as Hopt by (intros k Hk; apply elem_of_seq in Hk; destruct (row_frame (P := riso) 3 k ltac:(lia) ltac:(lia)) as (fr' & G1 & _ & G2); eauto).
    pose proof (row_data_ok 3 ltac:(lia)) as H3. apply data_ok_inv in H3. pose proof (try_init_post iso_id True e s (row_data 3) 2 (seq 0 2) fr (start_e_ok nearest eps) H3 Hf2 Hv2 (NoDup_seq 0 2) ltac:(rewrite elem_of_seq; lia) Hopt) as Hp.
    change (seq 0 2) with [0; 1] in Hp. change (try_init iso_id e s (row_data 3) 2 [0; 1] = Ok d') in E. rewrite E in Hp. cbn [post] in Hp. destruct Hp as [_ [[-> |(a & b & p1 & p2 & m1 & m2 & _ & _ & _ & _ & _ & _ & _ & Hst)]]]; [apply same_base_refl|apply (st_base _ _ _ _ _ _ _ _ _ _ _ Hst)].
Qed.

(** ** The history *)
Definition row_ops (n : nat) : list (op riso nat) := OpAddFeed :: ((fun k => OpAddFrame e 0 (start_feats (row_cam k))) <$> seq 0 n).
Lemma one_recon d k r : data_ok d -> (forall r' rc, has_recon d r' rc -> r' = r) -> one_place s e d k.
Proof.
  intros Hok Hone recs free Hca. apply data_ok_inv in Hok. assert (forall r' vs, recs !! r' = Some vs -> r' = r) as H.
  { intros r' vs E. destruct (candidates_views _ _ _ _ _ _ _ _ _ _ Hok Hca E) as (rc & Hr & _). exact (Hone r' rc Hr). }
  destruct (recs !! r) as [vs|] eqn:E.
  - assert (recs = {[r := vs]}) as ->; [|rewrite map_size_singleton; lia]. apply map_eq. intros r'. destruct (decide (r' = r)) as [->|Hne]; [rewrite E, lookup_singleton; reflexivity|]. rewrite lookup_singleton_ne by auto.
    destruct (recs !! r') as [vs'|] eqn:E'; [destruct (Hne (H _ _ E'))|reflexivity].
  - assert (recs = ∅) as ->; [|rewrite map_size_empty; lia]. apply map_eq. intros r'. rewrite lookup_empty. destruct (recs !! r') as [vs'|] eqn:E'; [|reflexivity]. rewrite (H _ _ E') in E'. congruence.
Qed.
Lemma row_base (d' : vdata riso nat) n : n < 4 -> same_base (row_data n) d' -> forall k fr, has_frame d' k fr -> k < n /\ f_feats fr = start_feats (row_cam k).
Proof.
  intros Hn Hb k fr Hf. pose proof (sb_frames _ _ Hb k) as E. rewrite Hf in E. cbn [fmap option_fmap option_map] in E. symmetry in E. apply fmap_Some in E as (fr' & Hf' & E). destruct (row_all (P := riso) n k fr' Hn Hf') as (H1 & H2 & _). split; [exact H1|]. rewrite <- H2. exact (f_equal f_feats E).
Qed.
Lemma row_history : exists d D r rc unit, run iso_id iso_mul iso_inv s (row_ops 3) = Ok d /\ has_recon d r rc /\ (0 < unit)%R /\
  (forall k, k < 3 -> exists v w, has_view rc v w /\ v_frame w = k /\ v_pose w = pose_scale (row_pose k) unit) /\
  run iso_id iso_mul iso_inv s (row_ops 4) = Ok D /\ true_scene scene_bearing row_pose row_point D /\ all_allowed scene_bearing row_pose row_point D s vdata_init (row_ops 4).
Proof.
  destruct row_third as (d & r & rc & unit & E3 & Hok & Hor & Hb & Hr & Hu & Hviews).
  assert (step iso_id iso_mul iso_inv s vdata_init OpAddFeed = Ok (row_data 0 : vdata riso nat)) as E0 by reflexivity.
  pose proof (row_base d 3 ltac:(lia) Hb) as Hfr.
  assert (forall k fr, has_frame d k fr -> length (f_feats fr) = 40) as Hlen by (intros k fr H; destruct (Hfr k fr H) as [_ ->]; unfold start_feats; rewrite fmap_length, seq_length; reflexivity).
  assert (exists old, has_feed d 0 old) as Hfeed.
  { unfold has_feed. rewrite (sb_feeds _ _ Hb). assert (is_some (sm_map (d_feeds (row_data (P := riso) 3)) !! 0) = true) as H by (vm_compute; reflexivity). destruct (sm_map (d_feeds (row_data (P := riso) 3)) !! 0) as [old|]; [eauto|discriminate H]. }
  destruct (step_total iso_id iso_mul iso_inv s d (OpAddFrame e 0 (start_feats (row_cam 3))) Hok) as (D & ED & HokD).
  { split; [intros e' [= <-]; apply start_e_ok|exact I]. }
  { split; [exact Hfeed|]. split; [|cbn; lia]. split; [intros k fr H; rewrite (Hlen k fr H); cbn; lia|cbn; lia|left; cbn; lia]. }
  assert (row_frames D) as HD.
  { pose proof Hok as Hinv. apply data_ok_inv in Hinv. pose proof (add_frame_post iso_id iso_mul iso_inv True e s d 0 (start_feats (row_cam 3)) (start_e_ok nearest eps) Hinv (or_introl I) (or_introl I)) as Hp. cbn [step] in ED.
    destruct (add_frame iso_id iso_mul iso_inv e s d 0 (start_feats (row_cam 3))) as [[D' k]| |]; [|discriminate ED|discriminate ED]. cbn [bind post fst snd] in *. assert (D' = D) as -> by congruence.
    destruct Hp as (_ & d1 & Hfa & Hb1). assert (k = 3) as -> by (rewrite (fa_key _ _ _ _ _ Hfa), (sb_next _ _ Hb); apply row_next; lia). destruct (fa_feed _ _ _ _ _ Hfa) as (old & _ & _ & Em).
    intros j fr Hf. pose proof (sb_frames _ _ Hb1 j) as E. rewrite Hf in E. cbn [fmap option_fmap option_map] in E. symmetry in E. apply fmap_Some in E as (fr' & Hf' & E). apply (f_equal f_feats) in E. change (f_feats fr = f_feats fr') in E. rewrite E. rewrite Em in Hf'.
    destruct (decide (3 = j)) as [<-|Hne]; [rewrite lookup_insert in Hf'; injection Hf' as <-; split; [lia|reflexivity]|]. rewrite lookup_insert_ne in Hf' by exact Hne. destruct (Hfr j fr' Hf') as [H1 H2]. split; [lia|exact H2]. }
  assert (forall r' rc', has_recon d r' rc' -> r' = r) as Honly.
  { intros r' rc' Hr'. destruct (decide (r' = r)) as [H|H]; [exact H|]. destruct Hor as [_ Ho]. specialize (Ho r' H). unfold has_recon in Hr'. rewrite Ho, row_none, lookup_empty in Hr' by lia. discriminate Hr'. }
  pose proof (row_faithful D HD) as Hfaith. exists d, D, r, rc, unit. unfold row_ops, run. cbn [fmap list_fmap seq foldM].
  rewrite E0. cbn [bind]. rewrite (row_step 0) by lia. cbn [bind]. rewrite (row_step 1) by lia. cbn [bind]. rewrite E3. cbn [bind]. rewrite ED.
  split; [reflexivity|]. split; [exact Hr|]. split; [exact Hu|]. split; [exact Hviews|]. split; [reflexivity|]. split; [exact (row_true D HD)|].
  assert (forall n, n < 3 -> allowed scene_bearing row_pose row_point D s (row_data n) (OpAddFrame e 0 (start_feats (row_cam n)))) as Hal.
  { intros n Hn. split; [exact Hfaith|]. intros d1 k E. rewrite row_add in E by exact Hn. assert (d1 = row_data (S n)) as -> by congruence. apply (one_recon _ _ 0); [apply row_data_ok; lia|]. intros r' rc' Hr'. unfold has_recon in Hr'. rewrite row_none, lookup_empty in Hr' by lia. discriminate Hr'. }
  cbn [all_allowed]. split; [exact I|]. intros x1 X1. rewrite E0 in X1. assert (x1 = row_data 0) as -> by congruence. clear X1.
  split; [apply (Hal 0); lia|]. intros x2 X2. rewrite (row_step 0) in X2 by lia. assert (x2 = row_data 1) as -> by congruence. clear X2.
  split; [apply (Hal 1); lia|]. intros x3 X3. rewrite (row_step 1) in X3 by lia. assert (x3 = row_data 2) as -> by congruence. clear X3.
  split; [apply (Hal 2); lia|]. intros x4 X4. rewrite E3 in X4. assert (x4 = d) as -> by congruence. clear X4.
  split; [|intros x5 _; exact I]. split; [exact Hfaith|]. intros d1 k E. pose proof Hok as Hinv. apply data_ok_inv in Hinv. pose proof (data_add_frame_post True d 0 (start_feats (row_cam 3)) Hinv (or_introl I)) as Hp. rewrite E in Hp. cbn [post fst snd] in Hp. destruct Hp as [Hi Hfa].
  apply (one_recon d1 k r); [apply data_ok_inv, Hi|]. intros r' rc' Hr'. unfold has_recon in Hr'. rewrite (fa_recs _ _ _ _ _ Hfa) in Hr'. exact (Honly r' rc' Hr').
Qed.
End row.

(** ** A demand (C67) *)
Section demand.
Context (nearest : rmat3 -> rmat3) (eps : R).
Notation T := (real_trig nearest eps).
Notation d := (scene_data iso_id iso_mul iso_inv (scene_pose 1) (scene_pose 2) (scene_e nearest eps)).
Notation rc := (scene_rc iso_id iso_mul iso_inv (scene_pose 1) (scene_pose 2) (scene_e nearest eps)).
Lemma demand_offered l : l ∈ [0; 1; 2] -> (exists f, assigned rc 0 f l) /\ (exists f, assigned rc 1 f l) /\ exists f, assigned rc 2 f l.
Proof.
  intros Hl. assert (forall v, v < 3 -> exists f, assigned rc v f l) as H; [|split; [|split]; apply H; lia]. intros v Hv. destruct (scene_view_exists nearest eps v Hv) as [w Hw]. destruct (scene_view_value nearest eps v w Hw) as (_ & _ & _ & E).
  exists l, w. split; [exact Hw|]. rewrite E. rewrite !elem_of_cons, elem_of_nil in Hl. destruct Hl as [-> | [-> | [-> | []] ] ]; reflexivity.
Qed.
Lemma demand_seen l b : seen_by_three scene_bearing d rc 0 1 2 l b -> l < 3 /\ b = (scene_bearing (10 * (l + 1) + 0), scene_bearing (10 * (l + 1) + 1), scene_bearing (10 * (l + 1) + 2)).
Proof.
  intros (f & g & h & p & q & r & A1 & A2 & A3 & B1 & B2 & B3 & ->). apply scene_observed in B1 as (_ & Hf & ->), B2 as (_ & Hg & ->), B3 as (_ & Hh & ->).
  assert (forall v f, assigned rc v f l -> f < 3 -> f = l) as Hsame.
  { intros v f' (w & Hw & E) Hf'. destruct (scene_view_value nearest eps v w Hw) as (_ & _ & _ & El). rewrite El in E. destruct f' as [|[|[|f']]]; cbn in E; [congruence..|lia]. }
  pose proof (Hsame _ _ A1 Hf) as Ef. rewrite Ef, (Hsame _ _ A2 Hg), (Hsame _ _ A3 Hh). split; [lia|]. reflexivity.
Qed.
Lemma demand_case : exists wx wy wz, has_view rc 0 wx /\ has_view rc 1 wy /\ has_view rc 2 wz /\ recon_ok d rc /\ rigid_views rc /\ tools_ok scene_tools /\
  (forall l, l ∈ [0; 1; 2] -> (exists f, assigned rc 0 f l) /\ (exists f, assigned rc 1 f l) /\ exists f, assigned rc 2 f l) /\
  optimize_three_view T scene_gs scene_tools d rc (0, 1, 2) [0; 1; 2] = Some (scene_pose 1, scene_pose 2).
Proof.
  pose proof (ok_recons _ (scene_data_ok nearest eps) _ _ (scene_has_recon nearest eps)) as Hok. pose proof (scene_rigid_views nearest eps) as Hrig. assert (NoDup [0; 1; 2]) as Hnd by (repeat constructor; rewrite ?elem_of_cons, ?elem_of_nil; lia).
  destruct (scene_view_exists nearest eps 0 ltac:(lia)) as [wx Hx]. destruct (scene_view_exists nearest eps 1 ltac:(lia)) as [wy Hy]. destruct (scene_view_exists nearest eps 2 ltac:(lia)) as [wz Hz].
  exists wx, wy, wz. split; [exact Hx|]. split; [exact Hy|]. split; [exact Hz|]. split; [exact Hok|]. split; [exact Hrig|]. split; [exact scene_tools_ok|]. split; [exact demand_offered|].
  destruct (optimize_three_view T scene_gs scene_tools d rc (0, 1, 2) [0; 1; 2]) as [ps|] eqn:E.
  - apply (demanded_thm nearest eps scene_gs scene_tools d rc 0 1 2 [0; 1; 2] ps scene_tools_ok Hok Hrig Hnd demand_offered) in E. destruct E as [_ _ (vx & vy & vz & used & bs & far & Hx' & Hy' & Hz' & H)]. cbv zeta in H. destruct H as (_ & Hall & _ & _ & _ & Hperf).
    destruct (scene_view_value nearest eps 0 vx Hx') as (_ & _ & E0 & _). destruct (scene_view_value nearest eps 1 vy Hy') as (_ & _ & E1 & _). destruct (scene_view_value nearest eps 2 vz Hz') as (_ & _ & E2 & _). rewrite E0, E1, E2 in Hperf.
    assert (forall k, relative (scene_pose k) (scene_pose 0) = scene_pose k) as Hrel by (intros k; rewrite row_relative; unfold scene_pose; cbn [INR]; rewrite Rminus_0_l; reflexivity). rewrite !Hrel in Hperf. f_equal. apply Hperf. intros b Hb. apply elem_of_list_lookup in Hb as [i Hi].
    destruct (Forall2_lookup_r _ _ _ _ _ Hall Hi) as (l & _ & Hs). apply demand_seen in Hs as [Hl ->]. exists (scene_place (l + 1)). cbn [fst snd]. rewrite <- scene_pose_0. split; [|split]; apply scene_sees; lia.
  - apply (refused_thm nearest eps scene_gs scene_tools d rc 0 1 2 [0; 1; 2] wx wy wz scene_tools_ok Hok Hnd demand_offered Hx Hy Hz) in E. destruct E as [E|(used & bs & Hused & Hall & Hfar)]; [cbn in E; lia|]. exfalso.
    pose proof (ms_many _ _ _ _ Hused) as Hlen. change (length used = 3) in Hlen. destruct used as [|l0 [|l1 used]]; [discriminate Hlen..|]. pose proof (ms_once _ _ _ _ Hused) as Hnd'. apply NoDup_cons in Hnd' as [Hne _].
    destruct bs as [|b0 [|b1 bs]]; [inversion Hall|inversion Hall as [|? ? ? ? ? Hall']; inversion Hall'|]. inversion Hall as [|? ? ? ? S0 Hall' ]. inversion Hall' as [|? ? ? ? S1 _]. subst. apply demand_seen in S0 as [L0 ->], S1 as [L1 ->].
    specialize (Hfar [(0, 1)]). cbn [length] in Hfar. assert (1 < 1) as H; [|lia]. apply Hfar. split; [apply NoDup_singleton|]. intros i j Hij. apply elem_of_list_singleton in Hij as [= -> ->]. split; [lia|].
    eexists _, _. split; [reflexivity|]. split; [reflexivity|]. assert (l0 + 1 <> l1 + 1) as Hne' by (intros E; apply Hne; assert (l0 = l1) as -> by lia; left). unfold far_apart. cbn [fst snd]. split; [|split]; apply start_far; first [exact Hne'|lia].
Qed.
End demand.
Lemma demand_example : forall nearest eps, exists d r rc wx wy wz ps,
  let e := geometric (real_trig nearest eps) scene_gs scene_tools demo_orders (fun _ _ _ => []) scene_knn (fun l => l) 100 in
  tools_ok scene_tools /\ data_ok d /\ has_recon d r rc /\ rigid_views rc /\ NoDup [0; 1; 2] /\
  (forall l, l ∈ [0; 1; 2] -> (exists f, assigned rc 0 f l) /\ (exists f, assigned rc 1 f l) /\ exists f, assigned rc 2 f l) /\
  has_view rc 0 wx /\ has_view rc 1 wy /\ has_view rc 2 wz /\ v_pose wx <> v_pose wy /\
  e_optimize3 e d r (0, 1, 2) [0; 1; 2] = Some ps /\ ps = (v_pose wy, v_pose wz).
Proof.
  intros nearest eps. destruct (demand_case nearest eps) as (wx & wy & wz & Hx & Hy & Hz & _ & Hrig & HG & Hoff & E). eexists _, 0, _, wx, wy, wz, _. cbv zeta. split; [exact HG|]. split; [exact (scene_data_ok nearest eps)|]. split; [exact (scene_has_recon nearest eps)|]. split; [exact Hrig|].
  split; [repeat constructor; rewrite ?elem_of_cons, ?elem_of_nil; lia|]. split; [exact Hoff|]. split; [exact Hx|]. split; [exact Hy|]. split; [exact Hz|].
  destruct (scene_view_value nearest eps 0 wx Hx) as (_ & _ & E0 & _). destruct (scene_view_value nearest eps 1 wy Hy) as (_ & _ & E1 & _). destruct (scene_view_value nearest eps 2 wz Hz) as (_ & _ & E2 & _).
  split; [rewrite E0, E1; unfold scene_pose; intros H; apply (f_equal (fun p : riso => vx (trans p))) in H; cbn in H; lra|]. split; [|rewrite E1, E2; reflexivity].
  pose proof (scene_has_recon nearest eps) as Hr. unfold has_recon in Hr. cbn [geometric e_optimize3]. unfold on_recon, sm_get. rewrite Hr. exact E.
Qed.
Lemma refused_example : forall nearest eps st d rc, length [0; 1; 2] < optimization_minimum_landmarks st ->
  optimize_three_view (real_trig nearest eps) st scene_tools d rc (0, 1, 2) [0; 1; 2] = None.
Proof. intros nearest eps st d rc H. unfold optimize_three_view. apply Nat.ltb_lt in H. rewrite H. reflexivity. Qed.
Lemma row_example : exists D, true_scene scene_bearing row_pose row_point D /\
  all_allowed scene_bearing row_pose row_point D scene_settings vdata_init (row_ops (fun _ => mid) 1 4) /\
  run iso_id iso_mul iso_inv scene_settings (row_ops (fun _ => mid) 1 4) = Ok D.
Proof. destruct (row_history (fun _ => mid) 1 eq_refl Rle_0_1) as (d & D & r & rc & unit & _ & _ & _ & _ & E & H1 & H2). exists D. auto. Qed.
Lemma three_example : exists d r rc unit, run iso_id iso_mul iso_inv scene_settings (row_ops (fun _ => mid) 1 3) = Ok d /\ has_recon d r rc /\ (0 < unit)%R /\
  forall k, k < 3 -> exists v w, has_view rc v w /\ v_frame w = k /\ v_pose w = pose_scale (row_pose k) unit.
Proof. destruct (row_history (fun _ => mid) 1 eq_refl Rle_0_1) as (d & D & r & rc & unit & E & Hr & Hu & Hp & _). exists d, r, rc, unit. auto. Qed.
