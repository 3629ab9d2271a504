(** A correct map of three cameras and three points, exported (C74). *)
From stdpp Require Import gmap list.
From Coq Require Import Reals Psatz.
From Verif Require Import Outcome Num Lin LinSpec LinFacts Core CoreSpec CoreProps GeomSpec Sfm SfmSpec SfmDemo SfmProps CoreFacts SfmOps SfmPoseSpec SfmPose SfmGeom SfmGeomSpec SfmGeomFacts SfmSceneDemo SfmStartDemo SfmTruthSpec SfmTruth SfmTruthDemo Bicubic SfmExport SfmExportSpec SfmExportFacts.
Open Scope nat_scope.

Lemma generic_constraints {P : Type} (one : P) mul inv p1 p2 three reg robust bi dis few opt upd worse rescale :
  (map_to_list (sm_map (r_cons (scene_rc one mul inv p1 p2 (scene_env three reg robust bi dis few opt upd worse rescale))))).*2 = [{| c_views := (0, 1, 2); c_poses := (p1, p2) |}].
Proof. vm_compute. reflexivity. Qed.

Lemma demo_ord_ok : orders_ok demo_orders.
Proof. apply demo_filter_ready. Qed.

Section example.
Context (nearest : rmat3 -> rmat3) (eps : R).
Notation d := (scene_data iso_id iso_mul iso_inv (scene_pose 1) (scene_pose 2) (scene_e nearest eps)).
Notation rc := (scene_rc iso_id iso_mul iso_inv (scene_pose 1) (scene_pose 2) (scene_e nearest eps)).
Lemma scene_constraint k c : has_constraint rc k c -> c = {| c_views := (0, 1, 2); c_poses := (scene_pose 1, scene_pose 2) |}.
Proof.
  intros H. assert (c ∈ (map_to_list (sm_map (r_cons rc))).*2) as Hc by (apply elem_of_list_fmap; exists (k, c); split; [reflexivity|apply elem_of_map_to_list; exact H]).
  rewrite scene_e_env in Hc. rewrite generic_constraints in Hc. apply elem_of_list_singleton in Hc. exact Hc.
Qed.
Lemma scene_frame_key k fr : has_frame d k fr -> k < 4 /\ f_feats fr = scene_feats k.
Proof.
  intros H. split; [|exact (scene_frame_value nearest eps k fr H)]. assert ((k, f_feats fr, f_view fr) ∈ [(0, scene_feats 0, Some (0, 0)); (1, scene_feats 1, Some (0, 1)); (3, scene_feats 3, None); (2, scene_feats 2, Some (0, 2))]) as Hin.
  { rewrite scene_e_env in H. match type of H with has_frame (scene_data _ _ _ _ _ (scene_env ?t ?r ?b ?i ?s ?w ?o ?u ?z ?c)) _ _ => rewrite <- (scene_frames iso_id iso_mul iso_inv (scene_pose 1) (scene_pose 2) t r b i s w o u z c) end.
    apply elem_of_list_In, in_map_iff. exists (k, fr). split; [reflexivity|]. apply elem_of_list_In, elem_of_map_to_list. exact H. }
  repeat (apply elem_of_cons in Hin as [[= -> _ _]|Hin]; [lia|]). apply elem_of_nil in Hin as [].
Qed.
Lemma scene_true : true_scene scene_bearing scene_pose row_point d.
Proof.
  split.
  - intros k fr _. apply scene_rigid.
  - intros k fr f x Hf Hx. destruct (scene_frame_key k fr Hf) as [Hk E]. rewrite E in Hx. apply scene_feats_lookup in Hx as [_ ->]. apply scene_sees. lia.
  - intros k fr f x j gr Hf _ Hg. destruct (scene_frame_key k fr Hf) as [Hk _]. destruct (scene_frame_key j gr Hg) as [Hj _]. unfold row_point. split.
    + rewrite row_centre. unfold scene_place. intros [= _ H]. lra.
    + rewrite !row_ray. assert (dot (scene_ray (f + 1) k) (scene_ray (f + 1) j) = (INR (f + 1) - INR k) * (INR (f + 1) - INR j) + 100)%R as -> by (unfold scene_ray; lin).
      assert (forall k : nat, k < 4 -> (0 <= INR k <= 3)%R) as HK by (intros k' H; split; [apply pos_INR|]; replace 3%R with (INR 3) by (cbn; ring); apply le_INR; lia).
      pose proof (HK k Hk) as A. pose proof (HK j Hj) as B. pose proof (Rle_0_sqr (INR (f + 1) - (INR k + INR j) / 2)) as H. unfold Rsqr in H. nra.
  - intros k fr f x j gr g y _ _ _ _ Hne _. unfold row_point. rewrite !row_ray.
    assert (cross (scene_ray (f + 1) k) (scene_ray (f + 1) j) = V3 0 (10 * (INR k - INR j)) 0)%R as -> by (unfold scene_ray; lin). intros [= H].
    pose proof (not_INR _ _ Hne). lra.
Qed.
Lemma scene_assigned v f l : assigned rc v f l -> v < 3 /\ f = l /\ l < 3.
Proof.
  intros (w & Hw & E). destruct (scene_view_value nearest eps v w Hw) as (Hv & _ & _ & El). rewrite El in E. split; [exact Hv|]. destruct f as [|[|[|f]]]; cbn in E; [injection E as <-; lia..|discriminate E].
Qed.
Lemma scene_assigns v l : v < 3 -> l < 3 -> assigned rc v l l.
Proof.
  intros Hv Hl. destruct (scene_view_exists nearest eps v Hv) as [w Hw]. exists w. split; [exact Hw|]. destruct (scene_view_value nearest eps v w Hw) as (_ & _ & _ & ->). destruct l as [|[|[|l]]]; [reflexivity..|lia].
Qed.
Lemma scene_shows v f p : shows row_point rc (v, f) p -> p = scene_place (f + 1).
Proof. intros (w & _ & ->). reflexivity. Qed.
Lemma scene_observes v l : v < 3 -> l < 3 -> observed scene_bearing d rc (v, l) (scene_view (l + 1) v).
Proof.
  intros Hv Hl. destruct (scene_view_exists nearest eps v Hv) as [w Hw]. destruct (scene_view_value nearest eps v w Hw) as (_ & Ef & Ep & _). destruct (scene_frame_exists nearest eps v ltac:(lia)) as [fr Hfr].
  exists w, fr, (10 * (l + 1) + v). split; [exact Hw|]. rewrite Ef. split; [exact Hfr|]. split; [|rewrite Ep; reflexivity]. cbn [snd]. rewrite (scene_frame_value nearest eps v fr Hfr). apply scene_feats_index, Hl.
Qed.
Lemma scene_mapped : mapped scene_pose row_point d rc.
Proof.
  split.
  - exists 0, 1%R. split; [apply (scene_frame_exists nearest eps 0); lia|]. split; [exact Rlt_0_1|]. intros v w Hw. destruct (scene_view_value nearest eps v w Hw) as (_ & -> & -> & _).
    unfold seen_from. rewrite row_relative. unfold scene_pose, pose_scale. cbn [rot trans INR]. f_equal. lin.
  - intros [v f] [v' f'] p q (l & Ha & Hb) Hp Hq. cbn [fst snd] in *. apply scene_assigned in Ha as (_ & -> & _), Hb as (_ & -> & _). apply scene_shows in Hp as ->, Hq as ->. reflexivity.
  - intros k c Hc. rewrite (scene_constraint k c Hc). unfold holds. cbn [c_views c_poses]. intros wa wb wz Ha Hb Hz.
    destruct (scene_view_value nearest eps 0 wa Ha) as (_ & _ & -> & _). destruct (scene_view_value nearest eps 1 wb Hb) as (_ & _ & -> & _). destruct (scene_view_value nearest eps 2 wz Hz) as (_ & _ & -> & _).
    assert (forall k, relative (scene_pose k) (scene_pose 0) = scene_pose k) as Hrel by (intros j; rewrite row_relative; unfold scene_pose; cbn [INR]; rewrite Rminus_0_l; reflexivity). rewrite !Hrel. reflexivity.
Qed.
Lemma scene_robust l : l < 3 -> robust scene_gs scene_tools d rc l.
Proof.
  intros Hl. split.
  - destruct (scene_landmark_exists nearest eps l Hl) as [m Hm]. exists m. split; [exact Hm|]. left. destruct (scene_landmark_value nearest eps l m Hm) as [_ E]. rewrite <- (obs_list_length demo_orders l m demo_ord_ok), E. cbn. lia.
  - exists (0, l), (1, l), (scene_view (l + 1) 0), (scene_view (l + 1) 1). split; [discriminate|]. cbn [fst snd]. split; [apply scene_assigns; lia|]. split; [apply scene_assigns; lia|].
    split; [apply scene_observes; lia|]. split; [apply scene_observes; lia|]. apply scene_apart; lia.
Qed.
Lemma scene_exported (colour_of : nat -> colour) l : l < 3 ->
  exists pc, pictured scene_gs scene_tools demo_orders colour_of d rc l pc /\ pc.1 = scene_place (l + 1).
Proof.
  intros Hl. destruct (scene_view_exists nearest eps 0 ltac:(lia)) as [w Hw]. destruct (scene_view_value nearest eps 0 w Hw) as (_ & Ef & _ & _). destruct (scene_frame_exists nearest eps 0 ltac:(lia)) as [fr Hfr].
  exists (scene_place (l + 1), colour_of (10 * (l + 1) + 0)). split; [|reflexivity]. split.
  - exists (from_point (scene_place (l + 1))). split; [|apply point_from_point; unfold scene_place, vzero; intros [= _ H]; lra]. split; [apply scene_robust, Hl|].
    destruct (scene_landmark_exists nearest eps l Hl) as [m Hm]. pose proof (landmark_listed scene_tools demo_orders d rc l m demo_ord_ok (ok_recons _ (scene_data_ok nearest eps) _ _ (scene_has_recon nearest eps)) Hm) as H. eexists. split; [exact H|].
    apply (scene_listed nearest eps) in H as [_ ->]. apply two_ray_exact; [apply scene_exact; [lia|intros k; rewrite !elem_of_cons, elem_of_nil; lia]|].
    apply (scene_resolved (l + 1) 0 1); [lia..|left|right; left].
  - exists 0, l, w, fr, (10 * (l + 1) + 0). split; [apply scene_assigns; lia|]. split; [exact Hw|]. rewrite Ef. split; [exact Hfr|]. split; [|reflexivity]. rewrite (scene_frame_value nearest eps 0 fr Hfr). apply scene_feats_index, Hl.
Qed.
End example.
Lemma export_example nearest eps (colour_of : nat -> colour) : let e := scene_e nearest eps in
  let d := scene_data iso_id iso_mul iso_inv (scene_pose 1) (scene_pose 2) e in let rc := scene_rc iso_id iso_mul iso_inv (scene_pose 1) (scene_pose 2) e in
  orders_ok demo_orders /\ true_scene scene_bearing scene_pose row_point d /\ data_ok d /\ has_recon d 0 rc /\ mapped scene_pose row_point d rc /\
  t_bearing scene_tools = scene_bearing /\ exact_triangulator (t_triangulate scene_tools) /\
  forall l, l < 3 -> exists pc, pictured scene_gs scene_tools demo_orders colour_of d rc l pc /\ pc.1 = (V3 (INR (l + 1)) 0 10 : rvec3)%R.
Proof.
  cbv zeta. split; [exact demo_ord_ok|]. split; [apply scene_true|]. split; [apply scene_data_ok|]. split; [apply scene_has_recon|]. split; [apply scene_mapped|]. split; [reflexivity|]. split; [exact two_ray_exact|]. intros l Hl. exact (scene_exported nearest eps colour_of l Hl).
Qed.
