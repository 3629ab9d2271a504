(** C82 for correct maps: ignoring a view does not move the point. *)
From stdpp Require Import gmap list.
From Coq Require Import Reals Lra Lia.
From Verif Require Import Outcome OutcomeFacts Num Lin LinSpec LinFacts Core CoreSpec CoreFacts Geom GeomSpec GeomFacts Sfm SfmSpec SfmData SfmRec SfmPrim SfmCons SfmPose SfmPoseSpec SfmPoseFacts.
From Verif Require Import SfmGeom SfmGeomSpec SfmGeomFacts SfmGeomReg SfmGeomExact SfmTruthSpec SfmTruth Bicubic SfmExport SfmExportSpec SfmExportFacts SfmWithout SfmWithoutSpec SfmWithoutProps SfmDemo SfmSceneDemo SfmStartDemo SfmTruthDemo SfmExportDemo.
Open Scope R_scope.

Lemma without_truth {F : Type} (st : gsettings RNum) (G : tools RNum F) (o : orders) (bo : F -> rvec3) (cam : key -> riso) (pt : key -> nat -> rvec3) (d : vdata riso F) (r : key) (rc : recon riso) :
  orders_ok o -> true_scene bo cam pt d -> data_ok d -> has_recon d r rc -> mapped cam pt d rc ->
  t_bearing G = bo -> exact_triangulator (t_triangulate G) -> 0 <= robust_observation_incidence_minimum_cosine_distance st ->
  exists k0 unit, (exists fr, has_frame d k0 fr) /\ 0 < unit /\
    forall l v, robust_without st G o d rc l v = true -> forall u f p, assigned rc u f l -> shows pt rc (u, f) p ->
      triangulate_without st G o d rc l v = Some (from_point (place_from cam k0 unit p)).
Proof.
  intros Ho HD Hd Hr Hmap Hbo Htri Hinc. pose proof (ok_recons _ Hd r rc Hr) as Hok. apply (mapped_iff cam pt d rc) in Hmap as ((k0 & u & Hb & Hp) & Ht & _).
  exists k0, u. destruct Hb as [Hb0 Hu] eqn:Eb. clear Eb. split; [exact Hb0|]. split; [exact Hu|].
  intros l v Hrob u0 f p Ha Hs. unfold triangulate_without. rewrite Hrob.
  destruct (proj1 (ok_mirrored _ _ Hok u0 f l) Ha) as (m & Hm & _). pose proof (without_observed G o d rc l m v Ho Hok Hm) as Hall.
  apply (without_iff st G o d rc l m v Ho Hok Hm) in Hrob as (x & y & px & py & _ & Hxv & Hyv & Hx & Hy & Hox & Hoy & Hc).
  assert (forall z pz, z.1 <> v -> assigned rc z.1 z.2 l -> observed (t_bearing G) d rc z pz -> pz ∈ pose_bearings G d rc (observations_without o rc l v)) as Hin.
  { intros [zv zf] pz Hz Haz Hoz. cbn [fst snd] in *. apply (ok_mirrored _ _ Hok) in Haz as (m' & Hm' & Hz'). assert (m' = m) as -> by (unfold has_landmark in *; congruence).
    assert ((zv, zf) ∈ observations_without o rc l v) as Hi. { rewrite (without_list o rc l m v Hm). apply elem_of_list_filter. split; [exact Hz|]. apply (elem_of_obs_list o l m zv zf Ho), Hz'. }
    apply elem_of_list_lookup in Hi as [i Hi]. destruct (Forall2_lookup_l _ _ _ _ _ Hall Hi) as (pz' & Hpz & Hoz'). rewrite (observed_fun G d rc (zv, zf) pz pz' Hoz Hoz'). eapply elem_of_list_lookup_2, Hpz. }
  pose proof (Hin x px Hxv Hx Hox) as Ix. pose proof (Hin y py Hyv Hy Hoy) as Iy.
  assert (exact_rays (place_from cam k0 u p) (pose_bearings G d rc (observations_without o rc l v))) as Hex.
  { apply (gauge_exact bo cam pt d HD k0 u p); [exact Hb| |].
    - intros En. rewrite En in Ix. apply elem_of_nil in Ix as [].
    - intros z Hz. apply elem_of_list_lookup in Hz as [i Hi]. destruct (Forall2_lookup_r _ _ _ _ _ Hall Hi) as ([v' f'] & Hvf & Hob).
      apply elem_of_list_lookup_2 in Hvf. rewrite (without_list o rc l m v Hm) in Hvf. apply elem_of_list_filter in Hvf as [_ Hvf]. apply (elem_of_obs_list o l m v' f' Ho) in Hvf.
      rewrite Hbo in Hob. destruct (observed_shows bo pt d rc (v', f') z Hob) as [q Hq]. assert (assigned rc v' f' l) as Ha' by (apply (ok_mirrored _ _ Hok); exists m; auto).
      rewrite (Ht (u0, f) (v', f') p q (same_landmark rc u0 f v' f' l Ha Ha') Hs Hq). apply (observed_ray bo cam pt d d rc k0 u (v', f') q z); [intros k fr H; eauto|exact Hp|exact Hob|exact Hq]. }
  apply Htri; [exact Hex|]. exists px, py. split; [exact Ix|]. split; [exact Iy|]. eapply exact_apart; [exact Hex|exact Ix|exact Iy|exact Hinc|exact Hc].
Qed.

(** Three cameras in a row: the third is not needed. *)
Lemma without_example (colour_of : nat -> colour) nearest eps : let e := scene_e nearest eps in
  let d := scene_data iso_id iso_mul iso_inv (scene_pose 1) (scene_pose 2) e in let rc := scene_rc iso_id iso_mul iso_inv (scene_pose 1) (scene_pose 2) e in
  orders_ok demo_orders /\ true_scene scene_bearing scene_pose row_point d /\ data_ok d /\ has_recon d 0%nat rc /\ mapped scene_pose row_point d rc /\
  t_bearing scene_tools = scene_bearing /\ exact_triangulator (t_triangulate scene_tools) /\
  forall l, (l < 3)%nat -> robust_without scene_gs scene_tools demo_orders d rc l 2%nat = true.
Proof.
  cbv zeta. destruct (export_example nearest eps colour_of) as (H1 & H2 & H3 & H4 & H5 & H6 & H7 & _). do 7 (split; [assumption|]). intros l Hl.
  destruct (scene_landmark_exists nearest eps l Hl) as [m Hm]. apply (without_iff scene_gs scene_tools demo_orders _ _ l m 2%nat H1 (ok_recons _ H3 _ _ H4) Hm).
  exists (0%nat, l), (1%nat, l), (scene_view (l + 1) 0), (scene_view (l + 1) 1). split; [discriminate|]. cbn [fst snd]. split; [discriminate|]. split; [discriminate|]. split; [apply scene_assigns; lia|]. split; [apply scene_assigns; lia|].
  split; [apply scene_observes; lia|]. split; [apply scene_observes; lia|]. apply scene_apart; lia.
Qed.
