(** A case for C77: an image of 60 times 50 pixels, and the simplest routines. *)
From stdpp Require Import gmap list list_numbers.
From Coq Require Import Reals ZArith Lia Lra.
From Verif Require Import Outcome OutcomeFacts Num Lin LinSpec Core CoreSpec GraySpec Diffuse Akaze AkazeSpec AkazeDemo Bicubic BicubicSpec Pinhole Frame FrameSpec Sfm SfmSpec SfmUse SfmDemo SfmGeom SfmGeomSpec Sandbox SandboxSpec VSlam VSlamSpec VSlamFacts.
Open Scope nat_scope.

Definition plain_tools : tools RNum described :=
  Tools (fun x : described => f_bearing x.2) (fun _ => None) (fun _ => None) (fun _ => None) (fun x => x) (fun _ => false) (fun _ n => seq 0 n).
Definition plain_knn (fs : list described) (f : described) (n : nat) : list (nat * nat) := (fun i => (i, 0)) <$> seq 0 (Nat.min n (length fs)).
Definition plain_photo (fuel : nat) : rphoto :=
  Photo Rwidths (Luma8 (Buffer 60 50 (fun x y => Z.of_nat (x + y)))) (Image 60 50 (fun x y => (x, y, x + y)%Z)) (fun _ _ => plain_tools) demo_orders (fun _ _ _ => []) plain_knn (fun l => l) fuel.

Lemma plain_loadable fuel : loadable (plain_photo fuel).
Proof. split; [exists 60, 50; split; [reflexivity|lia]|]. unfold u32_image, u32_max. cbn. lia. Qed.
Lemma plain_routines n fuel : n < fuel -> routines_ok n (plain_photo fuel).
Proof.
  intros H. split; cbn [ph_tools ph_orders ph_similar ph_knn ph_sort ph_fuel plain_photo].
  - intros _ _. split; cbn [t_two_view t_single_view t_shuffle plain_tools]; [intros ? ? ? E; discriminate E|intros ? ? ? E; discriminate E|intros _ m; reflexivity].
  - exact (eo_orders _ (demo_env_ok (fun _ _ => None))).
  - intros d k m. split; [constructor|]. intros x Hx. inversion Hx.
  - intros fs f m. unfold plain_knn. rewrite fmap_length, seq_length. split; [reflexivity|].
    assert (((fun i => (i, 0)) <$> seq 0 (Nat.min m (length fs))).*1 = seq 0 (Nat.min m (length fs))) as -> by (rewrite <- list_fmap_compose; apply list_fmap_id).
    split; [apply NoDup_seq|]. intros i x Hx. apply elem_of_list_fmap in Hx as (j & E & Hj). apply elem_of_seq in Hj. assert (i = j) by congruence. lia.
  - reflexivity.
  - exact H.
Qed.
(** The first image is added whatever its features are. *)
Section first.
Context {Q F : Type} (one : Q) (mul : Q -> Q -> Q) (inv : Q -> Q).
Definition first_data (fs : list F) : vdata Q F := (VData (sm_put 0 [0] (sm_ins [] sm_empty)) sm_empty (sm_ins (Sfm.Frame 0 0 fs None) sm_empty) [0]).
Lemma first_added fs : data_add_frame (add_feed vdata_init).1 0 fs = Ok (first_data fs, 0).
Proof. reflexivity. Qed.
Lemma first_alone fs ns nr th : find_frames (first_data fs) [] 0 ns nr th = Ok (∅, []).
Proof.
  unfold find_frames. change (sm_get (d_frames (first_data fs)) 0) with (Some (Sfm.Frame 0 0 fs None : Sfm.frame F)). cbn [unwrap bind f_feed f_feed_frame]. change (sm_get (d_feeds (first_data fs)) 0) with (Some [0]). cbn [unwrap bind].
  assert (recent_frames [0] 0 0 nr = []) as ->. { unfold recent_frames. cbn [imap]. rewrite filter_cons_False; [reflexivity|]. intros [H _]. apply H. reflexivity. }
  cbn [mapM bind]. destruct ns; reflexivity.
Qed.
Lemma first_frame (e : env Q F) s fs : (forall d k n, e_similar e d k n = []) -> orders_ok (e_ord e) -> add_frame one mul inv e s (add_feed vdata_init).1 0 fs = Ok (first_data fs, 0).
Proof.
  intros Hs Ho. unfold add_frame. rewrite first_added. cbn [bind]. unfold find_for. rewrite Hs, first_alone. cbn [bind]. unfold try_localize.
  rewrite dom_empty_L. assert (o_recs (e_ord e) ∅ = []) as ->. { apply Permutation_nil_r. etransitivity; [apply (oo_recs _ Ho)|]. rewrite elements_empty. reflexivity. }
  cbn [omap list_omap foldM bind]. change (sm_get (d_frames (first_data fs)) 0) with (Some (Sfm.Frame 0 0 fs None : Sfm.frame F)). cbn [unwrap bind f_view]. reflexivity.
Qed.
End first.
Lemma plain_first nearest eps opt fuel fs (v : vslam_settings RNum) :
  session_of (real_trig nearest eps) (described_colour Rwidths) (tracking_of v) opt (geometry_of v) None [picture_of Rwidths v (plain_photo fuel) fs] = Ok (Session (geometry_of v) (first_data fs) ∅ []).
Proof.
  unfold session_of. cbn [default]. change (add_feed (vdata_init : vdata riso described)) with ((add_feed (vdata_init : vdata riso described)).1, 0). cbn [foldM]. unfold add_picture at 1.
  cbn [ss_data ss_settings]. rewrite first_frame; [|reflexivity|exact (eo_orders _ (demo_env_ok (fun _ _ => None)))]. cbn [bind]. change (sm_get (d_frames (first_data fs)) 0) with (Some (Sfm.Frame 0 0 fs None : Sfm.frame described)). reflexivity.
Qed.
