(** A concrete database over real poses: four frames on a screw motion, whose constraints are
    exact. *)
From stdpp Require Import gmap list.
From Coq Require Import Reals Lra Lia.
From Verif Require Import Outcome OutcomeFacts Num Lin LinSpec LinFacts Core CoreSpec CoreFacts So3Facts.
From Verif Require Import Sfm SfmSpec SfmUse SfmEffects SfmHist SfmThms SfmProps SfmDemo SfmPose SfmPoseSpec SfmPoseFacts.
Open Scope nat_scope.

Section generic.
Context {P : Type} (one : P) (mul : P -> P -> P) (inv : P -> P) (f : nat -> P).

(** As [demo_env], with frame [k] at pose [f k] and exact constraints. *)
Definition exact_env (update : P -> list (P * P) -> option P) (rescale : vdata P nat -> key -> key -> option (P -> P)) : env P nat := {|
  e_ord := demo_orders;
  e_similar := fun _ _ _ => [];
  e_knn := demo_knn;
  e_two_view := fun _ a b ms => Some (mul (f b) (inv (f a)), seq 0 (length ms));
  e_three_view := fun _ c x y => TVaccept x.2.1 y.2.1 (fun _ => true) (fun _ => true) (fun _ => true);
  e_register := fun _ _ k _ => Some (f k, fun _ => true);
  e_robust := fun _ _ _ => true;
  e_bi_robust := fun _ _ _ => true;
  e_disagree := fun _ _ _ => Some (fun _ => false);
  e_too_few := fun _ _ => false;
  e_optimize3 := fun d r vs _ =>
    match sm_get (d_recs d) r with
    | None => None
    | Some rc => match sm_get (r_views rc) vs.1.1, sm_get (r_views rc) vs.1.2, sm_get (r_views rc) vs.2 with
                 | Some a, Some b, Some z => Some (mul (v_pose b) (inv (v_pose a)), mul (v_pose z) (inv (v_pose a)))
                 | _, _, _ => None
                 end
    end;
  e_sort := fun l => l;
  e_update := update;
  e_second_worse := fun _ _ _ _ _ => true;
  e_rescale := rescale;
  e_fuel := 100
|}.
Definition exact_keep (p : P) (_ : list (P * P)) : option P := Some p.
Definition exact_e : env P nat := exact_env exact_keep (fun _ _ _ => None).
Lemma exact_env_ok update rescale : env_ok (exact_env update rescale).
Proof.
  pose proof (demo_env_ok demo_keep) as [H1 H2 H3 H4 H5]. split; [exact H1|..].
  - intros d k n. cbn. split; [constructor|]. intros x Hx. apply elem_of_nil in Hx as [].
  - exact H3.
  - intros d a b ms p ixs. cbn. intros [= _ <-] i Hi. apply elem_of_seq in Hi. lia.
  - intros l. reflexivity.
Qed.
Definition exact_ops : list (op P nat) := OpAddFeed :: replicate 4 (OpAddFrame exact_e 0 demo_feats).
Definition exact_run : outcome (vdata P nat) := run one mul inv (demo_settings 10 1) exact_ops.
Definition exact_data : vdata P nat := match exact_run with Ok d => d | _ => vdata_init end.
Definition exact_rc : recon P := default recon_empty (sm_map (d_recs exact_data) !! 0).

Lemma exact_used s d : used_well one mul inv s d exact_ops.
Proof.
  unfold exact_ops. cbn [replicate]. split; [split; [intros e [=]|exact I]|]. intros d1 _.
  do 4 (split; [split; [intros e [= <-]; apply exact_env_ok|exact I]|]; intros ? _). exact I.
Qed.
Lemma exact_run_ok : exact_run = Ok exact_data.
Proof. assert (is_ok exact_run = true) as H by (vm_compute; reflexivity). unfold exact_data. destruct exact_run; [reflexivity|discriminate..]. Qed.
Lemma exact_data_ok : data_ok exact_data.
Proof. eapply history_ok; [apply exact_used|apply exact_run_ok]. Qed.
Lemma exact_recon : has_recon exact_data 0 exact_rc.
Proof. assert (is_some (sm_map (d_recs exact_data) !! 0) = true) as H by (vm_compute; reflexivity). unfold has_recon, exact_rc. destruct (sm_map (d_recs exact_data) !! 0); [reflexivity|discriminate]. Qed.

Definition exact_views : list (key * P) := map (fun x : key * view P => (x.1, v_pose x.2)) (map_to_list (sm_map (r_views exact_rc))).
Definition exact_cons : list (key * key * key * (P * P)) := map (fun x : key * constraint3 P => (c_views x.2, c_poses x.2)) (map_to_list (sm_map (r_cons exact_rc))).

Lemma exact_views_value : exact_views = [(0, one); (1, mul (f 0) (inv (f 2))); (3, f 3); (2, mul (f 1) (inv (f 2)))].
Proof. vm_compute. reflexivity. Qed.
Lemma exact_cons_value : exact_cons =
  [(0, 1, 2, (mul (f 0) (inv (f 2)), mul (f 1) (inv (f 2))));
   (0, 1, 3, (mul (mul (f 0) (inv (f 2))) (inv one), mul (f 3) (inv one)));
   (1, 2, 3, (mul (mul (f 1) (inv (f 2))) (inv (mul (f 0) (inv (f 2)))), mul (f 3) (inv (mul (f 0) (inv (f 2))))));
   (0, 2, 3, (mul (mul (f 1) (inv (f 2))) (inv one), mul (f 3) (inv one)))].
Proof. vm_compute. reflexivity. Qed.
Lemma exact_view_in v w : has_view exact_rc v w -> (v, v_pose w) ∈ exact_views.
Proof. intros H. unfold exact_views. apply elem_of_list_fmap. exists (v, w). split; [reflexivity|]. apply elem_of_map_to_list. exact H. Qed.
Lemma exact_con_in k c : has_constraint exact_rc k c -> (c_views c, c_poses c) ∈ exact_cons.
Proof. intros H. unfold exact_cons. apply elem_of_list_fmap. exists (k, c). split; [reflexivity|]. apply elem_of_map_to_list. exact H. Qed.
Lemma exact_sizes : sm_size (r_views exact_rc) = 4 /\ sm_size (r_cons exact_rc) = 4.
Proof. vm_compute. split; reflexivity. Qed.
Lemma exact_first : exists w, has_view exact_rc 0 w /\ v_lms w <> [].
Proof.
  assert (match sm_map (r_views exact_rc) !! 0 with Some w => negb (length (v_lms w) =? 0) | None => false end = true) as H by (vm_compute; reflexivity).
  unfold has_view. destruct (sm_map (r_views exact_rc) !! 0) as [w|]; [|discriminate]. exists w. split; [reflexivity|]. intros E. rewrite E in H. discriminate.
Qed.
End generic.

(** Frame [k] is turned by [k] radians about the optical axis and moved along it by [k]. *)
Definition screw (k : nat) : riso := Iso (axis_angle (V3 0 0 1 : rvec3) (sin (INR k)) (cos (INR k)))%R (V3 0 0 (INR k))%R.
Lemma screw_rigid k : rigid (screw k).
Proof. unfold rigid, screw. cbn [rot]. apply axis_angle_rotation; [unfold unit_vec; lin|apply sin_cos]. Qed.

Definition screw_data := exact_data iso_id iso_mul iso_inv screw.
Definition screw_rc := exact_rc iso_id iso_mul iso_inv screw.
Lemma screw_rigid_views : rigid_views screw_rc.
Proof.
  intros v w H. apply (exact_view_in iso_id iso_mul iso_inv screw) in H. rewrite exact_views_value in H.
  assert (forall a b, rigid (iso_mul (screw a) (iso_inv (screw b)))) as Hr by (intros; apply rigid_mul; [apply screw_rigid|apply rigid_inv, screw_rigid]).
  repeat (apply elem_of_cons in H as [H|H]; [injection H as _ ->; lazymatch goal with |- rigid iso_id => apply rigid_id | |- rigid (iso_mul _ _) => apply Hr | |- _ => apply screw_rigid end|]). apply elem_of_nil in H as [].
Qed.
Lemma iso_inv_id : iso_inv (iso_id : riso) = iso_id. Proof. lin. Qed.
Lemma screw_holds k c : has_constraint screw_rc k c -> holds screw_rc c.
Proof.
  intros H. apply (exact_con_in iso_id iso_mul iso_inv screw) in H. rewrite exact_cons_value in H. unfold holds.
  assert (forall v w, has_view screw_rc v w -> (v, v_pose w) ∈ [(0, iso_id); (1, iso_mul (screw 0) (iso_inv (screw 2))); (3, screw 3); (2, iso_mul (screw 1) (iso_inv (screw 2)))]) as Hv.
  { intros v w Hw. rewrite <- exact_views_value. apply (exact_view_in iso_id iso_mul iso_inv screw), Hw. }
  repeat (apply elem_of_cons in H as [H|H]; [injection H as -> ->; intros wa wb wz Ha Hb Hz; apply Hv in Ha, Hb, Hz;
    repeat (first [apply elem_of_cons in Ha as [Ha|Ha]; [injection Ha as Ha; try discriminate Ha|]; try discriminate|apply elem_of_nil in Ha as []]);
    repeat (first [apply elem_of_cons in Hb as [Hb|Hb]; [injection Hb as Hb; try discriminate Hb|]; try discriminate|apply elem_of_nil in Hb as []]);
    repeat (first [apply elem_of_cons in Hz as [Hz|Hz]; [injection Hz as Hz; try discriminate Hz|]; try discriminate|apply elem_of_nil in Hz as []]);
    rewrite ?Ha, ?Hb, ?Hz; unfold relative; rewrite ?iso_inv_id, ?iso_mul_id_r; reflexivity|]).
  apply elem_of_nil in H as [].
Qed.
Lemma screw_case : data_ok screw_data /\ has_recon screw_data 0 screw_rc /\ rigid_views screw_rc /\ sm_size (r_views screw_rc) = 4 /\ sm_size (r_cons screw_rc) = 4 /\
  forall k c, has_constraint screw_rc k c -> holds screw_rc c.
Proof. split; [apply (exact_data_ok iso_id iso_mul iso_inv screw)|]. split; [apply (exact_recon iso_id iso_mul iso_inv screw)|]. split; [apply screw_rigid_views|].
  split; [exact (proj1 (exact_sizes iso_id iso_mul iso_inv screw))|]. split; [exact (proj2 (exact_sizes iso_id iso_mul iso_inv screw))|]. apply screw_holds. Qed.

(** An environment with the real update and the real rescaling; every landmark is at one place. *)
Definition nonzero (x : R) : bool := negb (Reqb x 0).
Definition screw_landmark (_ : key) : option rvec4 := Some (from_point (V3 0 0 2 : rvec3)%R).
Definition screw_e (rate : R) : env riso nat :=
  exact_env iso_mul iso_inv screw (pose_update (real_trig (fun _ => mid) 1) rate)
    (fun d r v => match sm_get (d_recs d) r with
                  | Some rc => match sm_get (r_views rc) v with Some w => rescale_by (N := RNum) nonzero screw_landmark w | None => None end
                  | None => None
                  end).
Lemma screw_rescale rate v w : has_view screw_rc v w -> e_rescale (screw_e rate) screw_data 0 v = rescale_by (N := RNum) nonzero screw_landmark w.
Proof.
  intros H. cbn [screw_e exact_env e_rescale]. pose proof (exact_recon iso_id iso_mul iso_inv screw) as Hr. unfold has_recon in Hr. unfold sm_get, screw_data. rewrite Hr.
  unfold has_view, screw_rc in H. rewrite H. reflexivity.
Qed.
Lemma screw_normalize_case rate : orders_ok (e_ord (screw_e rate)) /\ (exists v w, has_view screw_rc v w) /\
  (forall v w, has_view screw_rc v w -> e_rescale (screw_e rate) screw_data 0 v = rescale_by (N := RNum) nonzero screw_landmark w) /\
  (forall x, nonzero x = true -> x <> 0%R) /\ exists w, has_view screw_rc 0 w /\ nonzero (mean_distance (N := RNum) screw_landmark w) = true.
Proof.
  assert (exists w, has_view screw_rc 0 w /\ v_pose w = iso_id /\ v_lms w <> []) as (w & Hw & Ep & El).
  { destruct (exact_first iso_id iso_mul iso_inv screw) as (w & E & El). exists w. split; [exact E|]. split; [|exact El].
    apply (exact_view_in iso_id iso_mul iso_inv screw) in E. rewrite exact_views_value in E.
    repeat (apply elem_of_cons in E as [E|E]; [injection E as E; first [discriminate E|exact E]|]; try discriminate). apply elem_of_nil in E as []. }
  split; [exact (eo_orders _ (demo_env_ok demo_keep))|]. split; [exists 0, w; exact Hw|]. split; [apply screw_rescale|].
  split; [intros x Hx; unfold nonzero in Hx; apply negb_true_iff in Hx; apply Reqb_false; exact Hx|].
  exists w. split; [exact Hw|]. unfold nonzero. apply negb_true_iff, Reqb_false.
  assert ((V3 0 0 2 : rvec3)%R <> vzero) as Hq by (intros [= H]; lra).
  assert (norm (V3 0 0 2 : rvec3)%R = 2%R) as Hn. { unfold norm. replace (norm2 (V3 0 0 2 : rvec3)%R) with (Rsqr 2) by (unfold Rsqr; lin). apply sqrt_Rsqr. lra. }
  unfold mean_distance, view_distances. rewrite Ep. unfold screw_landmark.
  rewrite transform_id by (apply from_homogeneous_canonical; rewrite xyz_of_point; exact Hq). rewrite point_from_point by exact Hq. rewrite Hn.
  set (l := omap _ _). assert (l = repeat 2%R (length (v_lms w))) as El2. { unfold l. clear. induction (v_lms w) as [|x xs IH]; [reflexivity|]. cbn. f_equal. exact IH. }
  rewrite El2, running_mean_spec by (destruct (v_lms w); [congruence|discriminate]). rewrite repeat_length.
  assert (total (repeat 2%R (length (v_lms w))) = 2 * INR (length (v_lms w)))%R as ->.
  { clear. generalize (length (v_lms w)) as n. induction n as [|n IH]; [cbn; lra|]. rewrite S_INR. cbn [repeat total]. rewrite IH. lra. }
  assert (0 < INR (length (v_lms w)))%R as Hpos by (apply lt_0_INR; destruct (v_lms w); [congruence|cbn; lia]).
  replace (2 * INR (length (v_lms w)) / INR (length (v_lms w)))%R with 2%R by (field; lra). lra.
Qed.
Lemma screw_update_case rate : orders_ok (e_ord (screw_e rate)) /\ e_update (screw_e rate) = pose_update (real_trig (fun _ => mid) 1) rate.
Proof. split; [exact (eo_orders _ (demo_env_ok demo_keep))|reflexivity]. Qed.
