(** The verdicts of the mapping code on the screw motion of SfmPoseDemo.v: the first feature is
    seen on the axis, the others at right angles to it. *)
From stdpp Require Import gmap list.
From Coq Require Import Reals Lra Lia.
From Verif Require Import Outcome OutcomeFacts Num Lin LinSpec LinFacts Core CoreSpec CoreFacts So3Facts Geom GeomSpec GeomFacts.
From Verif Require Import Sfm SfmSpec SfmUse SfmEffects SfmDemo SfmPose SfmPoseSpec SfmPoseFacts SfmPoseDemo SfmGeom SfmGeomSpec SfmGeomFacts SfmGeomThms.
Open Scope nat_scope.

Lemma landmark_fun {P} (rc : recon P) l m m' : has_landmark rc l m' -> has_landmark rc l m -> m' = m.
Proof. unfold has_landmark. congruence. Qed.

Section generic.
Context {P : Type} (one : P) (mul : P -> P -> P) (inv : P -> P) (f : nat -> P).
Notation rc := (exact_rc one mul inv f).
Notation data := (exact_data one mul inv f).

Lemma exact_four v : v < 4 -> exists w fr, has_view rc v w /\ has_frame data (v_frame w) fr /\ f_feats fr = demo_feats /\
  v_lms w = (if v =? 3 then [0; 1; 3] else [0; 1; 2]).
Proof.
  intros Hv.
  assert (match sm_map (r_views rc) !! v with
          | Some w => match sm_map (d_frames data) !! v_frame w with
                      | Some fr => bool_decide (f_feats fr = demo_feats) && bool_decide (v_lms w = if v =? 3 then [0; 1; 3] else [0; 1; 2])
                      | None => false end
          | None => false end = true) as H by (destruct v as [|[|[|[|v]]]]; [vm_compute; reflexivity..|lia]).
  unfold has_view, has_frame. destruct (sm_map (r_views rc) !! v) as [w|]; [|discriminate H]. destruct (sm_map (d_frames data) !! v_frame w) as [fr|] eqn:E; [|discriminate H].
  apply andb_true_iff in H as [H1 H2]. apply bool_decide_eq_true in H1, H2. exists w, fr. auto.
Qed.
Lemma exact_landmark l : l < 2 -> exists m, has_landmark rc l m /\ obs_list demo_orders l m = [(0, l); (1, l); (3, l); (2, l)] /\ size m = 4.
Proof.
  intros Hl.
  assert (match sm_map (r_lms rc) !! l with
          | Some m => bool_decide (obs_list demo_orders l m = [(0, l); (1, l); (3, l); (2, l)]) && bool_decide (size m = 4)
          | None => false end = true) as H by (destruct l as [|[|l]]; [vm_compute; reflexivity..|lia]).
  unfold has_landmark. destruct (sm_map (r_lms rc) !! l) as [m|]; [|discriminate H]. apply andb_true_iff in H as [H1 H2]. apply bool_decide_eq_true in H1, H2. exists m. auto.
Qed.
End generic.

Definition screw_bearing (x : nat) : rvec3 := if x =? 10 then V3 0%R 0%R 1%R else V3 1%R 0%R 0%R.
Definition screw_point : vec4 RNum := from_point (V3 0 0 10 : rvec3)%R.
Definition screw_tools : tools RNum nat :=
  Tools (N := RNum) screw_bearing (fun _ => Some screw_point) (fun _ => None) (fun _ => None) asin nonzero (fun _ n => seq 0 n).

(** Poses which keep the axis in place. *)
Definition axial (p : riso) : Prop := mvec (rot p) (V3 0 0 1 : rvec3)%R = (V3 0 0 1)%R /\ mvec (mtrans (rot p)) (V3 0 0 1 : rvec3)%R = (V3 0 0 1)%R /\ exists z, trans p = (V3 0 0 z)%R /\ (-5 < z)%R.
Lemma axial_screw k : axial (screw k).
Proof.
  unfold axial, screw. cbn [rot trans]. split; [|split]; [generalize (sin (INR k)) (cos (INR k)); intros; lin..|]. exists (INR k). split; [reflexivity|]. pose proof (pos_INR k). lra.
Qed.
Lemma axial_relative a b : b < 5 -> axial (iso_mul (screw a) (iso_inv (screw b))).
Proof.
  intros Hb. unfold axial, screw. cbn [rot trans iso_mul iso_inv]. split; [|split]; [generalize (sin (INR a)) (cos (INR a)) (sin (INR b)) (cos (INR b)); intros; lin..|].
  exists (INR a - INR b)%R. split; [generalize (sin (INR a)) (cos (INR a)) (sin (INR b)) (cos (INR b)) (INR a) (INR b); intros; lin|]. pose proof (pos_INR a). apply lt_INR in Hb. replace (INR 5) with 5%R in Hb by (cbn; ring). lra.
Qed.
Lemma axial_id : axial iso_id.
Proof. split; [lin|]. split; [lin|]. exists 0%R. split; [reflexivity|lra]. Qed.
Lemma screw_view_poses v w : has_view screw_rc v w -> (v, v_pose w) ∈ [(0, iso_id); (1, iso_mul (screw 0) (iso_inv (screw 2))); (3, screw 3); (2, iso_mul (screw 1) (iso_inv (screw 2)))].
Proof. intros Hw. rewrite <- exact_views_value. apply (exact_view_in iso_id iso_mul iso_inv screw), Hw. Qed.
Lemma screw_view_axial v w : has_view screw_rc v w -> axial (v_pose w).
Proof.
  intros H. apply screw_view_poses in H.
  repeat (apply elem_of_cons in H as [H|H]; [injection H as _ ->; lazymatch goal with |- axial iso_id => apply axial_id | |- axial (iso_mul _ _) => apply axial_relative; lia | |- _ => apply axial_screw end|]). apply elem_of_nil in H as [].
Qed.

(** Every view sees the [i]-th feature under [screw_bearing]. *)
Lemma screw_observed v i : v < 4 -> i < 2 -> exists w, has_view screw_rc v w /\ assigned screw_rc v i i /\
  observed screw_bearing screw_data screw_rc (v, i) (v_pose w, if i =? 0 then V3 0%R 0%R 1%R else V3 1%R 0%R 0%R).
Proof.
  intros Hv Hi. destruct (exact_four iso_id iso_mul iso_inv screw v Hv) as (w & fr & Hw & Hfr & Hfe & Hl). exists w. split; [exact Hw|]. split.
  - exists w. split; [exact Hw|]. rewrite Hl. destruct i as [|[|i]]; [destruct (v =? 3); reflexivity..|lia].
  - exists w, fr, (if i =? 0 then 10 else 20). split; [exact Hw|]. split; [exact Hfr|]. rewrite Hfe. destruct i as [|[|i]]; [split; reflexivity..|lia].
Qed.

Lemma axial_miss p b : axial p -> miss screw_point (p, b) = (1 - vz b)%R.
Proof.
  intros (H1 & _ & z & Hz & Hpos). unfold miss, cosd, screw_point. cbn [fst snd]. rewrite transform_from_point by (intros [= E]; lra).
  assert (iso_point p (V3 0 0 10)%R = vscale (10 + z)%R (V3 0 0 1 : rvec3)%R) as ->.
  { unfold iso_point. rewrite Hz. assert ((V3 0 0 10 : rvec3)%R = vscale 10%R (V3 0 0 1 : rvec3)%R) as -> by lin. rewrite mvec_scale, H1. lin. }
  unfold bearing. assert (vscale (10 + z)%R (V3 0 0 1 : rvec3)%R <> vzero) as Hne by (intros [= E]; lra).
  destruct (from_point_coords _ Hne) as [-> _]. rewrite normalize_pos_scale by lra. rewrite normalize_of_unit by (unfold unit_vec; lin). destruct b as [x y w]. cbn [vz]. unfold dot. cbn [vx vy vz]. rnum. ring.
Qed.

Lemma screw_filter_case :
  orders_ok demo_orders /\ data_ok screw_data /\ has_recon screw_data 0 screw_rc /\ rigid_views screw_rc /\
  kept_together screw_bearing (t_triangulate screw_tools) demo_orders 1 (1 / 2) screw_data screw_rc 0 (0, 0) (1, 0) /\
  ~ kept_together screw_bearing (t_triangulate screw_tools) demo_orders 1 (1 / 2) screw_data screw_rc 1 (0, 1) (1, 1).
Proof.
  assert (orders_ok demo_orders) as Ho by exact (eo_orders _ (demo_env_ok demo_keep)). split; [exact Ho|]. destruct screw_case as (Hd & Hr & Hrig & _). split; [exact Hd|]. split; [exact Hr|]. split; [exact Hrig|].
  assert (forall i, i < 2 -> exists ps, listed screw_bearing demo_orders screw_data screw_rc i ps /\ length ps = 4) as Hli.
  { intros i Hi. destruct (exact_landmark iso_id iso_mul iso_inv screw i Hi) as (m & Hm & El & Es). exists (pose_bearings screw_tools screw_data screw_rc (obs_list demo_orders i m)).
    pose proof (landmark_listed screw_tools demo_orders screw_data screw_rc i m Ho (ok_recons _ Hd _ _ Hr) Hm) as H. split; [exact H|]. destruct H as (m' & Hm' & H). apply Forall2_length in H. assert (m' = m) as -> by (eapply landmark_fun; eassumption). rewrite <- H, El. reflexivity. }
  split.
  - destruct (Hli 0) as (ps & Hl & Hlen); [lia|]. destruct (screw_observed 0 0) as (w & Hw & _ & Hx); [lia..|]. destruct (screw_observed 1 0) as (w' & Hw' & _ & Hy); [lia..|].
    eexists _, _, ps. split; [exact Hx|]. split; [exact Hy|]. split; [exact Hl|]. rewrite Hlen. cbn [Nat.eqb]. exists screw_point. split; [reflexivity|].
    rewrite !axial_miss by (eapply screw_view_axial; eassumption). cbn [vz]. lra.
  - intros (px & py & ps & Hx & _ & Hl & H). destruct (Hli 1) as (ps' & Hl' & Hlen); [lia|]. assert (ps' = ps) as -> by (eapply (listed_fun screw_tools); eassumption). rewrite Hlen in H. cbn [Nat.eqb] in H.
    destruct H as (h & Eh & H & _). assert (forall y, Some y = Some h -> y = h) as Hs by congruence. apply Hs in Eh. rewrite <- Eh in H.
    destruct (screw_observed 0 1) as (w & Hw & _ & Hx'); [lia..|]. assert (px = (v_pose w, V3 1%R 0%R 0%R)) as -> by (eapply (observed_fun screw_tools); [exact Hx|exact Hx']).
    rewrite axial_miss in H by (eapply screw_view_axial; eassumption). cbn [vz] in H. lra.
Qed.

Lemma screw_robust_case :
  robust_landmark screw_bearing 3 (1 / 2) screw_data screw_rc 1 /\ ~ robust_landmark screw_bearing 3 (1 / 2) screw_data screw_rc 0.
Proof.
  split.
  - split; [destruct (exact_landmark iso_id iso_mul iso_inv screw 1) as (m & Hm & _ & Es); [lia|]; exists m; split; [exact Hm|left; lia]|].
    destruct (screw_observed 0 1) as (w & Hw & Ax & Hx); [lia..|]. destruct (screw_observed 3 1) as (w' & Hw' & Ay & Hy); [lia..|].
    exists (0, 1), (3, 1). eexists _, _. split; [discriminate|]. split; [exact Ax|]. split; [exact Ay|]. split; [exact Hx|]. split; [exact Hy|].
    apply screw_view_poses in Hw, Hw'. assert (v_pose w = iso_id) as ->.
    { repeat (apply elem_of_cons in Hw as [Hw|Hw]; [injection Hw as Hw; first [discriminate Hw|exact Hw]|]; try discriminate). apply elem_of_nil in Hw as []. }
    assert (v_pose w' = screw 3) as ->.
    { repeat (apply elem_of_cons in Hw' as [Hw'|Hw']; [injection Hw' as Hw'; first [discriminate Hw'|exact Hw']|]; try discriminate). apply elem_of_nil in Hw' as []. }
    cbn [Nat.eqb]. unfold cosd, direction, screw. cbn [fst snd rot iso_id].
    assert (cos (INR 3) < 0)%R as Hc. { replace (INR 3) with 3%R by (cbn; ring). apply cos_lt_0; pose proof PI_4; pose proof PI2_3_2; lra. }
    revert Hc. generalize (sin (INR 3)) (cos (INR 3)). intros s c Hc. assert (dot (mvec (mtrans mid) (V3 1 0 0 : rvec3)) (mvec (mtrans (axis_angle (V3 0 0 1 : rvec3) s c)) (V3 1 0 0)) = c)%R as -> by lin. lra.
  - intros [_ (x & y & px & py & _ & Hx & Hy & Hox & Hoy & H)].
    assert (forall x px, assigned screw_rc x.1 x.2 0 -> observed screw_bearing screw_data screw_rc x px -> direction px = V3 0%R 0%R 1%R) as Hdir.
    { intros [v i] q Ha Hq. cbn [fst snd] in Ha. destruct (exact_landmark iso_id iso_mul iso_inv screw 0) as (m & Hm & El & _); [lia|]. destruct screw_case as (Hd & Hr & _).
      assert (orders_ok demo_orders) as Ho by exact (eo_orders _ (demo_env_ok demo_keep)).
      apply (ok_mirrored _ _ (ok_recons _ Hd _ _ Hr)) in Ha as (m' & Hm' & Hv). assert (m' = m) as -> by (eapply landmark_fun; eassumption).
      apply (SfmRec.elem_of_obs_list demo_orders 0 m v i Ho) in Hv. rewrite El in Hv.
      assert (v < 4 /\ i = 0) as [Hv4 ->]. { rewrite !elem_of_cons, elem_of_nil in Hv. destruct Hv as [[= -> ->]|[[= -> ->]|[[= -> ->]|[[= -> ->]|[]]]]]; lia. }
      destruct (screw_observed v 0) as (w & Hw & _ & Hx'); [lia..|]. assert (q = (v_pose w, V3 0%R 0%R 1%R)) as -> by (eapply (observed_fun screw_tools); [exact Hq|exact Hx']).
      unfold direction. cbn [fst snd]. destruct (screw_view_axial v w Hw) as (_ & E & _). exact E. }
    rewrite (Hdir x px Hx Hox), (Hdir y py Hy Hoy) in H. unfold cosd in H. assert (dot (V3 0 0 1 : rvec3) (V3 0 0 1) = 1)%R as E by lin. rewrite E in H. lra.
Qed.

Lemma screw_duplicates_case : orders_ok demo_orders /\ data_ok screw_data /\ has_recon screw_data 0 screw_rc /\ rigid_views screw_rc /\
  (forall x, unit_vec (t_bearing screw_tools x)) /\ t_asin screw_tools = asin /\ t_cos (real_trig (fun _ => mid) 1) = cos /\
  (exists ma mb, has_landmark screw_rc 0 ma /\ has_landmark screw_rc 1 mb) /\ assigned screw_rc 0 0 0 /\ assigned screw_rc 0 1 1.
Proof.
  destruct screw_filter_case as (H1 & H2 & H3 & H4 & _). do 4 (split; [assumption|]). split; [intros x; cbn [t_bearing screw_tools]; unfold screw_bearing; destruct (x =? 10); unfold unit_vec; lin|].
  split; [reflexivity|]. split; [reflexivity|]. destruct (exact_landmark iso_id iso_mul iso_inv screw 0) as (ma & Ha & _); [lia|]. destruct (exact_landmark iso_id iso_mul iso_inv screw 1) as (mb & Hb & _); [lia|].
  split; [exists ma, mb; split; assumption|]. destruct (screw_observed 0 0) as (_ & _ & A & _); [lia..|]. destruct (screw_observed 0 1) as (_ & _ & B & _); [lia..|]. split; assumption.
Qed.
