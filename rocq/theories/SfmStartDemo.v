(** A noise-free scene to start from: three cameras in a row look at forty points (C66). *)
From stdpp Require Import gmap list.
From Coq Require Import Reals Lra Lia.
From Verif Require Import Outcome OutcomeFacts Num Lin LinSpec LinFacts Core CoreSpec CoreFacts Geom GeomSpec GeomFacts Optimize OptimizeSpec Matching MatchingSpec MatchingFacts.
From Verif Require Import Sfm SfmSpec SfmUse SfmEffects SfmRec SfmHist SfmProps SfmDemo SfmPose SfmPoseSpec SfmPoseFacts SfmGeom SfmGeomSpec SfmGeomFacts SfmGeomThms SfmGeomRigid SfmGeomReg SfmGeomExact SfmSceneDemo.
From Verif Require Import SfmGeomStart SfmGeomStartExact.
Open Scope nat_scope.

(** ** The database *)
Definition start_feats (k : nat) : list nat := (fun i => 10 * (i + 1) + k) <$> seq 0 40.
Section generic.
Context {P : Type} (one : P) (mul : P -> P -> P) (inv : P -> P).
Context (three : vdata P nat -> key -> (key * (P * list (nat * nat))) -> (key * (P * list (nat * nat))) -> three_view_verdict P)
  (reg : vdata P nat -> key -> key -> list (list key * nat) -> option (P * (list key * nat -> bool)))
  (robust bi : vdata P nat -> key -> key -> bool) (dis : vdata P nat -> key -> key -> option (key * nat -> bool)) (few : vdata P nat -> key -> bool)
  (opt : vdata P nat -> key -> key * key * key -> list key -> option (P * P)) (upd : P -> list (P * P) -> option P)
  (worse : vdata P nat -> key -> key -> nat -> nat -> bool) (rescale : vdata P nat -> key -> key -> option (P -> P)).
Notation senv := (scene_env three reg robust bi dis few opt upd worse rescale).
Definition start_ops (e : env P nat) : list (op P nat) := OpAddFeed :: ((fun k => OpAddFrame e 0 (start_feats k)) <$> seq 0 3).
Definition start_data (e : env P nat) : vdata P nat := match run one mul inv scene_settings (start_ops e) with Ok d => d | _ => vdata_init end.
Lemma start_run : run one mul inv scene_settings (start_ops senv) = Ok (start_data senv).
Proof. assert (is_ok (run one mul inv scene_settings (start_ops senv)) = true) as H by (vm_compute; reflexivity). unfold start_data. destruct (run one mul inv scene_settings (start_ops senv)); [reflexivity|discriminate..]. Qed.
Lemma start_none : size (sm_map (d_recs (start_data senv))) = 0.
Proof. vm_compute. reflexivity. Qed.
Lemma start_frames : (fun k => f_feats <$> sm_map (d_frames (start_data senv)) !! k) <$> seq 0 3 = (fun k => Some (start_feats k)) <$> seq 0 3.
Proof. vm_compute. reflexivity. Qed.
Lemma start_used : env_ok senv -> used_well one mul inv scene_settings vdata_init (start_ops senv).
Proof.
  intros He. unfold start_ops. cbn [fmap list_fmap seq used_well]. split; [split; [intros e [=]|exact I]|]. intros d1 _.
  do 3 (split; [split; [intros e [= <-]; exact He|exact I]|]; intros ? _). exact I.
Qed.
End generic.
Lemma start_matching k : k < 3 -> symmetric_matching scene_knn (start_feats 0) (start_feats k) (two_view_match_better_by scene_settings) = Ok ((fun i => (i, i)) <$> seq 0 40).
Proof. intros Hk. destruct k as [|[|[|k]]]; [vm_compute; reflexivity..|lia]. Qed.
Lemma start_mutual k i j : k < 3 -> mutual scene_knn (start_feats 0) (start_feats k) (two_view_match_better_by scene_settings) i j <-> i = j /\ i < 40.
Proof.
  intros Hk. destruct (symmetric_matching_ok _ _ _ _ _ (start_matching k Hk)) as (H & _). rewrite <- H, elem_of_list_fmap. split.
  - intros (i' & [= -> ->] & Hi). apply elem_of_seq in Hi. lia.
  - intros [<- Hi]. exists i. split; [reflexivity|]. apply elem_of_seq. lia.
Qed.

(** ** The scene *)
(** The direction of the motion from one camera to the other: cameras in a row. *)
Definition row_two (l : list (rvec3 * rvec3)) : option (riso * list nat) :=
  match l with
  | [] => None
  | (a, b) :: _ => Some (if Rlt_dec (vx b * vz a) (vx a * vz b) then scene_pose 1 else iso_inv (scene_pose 1), seq 0 (length l))
  end.
(** The place of a camera in the row, which sees the first point under its bearing. *)
Definition row_single (l : list (rvec3 * vec4 RNum)) : option (riso * list nat) :=
  match l with
  | [] => None
  | (b, h) :: _ => (fun q : rvec3 => (Iso (N := RNum) mid (V3 (vz q * vx b / vz b - vx q) 0 0 : rvec3)%R, seq 0 (length l))) <$> point h
  end.
Definition start_tools : tools RNum nat :=
  Tools (N := RNum) scene_bearing two_ray row_two row_single asin (fun x => if Req_EM_T x 0 then false else true) (fun _ n => seq 0 n).
Definition start_gs : gsettings RNum :=
  GSettings (N := RNum) (1 / 2)%R (1 / 2)%R 0%R 1 3 3 0%R 10 2 5 (1 / 10)%R 3 3 36 5 8 2 36 32 3 10 5 (1 / 10)%R.
Lemma row_two_case (l : list (rvec3 * rvec3)) (p : riso) ixs : row_two l = Some (p, ixs) -> ixs = seq 0 (length l) /\
  exists a b l', l = (a, b) :: l' /\ (vx b * vz a < vx a * vz b /\ p = scene_pose 1 \/ ~ vx b * vz a < vx a * vz b /\ p = iso_inv (scene_pose 1))%R.
Proof.
  assert (forall (x y : riso) (f g : list nat), Some (x, f) = Some (y, g) -> y = x /\ g = f) as Hinj by (split; congruence).
  destruct l as [|[a b] l]; cbn [row_two]; [discriminate 1|]. intros E. destruct (Hinj _ _ _ _ E) as [-> ->]. split; [reflexivity|]. exists a, b, l. split; [reflexivity|]. destruct (Rlt_dec _ _) as [H|H]; auto.
Qed.
Lemma row_single_case (l : list (rvec3 * vec4 RNum)) (p : riso) ixs : row_single l = Some (p, ixs) -> ixs = seq 0 (length l) /\
  exists b h l' q, l = (b, h) :: l' /\ point h = Some q /\ p = Iso (N := RNum) mid (V3 (vz q * vx b / vz b - vx q) 0 0 : rvec3)%R.
Proof.
  assert (forall (x y : riso) (f g : list nat), Some (x, f) = Some (y, g) -> y = x /\ g = f) as Hinj by (split; congruence).
  destruct l as [|[b h] l]; cbn [row_single]; [discriminate 1|]. intros E. destruct (point h) as [q|] eqn:Eq; [|discriminate E]. cbn [fmap option_fmap option_map] in E. destruct (Hinj _ _ _ _ E) as [-> ->]. split; [reflexivity|]. exists b, h, l, q. auto.
Qed.
Lemma start_tools_ok : tools_ok start_tools.
Proof.
  split; [| |reflexivity].
  - intros l p ixs. change (t_two_view start_tools l) with (row_two l). intros E. apply row_two_case in E as (-> & a & b & l' & _ & H). split; [|intros i Hi; apply elem_of_seq in Hi; lia]. destruct H as [[_ ->]|[_ ->]]; [apply scene_rigid|apply rigid_inv, scene_rigid].
  - intros l p ixs. change (t_single_view start_tools l) with (row_single l). intros E. apply row_single_case in E as (-> & b & h & l' & q & _ & _ & ->). split; [apply rotation_id|]. intros i Hi; apply elem_of_seq in Hi; lia.
Qed.
Lemma start_inliers l p ixs : t_two_view start_tools l = Some (p, ixs) -> NoDup ixs.
Proof. change (t_two_view start_tools l) with (row_two l). intros E. apply row_two_case in E as (-> & _). apply NoDup_seq. Qed.
Lemma start_exact i ks : (forall k, k ∈ ks -> k <= 3) -> exact_rays (scene_place i) (scene_view i <$> ks).
Proof.
  intros Hks. pose proof (pos_INR i) as HI0.
  assert (forall k, k ∈ ks -> 0 <= INR k <= 3)%R as HK by (intros k Hk; split; [apply pos_INR|replace 3%R with (INR 3) by (cbn; ring); apply le_INR, Hks, Hk]). split.
  - unfold scene_place, vzero. intros [= _ H]. lra.
  - intros x Hx. apply elem_of_list_fmap in Hx as (k & -> & Hk). cbn [fst snd scene_view]. split; [apply scene_rigid|]. split; [apply scene_sees; specialize (Hks k Hk); lia|].
    unfold scene_view. rewrite scene_direction, scene_bearing_value by (specialize (Hks k Hk); lia). unfold normalize. rewrite vdiv_scale, dot_scale_l. apply Rmult_le_pos; [apply Rlt_le, scene_inv_pos|].
    assert (dot (scene_ray i k) (scene_place i) = (INR i - INR k) * INR i + 100)%R as -> by (unfold scene_ray, scene_place; lin). specialize (HK k Hk). pose proof (Rle_0_sqr (INR i - INR k / 2)) as H. unfold Rsqr in H. nra.
  - intros x y Hx Hy. apply elem_of_list_fmap in Hx as (k & -> & Hk). apply elem_of_list_fmap in Hy as (j & -> & Hj). unfold scene_view. rewrite !scene_direction, !scene_bearing_value by (first [specialize (Hks k Hk); lia|specialize (Hks j Hj); lia]). rewrite normalize_dot.
    apply Rmult_le_pos; [|apply Rmult_le_pos; apply Rlt_le, scene_inv_pos]. assert (dot (scene_ray i k) (scene_ray i j) = (INR i - INR k) * (INR i - INR j) + 100)%R as -> by (unfold scene_ray; lin).
    pose proof (HK k Hk) as A. pose proof (HK j Hj) as B. pose proof (Rle_0_sqr (INR i - (INR k + INR j) / 2)) as H. unfold Rsqr in H. nra.
Qed.
Lemma scene_id i : scene_view i 0 = (iso_id, scene_bearing (10 * i + 0)).
Proof. unfold scene_view. rewrite scene_pose_0. reflexivity. Qed.
Lemma start_resolved i k : 0 < k < 10 -> resolved [(iso_id, scene_bearing (10 * i + 0)); (scene_pose k, scene_bearing (10 * i + k))].
Proof. intros Hk. rewrite <- scene_id. apply (scene_resolved i 0 k [0; k]); [lia..|left|right; left]. Qed.
Lemma start_pose_scale (s : R) k : (s * INR k = 1)%R -> pose_scale (scene_pose k) s = scene_pose 1.
Proof. intros H. unfold pose_scale, scene_pose. cbn [trans rot]. f_equal. unfold vscale. cbn [vx vy vz]. f_equal; cbn [INR]; rnum; nra. Qed.
Lemma start_feats_lookup k i x : start_feats k !! i = Some x -> i < 40 /\ x = 10 * (i + 1) + k.
Proof. unfold start_feats. rewrite list_lookup_fmap. intros H. apply fmap_Some in H as (j & Hj & ->). apply lookup_seq in Hj. lia. Qed.
Lemma start_feats_index k i : i < 40 -> start_feats k !! i = Some (10 * (i + 1) + k).
Proof. intros Hi. unfold start_feats. rewrite list_lookup_fmap, lookup_seq_lt by exact Hi. reflexivity. Qed.

Lemma row_order i j k : j < 10 -> k < 10 -> let a := scene_bearing (10 * i + j) in let b := scene_bearing (10 * i + k) in (vx b * vz a < vx a * vz b <-> INR j < INR k)%R.
Proof.
  intros Hj Hk. cbv zeta. rewrite !scene_bearing_value by assumption. unfold normalize. rewrite !vdiv_scale. pose proof (scene_inv_pos i j) as Pj. pose proof (scene_inv_pos i k) as Pk. unfold scene_ray. cbn [vscale vx vz]. rnum.
  revert Pj Pk. unfold scene_ray. generalize (/ norm (V3 (INR i - INR j) 0 10 : rvec3))%R (/ norm (V3 (INR i - INR k) 0 10 : rvec3))%R. intros x y Hx Hy. pose proof (Rmult_lt_0_compat _ _ Hx Hy) as P. split; intros H; nra.
Qed.
Lemma row_forward fc fk k order data p ixs : 0 < k < 10 -> f_feats fc = start_feats 0 -> f_feats fk = start_feats k -> (forall i j, (i, j) ∈ order -> i = j) ->
  Forall2 (match_seen scene_bearing fc fk) order data -> row_two data = Some (p, ixs) -> p = scene_pose 1.
Proof.
  intros Hk Hc Hfk Ho Hd E. apply row_two_case in E as (_ & a & b & l & -> & H). inversion Hd as [|[i j] ? order' ? Hm _ Eo]. subst. destruct Hm as (x & y & Hx & Hy & Eab). cbn [fst snd] in *.
  assert (j = i) as -> by (symmetry; apply Ho; left). rewrite Hc in Hx. rewrite Hfk in Hy. apply start_feats_lookup in Hx as [_ ->], Hy as [_ ->]. assert (a = scene_bearing (10 * (i + 1) + 0) /\ b = scene_bearing (10 * (i + 1) + k)) as [-> ->] by (split; congruence).
  destruct H as [[_ H]|[H _]]; [exact H|]. exfalso. apply H. apply (row_order (i + 1) 0 k); [lia..|]. apply lt_INR. lia.
Qed.

Section frames.
Context (fc ff fs : frame nat) (Hc : f_feats fc = start_feats 0) (Hf : f_feats ff = start_feats 1) (Hs : f_feats fs = start_feats 2).
Notation bb := (two_view_match_better_by scene_settings).
Lemma start_pair k fk : k = 1 \/ k = 2 -> f_feats fk = start_feats k -> exact_pair_scene start_gs start_tools scene_knn bb fc fk (scene_pose k).
Proof.
  intros Hk Hfk. assert (0 < k < 3) as Hk3 by lia. split.
  - apply scene_rigid.
  - intros i j ab Hm (x & y & Hx & Hy & ->). rewrite Hc, Hfk in *. apply start_mutual in Hm as [<- Hi]; [|lia]. cbn [fst snd] in *. apply start_feats_lookup in Hx as [_ ->], Hy as [_ ->]. change (t_bearing start_tools) with scene_bearing. split; [|apply start_resolved; lia].
    exists (scene_place (i + 1)). rewrite <- scene_id. apply (start_exact (i + 1) [0; k]). intros x. rewrite !elem_of_cons, elem_of_nil. lia.
  - intros order data H1 H2 H3 H4. exists (/ INR k)%R. assert (0 < INR k)%R as Hp by (apply lt_0_INR; lia). split; [apply Rinv_0_lt_compat, Hp|]. rewrite start_pose_scale by (apply Rinv_l; lra).
    change (t_two_view start_tools data) with (row_two data). destruct (row_two data) as [[p ixs]|] eqn:E.
    + assert (p = scene_pose 1) as ->.
      { apply (row_forward fc fk k order data p ixs); [lia|exact Hc|exact Hfk| |exact H3|exact E]. intros a b Hab. apply H2 in Hab. rewrite Hc, Hfk in Hab. apply start_mutual in Hab; [apply Hab|lia]. }
      apply row_two_case in E as [-> _]. reflexivity.
    + exfalso. destruct data as [|[a b] data]; [cbn in H4; lia|]. cbn [row_two] in E. discriminate E.

Qed.
Lemma start_triples a b fa fb : a < 3 -> b < 3 -> f_feats fa = start_feats a -> f_feats fb = start_feats b -> exact_triples start_tools scene_knn bb fc fa fb (scene_pose a) (scene_pose b).
Proof.
  intros Ha Hb Hfa Hfb i j k x H1 H2 (u & v & w & Hu & Hv & Hw & ->). rewrite Hc, Hfa, Hfb in *. apply start_mutual in H1 as [<- Hi]; [|exact Ha]. apply start_mutual in H2 as [<- _]; [|exact Hb]. cbn [fst snd] in *.
  apply start_feats_lookup in Hu as [_ ->], Hv as [_ ->], Hw as [_ ->]. change (t_bearing start_tools) with scene_bearing. exists (scene_place (i + 1)). unfold three_rays. cbn [fst snd]. rewrite <- scene_id. apply (start_exact (i + 1) [0; a; b]). intros x. rewrite !elem_of_cons, elem_of_nil. lia.
Qed.
Lemma start_enough_pair k fk : k < 3 -> f_feats fk = start_feats k -> enough_pair start_gs scene_knn bb fc fk.
Proof.
  intros Hk Hfk. exists 40. split; [|cbn; lia]. exists ((fun i => (i, i)) <$> seq 0 40). split; [apply NoDup_fmap_2_strong; [intros a b _ _ [= ->]; reflexivity|apply NoDup_seq]|]. split; [|reflexivity]. intros [i j]. rewrite Hc, Hfk. cbn [fst snd]. rewrite start_mutual by exact Hk. rewrite elem_of_list_fmap. split.
  - intros (i' & [= -> ->] & Hi). apply elem_of_seq in Hi. lia.
  - intros [<- Hi]. exists i. split; [reflexivity|]. apply elem_of_seq. lia.
Qed.
Lemma start_in_three t : in_three scene_knn bb fc ff fs t <-> exists i, i < 40 /\ t = (i, i, i).
Proof.
  destruct t as [[i j] k]. unfold in_three. rewrite Hc, Hf, Hs. cbn [fst snd]. rewrite !start_mutual by lia. split; [intros [[<- Hi] [<- _]]; exists i; auto|]. intros (i' & Hi & [= -> -> ->]). auto.
Qed.
Definition start_triple (i : nat) : rvec3 * rvec3 * rvec3 := (scene_bearing (10 * (i + 1) + 0), scene_bearing (10 * (i + 1) + 1), scene_bearing (10 * (i + 1) + 2)).
Lemma start_seen i x : i < 40 -> triple_seen scene_bearing fc ff fs (i, i, i) x <-> x = start_triple i.
Proof.
  intros Hi. unfold triple_seen. rewrite Hc, Hf, Hs. cbn [fst snd]. split.
  - intros (u & v & w & Hu & Hv & Hw & ->). apply start_feats_lookup in Hu as [_ ->], Hv as [_ ->], Hw as [_ ->]. reflexivity.
  - intros ->. exists (10 * (i + 1) + 0), (10 * (i + 1) + 1), (10 * (i + 1) + 2). rewrite !start_feats_index by exact Hi. auto.
Qed.
Lemma start_wide (p2 : riso) i : exists a b y z, a <> b /\ three_rays (scene_pose 1) p2 (start_triple i) !! a = Some y /\ three_rays (scene_pose 1) p2 (start_triple i) !! b = Some z /\ (0 < cosd (direction y) (direction z))%R.
Proof.
  exists 0, 1, (scene_view (i + 1) 0), (scene_view (i + 1) 1). rewrite scene_id. split; [discriminate|]. split; [reflexivity|]. split; [reflexivity|]. rewrite <- scene_id.
  assert (exact_rays (scene_place (i + 1)) (scene_view (i + 1) <$> [0; 1])) as H by (apply start_exact; intros k; rewrite !elem_of_cons, elem_of_nil; lia).
  apply (exact_incident _ _ _ _ H); [left|right; left|]. apply scene_crossing; lia.
Qed.
Lemma start_far i j k : i <> j -> k < 4 -> (0 < cosd (scene_bearing (10 * i + k)) (scene_bearing (10 * j + k)))%R.
Proof.
  intros Hne Hk. rewrite !scene_bearing_value by lia. set (u := normalize (scene_ray i k)). set (v := normalize (scene_ray j k)).
  assert (unit_vec u) as Uu by (apply normalize_unit, scene_ray_not_zero). assert (unit_vec v) as Uv by (apply normalize_unit, scene_ray_not_zero).
  assert (cross u v <> vzero) as Hcr.
  { unfold u, v, normalize. rewrite !vdiv_scale, cross_scale_l, cross_scale_r. assert (cross (scene_ray i k) (scene_ray j k) = V3 0 (10 * (INR j - INR i)) 0)%R as -> by (unfold scene_ray; lin). intros E. apply (f_equal vy) in E. cbn [vscale vy vzero] in E.
    pose proof (scene_inv_pos i k) as Pk. pose proof (scene_inv_pos j k) as Pj. apply not_INR in Hne. revert E Pk Pj. generalize (/ norm (scene_ray i k))%R (/ norm (scene_ray j k))%R. intros x y E Px Py.
    assert (10 * (INR j - INR i) * y * x = 0)%R as E' by exact E. clear E. apply Rmult_integral in E' as [E|E]; [|lra]. apply Rmult_integral in E as [E|E]; lra. }
  apply norm2_pos in Hcr. rewrite lagrange in Hcr. unfold unit_vec in Uu, Uv. rewrite Uu, Uv in Hcr. unfold cosd. revert Hcr. generalize (dot u v : R). intros z Hz. assert (0 < 1 * 1 - z * z)%R as Hz' by exact Hz. clear Hz. destruct (Rlt_or_le z 1) as [L|L]; [lra|exfalso; nra].
Qed.
Lemma start_point i : scene_place i <> vzero.
Proof. unfold scene_place, vzero. intros [= _ H]. lra. Qed.
Lemma start_tri_first i k b rest : 0 < k < 4 -> b = scene_bearing (10 * i + k) ->
  two_ray ((iso_id, scene_bearing (10 * i + 0)) :: (scene_pose k, b) :: rest) = Some (from_point (scene_place i)).
Proof.
  intros Hk ->. rewrite <- scene_id. unfold two_ray. rewrite filter_cons_False.
  - rewrite filter_cons_True; [|apply crossing_spec; apply (scene_crossing i 0 k); lia]. rewrite (meet_exact (scene_place i) (scene_view i <$> [0; k])); [reflexivity| |left|right; left|apply (scene_crossing i 0 k); lia]. apply start_exact. intros x. rewrite !elem_of_cons, elem_of_nil. lia.
  - intros E. apply crossing_spec in E. apply E, cross_self.
Qed.
Lemma start_fit i : three_fit two_ray 1 0 (scene_pose 1) (scene_pose 1) (start_triple i).
Proof.
  split; [|apply start_wide]. exists (from_point (scene_place (i + 1))). split; [apply start_tri_first; [lia|reflexivity]|].
  assert (exact_rays (scene_place (i + 1)) (scene_view (i + 1) <$> [0; 1])) as He by (apply start_exact; intros k; rewrite !elem_of_cons, elem_of_nil; lia).
  intros y Hy. unfold three_rays, start_triple in Hy. cbn [fst snd] in Hy. rewrite <- scene_id in Hy. apply elem_of_cons in Hy as [->|Hy]; [rewrite (exact_from_point _ _ _ He); [lra|left]|].
  apply elem_of_cons in Hy as [->|Hy]; [change (scene_pose 1, scene_bearing (10 * (i + 1) + 1)) with (scene_view (i + 1) 1); rewrite (exact_from_point _ _ (scene_view (i + 1) 1) He); [lra|right; left]|]. apply elem_of_list_singleton in Hy as ->.
  unfold miss, cosd. cbn [fst snd]. unfold from_point at 1. rewrite (from_homogeneous_fixed (from_homogeneous _)) by (apply from_homogeneous_canonical; rewrite xyz_of_point; apply start_point). change (from_homogeneous (of_point (scene_place (i + 1)))) with (from_point (scene_place (i + 1))).
  rewrite transform_from_point by apply start_point. assert (iso_point (scene_pose 1) (scene_place (i + 1)) = scene_ray (i + 1) 1) as -> by (unfold iso_point, scene_pose, scene_place, scene_ray; cbn [rot trans]; lin).
  assert (bearing (from_point (scene_ray (i + 1) 1)) = normalize (scene_ray (i + 1) 1)) as ->. { unfold bearing. destruct (from_point_coords _ (scene_ray_not_zero (i + 1) 1)) as [-> _]. reflexivity. }
  rewrite scene_bearing_value by lia. rewrite normalize_dot. pose proof (scene_inv_pos (i + 1) 1) as P1. pose proof (scene_inv_pos (i + 1) 2) as P2.
  assert (dot (scene_ray (i + 1) 1) (scene_ray (i + 1) 2) = (INR (i + 1) - 1) * (INR (i + 1) - 2) + 100)%R as -> by (unfold scene_ray; cbn [INR]; lin).
  assert (0 < (INR (i + 1) - 1) * (INR (i + 1) - 2) + 100)%R as P0 by (pose proof (Rle_0_sqr (INR (i + 1) - 3 / 2)) as H; unfold Rsqr in H; nra).
  pose proof (Rmult_lt_0_compat _ _ P0 (Rmult_lt_0_compat _ _ P1 P2)) as P. revert P. generalize ((INR (i + 1) - 1) * (INR (i + 1) - 2) + 100)%R (/ norm (scene_ray (i + 1) 1) * / norm (scene_ray (i + 1) 2))%R. intros a b P. assert (1 - a * b < 1)%R as H by lra. exact H.
Qed.
Lemma start_ratio i : exists r, depth_ratio two_ray (scene_pose 1) (scene_pose 1) (start_triple i) r /\ r <> 0%R.
Proof.
  pose proof (norm2_pos _ (start_point (i + 1))) as Hp. assert (vscale (/ 2)%R (scene_place (i + 1)) <> vzero) as Hh by (apply vscale_nonzero; [lra|apply start_point]). pose proof (norm2_pos _ Hh) as Hp'.
  exists (norm2 (scene_place (i + 1)) / norm2 (vscale (/ 2)%R (scene_place (i + 1))))%R. split.
  - exists (from_point (scene_place (i + 1))), (from_point (vscale (/ 2)%R (scene_place (i + 1)))), (scene_place (i + 1)), (vscale (/ 2)%R (scene_place (i + 1))).
    assert (forall q : rvec3, q <> vzero -> point (from_homogeneous (from_point q)) = Some q) as Hpt.
    { intros q Hq. unfold from_point. rewrite (from_homogeneous_fixed (from_homogeneous _)) by (apply from_homogeneous_canonical; rewrite xyz_of_point; exact Hq). apply (point_from_point q Hq). }
    split; [apply start_tri_first; [lia|reflexivity]|]. split; [apply Hpt, start_point|]. split; [|split; [apply Hpt, Hh|reflexivity]].
    assert (exact_rays (scene_place (i + 1)) (scene_view (i + 1) <$> [0; 2])) as He by (apply start_exact; intros k; rewrite !elem_of_cons, elem_of_nil; lia).
    assert (resolved (scene_view (i + 1) <$> [0; 2])) as Hr by (apply (scene_resolved (i + 1) 0 2 [0; 2]); [lia..|left|right; left]).
    apply (scale_exact (/ 2)%R) in He; [|lra]. apply (scale_resolved (/ 2)%R) in Hr. pose proof (two_ray_exact _ _ He Hr) as E. cbn [fmap list_fmap] in E. unfold scaled in E. rewrite scene_id in E. cbn [fst snd scene_view] in E. rewrite scale_id in E.
    rewrite start_pose_scale in E by (cbn [INR]; lra). exact E.
  - revert Hp Hp'. generalize (norm2 (scene_place (i + 1)) : R) (norm2 (vscale (/ 2)%R (scene_place (i + 1))) : R). intros a b Ha Hb. assert (0 < a / b)%R as H by (apply Rdiv_lt_0_compat; assumption). intros E. rewrite E in H. exact (Rlt_irrefl _ H).
Qed.
Lemma start_enough : enough_triples start_gs start_tools scene_knn bb fc ff fs (scene_pose 1) (scene_pose 2).
Proof.
  split.
  - exists 40. split; [|cbn; lia]. exists ((fun i => (i, i, i)) <$> seq 0 40). split; [apply NoDup_fmap_2_strong; [intros a b _ _ [= ->]; reflexivity|apply NoDup_seq]|]. split; [|reflexivity]. intros t. rewrite start_in_three, elem_of_list_fmap. split.
    + intros (i & -> & Hi). apply elem_of_seq in Hi. exists i. split; [lia|reflexivity].
    + intros (i & Hi & ->). exists i. split; [reflexivity|]. apply elem_of_seq. lia.
  - intros t x Ht Hx. apply start_in_three in Ht as (i & Hi & ->). apply (start_seen i x Hi) in Hx as ->. apply start_wide.
  - intros sel Hnd Hsel Hlen. destruct sel as [|t [|t' sel]]; [cbn in Hlen; lia..|]. apply NoDup_cons in Hnd as [Hnd _]. assert (t <> t') as Hne by (intros ->; apply Hnd; left).
    exists [(t, t')]. split; [apply NoDup_singleton|]. split; [cbn; lia|]. intros a b Hab. apply elem_of_list_singleton in Hab as [= -> ->]. split; [left|]. split; [right; left|]. split; [exact Hne|]. split; [intros H; apply elem_of_list_singleton in H as [= E _]; exact (Hne (eq_sym E))|].
    destruct (proj1 (start_in_three t) (Hsel t ltac:(left))) as (i & Hi & ->). destruct (proj1 (start_in_three t') (Hsel t' ltac:(right; left))) as (j & Hj & ->). assert (i + 1 <> j + 1) as Hij by (intros E; apply Hne; assert (i = j) as -> by lia; reflexivity).
    exists (start_triple i), (start_triple j). split; [apply start_seen; auto|]. split; [apply start_seen; auto|]. split; [|split]; apply start_far; first [exact Hij|lia].
  - intros q1 q2 k1 k2 P1 P2. destruct (pair_found start_gs start_tools scene_knn bb fc ff (scene_pose 1) q1 k1 (start_pair 1 ff ltac:(lia) Hf) start_tools_ok start_inliers P1) as (_ & _ & _ & M1).
    destruct (pair_found start_gs start_tools scene_knn bb fc fs (scene_pose 2) q2 k2 (start_pair 2 fs ltac:(lia) Hs) start_tools_ok start_inliers P2) as (_ & _ & _ & M2).
    assert (forall k (fk : frame nat) (order : list (nat * nat)), 0 < k < 3 -> f_feats fk = start_feats k -> (forall i j, (i, j) ∈ order <-> mutual scene_knn (f_feats fc) (f_feats fk) bb i j) -> forall i j, (i, j) ∈ order -> i = j) as Hsame.
    { intros k fk order Hk Hfk Ho a b Hab. apply Ho in Hab. rewrite Hc, Hfk in Hab. apply start_mutual in Hab; [apply Hab|lia]. }
    destruct P1 as [(o1 & d1 & n1 & _ & O1 & D1 & E1 & _) _]. destruct P2 as [(o2 & d2 & n2 & _ & O2 & D2 & E2 & _) _].
    apply (row_forward fc ff 1 o1 d1 q1 n1) in E1; [|lia|exact Hc|exact Hf|apply (Hsame 1 ff); [lia|exact Hf|exact O1]|exact D1]. apply (row_forward fc fs 2 o2 d2 q2 n2) in E2; [|lia|exact Hc|exact Hs|apply (Hsame 2 fs); [lia|exact Hs|exact O2]|exact D2]. subst q1 q2.
    exists 40. split; [|cbn; lia]. exists ((fun i => (i, i, i)) <$> seq 0 40). split; [apply NoDup_fmap_2_strong; [intros a b _ _ [= ->]; reflexivity|apply NoDup_seq]|]. split; [|reflexivity]. intros t. rewrite elem_of_list_fmap.
    assert (common k1 k2 t <-> exists i, i < 40 /\ t = (i, i, i)) as Hcom by (rewrite <- start_in_three; unfold common, in_three; rewrite M1, M2; reflexivity). split.
    + intros (i & -> & Hi). apply elem_of_seq in Hi. assert (triple_seen scene_bearing fc ff fs (i, i, i) (start_triple i)) as Hseen by (apply start_seen; [lia|reflexivity]). split.
      * split; [apply Hcom; exists i; split; [lia|reflexivity]|]. exists (start_triple i). split; [exact Hseen|apply start_fit].
      * destruct (start_ratio i) as (r & Hr & Hn). exists (start_triple i), r. split; [exact Hseen|]. split; [exact Hr|]. cbn [t_normal start_tools]. destruct (Req_EM_T r 0); [contradiction|reflexivity].
    + intros [[Hco _] _]. apply Hcom in Hco as (i & Hi & ->). exists i. split; [reflexivity|]. apply elem_of_seq. lia.
Qed.
End frames.

(** ** Starting *)
Section start.
Context (nearest : rmat3 -> rmat3) (eps : R).
Definition start_e : env riso nat := geometric (real_trig nearest eps) start_gs start_tools demo_orders (fun _ _ _ => []) scene_knn (fun l => l) 100.
Notation d := (start_data iso_id iso_mul iso_inv (scene_e nearest eps)).
Lemma start_e_ok : env_ok start_e.
Proof.
  apply geometric_ok; [apply start_tools_ok|apply (eo_orders _ (demo_env_ok demo_keep))| |exact scene_knn_ok|reflexivity].
  intros d k n. split; [constructor|]. intros x Hx. apply elem_of_nil in Hx as [].
Qed.
Lemma start_data_ok : data_ok d.
Proof.
  eapply (history_ok riso nat iso_id iso_mul iso_inv scene_settings (start_ops (scene_e nearest eps))).
  - pose proof (scene_e_ok nearest eps) as H. rewrite scene_e_env in *. apply start_used. exact H.
  - rewrite scene_e_env. apply start_run.
Qed.
Lemma start_frame k : k < 3 -> exists fr, has_frame d k fr /\ f_feats fr = start_feats k.
Proof.
  intros Hk. rewrite scene_e_env. pose proof (start_frames iso_id iso_mul iso_inv (e_three_view (scene_e nearest eps)) (e_register (scene_e nearest eps)) (e_robust (scene_e nearest eps)) (e_bi_robust (scene_e nearest eps)) (e_disagree (scene_e nearest eps)) (e_too_few (scene_e nearest eps)) (e_optimize3 (scene_e nearest eps)) (e_update (scene_e nearest eps)) (e_second_worse (scene_e nearest eps)) (e_rescale (scene_e nearest eps))) as E.
  apply (f_equal (fun l => l !! k)) in E. rewrite !list_lookup_fmap, !lookup_seq_lt in E by exact Hk. cbn [fmap option_fmap option_map] in E. unfold has_frame.
  match type of E with Some (_ <$> ?x) = _ => destruct x as [fr|] eqn:Efr; [|discriminate E] end. exists fr. split; [exact Efr|]. cbn [fmap option_fmap option_map Nat.add] in E. congruence.
Qed.
Lemma start_feats_of k fr : k < 3 -> has_frame d k fr -> f_feats fr = start_feats k.
Proof. intros Hk Hfr. destruct (start_frame k Hk) as (fr' & Hfr' & E). rewrite <- E. unfold has_frame in *. congruence. Qed.
Lemma start_free k : k < 3 -> free_frame d k.
Proof.
  intros Hk. split; [destruct (start_frame k Hk) as (fr & Hfr & _); exists fr; exact Hfr|]. intros r v (rc & w & Hr & _). unfold has_recon in Hr.
  assert (size (sm_map (d_recs d)) = 0) as H by (rewrite scene_e_env; apply start_none). apply map_size_empty_inv in H. rewrite H, lookup_empty in Hr. discriminate Hr.
Qed.
Lemma start_case : exists fc ff fs, has_frame d 0 fc /\ has_frame d 1 ff /\ has_frame d 2 fs /\ free_frame d 0 /\ (forall k, k ∈ [1; 2] -> free_frame d k) /\
  (forall k fk, k ∈ [1; 2] -> has_frame d k fk -> exact_pair_scene start_gs start_tools scene_knn (two_view_match_better_by scene_settings) fc fk (scene_pose k)) /\
  (forall k l fk fl, k ∈ [1; 2] -> l ∈ [1; 2] -> k <> l -> has_frame d k fk -> has_frame d l fl -> exact_triples start_tools scene_knn (two_view_match_better_by scene_settings) fc fk fl (scene_pose k) (scene_pose l)) /\
  enough_pair start_gs scene_knn (two_view_match_better_by scene_settings) fc ff /\ enough_pair start_gs scene_knn (two_view_match_better_by scene_settings) fc fs /\
  enough_triples start_gs start_tools scene_knn (two_view_match_better_by scene_settings) fc ff fs (scene_pose 1) (scene_pose 2).
Proof.
  destruct (start_frame 0 ltac:(lia)) as (fc & Hfc & Ec). destruct (start_frame 1 ltac:(lia)) as (ff & Hff & Ef). destruct (start_frame 2 ltac:(lia)) as (fs & Hfs & Es).
  assert (forall k, k ∈ [1; 2] -> k = 1 \/ k = 2) as Hk by (intros k; rewrite !elem_of_cons, elem_of_nil; lia).
  exists fc, ff, fs. do 3 (split; [assumption|]). split; [apply start_free; lia|]. split; [intros k H; apply Hk in H; apply start_free; lia|]. split.
  { intros k fk H Hfk. apply Hk in H. apply start_pair; [exact Ec|exact H|]. apply start_feats_of; [lia|exact Hfk]. }
  split.
  { intros k l fk fl H H' _ Hfk Hfl. apply Hk in H, H'. apply start_triples; [exact Ec|lia|lia|apply start_feats_of; [lia|exact Hfk]|apply start_feats_of; [lia|exact Hfl]]. }
  split; [apply (start_enough_pair fc Ec 1); [lia|exact Ef]|]. split; [apply (start_enough_pair fc Ec 2); [lia|exact Es]|]. apply start_enough; assumption.
Qed.
Lemma start_found : exists d' unit r k1 k2, try_init iso_id start_e scene_settings d 0 [1; 2] = Ok d' /\ (0 < unit)%R /\ new_reconstruction iso_id d 0 1 2 (pose_scale (scene_pose 1) unit) (pose_scale (scene_pose 2) unit) k1 k2 r d'.
Proof.
  destruct start_case as (fc & ff & fs & Hfc & Hff & Hfs & F0 & F1 & H1 & H2 & H3 & H4 & H5).
  destruct (try_init_progress nearest eps start_gs start_tools demo_orders two_ray_exact ltac:(cbn; lra) ltac:(cbn; lra) ltac:(cbn; lia) (fun _ _ _ => []) scene_knn (fun l => l) 100 scene_settings d 0 1 2 [] scene_pose fc ff fs start_tools_ok start_inliers
    start_e_ok start_data_ok F0 ltac:(repeat constructor; rewrite ?elem_of_cons, ?elem_of_nil; lia) ltac:(rewrite !elem_of_cons, elem_of_nil; lia) F1 H1 H2 Hfc Hff Hfs H3 H4 H5) as (d' & unit & r & k1 & k2 & E & Hu & _ & _ & _ & Hn).
  exists d', unit, r, k1, k2. auto.
Qed.
End start.

(** ** A noise-free match which takes no part in the estimate of the scale *)
Definition ahead_pose : riso := Iso (N := RNum) mid (V3 0 0 (-1) : rvec3)%R.
Definition side_pose : riso := Iso (N := RNum) mid (V3 (-1) 0 0 : rvec3)%R.
Definition near_point : rvec3 := (V3 1 0 2 : rvec3)%R.
Definition near_triple : rvec3 * rvec3 * rvec3 := (normalize near_point, normalize (V3 0 0 2 : rvec3)%R, normalize (V3 1 0 1 : rvec3)%R).
Lemma near_direction (p : riso) (b : rvec3) : rot p = mid -> direction (p, b) = b.
Proof. destruct p as [A t]. cbn [rot]. intros ->. unfold direction. cbn [fst snd rot]. lin. Qed.
Lemma near_exact : exact_rays near_point (three_rays side_pose ahead_pose near_triple).
Proof.
  assert (near_point <> vzero) as N0 by (unfold near_point, vzero; intros [= H _]; lra). assert ((V3 0 0 2 : rvec3)%R <> vzero) as N1 by (unfold vzero; intros [= H]; lra). assert ((V3 1 0 1 : rvec3)%R <> vzero) as N2 by (unfold vzero; intros [= H _]; lra).
  assert (forall v, v ∈ three_rays side_pose ahead_pose near_triple -> v = (iso_id, normalize near_point) \/ v = (side_pose, normalize (V3 0 0 2 : rvec3)%R) \/ v = (ahead_pose, normalize (V3 1 0 1 : rvec3)%R)) as Hv.
  { intros v H. unfold three_rays, near_triple in H. cbn [fst snd] in H. apply elem_of_cons in H as [->|H]; [left; reflexivity|]. apply elem_of_cons in H as [->|H]; [right; left; reflexivity|]. apply elem_of_list_singleton in H as ->. right. right. reflexivity. }
  assert (forall u v : rvec3, u <> vzero -> v <> vzero -> (0 <= dot u v)%R -> (0 <= dot (normalize u) (normalize v))%R) as Hd.
  { intros u v Hu Hw H. rewrite normalize_dot. apply Rmult_le_pos; [exact H|]. apply Rmult_le_pos; apply Rlt_le, Rinv_0_lt_compat, norm_pos; assumption. }
  assert (forall u v : rvec3, u <> vzero -> (0 <= dot u v)%R -> (0 <= dot (normalize u) v)%R) as Hd1.
  { intros u v Hu H. unfold normalize. rewrite vdiv_scale, dot_scale_l. apply Rmult_le_pos; [|exact H]. apply Rlt_le, Rinv_0_lt_compat, norm_pos, Hu. }
  assert (iso_point iso_id near_point = near_point) as I0 by (unfold near_point; lin).
  assert (iso_point side_pose near_point = (V3 0 0 2 : rvec3)%R) as I1 by (unfold iso_point, side_pose, near_point; cbn [rot trans]; lin). assert (iso_point ahead_pose near_point = (V3 1 0 1 : rvec3)%R) as I2 by (unfold iso_point, ahead_pose, near_point; cbn [rot trans]; lin).
  assert (forall u v : rvec3, u ∈ [near_point; (V3 0 0 2 : rvec3)%R; (V3 1 0 1 : rvec3)%R] -> v ∈ [near_point; (V3 0 0 2 : rvec3)%R; (V3 1 0 1 : rvec3)%R] -> (0 <= dot u v)%R) as Hdots.
  { assert (forall a b c a' b' c' : R, (0 <= a * a' + b * b' + c * c')%R -> (0 <= dot (V3 a b c : rvec3) (V3 a' b' c' : rvec3))%R) as Hdot by (intros; assumption).
    intros u v Hu Hw. apply elem_of_cons in Hu as [->|Hu]; [|apply elem_of_cons in Hu as [->|Hu]; [|apply elem_of_list_singleton in Hu as ->]]; (apply elem_of_cons in Hw as [->|Hw]; [|apply elem_of_cons in Hw as [->|Hw]; [|apply elem_of_list_singleton in Hw as ->]]); apply Hdot; lra. }
  split.
  - exact N0.
  - intros x Hx. apply Hv in Hx as [Hx|[Hx|Hx]]; rewrite Hx; clear Hx; cbn [fst snd]; (split; [apply rotation_id|]); rewrite near_direction by reflexivity; unfold sees; rewrite ?I0, ?I1, ?I2; (split; [split; [assumption|reflexivity]|]); apply Hd1; try assumption; apply Hdots; first [left|right; left|right; right; left].
  - intros x y Hx Hy. apply Hv in Hx as [Hx|[Hx|Hx]]; apply Hv in Hy as [Hy|[Hy|Hy]]; rewrite Hx, Hy; clear Hx Hy; rewrite !near_direction by reflexivity; apply Hd; try assumption; apply Hdots; first [left|right; left|right; right; left].
Qed.
Lemma near_crossing : cross (normalize near_point) (normalize (V3 0 0 2 : rvec3)%R) <> vzero /\ cross (normalize near_point) (normalize (V3 1 0 1 : rvec3)%R) <> vzero.
Proof.
  assert (forall u v : rvec3, u <> vzero -> v <> vzero -> vy (cross u v) <> 0%R -> cross (normalize u) (normalize v) <> vzero) as H.
  { intros u v Hu Hv Hc E. unfold normalize in E. rewrite !vdiv_scale, cross_scale_l, cross_scale_r in E. apply (f_equal vy) in E. cbn [vscale vy vzero] in E. pose proof (norm_pos u Hu) as Pu. pose proof (norm_pos v Hv) as Pv.
    assert (/ norm u * (/ norm v * vy (cross u v)) = 0)%R as E' by (etransitivity; [|exact E]; rnum; ring). apply Rmult_integral in E' as [E'|E']; [apply (Rinv_neq_0_compat (norm u)) in E'; [exact E'|apply Rgt_not_eq, Pu]|].
    apply Rmult_integral in E' as [E'|E']; [apply (Rinv_neq_0_compat (norm v)) in E'; [exact E'|apply Rgt_not_eq, Pv]|]. exact (Hc E'). }
  assert (near_point <> vzero) as N0 by (unfold near_point, vzero; intros [= H' _]; lra). assert ((V3 0 0 2 : rvec3)%R <> vzero) as N1 by (unfold vzero; intros [= H']; lra). assert ((V3 1 0 1 : rvec3)%R <> vzero) as N2 by (unfold vzero; intros [= H' _]; lra).
  assert (forall a b c a' b' c' : R, (c * a' - a * c' <> 0)%R -> vy (cross (V3 a b c : rvec3) (V3 a' b' c' : rvec3)) <> 0%R) as Hvy by (intros; assumption).
  split; apply H; try assumption; apply Hvy; lra.
Qed.
Lemma scale_left_out : exists tri c1 c2 q x unit, exact_triangulator tri /\ exact_rays q (three_rays c1 c2 x) /\ resolved [(iso_id, x.1.1); (c1, x.1.2)] /\ resolved [(iso_id, x.1.1); (c2, x.2)] /\
  (0 < unit)%R /\ ~ three_fit tri 1 0 c1 (pose_scale c2 unit) x.
Proof.
  exists two_ray, side_pose, ahead_pose, near_point, near_triple, 4%R. destruct near_crossing as [C1 C2]. split; [exact two_ray_exact|]. split; [exact near_exact|].
  assert (cross (direction (iso_id, near_triple.1.1)) (direction (side_pose, near_triple.1.2)) <> vzero) as C1' by (rewrite !near_direction by reflexivity; exact C1).
  assert (cross (direction (iso_id, near_triple.1.1)) (direction (ahead_pose, near_triple.2)) <> vzero) as C2' by (rewrite !near_direction by reflexivity; exact C2).
  split; [eexists _, _; split; [left|]; split; [right; left|]; exact C1'|]. split; [eexists _, _; split; [left|]; split; [right; left|]; exact C2'|]. split; [lra|].
  assert (near_point <> vzero) as N0 by (unfold near_point, vzero; intros [= H' _]; lra).
  intros [(h & Hh & Hall) _]. assert (h = from_point near_point) as ->.
  { unfold three_rays, two_ray in Hh. rewrite filter_cons_False in Hh by (intros E; apply crossing_spec in E; apply E, cross_self). rewrite filter_cons_True in Hh by (apply crossing_spec; exact C1').
    rewrite (meet_exact near_point (three_rays side_pose ahead_pose near_triple)) in Hh; [|exact near_exact|left|right; left|exact C1']. assert (forall a b : vec4 RNum, Some a = Some b -> b = a) as Hinj by congruence. exact (Hinj _ _ Hh). }
  specialize (Hall (pose_scale ahead_pose 4%R, near_triple.2) ltac:(right; right; left)). unfold miss, cosd in Hall. cbn [fst snd near_triple] in Hall.
  unfold from_point in Hall. rewrite (from_homogeneous_fixed (from_homogeneous _)) in Hall by (apply from_homogeneous_canonical; rewrite xyz_of_point; exact N0). change (from_homogeneous (of_point near_point)) with (from_point near_point) in Hall.
  rewrite transform_from_point in Hall by exact N0. assert (iso_point (pose_scale ahead_pose 4%R) near_point = (V3 1 0 (-2) : rvec3)%R) as Ei by (unfold iso_point, pose_scale, ahead_pose, near_point; cbn [rot trans]; lin). rewrite Ei in Hall.
  assert ((V3 1 0 (-2) : rvec3)%R <> vzero) as N3 by (unfold vzero; intros [= H' _]; lra). assert ((V3 1 0 1 : rvec3)%R <> vzero) as N2 by (unfold vzero; intros [= H' _]; lra).
  unfold bearing in Hall. destruct (from_point_coords _ N3) as [E _]. rewrite E in Hall. rewrite normalize_dot in Hall.
  assert (dot (V3 1 0 (-2) : rvec3)%R (V3 1 0 1 : rvec3)%R = (-1)%R) as Ed by (assert (forall a b c a' b' c' : R, dot (V3 a b c : rvec3) (V3 a' b' c' : rvec3) = (a * a' + b * b' + c * c')%R) as Hdot by (intros; reflexivity); rewrite Hdot; lra). rewrite Ed in Hall.
  pose proof (Rinv_0_lt_compat _ (norm_pos _ N3)) as P1. pose proof (Rinv_0_lt_compat _ (norm_pos _ N2)) as P2. pose proof (Rmult_lt_0_compat _ _ P1 P2) as P. revert Hall P.
  match goal with |- context[(-1 * ?z)%R] => generalize z end. intros z Hz P. assert (1 - -1 * z < 1)%R as Hz' by exact Hz. lra.
Qed.
