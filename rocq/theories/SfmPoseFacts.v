(** Facts about pose updates and normalisation over real isometries (C06, C07). *)
From stdpp Require Import gmap list.
From Coq Require Import Reals Lra Lia.
From Verif Require Import Outcome OutcomeFacts Num Lin LinSpec LinFacts Core CoreSpec CoreFacts So3Facts.
From Verif Require Import Geom GeomSpec GeomFacts.
From Verif Require Import Sfm SfmSpec SfmUse SfmEffects SfmRec SfmTrack SfmData SfmPrim SfmCons SfmApply SfmOps SfmThms SfmFix SfmPose SfmPoseSpec.
Open Scope R_scope.

(** ** Relative poses *)
Lemma iso_inv_mul (a b : riso) : rigid a -> rigid b -> iso_inv (iso_mul a b) = iso_mul (iso_inv b) (iso_inv a).
Proof.
  intros Ha Hb. rewrite <- (iso_mul_id_r (iso_inv (iso_mul a b))), <- (iso_inv_r a Ha). rewrite <- (iso_mul_id_r a) at 2. rewrite <- (iso_inv_r b Hb).
  rewrite !iso_mul_assoc. rewrite <- (iso_mul_assoc _ a b), (iso_inv_l (iso_mul a b) (rigid_mul a b Ha Hb)), iso_mul_id_l. reflexivity.
Qed.
Lemma iso_inv_inv (a : riso) : rigid a -> iso_inv (iso_inv a) = a.
Proof.
  intros H. pose proof (iso_inv_l (iso_inv a) (rigid_inv a H)) as E. rewrite <- (iso_mul_id_r (iso_inv (iso_inv a))), <- (iso_inv_l a H), iso_mul_assoc, E. apply iso_mul_id_l.
Qed.
Lemma relative_self (p : riso) : rigid p -> relative p p = iso_id.
Proof. apply iso_inv_r. Qed.
Lemma relative_inv (p q : riso) : rigid p -> rigid q -> iso_inv (relative p q) = relative q p.
Proof. intros Hp Hq. unfold relative. rewrite (iso_inv_mul p (iso_inv q) Hp (rigid_inv q Hq)), (iso_inv_inv q Hq). reflexivity. Qed.
Lemma relative_trans (p q s : riso) : rigid q -> iso_mul (relative p q) (relative q s) = relative p s.
Proof. intros Hq. unfold relative. rewrite <- (iso_mul_assoc p), (iso_mul_assoc (iso_inv q)), (iso_inv_l q Hq), iso_mul_id_l. reflexivity. Qed.
Lemma relative_apply (p q : riso) : rigid q -> iso_mul (relative p q) q = p.
Proof. intros Hq. unfold relative. rewrite <- iso_mul_assoc, (iso_inv_l q Hq). apply iso_mul_id_r. Qed.
Lemma relative_rigid (p q : riso) : rigid p -> rigid q -> rigid (relative p q).
Proof. intros Hp Hq. apply rigid_mul; [exact Hp|apply rigid_inv, Hq]. Qed.

(** ** Edges of a constraint *)
Lemma edges_relative (c : constraint3 riso) a b z (pa pb pz : riso) : c_views c = (a, b, z) -> rigid pa -> rigid pb -> rigid pz ->
  c_poses c = (relative pb pa, relative pz pa) ->
  edge_constraints iso_mul iso_inv c ≡ₚ
    [(a, (b, relative pa pb)); (a, (z, relative pa pz)); (b, (a, relative pb pa)); (b, (z, relative pb pz)); (z, (a, relative pz pa)); (z, (b, relative pz pb))].
Proof.
  intros Ev Ha Hb Hz Ep. destruct c as [vs ps]. cbn [c_views c_poses] in *. subst vs ps. unfold edge_constraints. cbn [c_views c_poses]. rewrite !(relative_inv _ pa), relative_trans by assumption. rewrite relative_inv by assumption.
  apply Permutation_cons_app with (l1 := [_]). cbn [app]. apply Permutation_cons; [reflexivity|]. apply Permutation_cons; [reflexivity|]. apply Permutation_cons; [reflexivity|]. apply Permutation_swap.
Qed.

(** ** The update *)
Section update.
Context (nearest : rmat3 -> rmat3) (eps rate : R).
Let T := real_trig nearest eps.

Lemma log_id : 0 <= eps -> so3_log T (mid : rmat3) = vzero.
Proof.
  intros He. unfold T. rewrite so3_log_scaled. unfold scaled_axis, real_trig. cbn [t_eps t_acos ltb RNum].
  match goal with |- (if Rltb eps (norm ?a) then _ else _) = _ => replace a with (vzero : rvec3) by lin end.
  assert (norm (vzero : rvec3) = 0) as ->. { unfold norm. replace (norm2 (vzero : rvec3)) with 0 by lin. exact sqrt_0. }
  assert (Rltb eps 0 = false) as -> by (apply Rltb_false; exact He). reflexivity.
Qed.
Lemma se3_of_id : 0 <= eps -> pose_se3 T iso_id = se3_id.
Proof. intros He. unfold pose_se3. cbn [iso_id trans rot]. rewrite (log_id He). reflexivity. Qed.
Lemma from_se3_id : 0 <= eps -> nearest mid = mid -> pose_from_se3 T se3_id = iso_id.
Proof.
  intros He Hn. unfold pose_from_se3, se3_id. cbn [se_r se_t]. unfold so3_exp, T, real_trig. cbn [t_eps leb RNum].
  replace (norm2 (vzero : rvec3)) with 0 by lin. assert (Rleb 0 eps = true) as -> by (apply Rleb_spec; exact He).
  unfold rotation_small. cbn [t_nearest]. replace (madd mid (hat (vzero : rvec3))) with (mid : rmat3) by (unfold hat; lin). rewrite Hn. reflexivity.
Qed.

Lemma update_fixed (p : riso) (xs : list (riso * riso)) : 0 <= eps -> nearest mid = mid -> rigid p -> (forall x, x ∈ xs -> iso_mul x.1 x.2 = p) ->
  pose_update T rate p xs = Some p.
Proof.
  intros He Hn Hp Hx. unfold pose_update. set (z := se3_sum _). assert (z = se3_id) as ->.
  { unfold z. clear z. induction xs as [|x xs IH]; cbn [map]; [reflexivity|]. rewrite se3_sum_cons, IH by (intros y Hy; apply Hx; right; exact Hy).
    rewrite (Hx x) by left. rewrite (iso_inv_r p Hp), (se3_of_id He). apply se3_add_id. }
  replace (se3_scale se3_id rate) with (se3_id : se3 RNum) by (unfold se3_scale, se3_id; cbn; f_equal; lin).
  cbn [forallb se3_to_vec isfin RNum andb]. rewrite (from_se3_id He Hn), iso_mul_id_l. reflexivity.
Qed.

Context {F : Type}.
Implicit Types (rc : recon riso) (d : vdata riso F) (e : env riso F).
Lemma holds_stable e rc : orders_ok (e_ord e) -> 0 <= eps -> nearest mid = mid -> e_update e = pose_update T rate -> constraints_live rc -> rigid_views rc ->
  (forall k c, has_constraint rc k c -> holds rc c) -> stable e rc (flatten_constraints iso_mul iso_inv (e_ord e) rc).
Proof.
  intros Ho He Hn Hu Hlive Hrig Hc v w es xs Hw Hes Hxs. rewrite Hu. apply update_fixed; [exact He|exact Hn|eapply Hrig; exact Hw|].
  destruct (flatten_Some iso_mul iso_inv (e_ord e) rc v es Ho Hes) as [_ Hin].
  intros x Hx. unfold edge_poses in Hxs. apply elem_of_list_lookup in Hx as [i Hi]. destruct (Forall2_lookup_r _ _ _ _ _ Hxs Hi) as ([u E] & Hl & E1 & wu & Hwu & E2).
  destruct x as [x1 x2]. cbn [fst snd] in *. apply elem_of_list_lookup_2, Hin in Hl as (k & c & Hk & Hed). subst x1 x2. clear Hi.
  pose proof (Hc k c Hk) as Hh. pose proof (Hlive k c Hk) as Hnl. unfold holds, names_live_views in *. destruct (c_views c) as [[a b] z] eqn:Ev.
  destruct Hnl as (_ & _ & _ & [wa Ha] & [wb Hb] & [wz Hz]). specialize (Hh wa wb wz Ha Hb Hz).
  pose proof (edges_relative c a b z _ _ _ Ev (Hrig _ _ Ha) (Hrig _ _ Hb) (Hrig _ _ Hz) Hh) as Hp. rewrite Hp in Hed.
  assert (forall x wx y wy, has_view rc x wx -> has_view rc y wy -> (v, (u, E)) = (x, (y, relative (v_pose wx) (v_pose wy))) -> iso_mul E (v_pose wu) = v_pose w) as Hgo.
  { intros x' wx y wy Hwx Hwy [= -> -> ->]. assert (wx = w) as -> by (eapply has_view_fun; eassumption). assert (wy = wu) as -> by (eapply has_view_fun; eassumption).
    apply relative_apply. eapply Hrig; exact Hwu. }
  repeat (apply elem_of_cons in Hed as [Hed|Hed]; [eapply Hgo; [| |exact Hed]; eassumption|]). apply elem_of_nil in Hed as [].
Qed.
End update.

Lemma fixed_point {F} nearest eps rate (e : env riso F) s d r rc : orders_ok (e_ord e) -> 0 <= eps -> nearest mid = mid ->
  e_update e = pose_update (real_trig nearest eps) rate -> data_ok d -> has_recon d r rc -> rigid_views rc -> (forall k c, has_constraint rc k c -> holds rc c) ->
  exists d' b, apply_constraints iso_mul iso_inv e s d r = Ok (d', b) /\ data_ok d' /\ only_recon r d d' /\
    if b : bool then exists rc', has_recon d' r rc' /\ (optimization_iterations s = 0%nat -> rc' = rc) /\
      ((0 < optimization_iterations s)%nat -> forall v w, has_view rc' v w <-> has_view rc v w /\ exists k c, has_constraint rc k c /\ con_has c v = true) /\
      ((0 < optimization_iterations s)%nat -> forall v f l, assigned rc' v f l <-> assigned rc v f l /\ exists k c, has_constraint rc k c /\ con_has c v = true) /\
      (forall k c, has_constraint rc' k c <-> has_constraint rc k c)
    else sm_map (d_recs d') !! r = None /\ (0 < optimization_iterations s)%nat /\ forall k c, ~ has_constraint rc k c.
Proof.
  intros Ho He Hn Hu Hd Hr Hrig Hc. apply stable_constraints; [exact Ho|exact Hd|exact Hr|]. eapply holds_stable; try eassumption.
  apply data_ok_inv in Hd. apply (ok_constraints _ _ (in_good _ _ _ Hd r rc Hr (fun x => x))).
Qed.

(** ** Normalisation *)
Lemma running_mean_spec (l : list R) : l <> [] -> running_mean (N := RNum) l = total l / INR (length l).
Proof.
  unfold running_mean. rnum.
  assert (forall (l : list R) (a : R) (n : nat), let r := fold_left (fun acc x => (acc.1 + (x - acc.1) / IZR (acc.2 + 1), (acc.2 + 1)%Z)) l (a, Z.of_nat n) in
     r.1 * INR (n + length l) = a * INR n + total l /\ r.2 = Z.of_nat (n + length l)) as H.
  { clear l. induction l as [|x l IH]; intros a n; cbn [fold_left length total].
    - rewrite Nat.add_0_r. cbn [fst snd]. split; [ring|reflexivity].
    - cbn [fst snd]. replace (Z.of_nat n + 1)%Z with (Z.of_nat (S n)) by lia. specialize (IH (a + (x - a) / IZR (Z.of_nat (S n))) (S n)). cbn zeta in *.
      replace (n + S (length l))%nat with (S n + length l)%nat by lia. destruct IH as [-> ->]. split; [|reflexivity].
      rewrite <- INR_IZR_INZ. rewrite S_INR. pose proof (pos_INR n). field. lra. }
  intros Hl. destruct (H l 0 0%nat) as [E _]. cbn [Nat.add] in E. change (Z.of_nat 0) with 0%Z in E.
  assert (INR (length l) <> 0) as Hne. { apply not_0_INR. destruct l; [congruence|discriminate]. }
  apply (Rmult_eq_reg_r (INR (length l))); [|exact Hne]. unfold carrier. cbn [RNum]. rewrite E. change (IZR 0) with 0. field. exact Hne.
Qed.

Lemma scale_mul (p q : riso) (s : R) : iso_mul (pose_scale p s) (pose_scale q s) = pose_scale (iso_mul p q) s.
Proof. unfold pose_scale. lin. Qed.
Lemma scale_inv (p : riso) (s : R) : iso_inv (pose_scale p s) = pose_scale (iso_inv p) s.
Proof. unfold pose_scale. lin. Qed.
Lemma scale_relative (p q : riso) (s : R) : relative (pose_scale p s) (pose_scale q s) = pose_scale (relative p q) s.
Proof. unfold relative. rewrite scale_inv. apply scale_mul. Qed.
Lemma scale_id (s : R) : pose_scale (iso_id : riso) s = iso_id.
Proof. unfold pose_scale. lin. Qed.
Lemma relative_base (p q t : riso) : rigid p -> rigid q -> rigid t -> relative (relative p t) (relative q t) = relative p q.
Proof. intros Hp Hq Ht. unfold relative at 1. rewrite relative_inv by assumption. apply relative_trans, Ht. Qed.
Lemma scale_point (p : riso) (s : R) (v : rvec3) : iso_point (pose_scale p s) (vscale s v) = vscale s (iso_point p v).
Proof. unfold pose_scale. lin. Qed.

Lemma normalize_gauge {F} normal tri (e : env riso F) d r rc : orders_ok (e_ord e) -> data_ok d -> has_recon d r rc -> (exists v w, has_view rc v w) -> 
  (forall v w, has_view rc v w -> e_rescale e d r v = rescale_by (N := RNum) normal tri w) ->
  exists d' rc' v0 w0, normalize_reconstruction iso_mul iso_inv e d r = Ok d' /\ data_ok d' /\ only_recon r d d' /\ has_recon d' r rc' /\ has_view rc v0 w0 /\
    (if normal (mean_distance tri w0) then gauge_changed rc rc' (v_pose w0) (mean_distance tri w0) else rc' = rc).
Proof.
  intros Ho Hd Hr (v & w & Hw) He. apply data_ok_inv in Hd. pose proof (normalize_post iso_mul iso_inv False e _ _ d r Ho Hd (fun x => x) ltac:(right; eauto)) as Hp.
  apply post_total in Hp as (d' & Hrun & Hinv & [(rc0 & v0 & w0 & rc' & vs & Hr0 & Hvs & Hw0 & -> & H)]). assert (rc0 = rc) as -> by (eapply has_recon_fun; eassumption).
  exists (upd d r rc'), rc', v0, w0. split; [exact Hrun|]. split; [apply data_ok_inv; exact Hinv|]. split; [apply within_only; eapply within_upd; [reflexivity|exact Hr]|]. split; [apply upd_recon_same|]. split; [exact Hw0|].
  rewrite (He v0 w0 Hw0) in H. unfold rescale_by in H. destruct (normal (mean_distance tri w0)); [|exact H].
  assert (forall p : riso, @pose_scale RNum p (one / mean_distance tri w0)%num = pose_scale p (/ mean_distance tri w0)) as Es by (intros p; f_equal; rnum; unfold Rdiv; apply Rmult_1_l).
  destruct H as (H1 & H2 & H3 & _). split.
  - intros v' w'. unfold has_view at 1. rewrite H1. split.
    + intros E. apply fmap_Some in E as (wv & Hwv & ->). exists wv. split; [exact Hwv|]. cbn [set_v_pose v_frame v_lms v_pose]. rewrite Es. auto.
    + intros (wv & Hwv & E1 & E2 & E3). unfold has_view in Hwv. rewrite Hwv. cbn [fmap option_fmap option_map]. f_equal. unfold set_v_pose. rewrite Es. destruct w' as [f' p' l']. cbn in *. rewrite E1, E2, E3. reflexivity.
  - exact H3.
  - intros k c'. unfold has_constraint at 1. rewrite H2. split.
    + intros E. apply fmap_Some in E as (c & Hk & ->). exists c. split; [exact Hk|]. cbn [c_views c_poses]. rewrite !Es. auto.
    + intros (c & Hk & E1 & E2). unfold has_constraint in Hk. rewrite Hk. cbn [fmap option_fmap option_map]. f_equal. rewrite !Es. destruct c' as [vs' ps']. cbn in *. rewrite E1, E2. reflexivity.
Qed.

Lemma gauge_facts rc rc' v0 w0 m : rigid_views rc -> has_view rc v0 w0 -> m <> 0 -> gauge_changed rc rc' (v_pose w0) m ->
  (exists w0', has_view rc' v0 w0' /\ v_pose w0' = iso_id) /\
  (forall v w u x v' u', has_view rc v w -> has_view rc u x -> has_view rc' v v' -> has_view rc' u u' ->
     rot (relative (v_pose v') (v_pose u')) = rot (relative (v_pose w) (v_pose x)) /\
     trans (relative (v_pose v') (v_pose u')) = vscale (/ m) (trans (relative (v_pose w) (v_pose x)))) /\
  (forall v w w' q, has_view rc v w -> has_view rc' v w' -> iso_point (v_pose w') (vscale (/ m) (iso_point (v_pose w0) q)) = vscale (/ m) (iso_point (v_pose w) q)) /\
  (forall k c c', has_constraint rc k c -> has_constraint rc' k c' -> holds rc c -> holds rc' c').
Proof.
  intros Hrig Hw0 Hm [Hv Hl Hc]. assert (forall v w w', has_view rc v w -> has_view rc' v w' -> v_pose w' = pose_scale (relative (v_pose w) (v_pose w0)) (/ m)) as Hpose.
  { intros v w w' Hw Hw'. apply Hv in Hw' as (w1 & Hw1 & _ & _ & E). assert (w1 = w) as -> by (eapply has_view_fun; eassumption). exact E. }
  assert (forall v w u x v' u', has_view rc v w -> has_view rc u x -> has_view rc' v v' -> has_view rc' u u' -> relative (v_pose v') (v_pose u') = pose_scale (relative (v_pose w) (v_pose x)) (/ m)) as Hrel.
  { intros v w u x v' u' H1 H2 H3 H4. rewrite (Hpose v w v' H1 H3), (Hpose u x u' H2 H4), scale_relative, relative_base; [reflexivity|eapply Hrig; eassumption..]. }
  split; [|split; [|split]].
  - exists (set_v_pose w0 iso_id). split; [|reflexivity]. apply Hv. exists w0. split; [exact Hw0|]. split; [reflexivity|]. split; [reflexivity|]. cbn [set_v_pose v_pose]. rewrite relative_self, scale_id by (eapply Hrig; exact Hw0). reflexivity.
  - intros v w u x v' u' H1 H2 H3 H4. rewrite (Hrel v w u x v' u' H1 H2 H3 H4). split; reflexivity.
  - intros v w w' q H1 H2. rewrite (Hpose v w w' H1 H2), scale_point. f_equal. rewrite <- iso_point_mul, relative_apply by (eapply Hrig; exact Hw0). reflexivity.
  - intros k c c' Hk Hk' Hh. apply Hc in Hk' as (c1 & Hk1 & E1 & E2). assert (c1 = c) as -> by (unfold has_constraint in *; congruence). clear Hk1. unfold holds in *. rewrite E1, E2.
    destruct (c_views c) as [[a b] z]. intros wa wb wz Ha Hb Hz. pose proof Ha as Ha'. pose proof Hb as Hb'. pose proof Hz as Hz'.
    apply Hv in Ha' as (va & Ha' & _). apply Hv in Hb' as (vb & Hb' & _). apply Hv in Hz' as (vz & Hz' & _).
    rewrite (Hh va vb vz Ha' Hb' Hz'). cbn [fst snd]. f_equal; symmetry; eapply Hrel; eassumption.
Qed.
Lemma distances_of tri (w : view riso) : exists ks, ks `sublist_of` v_lms w /\ (forall k, k ∈ v_lms w -> k ∉ ks -> forall x, ~ away tri (v_pose w) k x) /\ Forall2 (away tri (v_pose w)) ks (view_distances (N := RNum) tri w).
Proof.
  unfold view_distances. induction (v_lms w) as [|k ls IH]; [exists []; split; [constructor|]; split; [intros k Hk; apply elem_of_nil in Hk as []|constructor]|].
  destruct IH as (ks & I1 & I2 & I3). cbn [omap list_omap]. destruct (tri k) as [h|] eqn:Eh.
  - destruct (point (transform (v_pose w) h)) as [q|] eqn:Eq.
    + exists (k :: ks). split; [apply sublist_skip, I1|]. split; [intros k' H1 H2; apply not_elem_of_cons in H2 as [N1 N2]; apply elem_of_cons in H1 as [->|H1]; [destruct (N1 eq_refl)|apply I2; assumption]|]. constructor; [exists h, q; auto|exact I3].
    + exists ks. split; [apply sublist_cons, I1|]. split; [|exact I3]. intros k' H1 H2. apply elem_of_cons in H1 as [->|H1]; [|apply I2; assumption]. intros x (h' & q & E1 & E2 & _). rewrite Eh in E1. assert (h' = h) as -> by congruence. rewrite Eq in E2. discriminate E2.
  - exists ks. split; [apply sublist_cons, I1|]. split; [|exact I3]. intros k' H1 H2. apply elem_of_cons in H1 as [->|H1]; [|apply I2; assumption]. intros x (h' & q & E1 & _). rewrite Eh in E1. discriminate E1.
Qed.
Lemma away_distance tri (p : riso) k (x : R) (q : rvec3) : rigid p -> tri k = Some (from_point q) -> q <> vzero -> q <> centre p -> away tri p k x <-> x = norm (vsub q (centre p)).
Proof.
  intros Hp Ht Hq Hc. pose proof (direction_point p q Hp) as Ed. assert (iso_point p q <> vzero) as Hne.
  { intros E. rewrite E in Ed. apply Hc. assert (vsub q (centre p) = vzero) as E' by (rewrite <- Ed; unfold vzero; lin). revert E'. generalize (centre p). intros [a b c]. destruct q as [u v z]. unfold vsub, vzero. cbn [vx vy vz]. intros [= E1 E2 E3]. f_equal; apply Rminus_diag_uniq; assumption. }
  assert (norm (vsub q (centre p)) = norm (iso_point p q)) as En by (rewrite <- Ed; apply rotation_norm, rotation_mtrans, Hp).
  assert (point (transform p (from_point q)) = Some (iso_point p q)) as Et by (rewrite transform_from_point by exact Hq; apply point_from_point, Hne).
  rewrite En. split.
  - intros (h & q' & E1 & E2 & ->). rewrite Ht in E1. assert (h = from_point q) as -> by congruence. rewrite Et in E2. assert (q' = iso_point p q) as -> by congruence. reflexivity.
  - intros ->. exists (from_point q), (iso_point p q). auto.
Qed.
Lemma mean_positive normal tri (w : view riso) : (forall x : R, normal x = true -> x <> 0) -> normal (mean_distance (N := RNum) tri w) = true ->
  exists ks l, ks `sublist_of` v_lms w /\ (forall k, k ∈ v_lms w -> k ∉ ks -> forall x, ~ away tri (v_pose w) k x) /\ Forall2 (away tri (v_pose w)) ks l /\ l <> [] /\
    mean_distance (N := RNum) tri w = total l / INR (length l) /\ 0 < mean_distance (N := RNum) tri w.
Proof.
  intros Hn Hm. pose proof (Hn _ Hm) as Hne. destruct (distances_of tri w) as (ks & S1 & S2 & S3). exists ks, (view_distances (N := RNum) tri w). split; [exact S1|]. split; [exact S2|]. split; [exact S3|]. unfold mean_distance in *. clear S3. set (l := view_distances tri w) in *.
  assert (l <> []) as Hl by (intros E; rewrite E in Hne; apply Hne; reflexivity). split; [exact Hl|]. rewrite (running_mean_spec l Hl) in *. split; [reflexivity|].
  assert (forall x, x ∈ l -> 0 <= x) as Hpos.
  { intros x Hx. unfold l, view_distances in Hx. apply elem_of_list_omap in Hx as (k & _ & Hk). destruct (tri k); [|discriminate]. destruct (point _) as [q|]; [|discriminate]. injection Hk as <-. apply sqrt_pos. }
  assert (0 <= total l) as Ht. { clear - Hpos. induction l as [|x l IH]; cbn [total]; [lra|]. pose proof (Hpos x ltac:(left)). assert (0 <= total l) by (apply IH; intros y Hy; apply Hpos; right; exact Hy). lra. }
  assert (0 < / INR (length l)) as Hi. { apply Rinv_0_lt_compat, lt_0_INR. destruct l; [congruence|cbn; lia]. }
  unfold Rdiv in *. apply Rmult_lt_0_compat; [|exact Hi]. destruct Ht as [Ht|Ht]; [exact Ht|]. exfalso. apply Hne. rewrite <- Ht. apply Rmult_0_l.
Qed.
