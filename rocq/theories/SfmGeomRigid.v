(** Poses stay rigid along every history of the numerical code (C63). *)
From stdpp Require Import gmap list.
From Coq Require Import Reals Lra Lia.
From Verif Require Import Outcome OutcomeFacts Num Lin LinSpec LinFacts Core CoreSpec CoreFacts So3Facts Geom GeomSpec Optimize OptimizeSpec OptimizeFacts OptimizeProps.
From Verif Require Import Sfm SfmSpec SfmPose SfmPoseSpec SfmPoseFacts SfmGeom SfmGeomSpec SfmPoses.
Open Scope nat_scope.

Section rigid.
Context {F : Type} (nearest : rmat3 -> rmat3) (eps : R).
Notation T := (real_trig nearest eps).
Implicit Types (rc : recon riso) (d : vdata riso F).
Context (Heps : (0 <= eps)%R) (Hnear : forall A, rotation (nearest A)).

Lemma scale_rigid (p : riso) (s : R) : rigid p -> rigid (pose_scale p s).
Proof. intros H. exact H. Qed.

Section env.
Context (st : gsettings RNum) (G : tools RNum F) (o : orders) (similar : vdata riso F -> key -> nat -> list key) (knn : list F -> F -> nat -> list (nat * nat))
  (sort : list (key * key * key * list key) -> list (key * key * key * list key)) (fuel : nat) (HG : tools_ok G).

Lemma single_optimize_rigid (pose : riso) used : rigid pose -> rigid (single_optimize T st pose used).
Proof. intros Hp. unfold single_optimize. exact (proj2 (single_rigid nearest eps pose 0%R (single_view_optimization_rate st) (single_view_patience st) used Hp)). Qed.
Lemma three_optimize_rigid (poses : riso * riso) used : rigid2 poses -> rigid2 (three_optimize T st poses used).
Proof. intros Hp. unfold three_optimize. exact (proj1 (proj2 (three_rigid nearest eps poses 0%R three_rate (three_view_patience st) used Hp))). Qed.
Lemma single_loop_rigid again n : forall minimum (pose : riso) used pose', rigid pose -> single_loop T st again n minimum pose used = Some pose' -> rigid pose'.
Proof.
  induction n as [|n IH]; intros minimum pose used pose' Hp; cbn [single_loop]; destruct (length used <=? minimum); try discriminate; cbv zeta.
  - intros E. assert (forall x y : riso, Some x = Some y -> y = x) as Hinj by congruence. rewrite (Hinj _ _ E). apply single_optimize_rigid, Hp.
  - apply IH. apply single_optimize_rigid, Hp.
Qed.
Lemma three_loop_rigid n : forall minimum l (poses : riso * riso) used poses', rigid2 poses -> three_loop T st G n minimum l poses used = Some poses' -> rigid2 poses'.
Proof.
  induction n as [|n IH]; intros minimum l poses used poses' Hp; cbn [three_loop]; destruct (_ || _); try discriminate; cbv zeta.
  - intros E. assert (forall x y : riso * riso, Some x = Some y -> y = x) as Hinj by congruence. rewrite (Hinj _ _ E). apply three_optimize_rigid, Hp.
  - apply IH. apply three_optimize_rigid, Hp.
Qed.
Lemma register_rigid d rc fr ms pose ok : register T st G o d rc fr ms = Some (pose, ok) -> rigid pose.
Proof.
  unfold register. cbv zeta. destruct (_ <? _); [discriminate|]. destruct (t_single_view G _) as [[p ixs]|] eqn:E; [|discriminate]. destruct (single_loop _ _ _ _ _ _ _) as [p'|] eqn:E'; [|discriminate].
  destruct (_ <=? _); [discriminate|]. destruct (_ <? _); [discriminate|]. intros H. assert (p' = pose) as <-.
  { assert (forall (x y : riso) (f g : list key * nat -> bool), Some (x, f) = Some (y, g) -> x = y) as Hinj by congruence. exact (Hinj _ _ _ _ H). }
  eapply single_loop_rigid; [|exact E']. apply (to_single G HG _ _ _ E).
Qed.
Lemma three_view_rigid d c x y p1 p2 t1 t2 t3 : rigid x.2.1 -> rigid y.2.1 -> three_view T st G d c x y = TVaccept p1 p2 t1 t2 t3 -> rigid p1 /\ rigid p2.
Proof.
  destruct x as [first [q1 firsts]], y as [second [q2 seconds]]. cbn [fst snd]. intros H1 H2. unfold three_view. destruct (sm_get _ _) as [fc|]; [|discriminate]. destruct (sm_get _ _) as [ff|]; [|discriminate]. destruct (sm_get _ _) as [fs|]; [|discriminate].
  cbv zeta. destruct (_ <? _); [discriminate|]. destruct (sort_float _ !! _) as [med|]; [|discriminate]. destruct (_ <? _); [discriminate|]. destruct (three_loop _ _ _ _ _ _ _ _) as [ps|] eqn:E; [|discriminate].
  destruct (_ || _); [discriminate|]. unfold three_accept. intros H.
  assert (forall (x x' y y' : riso) a b c a' b' c', TVaccept x y a b c = TVaccept x' y' a' b' c' -> x = x' /\ y = y') as Hinj by (intros; split; congruence). apply Hinj in H as [<- <-].
  eapply (three_loop_rigid _ _ _ (q1, pose_scale q2 (sqrt_ med))); [|exact E]. split; [exact H1|]. apply scale_rigid, H2.
Qed.
Lemma relative_poses_rigid rc t ps : rigid_views rc -> relative_poses rc t = Some ps -> rigid2 ps.
Proof.
  intros Hr. unfold relative_poses. destruct (sm_get _ t.1.1) as [a|] eqn:Ea; [|discriminate]. destruct (sm_get _ t.1.2) as [b|] eqn:Eb; [|discriminate]. destruct (sm_get _ t.2) as [c|] eqn:Ec; [|discriminate].
  intros H. assert (forall x y : riso * riso, Some x = Some y -> y = x) as Hinj by congruence. rewrite (Hinj _ _ H). exact (conj (rigid_mul _ _ (Hr _ _ Eb) (rigid_inv _ (Hr _ _ Ea))) (rigid_mul _ _ (Hr _ _ Ec) (rigid_inv _ (Hr _ _ Ea)))).
Qed.
Lemma optimize_rigid d rc t ls ps : rigid_views rc -> optimize_three_view T st G d rc t ls = Some ps -> rigid2 ps.
Proof.
  intros Hr. unfold optimize_three_view. destruct (_ <? _); [discriminate|]. destruct (relative_poses rc t) as [qs|] eqn:E; [|discriminate]. cbv zeta. destruct (_ <? _); [discriminate|].
  intros H. assert (forall x y : riso * riso, Some x = Some y -> y = x) as Hinj by congruence. rewrite (Hinj _ _ H).
  destruct (three_rigid nearest eps qs 0%R 0%R (constraint_patience st) (opti_matches st G d rc t ls) (relative_poses_rigid rc t qs Hr E)) as (_ & _ & [R1 R2]). split; cbn [fst snd]; apply scale_rigid; assumption.
Qed.
Lemma update_rigid (rate : R) (p : riso) es p' : rigid p -> pose_update T rate p es = Some p' -> rigid p'.
Proof.
  intros Hp. unfold pose_update. cbv zeta. destruct (forallb _ _); [|discriminate]. intros H. assert (forall x y : riso, Some x = Some y -> y = x) as Hinj by congruence. rewrite (Hinj _ _ H). apply rigid_mul; [|exact Hp].
  unfold rigid, pose_from_se3. cbn [rot]. apply exp_rotation; assumption.
Qed.

Lemma geometric_keeps : keeps (F := F) rigid (geometric T st G o similar knn sort fuel).
Proof.
  assert (forall d r rc, DQ rigid d -> sm_map (d_recs d) !! r = Some rc -> rigid_views rc) as Hv by (intros d r rc Hd Hr; exact (proj1 (Hd r rc Hr))).
  split; cbn [geometric e_register e_two_view e_three_view e_optimize3 e_update e_rescale]; unfold on_recon, sm_get.
  - intros d r k ms p ok Hd. destruct (sm_map (d_recs d) !! r) as [rc|]; [|discriminate]. destruct (sm_map (d_frames d) !! k) as [fr|]; [|discriminate]. apply register_rigid.
  - intros d a b ms p ixs. unfold two_view. destruct (sm_get _ _) as [fa|]; [|discriminate]. destruct (sm_get _ _) as [fb|]; [|discriminate]. cbv zeta. destruct (t_two_view G _) as [[q jxs]|] eqn:E; [|discriminate].
    destruct (_ <? _); [discriminate|]. intros H. assert (forall (x y : riso) (f g : list nat), Some (x, f) = Some (y, g) -> y = x) as Hinj by congruence. rewrite (Hinj _ _ _ _ H). apply (to_two G HG _ _ _ E).
  - intros d c x y p1 p2 t1 t2 t3. apply three_view_rigid.
  - intros d r t ls ps Hd. destruct (sm_map (d_recs d) !! r) as [rc|] eqn:Er; [|discriminate]. apply optimize_rigid. eapply Hv; eassumption.
  - intros p others p' Hp _. apply update_rigid, Hp.
  - intros d r v f p Hp. destruct (sm_map (d_recs d) !! r) as [rc|]; [|discriminate]. destruct (sm_map (r_views rc) !! v) as [w|]; [|discriminate]. unfold rescale_by. cbv zeta. destruct (t_normal G _); [|discriminate].
    intros H. assert (forall x y : riso -> riso, Some x = Some y -> y = x) as Hinj by congruence. rewrite (Hinj _ _ H). apply scale_rigid, Hp.
Qed.
End env.

Lemma history_rigid s (ops : list (op riso F)) d : (forall x, x ∈ ops -> (forall e, uses x = Some e -> numerical T e) /\ Forall rigid (given x)) ->
  run iso_id iso_mul iso_inv s ops = Ok d ->
  forall r rc, has_recon d r rc -> rigid_views rc /\ forall k c, has_constraint rc k c -> rigid (c_poses c).1 /\ rigid (c_poses c).2.
Proof.
  intros Hops E. apply (q_run iso_id iso_mul iso_inv rigid rigid_id rigid_mul rigid_inv s ops d); [|exact E]. intros x Hx. destruct (Hops x Hx) as [H1 H2].
  assert (forall e, numerical T e -> keeps rigid e) as Hk by (intros e (st & G & o & similar & knn & sort & fuel & HG & ->); apply geometric_keeps, HG).
  destruct x; cbn [op_keeps uses given] in *; try exact I; try (apply Hk, H1; reflexivity).
  - split; [apply Hk, H1; reflexivity|]. apply Forall_cons in H2 as [H2 _]. exact H2.
  - apply Forall_cons in H2 as [H2 H3]. apply Forall_cons in H3 as [H3 _]. split; [apply Hk, H1; reflexivity|]. auto.
Qed.
End rigid.
