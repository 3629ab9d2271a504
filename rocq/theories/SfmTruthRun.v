(** Noise-free histories (C68): every operation keeps all maps correct. *)
From stdpp Require Import gmap list.
From Coq Require Import Reals Lra Lia.
From Verif Require Import Outcome OutcomeFacts Num Lin LinSpec LinFacts Core CoreSpec CoreFacts Geom GeomSpec GeomFacts OptimizeSpec OptimizeFacts MatchingSpec Sfm SfmSpec SfmUse SfmEffects SfmData SfmPrim SfmRec SfmApply SfmOps SfmReg SfmInc SfmInit SfmLoc SfmHist SfmThms SfmTracks SfmPose SfmPoseSpec SfmPoseFacts.
From Verif Require Import SfmGeom SfmGeomSpec SfmGeomFacts SfmGeomRigid SfmGeomReg SfmGeomThms SfmGeomExact SfmGeomStart SfmGeomStartExact SfmTruthSpec SfmDemand SfmTruth SfmPoses.
Open Scope R_scope.

Section run.
Context {F : Type} (bo : F -> rvec3) (cam : key -> riso) (pt : key -> nat -> rvec3) (D : vdata riso F).
Context (HD : true_scene bo cam pt D).
Notation seen_from := (seen_from cam).
Notation place_from := (place_from cam).
Notation mapped := (mapped cam pt D).
Notation relative := SfmPoseSpec.relative.
Notation base := (base D).
Notation taken := (taken D).
Notation shows := (shows pt).

Lemma from_itself k : rigid (cam k) -> seen_from k 1 k = iso_id.
Proof. intros H. unfold SfmTruthSpec.seen_from. rewrite relative_self by exact H. apply scale_id. Qed.
Lemma from_unit k j (u : R) : seen_from k u j = pose_scale (relative (cam j) (cam k)) u.
Proof. reflexivity. Qed.
Lemma from_one k j : relative (cam j) (cam k) = seen_from k 1 j.
Proof. unfold SfmTruthSpec.seen_from. symmetry. apply scale_one. Qed.

Section env.
Context (s : settings) (nearest : rmat3 -> rmat3) (eps : R) (st : gsettings RNum) (G : tools RNum F) (o : orders) (similar : vdata riso F -> key -> nat -> list key) (knn : list F -> F -> nat -> list (nat * nat))
  (sort : list (key * key * key * list key) -> list (key * key * key * list key)) (fuel : nat).
Notation e := (geometric (real_trig nearest eps) st G o similar knn sort fuel).
Context (HT : truthful bo cam pt D s nearest eps st G e).

(** ** A new reconstruction *)
Lemma pair_true k j fk fj p ms : has_frame D k fk -> has_frame D j fj -> k <> j -> pair_started st G knn (two_view_match_better_by s) fk fj p ms ->
  (exists u, 0 < u /\ p = pose_scale (relative (cam j) (cam k)) u) /\ forall m, m ∈ ms -> pt k m.1 = pt j m.2.
Proof.
  intros Hk Hj Hne [(order & data & ixs & Hnd & Hord & Hdata & Hans & Hkept) Hen]. split.
  - apply (tf_two_view _ _ _ _ _ _ _ _ _ _ HT k j fk fj order data p ixs Hk Hj Hne Hnd Hord).
    + rewrite <- (tf_bearing _ _ _ _ _ _ _ _ _ _ HT). exact Hdata.
    + rewrite (Forall2_length _ _ _ Hkept). exact Hen.
    + exact Hans.
  - intros [f g] Hm. apply elem_of_list_lookup in Hm as [i Hi]. destruct (Forall2_lookup_r _ _ _ _ _ Hkept Hi) as (ix & _ & Hix). apply elem_of_list_lookup_2, Hord in Hix.
    exact (tf_mutual _ _ _ _ _ _ _ _ _ _ HT k j fk fj f g Hk Hj Hne Hix).
Qed.

Lemma pair_frames fa fb fa' fb' p ms : f_feats fa' = f_feats fa -> f_feats fb' = f_feats fb -> pair_started st G knn (two_view_match_better_by s) fa fb p ms -> pair_started st G knn (two_view_match_better_by s) fa' fb' p ms.
Proof.
  intros Ea Eb [(order & data & ixs & Hnd & Hord & Hdata & Hans & Hkept) Hen]. split; [|exact Hen]. exists order, data, ixs. rewrite Ea, Eb. split; [exact Hnd|]. split; [exact Hord|]. split; [|auto].
  eapply Forall2_impl; [exact Hdata|]. intros m ab. unfold match_seen. rewrite Ea, Eb. intros H. exact H.
Qed.

Lemma started_true c a b fc fa fb q1 ms1 q2 ms2 scale p1 p2 : has_frame D c fc -> has_frame D a fa -> has_frame D b fb -> c <> a -> c <> b ->
  pair_started st G knn (two_view_match_better_by s) fc fa q1 ms1 -> pair_started st G knn (two_view_match_better_by s) fc fb q2 ms2 -> three_started st G fc fa fb ms1 ms2 q1 q2 scale p1 p2 ->
  exists u, 0 < u /\ p1 = seen_from c u a /\ p2 = seen_from c u b.
Proof.
  intros Hc Ha Hb Hca Hcb H1 H2 Hth. destruct (pair_true c a fc fa q1 ms1 Hc Ha Hca H1) as [(u1 & U1 & ->) M1]. destruct (pair_true c b fc fb q2 ms2 Hc Hb Hcb H2) as [(u2 & U2 & ->) M2].
  exists u1. split; [exact U1|]. refine (common_found st G (tf_triangulate _ _ _ _ _ _ _ _ _ _ HT) fc fa fb (relative (cam a) (cam c)) (relative (cam b) (cam c)) ms1 ms2 u1 u2 U1 U2 _ scale p1 p2 Hth).
  intros [[i j] k] x [T1 T2] (xa & xb & xc & Xa & Xb & Xc & ->). cbn [fst snd] in *. specialize (M1 _ T1). specialize (M2 _ T2). cbn [fst snd] in M1, M2.
  pose proof (ts_rigid _ _ _ _ HD c fc Hc) as Rc. assert (base c 1) as Hbase by (split; [eauto|lra]).
  assert (taken c i xa) as Tc by (exists fc; auto). assert (taken a j xb) as Ta by (exists fa; auto). assert (taken b k xc) as Tb by (exists fb; auto).
  rewrite (tf_bearing _ _ _ _ _ _ _ _ _ _ HT). rewrite !from_one, <- (from_itself c Rc). unfold three_rays. rewrite <- (from_itself c Rc). cbn [fst snd].
  exists (place_from c 1 (pt c i)). split; [|split].
  - apply (gauge_exact bo cam pt D HD c 1 (pt c i)); [exact Hbase|discriminate|]. intros y Hy. apply elem_of_cons in Hy as [->|Hy]; [exists c, i, xa; auto|]. apply elem_of_cons in Hy as [->|Hy]; [exists a, j, xb; auto|]. apply elem_of_list_singleton in Hy as ->. exists b, k, xc. auto.
  - eexists _, _. split; [left|]. split; [right; left|]. exact (gauge_resolved bo cam pt D HD c 1 c i xa a j xb Hbase Tc Ta Hca M1).
  - eexists _, _. split; [left|]. split; [right; left|]. exact (gauge_resolved bo cam pt D HD c 1 c i xa b k xc Hbase Tc Tb Hcb M2).
Qed.

Lemma mapped_new d c a b fc fa fb q1 ms1 q2 ms2 scale p1 p2 k1 k2 r d' rc : frames_of D d -> c <> a -> c <> b -> has_frame d c fc -> has_frame d a fa -> has_frame d b fb ->
  pair_started st G knn (two_view_match_better_by s) fc fa q1 ms1 -> pair_started st G knn (two_view_match_better_by s) fc fb q2 ms2 -> three_started st G fc fa fb ms1 ms2 q1 q2 scale p1 p2 ->
  (forall m, m ∈ k1 -> m ∈ ms1) -> (forall m, m ∈ k2 -> m ∈ ms2) -> new_reconstruction iso_id d c a b p1 p2 k1 k2 r d' -> has_recon d' r rc -> mapped rc.
Proof.
  intros Hd Hca Hcb Hc Ha Hb H1 H2 H3 K1 K2 [_ _ (rc' & cv & fv & sv & Hr' & Ncf & Ncs & Nfs & Hviews & Vc & Vf & Vs & Hcon & Hsame & T1 & T2 & T3)] Hr. assert (rc' = rc) as -> by (eapply has_recon_fun; eassumption).
  destruct (Hd c fc Hc) as (gc & Gc & Ec). destruct (Hd a fa Ha) as (ga & Ga & Ea). destruct (Hd b fb Hb) as (gb & Gb & Eb).
  apply (pair_frames fc fa gc ga) in H1; [|assumption..]. apply (pair_frames fc fb gc gb) in H2; [|assumption..].
  assert (three_started st G gc ga gb ms1 ms2 q1 q2 scale p1 p2) as H3'.
  { destruct fc, fa, fb, gc, ga, gb. cbn in Ec, Ea, Eb. subst. destruct H3 as [X1 X2 X3 X4 X5]. split; [exact X1|exact X2|exact X3|exact X4|exact X5]. }
  destruct (started_true c a b gc ga gb q1 ms1 q2 ms2 scale p1 p2 Gc Ga Gb Hca Hcb H1 H2 H3') as (u & Hu & E1 & E2).
  destruct (pair_true c a gc ga q1 ms1 Gc Ga Hca H1) as [_ M1]. destruct (pair_true c b gc gb q2 ms2 Gc Gb Hcb H2) as [_ M2].
  pose proof (ts_rigid _ _ _ _ HD c gc Gc) as Rc. pose proof (ts_rigid _ _ _ _ HD a ga Ga) as Ra. pose proof (ts_rigid _ _ _ _ HD b gb Gb) as Rb.
  apply (mapped_iff cam pt D). split; [|split].
  - exists c, u. split; [split; [eauto|exact Hu]|]. intros v w Hw. destruct (proj1 (Hviews v)) as [-> | [-> | ->] ]; [eauto| | |].
    + destruct (Vc w Hw) as [-> ->]. rewrite from_unit, relative_self by exact Rc. symmetry. apply scale_id.
    + destruct (Vf w Hw) as [-> ->]. exact E1.
    + destruct (Vs w Hw) as [-> ->]. exact E2.
  - assert (forall x y, same_track rc x y -> observation rc x /\ observation rc y) as Hobs. { intros x y (l & A & B). split; exists l; assumption. }
    assert (forall f g, same_track rc (cv, f) (fv, g) -> pt c f = pt a g) as X1. { intros f g H. pose proof (Hobs _ _ H) as [O1 O2]. apply (T1 f g O1 O2), K1, M1 in H. exact H. }
    assert (forall f g, same_track rc (cv, f) (sv, g) -> pt c f = pt b g) as X2. { intros f g H. pose proof (Hobs _ _ H) as [O1 O2]. apply (T2 f g O1 O2), K2, M2 in H. exact H. }
    assert (forall f g, same_track rc (fv, f) (sv, g) -> pt a f = pt b g) as X3. { intros f g H. pose proof (Hobs _ _ H) as [O1 O2]. apply (T3 f g O1 O2) in H as (h & _ & Y1 & Y2). apply K1, M1 in Y1. apply K2, M2 in Y2. cbn [fst snd] in *. congruence. }
    assert (forall x y, same_track rc x y -> same_track rc y x) as Hsym. { intros x y (l & A & B). exists l. auto. }
    intros [v f] [v' f'] p q Ht (w & Hw & ->) (w' & Hw' & ->). cbn [fst snd] in *.
    destruct (proj1 (Hviews v)) as [-> | [-> | ->] ]; [eauto| | |]; destruct (proj1 (Hviews v')) as [-> | [-> | ->] ]; try (now eauto);
    (repeat match goal with H : has_view rc cv _ |- _ => apply Vc in H as [-> _] | H : has_view rc fv _ |- _ => apply Vf in H as [-> _] | H : has_view rc sv _ |- _ => apply Vs in H as [-> _] end);
    first [apply Hsame in Ht; rewrite Ht; reflexivity | exact (X1 _ _ Ht) | exact (X2 _ _ Ht) | exact (X3 _ _ Ht) | apply Hsym in Ht; symmetry; first [exact (X1 _ _ Ht) | exact (X2 _ _ Ht) | exact (X3 _ _ Ht)]].
  - intros k con Hk. assert (con = Con3 (cv, fv, sv) (p1, p2)) as -> by (apply Hcon; eauto). unfold holds. cbn [c_views c_poses]. intros wa wb wz Wa Wb Wz.
    rewrite (proj2 (Vc wa Wa)), (proj2 (Vf wb Wb)), (proj2 (Vs wz Wz)). assert (forall p : riso, relative p iso_id = p) as Hrel. { intros p. unfold SfmPoseSpec.relative. lin. }
    rewrite !Hrel. reflexivity.
Qed.

(** ** The invariant *)
Definition Inv d : Prop := data_ok d /\ frames_of D d /\ forall r rc, has_recon d r rc -> mapped rc.

Lemma images_frames d d' : same_images d d' -> frames_of D d -> frames_of D d'.
Proof.
  intros (_ & _ & Hf) Hd k fr Hk. specialize (Hf k). unfold has_frame in Hk. rewrite Hk in Hf. cbn in Hf. symmetry in Hf. apply fmap_Some in Hf as (fr' & Hk' & E).
  destruct (Hd k fr' Hk') as (fr2 & H2 & E2). exists fr2. split; [exact H2|]. assert (forall (x y : key) (m n : nat) (l l' : list F), (x, m, l) = (y, n, l') -> l = l') as Hinj by (intros; congruence). rewrite E2. symmetry. exact (Hinj _ _ _ _ _ _ E).
Qed.
Lemma Inv_only r d d' : Inv d -> only_recon r d d' -> data_ok d' -> (forall rc, has_recon d' r rc -> mapped rc) -> Inv d'.
Proof.
  intros (H1 & H2 & H3) [O1 O2] Hok Hr. split; [exact Hok|]. split; [exact (images_frames d d' O1 H2)|]. intros r' rc' Hr'. destruct (decide (r' = r)) as [->|Hne]; [exact (Hr rc' Hr')|].
  apply (H3 r'). unfold has_recon. rewrite <- (O2 r' Hne). exact Hr'.
Qed.
Lemma Inv_rigid d r rc : Inv d -> has_recon d r rc -> rigid_views rc.
Proof. intros (H1 & H2 & H3) Hr. exact (mapped_rigid bo cam pt D HD d rc H2 (ok_recons _ H1 r rc Hr) (H3 r rc Hr)). Qed.

Lemma p_ok {A} (m : outcome A) (a : A) (J : A -> Prop) : m = Ok a -> J a -> post True m J.
Proof. intros -> H. exact H. Qed.
Lemma p_both {A} (m : outcome A) (I J : A -> Prop) : post True m I -> post True m J -> post True m (fun a => I a /\ J a).
Proof. destruct m; cbn; auto. Qed.
Lemma recon_dec (d : vdata riso F) r : (exists rc, has_recon d r rc) \/ sm_map (d_recs d) !! r = None.
Proof. unfold has_recon. destruct (sm_map (d_recs d) !! r) as [rc|]; eauto. Qed.

Let Hord : orders_ok (e_ord e) := eo_orders _ (tf_env _ _ _ _ _ _ _ _ _ _ HT).

(** ** Optimisation *)
Lemma t_apply d r : Inv d -> post True (apply_constraints iso_mul iso_inv e s d r) (fun x => Inv x.1).
Proof.
  intros HI. destruct (recon_dec d r) as [(rc & Hr)|E]; [|unfold apply_constraints, sm_get; rewrite E; exact I]. pose proof HI as (H1 & H2 & H3).
  destruct (tf_nearest _ _ _ _ _ _ _ _ _ _ HT) as [Hn Heps].
  destruct (fixed_point nearest eps (graph_optimization_rate st) e s d r rc Hord Heps Hn eq_refl H1 Hr (Inv_rigid d r rc HI Hr) (mp_constraints _ _ _ _ (H3 r rc Hr))) as (d' & b & E & Hok & Ho & Hb).
  eapply p_ok; [exact E|]. cbn [fst]. apply (Inv_only r d d' HI Ho Hok). intros rc2 Hr2. destruct b; [|destruct Hb as [Hb _]; unfold has_recon in Hr2; congruence].
  destruct Hb as (rc' & Hr' & B0 & B1 & B2 & B3). assert (rc2 = rc') as -> by (eapply has_recon_fun; eassumption).
  destruct (Nat.eq_dec (optimization_iterations s) 0) as [E0|E0]; [rewrite (B0 E0); eauto|]. assert (0 < optimization_iterations s)%nat as Hpos by lia. specialize (B1 Hpos). specialize (B2 Hpos).
  apply (mapped_less cam pt D rc rc' (H3 r rc Hr)).
  - intros v w Hw. apply B1 in Hw as [Hw _]. exists w. auto.
  - intros x y (l & A & B). apply B2 in A as [A _]. apply B2 in B as [B _]. exists l. auto.
  - intros k c Hk. exists k. apply B3, Hk.
Qed.
Lemma t_filter d r : Inv d -> post True (filter_observations e d r) (fun x => Inv x.1).
Proof.
  intros HI. destruct (recon_dec d r) as [(rc & Hr)|E]; [|unfold filter_observations, with_rec, sm_get; rewrite E; exact I]. pose proof HI as (H1 & H2 & H3).
  destruct (filter_observations_geometric (real_trig nearest eps) st G o similar knn sort fuel d r rc Hord H1 Hr (Inv_rigid d r rc HI Hr)) as (d' & b & rc' & n & E & Hok & Ho & Hsep & _ & _ & _ & Hb).
  eapply p_ok; [exact E|]. cbn [fst]. apply (Inv_only r d d' HI Ho Hok). intros rc2 Hr2. destruct b; [|unfold has_recon in Hr2; congruence].
  assert (rc2 = rc') as -> by (eapply has_recon_fun; eassumption). exact (mapped_separated cam pt D rc rc' Hsep (H3 r rc Hr)).
Qed.
Lemma t_filter_landmarks d r : Inv d -> post True (filter_landmarks e d r) Inv.
Proof.
  intros HI. destruct (recon_dec d r) as [(rc & Hr)|E]; [|unfold filter_landmarks, with_rec, sm_get; rewrite E; exact I]. pose proof HI as (H1 & H2 & H3).
  destruct (filter_landmarks_geometric (real_trig nearest eps) st G o similar knn sort fuel d r rc Hord H1 Hr) as (d' & rc' & E & Hok & Ho & Hr' & Hsep & _).
  eapply p_ok; [exact E|]. apply (Inv_only r d d' HI Ho Hok). intros rc2 Hr2. 
  assert (rc2 = rc') as -> by (eapply has_recon_fun; eassumption). exact (mapped_separated cam pt D rc rc' Hsep (H3 r rc Hr)).
Qed.
Lemma t_optimize n : forall d r, Inv d -> post True (optimize_iterations iso_mul iso_inv e s n d r) (fun x => Inv x.1).
Proof.
  induction n as [|n IH]; intros d r H; [exact H|]. cbn [optimize_iterations]. eapply p_bind; [apply t_apply, H|]. intros [d1 [|]] H1; [|exact H1]. eapply p_bind; [apply t_filter, H1|]. intros [d2 [|]] H2; [|exact H2]. apply IH, H2.
Qed.

(** ** Constraints *)
Lemma t_record d r rc v w : Inv d -> has_recon d r rc -> has_view rc v w -> post True (record_view_constraints e s d r v) (fun x => Inv x.1 /\ exists rc', has_recon x.1 r rc' /\ r_views rc' = r_views rc).
Proof.
  intros HI Hr Hw. pose proof HI as (H1 & H2 & H3). destruct (record_thm e s d r rc v w (tf_env _ _ _ _ _ _ _ _ _ _ HT) H1 Hr Hw) as (d' & b & E & Hok & Ho & rc' & Hr' & Hb).
  eapply p_ok; [exact E|]. cbn [fst]. split.
  - apply (Inv_only r d d' HI Ho Hok). intros rc2 Hr2. assert (rc2 = rc') as -> by (eapply has_recon_fun; eassumption). destruct b; [|subst; eauto].
    exact (mapped_recorded bo cam pt D HD nearest eps st G o similar knn sort fuel s d r rc v rc' (tf_tools _ _ _ _ _ _ _ _ _ _ HT) (tf_bearing _ _ _ _ _ _ _ _ _ _ HT) (ok_recons _ H1 r rc Hr) H2 Hr Hb (H3 r rc Hr)).
  - exists rc'. split; [exact Hr'|]. destruct b; [|subst; reflexivity]. destruct Hb as [_ [Ev _]]. exact Ev.
Qed.
Lemma t_regenerate d r : Inv d -> post True (regenerate_reconstruction iso_mul iso_inv e s d r) (fun x => Inv x.1).
Proof.
  intros HI. unfold regenerate_reconstruction, with_rec. pose proof HI as (H1 & H2 & H3). unfold sm_get. destruct (recon_dec d r) as [(rc & Hr)|E]; [|rewrite E; exact I]. rewrite Hr. cbn [unwrap bind].
  set (rc0 := set_cons rc _). change (set_recs d (sm_put r rc0 (d_recs d))) with (upd d r rc0).
  assert (recon_ok d rc0) as Hok0. { apply set_cons_ok; [exact (ok_recons _ H1 r rc Hr)| |]; intros k c Hk; cbn in Hk; rewrite lookup_empty in Hk; discriminate Hk. }
  assert (data_ok (upd d r rc0)) as Hok1. { apply data_ok_inv. apply (upd_inv none1 none2 d r rc rc0); [apply data_ok_inv; exact H1|exact Hr|exact Hok0|reflexivity]. }
  assert (Inv (upd d r rc0)) as HI0.
  { apply (Inv_only r d (upd d r rc0) HI); [|exact Hok1|].
    - apply within_only. eapply within_upd; [reflexivity|exact Hr].
    - intros rc2 Hr2. assert (rc2 = rc0) as -> by (eapply has_recon_fun; [exact Hr2|apply upd_recon_same]). apply (mapped_less cam pt D rc rc0 (H3 r rc Hr)).
      + intros v w Hw. exists w. auto.
      + intros x y H. exact H.
      + intros k c Hk. unfold has_constraint in Hk. cbn in Hk. rewrite lookup_empty in Hk. discriminate Hk. }
  apply (p_bind _ _ (fun d' => Inv d' /\ exists rc', has_recon d' r rc' /\ r_views rc' = r_views rc)).
  - apply p_fold.
    + split; [exact HI0|]. exists rc0. split; [apply upd_recon_same|reflexivity].
    + intros d' v Hv (HI' & rc' & Hr' & Ev). assert (exists w, has_view rc' v w) as [w Hw]. { rewrite (oo_views _ Hord) in Hv. apply elem_of_elements in Hv; unfold sm_keys in Hv; apply elem_of_dom in Hv as [w Hw]. exists w. unfold has_view. rewrite Ev. exact Hw. }
      eapply p_bind; [exact (t_record d' r rc' v w HI' Hr' Hw)|]. intros [d2 b] (HI2 & rc2 & Hr2 & Ev2). cbn [fst] in *. cbn [post]. split; [exact HI2|]. exists rc2. split; [exact Hr2|congruence].
  - intros d' [HI' _]. apply t_optimize, HI'.
Qed.

(** ** Normalisation *)
Lemma t_normalize d r : Inv d -> post True (normalize_reconstruction iso_mul iso_inv e d r) Inv.
Proof.
  intros HI. pose proof HI as (H1 & H2 & H3). 
  assert (post True (normalize_reconstruction iso_mul iso_inv e d r) (fun d' => inv none1 none2 d' /\ normalized iso_mul iso_inv e d r d')) as Hn.
  { apply normalize_post; [exact Hord|apply data_ok_inv; exact H1|intros []|left; exact I]. }
  destruct (normalize_reconstruction iso_mul iso_inv e d r) as [d'| |] eqn:E; [|exact I|exact I]. cbn [post] in *. destruct Hn as [_ [(rc & v0 & w0 & _ & _ & Hr & _ & Hv & _)]].
  destruct (normalize_gauge (t_normal G) (fun l => triangulate_robust st G o d rc [l]) e d r rc Hord H1 Hr (ex_intro _ v0 (ex_intro _ w0 Hv))) as (d2 & rc' & v & w & E2 & Hok & Ho & Hr' & Hw & Hg).
  { intros v w Hw. change (e_rescale e d r v) with (on_recon d r None (fun rc => match sm_get (r_views rc) v with Some w => rescale_by (t_normal G) (fun l => triangulate_robust st G o d rc [l]) w | None => None end)).
    unfold on_recon, sm_get. rewrite Hr. rewrite Hw. reflexivity. }
  assert (d2 = d') as -> by congruence. apply (Inv_only r d d' HI Ho Hok). intros rc2 Hr2. assert (rc2 = rc') as -> by (eapply has_recon_fun; eassumption).
  destruct (t_normal G _) eqn:En; [|subst; eauto]. destruct (mean_positive (t_normal G) _ w (tf_normal _ _ _ _ _ _ _ _ _ _ HT) En) as (ks & l & _ & _ & _ & _ & _ & Hpos).
  refine (mapped_gauge bo cam pt D HD rc rc' v w _ (Inv_rigid d r rc HI Hr) _ Hw Hpos Hg (H3 r rc Hr)).
  intros u wu Hu. destruct (ok_entries _ _ (ok_recons _ H1 r rc Hr) u wu Hu) as (fr & Hf & _). destruct (H2 _ _ Hf) as (fr' & Hf' & _). split; [exact (ts_rigid _ _ _ _ HD _ _ Hf')|eauto].
Qed.

(** ** Registration *)
Lemma t_incorporate d r k views rc fr : Inv d -> has_recon d r rc -> has_frame d k fr -> f_view fr = None -> (forall v, v ∈ views -> exists w, has_view rc v w) ->
  post True (incorporate_frame e s d r k views) (fun x => Inv x.1).
Proof.
  intros HI Hr Hf Hfree Hviews. pose proof HI as (H1 & H2 & H3). pose proof (ok_recons _ H1 r rc Hr) as Hrc. pose proof (tf_env _ _ _ _ _ _ _ _ _ _ HT) as He.
  pose proof (tf_settings _ _ _ _ _ _ _ _ _ _ HT) as (_ & _ & _ & Hbetter).
  unfold incorporate_frame. pose proof (register_frame_post True e s d r k views rc fr He Hr Hrc Hf Hviews (or_introl I)) as Hreg.
  destruct (register_frame e s d r k views) as [[[pose found]|]| |] eqn:E; [|exact HI|exact I|exact I]. cbn [bind post] in *. specialize (Hreg pose found eq_refl).
  destruct (register_frame_geometric nearest eps st G o similar knn sort fuel s d r k views rc fr pose found (tf_tools _ _ _ _ _ _ _ _ _ _ HT) He Hr Hrc (Inv_rigid d r rc HI Hr) Hf Hviews Hbetter E) as (hi & ms & points & start & inl & _ & Hum & Hrg).
  destruct (add_view_thm o d r k pose (fun f => found !! f) rc fr Hord H1 Hr Hf Hfree (registration_good e s d rc (f_feats fr) views found Hrc Hreg)) as (d1 & v & rc1 & Ea & Hok1 & Ho1 & Hr1 & Hins).
  change (e_ord e) with o. rewrite Ea. cbn [bind].
  assert (Inv d1) as HI1.
  { apply (Inv_only r d d1 HI Ho1 Hok1). intros rc2 Hr2. assert (rc2 = rc1) as -> by (eapply has_recon_fun; eassumption).
    pose proof (H3 r rc Hr) as Hm. pose proof Hm as Hm'. apply (mapped_iff cam pt D) in Hm' as ((k0 & u & Hb & Hp) & Ht & Hc).
    apply (mapped_inserted cam pt D rc k0 u k pose (fun f => found !! f) (length (f_feats fr)) v rc1 Hb Hp Ht Hc).
    - exact (ok_constraints _ _ Hrc).
    - exact Hins.
    - exact (registered_true bo cam pt D HD s nearest eps st G o similar knn sort fuel HT d r rc k0 u views k fr hi ms pose found points start inl H1 H2 Hr Hm Hb Hp Hf Hum Hrg).
    - intros f ls l y p _ Hls Hl Hy Hs. destruct (rg_clear _ _ _ _ _ _ _ Hreg f ls Hls) as (x & Hx & Hcl).
      exact (tf_clear _ _ _ _ _ _ _ _ _ _ HT d r rc views k fr f x ls l y p H1 H2 Hr Hm Hf Hx Hcl Hl Hy Hs). }
  assert (exists w, has_view rc1 v w) as [w Hw]. { destruct Hins as [_ V1 _ _ _ _ _]. apply fmap_Some in V1 as (w & Hw & _). exists w. exact Hw. }
  eapply p_bind; [exact (t_record d1 r rc1 v w HI1 Hr1 Hw)|]. intros [d2 [|]] (HI2 & rc2 & Hr2 & Ev); cbn [fst] in *; [exact HI2|].
  destruct HI2 as (X1 & X2 & X3). assert (has_view rc2 v w) as Hw2 by (unfold has_view; rewrite Ev; exact Hw).
  destruct (remove_view_effect d2 r v rc2 w X1 Hr2 Hw2) as (d3 & rc3 & E3 & Hok3 & Ho3 & Hr3 & Hdel). rewrite E3. cbn [bind post fst].
  apply (Inv_only r d2 d3 (conj X1 (conj X2 X3)) Ho3 Hok3). intros rc4 Hr4. assert (rc4 = rc3) as -> by (eapply has_recon_fun; eassumption). exact (mapped_deleted cam pt D rc2 v rc3 Hdel (X3 r rc2 Hr2)).
Qed.

(** ** Localisation *)
Let He : env_ok e := tf_env _ _ _ _ _ _ _ _ _ _ HT.
Lemma Inv_inv d : Inv d -> inv none1 none2 d.
Proof. intros [H _]. apply data_ok_inv. exact H. Qed.

Lemma t_init d k options : Inv d -> free_frame d k -> NoDup options -> k ∉ options -> (forall j, j ∈ options -> free_frame d j) -> post True (try_init iso_id e s d k options) Inv.
Proof.
  intros HI Hk Hnd Hno Hopt. pose proof HI as (H1 & H2 & H3). destruct (try_init iso_id e s d k options) as [d'| |] eqn:E; [|exact I|exact I]. cbn [post].
  destruct (try_init_geometric nearest eps st G o similar knn sort fuel s d k options d' (tf_tools _ _ _ _ _ _ _ _ _ _ HT) (tf_inliers _ _ _ _ _ _ _ _ _ _ HT) He H1 Hk Hnd Hno Hopt E)
    as [-> | (a & b & fc & fa & fb & q1 & ms1 & q2 & ms2 & scale & p1 & p2 & k1 & k2 & r & Ha & Hb & Hab & Fc & Fa & Fb & P1 & P2 & P3 & K1 & K2 & Hok & Hnew)]; [exact HI|].
  apply (Inv_only r d d' HI (nr_only _ _ _ _ _ _ _ _ _ _ _ Hnew) Hok). intros rc Hr.
  refine (mapped_new d k a b fc fa fb q1 ms1 q2 ms2 scale p1 p2 k1 k2 r d' rc H2 _ _ Fc Fa Fb P1 P2 P3 _ _ Hnew Hr).
  - intros ->. apply Hno, Ha.
  - intros ->. apply Hno, Hb.
  - intros m Hm. apply K1 in Hm as [Hm _]. exact Hm.
  - intros m Hm. apply K2 in Hm as [Hm _]. exact Hm.
Qed.
Lemma t_incorporate_optimize d r k views rc fr : Inv d -> has_recon d r rc -> has_frame d k fr -> f_view fr = None -> (forall v, v ∈ views -> exists w, has_view rc v w) ->
  post True (let! (d1, ok) := incorporate_frame e s d r k views in if ok : bool then let! (d2, _) := optimize_reconstruction iso_mul iso_inv e s d1 r in Ok d2 else Ok d1) Inv.
Proof.
  intros HI Hr Hf Hfree Hv. eapply p_bind; [exact (t_incorporate d r k views rc fr HI Hr Hf Hfree Hv)|]. intros [d1 [|]] H1; [|exact H1]. eapply p_bind; [apply t_optimize, H1|]. intros [d2 b] H2. exact H2.
Qed.
Lemma t_localize_incorporate d r k fr : Inv d -> has_frame d k fr -> f_view fr = None -> post True (try_localize_and_incorporate iso_mul iso_inv e s d r k) Inv.
Proof.
  intros HI Hf Hfree. unfold try_localize_and_incorporate. eapply p_bind; [apply (find_for_post True e s d k He (Inv_inv d HI)); eauto|]. intros [recs free] Hca. cbn [fst snd] in Hca.
  destruct (recs !! r) as [vs|] eqn:E; [|exact HI]. destruct (candidates_views _ _ _ _ _ _ _ _ _ _ (Inv_inv d HI) Hca E) as (rc & Hr & _ & Hvs).
  exact (t_incorporate_optimize d r k vs rc fr HI Hr Hf Hfree Hvs).
Qed.
Lemma t_free free : forall d r, Inv d -> post True (incorporate_free iso_mul iso_inv e s d r free) Inv.
Proof.
  induction free as [|k free IH]; intros d r HI; [exact HI|]. cbn [incorporate_free]. apply p_unwrap. intros fr Hf. destruct (f_view fr) as [x|] eqn:E; [apply IH, HI|].
  eapply p_bind; [exact (t_localize_incorporate d r k fr HI Hf E)|]. intros d1 H1. destruct (sm_get (d_recs d1) r); [apply IH, H1|exact H1].
Qed.
Lemma t_localize d k recs free answers n1 n2 n3 fr : Inv d -> has_frame d k fr -> f_view fr = None -> candidates d answers k n1 n2 n3 recs free -> (size recs <= 1)%nat ->
  post True (try_localize iso_id iso_mul iso_inv e s d k recs free) Inv.
Proof.
  intros HI Hf Hfree Hca Hone. pose proof (Inv_inv d HI) as Hinv. pose proof (proj1 (free_not_linked d k fr Hinv Hf) Hfree) as Hnl. unfold try_localize. cbv zeta.
  set (order := omap _ _).
  assert (forall r vs, (r, vs) ∈ order -> recs !! r = Some vs) as Ho2.
  { intros r vs H. unfold order in H. apply elem_of_list_omap in H as (r' & _ & E). apply fmap_Some in E as (vs' & E & E'). assert (r' = r /\ vs' = vs) as [-> ->] by (split; congruence). exact E. }
  assert (order = [] \/ exists r vs, order = [(r, vs)] /\ recs !! r = Some vs) as Hshort.
  { assert (length order <= 1)%nat as Hl.
    { unfold order. pose proof (oo_recs _ Hord (dom recs)) as Hp. apply Permutation_length in Hp. etransitivity; [|etransitivity; [|exact Hone]].
      - instantiate (1 := length (o_recs (e_ord e) (dom recs))). generalize (o_recs (e_ord e) (dom recs)). intros l. induction l as [|x l IHl]; cbn; [lia|]. destruct (_ <$> _); cbn; lia.
      - rewrite Hp. change (length (elements (dom recs))) with (size (dom recs)). rewrite size_dom. lia. }
    destruct order as [|[r vs] [|y l]] eqn:Eo; [left; reflexivity| |cbn in Hl; lia]. right. exists r, vs. split; [reflexivity|]. apply Ho2. left. }
  apply (p_bind _ _ (fun d1 => Inv d1 /\ localizing d k [] d1)).
  - destruct Hshort as [-> | (r & vs & -> & Er)].
    + cbn [foldM post]. split; [exact HI|]. split; auto using same_base_refl.
      * intros r v H. cbn. intros H'. apply elem_of_nil in H' as [].
      * apply NoDup_nil_2.
      * intros r vs H. apply elem_of_nil in H as [].
    + cbn [foldM]. destruct (candidates_views _ _ _ _ _ _ _ _ _ _ Hinv Hca Er) as (rc & Hr & Hne & Hvs).
      assert (localizing d k [(r, vs)] d) as Hlo.
      { split; auto using same_base_refl.
        - intros r' v H. exfalso. apply Hnl. exists r', v. exact H.
        - cbn. apply NoDup_singleton.
        - intros r' vs' H. apply elem_of_list_singleton in H. assert (r' = r /\ vs' = vs) as [-> ->] by (split; congruence). eauto. }
      eapply p_bind; [|intros d1 H; cbn [post]; exact H]. apply p_both.
      * unfold localize_step. apply p_unwrap. intros fr' Hf'. assert (fr' = fr) as -> by (eapply has_frame_fun; eassumption). rewrite Hfree. exact (t_incorporate_optimize d r k vs rc fr HI Hr Hf Hfree Hvs).
      * apply (localize_step_post iso_mul iso_inv True e s d k r vs [] d He Hlo); eauto.
  - intros d1 [HI1 [Hi1 Hb1 Hl1 _ _ _ _]]. apply p_unwrap. intros fr1 Hf1.
    apply (p_bind _ _ Inv).
    + destruct (f_view fr1) as [y|] eqn:Ev; [exact HI1|]. apply t_init; [exact HI1| |exact (ca_free _ _ _ _ _ _ _ _ Hca)| |].
      * split; [eauto|]. intros r v H. apply (free_not_linked d1 k fr1 Hi1 Hf1) in Ev. apply Ev. exists r, v. exact H.
      * intros H. destruct (candidates_free _ _ _ _ _ _ _ _ _ Hca H) as [H1 _]. congruence.
      * intros j Hj. destruct (candidates_free _ _ _ _ _ _ _ _ _ Hca Hj) as (Hne & fj & Hfj & Ej). destruct (frame_kept d d1 j fj Hb1 Hfj) as (fj1 & Hfj1 & _). split; [eauto|]. intros r v H.
        destruct (Hl1 j) as [->|Hlk]; [exists r, v; exact H|congruence|]. apply (free_not_linked d j fj Hinv Hfj) in Ej. contradiction.
    + intros d2 HI2. apply p_unwrap. intros fr2 _. destruct (f_view fr2) as [[r v]|]; [apply t_free, HI2|exact HI2].
Qed.
Lemma t_add_frame d feed fs d' k : Inv d -> (forall d1 k, data_add_frame d feed fs = Ok (d1, k) -> one_place s e d1 k) -> add_frame iso_id iso_mul iso_inv e s d feed fs = Ok (d', k) -> frames_of D d' -> Inv d'.
Proof.
  intros HI Hone E HF. pose proof HI as (H1 & H2 & H3). pose proof (Inv_inv d HI) as Hinv.
  unfold add_frame in E. pose proof (data_add_frame_post True d feed fs Hinv (or_introl I)) as Hadd. destruct (data_add_frame d feed fs) as [[d1 j]| |] eqn:Ea; [|discriminate E|discriminate E]. cbn [bind post fst snd] in *.
  destruct Hadd as [Hi1 Hfa]. destruct (fa_feed _ _ _ _ _ Hfa) as (old & _ & _ & Efr). assert (has_frame d1 j (Frame feed (length old) fs None)) as Hf by (unfold has_frame; rewrite Efr; apply lookup_insert).
  pose proof (find_for_post True e s d1 j He Hi1 (ex_intro _ _ Hf)) as Hff. destruct (find_for e s d1 j) as [[recs free]| |] eqn:Ef; [|discriminate E|discriminate E]. cbn [bind post fst snd] in *.
  pose proof (try_localize_post iso_id iso_mul iso_inv True e s d1 j recs free _ _ _ _ _ He Hi1 Hf eq_refl Hff (or_introl I)) as Hl.
  destruct (try_localize iso_id iso_mul iso_inv e s d1 j recs free) as [d2| |] eqn:El; [|discriminate E|discriminate E]. cbn [bind post] in *. assert (d2 = d') as -> by congruence. destruct Hl as [_ Hb].
  assert (Inv d1) as HI1.
  { split; [apply data_ok_inv; exact Hi1|]. split.
    - intros i fi Hfi. destruct (frame_kept d1 d' i fi Hb Hfi) as (fi' & Hfi' & Ei). destruct (HF i fi' Hfi') as (fi2 & Hfi2 & Ei2). exists fi2. split; [exact Hfi2|congruence].
    - intros r rc Hr. apply (H3 r rc). unfold has_recon in *. rewrite (fa_recs _ _ _ _ _ Hfa) in Hr. exact Hr. }
  pose proof (t_localize d1 j recs free _ _ _ _ _ HI1 Hf eq_refl Hff (Hone d1 j eq_refl recs free Hff)) as Hres. rewrite El in Hres. exact Hres.
Qed.
End env.

(** ** Histories *)
Lemma t_step s d x d' : Inv d -> allowed bo cam pt D s d x -> step iso_id iso_mul iso_inv s d x = Ok d' -> frames_of D d' -> Inv d'.
Proof.
  intros HI Ha E HF.
  assert (forall (A : Type) (m : outcome (vdata riso F * A)), post True m (fun y => Inv y.1) -> (let! (d1, _) := m in Ok d1) = Ok d' -> Inv d') as Hpair.
  { intros A m Hm Em. destruct m as [[d1 y]| |]; [|discriminate Em|discriminate Em]. cbn [bind post fst] in *. assert (d1 = d') as -> by congruence. exact Hm. }
  destruct x as [|e feed fs|e r|e r|e r|e r|e r|e r|e r a b|e r a b|e src dest t lmap|e c f s2 p1 p2 co fi se]; cbn [step] in E; unfold allowed in Ha.
  2-8: match type of Ha with faithful _ _ _ _ _ _ => pose proof Ha as Hfaith | _ => pose proof (proj1 Ha) as Hfaith end; destruct Hfaith as (nearest & eps & st & G & o & similar & knn & sort & fuel & -> & HT).
  - assert (d' = (add_feed d).1) as -> by congruence. pose proof HI as (H1 & H2 & H3). split; [|split; [exact HF|exact H3]]. apply data_ok_inv, add_feed_inv, data_ok_inv, H1.
  - destruct Ha as [_ Hone]. destruct (add_frame _ _ _ _ _ _ _ _) as [[d1 k]| |] eqn:Ea; [|discriminate E|discriminate E]. cbn [bind] in E. assert (d1 = d') as -> by congruence.
    exact (t_add_frame s nearest eps st G o similar knn sort fuel HT d feed fs d' k HI Hone Ea HF).
  - exact (Hpair bool _ (t_optimize s nearest eps st G o similar knn sort fuel HT _ d r HI) E).
  - exact (Hpair bool _ (t_apply s nearest eps st G o similar knn sort fuel HT d r HI) E).
  - exact (Hpair bool _ (t_regenerate s nearest eps st G o similar knn sort fuel HT d r HI) E).
  - exact (Hpair bool _ (t_filter s nearest eps st G o similar knn sort fuel HT d r HI) E).
  - pose proof (t_filter_landmarks s nearest eps st G o similar knn sort fuel HT d r HI) as H. rewrite E in H. exact H.
  - pose proof (t_normalize s nearest eps st G o similar knn sort fuel HT d r HI) as H. rewrite E in H. exact H.
  - destruct Ha.
  - destruct Ha.
  - destruct Ha.
  - destruct Ha.
Qed.

(** Frames are never lost. *)
Definition keeps_frames (d d' : vdata riso F) : Prop := forall k fr, has_frame d k fr -> exists fr', has_frame d' k fr' /\ f_feats fr' = f_feats fr.
Lemma base_frames d d' : same_base d d' -> keeps_frames d d'.
Proof. intros Hb k fr Hf. exact (frame_kept d d' k fr Hb Hf). Qed.
Lemma t_keeps s d x d' : data_ok d -> allowed bo cam pt D s d x -> step iso_id iso_mul iso_inv s d x = Ok d' -> data_ok d' /\ keeps_frames d d'.
Proof.
  intros Hok Ha E. pose proof Hok as Hinv. apply data_ok_inv in Hinv.
  assert (forall e, faithful bo cam pt D s e -> env_ok e) as Henv. { intros e (nearest & eps & st & G & o & similar & knn & sort & fuel & -> & HT). exact (tf_env _ _ _ _ _ _ _ _ _ _ HT). }
  assert (forall r (m : outcome (vdata riso F * bool)), post True m (kept_or_gone none1 none2 d r) -> (let! (d1, _) := m in Ok d1) = Ok d' -> data_ok d' /\ keeps_frames d d') as Hpair.
  { intros r m Hm Em. destruct m as [[d1 y]| |]; [|discriminate Em|discriminate Em]. cbn [bind post fst] in *. assert (d1 = d') as -> by congruence. destruct Hm as [K1 K2 _ _].
    split; [apply data_ok_inv, K1|]. apply base_frames, (wi_base _ _ _ K2). }
  assert (forall r : key, ~ @none1 r) as N1 by (intros r []). assert (forall r v : key, ~ @none2 r v) as N2 by (intros r v []).
  destruct x as [|e feed fs|e r|e r|e r|e r|e r|e r|e r a b|e r a b|e src dest t lmap|e c f s2 p1 p2 co fi se]; cbn [step] in E; unfold allowed in Ha.
  9-12: destruct Ha.
  2-8: assert (env_ok e) as He by (match type of Ha with faithful _ _ _ _ _ _ => apply Henv; exact Ha | _ => apply Henv; exact (proj1 Ha) end); pose proof (eo_orders _ He) as Ho.
  - assert (d' = (add_feed d).1) as -> by congruence. split; [apply data_ok_inv, add_feed_inv, Hinv|]. intros k fr Hf. exists fr. split; [exact Hf|reflexivity].
  - pose proof (add_frame_post iso_id iso_mul iso_inv True e s d feed fs He Hinv (or_introl I) (or_introl I)) as Hp. destruct (add_frame _ _ _ _ _ _ _ _) as [[d1 k]| |]; [|discriminate E|discriminate E]. cbn [bind post fst snd] in *. assert (d1 = d') as -> by congruence.
    destruct Hp as (Hi & d2 & Hfa & Hb). split; [apply data_ok_inv, Hi|]. intros j fj Hj. apply (frame_kept d2 d' j fj Hb). destruct (fa_feed _ _ _ _ _ Hfa) as (old & _ & _ & Efr). unfold has_frame in *. rewrite Efr, lookup_insert_ne; [exact Hj|].
    rewrite (fa_key _ _ _ _ _ Hfa). pose proof (ok_fresh_frames _ Hok j fj Hj) as Hlt. lia.
  - unfold optimize_reconstruction in E. destruct (recon_dec d r) as [(rc & Hr)|En].
    + apply (Hpair r _) in E; [exact E|]. apply optimize_post; eauto.
    + destruct (reconstruction_optimization_iterations s); cbn [optimize_iterations bind] in E.
      * assert (d = d') as <- by congruence. split; [exact Hok|]. apply base_frames, same_base_refl.
      * unfold apply_constraints, sm_get in E. rewrite En in E. discriminate E.
  - apply (Hpair r _) in E; [exact E|]. apply apply_constraints_post; eauto.
  - apply (Hpair r _) in E; [exact E|]. apply regenerate_post; eauto.
  - apply (Hpair r _) in E; [exact E|]. eapply post_mono; [apply filter_observations_post; eauto|]. intros y [H _]. exact H.
  - destruct (recon_dec d r) as [(rc & Hr)|En].
    + destruct (filter_landmarks_thm e d r rc Ho Hok Hr) as (d1 & rc' & E1 & Hok1 & _ & Hfr & _). assert (d1 = d') as -> by congruence. split; [exact Hok1|]. intros k fr Hf. exists fr. split; [|reflexivity]. unfold has_frame. rewrite Hfr. exact Hf.
    + unfold filter_landmarks, with_rec, sm_get in E. rewrite En in E. discriminate E.
  - assert (post True (normalize_reconstruction iso_mul iso_inv e d r) (fun d' => inv none1 none2 d' /\ normalized iso_mul iso_inv e d r d')) as Hn. { apply normalize_post; [exact Ho|exact Hinv|apply N1|left; exact I]. }
    rewrite E in Hn. cbn [post] in Hn. destruct Hn as [Hi [(rc & v0 & w0 & rc' & _ & _ & _ & _ & Ed & _)]]. split; [apply data_ok_inv, Hi|]. rewrite Ed. apply base_frames, upd_base.
Qed.

Lemma t_history s ops : forall d, data_ok d -> all_allowed bo cam pt D s d ops -> foldM (step iso_id iso_mul iso_inv s) ops d = Ok D ->
  (frames_of D d) /\ ((forall r rc, has_recon d r rc -> mapped rc) -> forall r rc, has_recon D r rc -> mapped rc).
Proof.
  induction ops as [|x ops IH]; intros d Hok Ha E; cbn [foldM] in E.
  - assert (d = D) as -> by congruence. split; [|intros H; exact H]. intros k fr Hf. eauto.
  - destruct Ha as [Hx Ha]. destruct (step iso_id iso_mul iso_inv s d x) as [d'| |] eqn:Es; [|discriminate E|discriminate E]. cbn [bind] in E. destruct (t_keeps s d x d' Hok Hx Es) as [Hok' Hk]. destruct (IH d' Hok' (Ha d' eq_refl) E) as [HF Hrest].
    assert (frames_of D d) as HFd. { intros k fr Hf. destruct (Hk k fr Hf) as (fr' & Hf' & E1). destruct (HF k fr' Hf') as (fr2 & Hf2 & E2). exists fr2. split; [exact Hf2|congruence]. }
    split; [exact HFd|]. intros Hm. apply Hrest. assert (Inv d) as HI by (split; [exact Hok|split; [exact HFd|exact Hm]]). exact (proj2 (proj2 (t_step s d x d' HI Hx Es HF))).
Qed.
Lemma truth_thm s ops : all_allowed bo cam pt D s vdata_init ops -> run iso_id iso_mul iso_inv s ops = Ok D -> forall r rc, has_recon D r rc -> mapped rc.
Proof.
  intros Ha E. destruct (t_history s ops vdata_init) as [_ H]; [|exact Ha|exact E|].
  - apply init_ok.
  - apply H. intros r rc Hr. unfold has_recon in Hr. cbn in Hr. rewrite lookup_empty in Hr. discriminate Hr.
Qed.
End run.
Lemma truth_run (F : Type) (bearing_of : F -> rvec3) (cam : key -> riso) (pt : key -> nat -> rvec3) (s : settings) (ops : list (op riso F)) (D : vdata riso F) :
  true_scene bearing_of cam pt D -> all_allowed bearing_of cam pt D s vdata_init ops -> run iso_id iso_mul iso_inv s ops = Ok D ->
  forall r rc, has_recon D r rc -> mapped cam pt D rc.
Proof. intros HD. exact (truth_thm bearing_of cam pt D HD s ops). Qed.
