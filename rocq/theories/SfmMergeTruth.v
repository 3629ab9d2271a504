(** Merging two correct maps through a frame they share (C69). *)
From stdpp Require Import gmap list.
From Coq Require Import Reals Lra Lia.
From Verif Require Import Outcome OutcomeFacts Num Lin LinSpec LinFacts Core CoreSpec CoreFacts Geom GeomSpec GeomFacts Optimize OptimizeSpec.
From Verif Require Import Sfm SfmSpec SfmUse SfmEffects SfmRec SfmData SfmPrim SfmApply SfmInc SfmTracks SfmHist SfmProps SfmThms SfmDemo SfmPose SfmPoseSpec SfmPoseFacts SfmGeom SfmGeomSpec SfmGeomFacts SfmGeomThms SfmGeomRigid SfmGeomReg SfmGeomExact SfmSceneDemo.
From Verif Require Import SfmGeomStart SfmGeomStartExact SfmTruthSpec SfmTruth SfmTruthRun SfmTruthDemo.
Open Scope R_scope.

(** ** The poses *)
Lemma relative_trans_value (a b : riso) : rigid a -> trans (relative a b) = mvec (rot a) (vsub (centre b) (centre a)).
Proof.
  intros Ha. pose proof (rotation_forth (rot a) (trans a) Ha) as E. rewrite mvec_sub. unfold centre at 2. rewrite !mvec_neg, E. unfold relative, iso_mul. cbn [rot trans]. change (trans (iso_inv b)) with (centre b). generalize (mvec (rot a) (centre b)) (trans a). clear. intros. lin.
Qed.
Lemma vsub_self (v : rvec3) : vsub v v = vzero. Proof. lin. Qed.
Lemma same_place (a b : riso) : rigid a -> (trans (relative a b) = vzero <-> centre a = centre b).
Proof.
  intros Ha. rewrite (relative_trans_value a b Ha). split.
  - intros H. apply (f_equal (mvec (mtrans (rot a)))) in H. rewrite (rotation_back _ _ Ha) in H. symmetry. apply vsub_zero. rewrite H. lin.
  - intros ->. rewrite vsub_self. lin.
Qed.

Section merge.
Context (cam : key -> riso) (Hcam : forall k, rigid (cam k)).
Notation seen_from := (seen_from cam).
Notation world_of := (world_of cam).

Lemma seen_rigid k0 u k : rigid (seen_from k0 u k).
Proof. apply scale_rigid, relative_rigid; apply Hcam. Qed.
Lemma moved_pose k k0 k1 (u u1 : R) j : iso_mul (seen_from k1 u1 j) (iso_inv (world_of k k0 k1 u u1)) = iso_mul (seen_from k u1 j) (seen_from k0 u k).
Proof.
  unfold SfmTruthSpec.world_of. rewrite (iso_inv_mul _ _ (rigid_inv _ (seen_rigid k0 u k)) (seen_rigid k1 u1 k)), (iso_inv_inv _ (seen_rigid k0 u k)), iso_mul_assoc. f_equal.
  change (relative (seen_from k1 u1 j) (seen_from k1 u1 k) = seen_from k u1 j). unfold SfmTruthSpec.seen_from. rewrite scale_relative, (relative_base _ _ _ (Hcam j) (Hcam k) (Hcam k1)). reflexivity.
Qed.
Lemma moved_true k k0 (u u1 : R) j : iso_mul (seen_from k u1 j) (seen_from k0 u k) = seen_from k0 u j <-> u1 = u \/ centre (cam j) = centre (cam k).
Proof.
  assert (iso_mul (seen_from k u j) (seen_from k0 u k) = seen_from k0 u j) as Hsame by (unfold SfmTruthSpec.seen_from; rewrite scale_mul, (relative_trans _ _ _ (Hcam k)); reflexivity).
  rewrite <- (same_place _ _ (Hcam j)). rewrite <- Hsame at 1. clear Hsame. unfold SfmTruthSpec.seen_from, pose_scale, iso_mul. cbn [rot trans]. set (A := mvec (rot (relative (cam j) (cam k))) _). generalize A. clear A. intros A. set (t := trans (relative (cam j) (cam k))).
  split.
  - intros H. apply (f_equal trans) in H. cbn [trans] in H. destruct (Req_dec u1 u) as [Eu|Eu]; [left; exact Eu|right]. assert (vscale (u1 - u) t = vzero) as E.
    { transitivity (vsub (vadd (vscale u1 t) A) (vadd (vscale u t) A)); [lin|]. rewrite H. apply vsub_self. }
    assert (vscale (/ (u1 - u)) (vscale (u1 - u) t) = t) as <- by (rewrite vscale_scale; rewrite Rinv_l by lra; apply vscale_one). rewrite E. lin.
  - intros [-> | Et]; [reflexivity|]. rewrite Et. f_equal. f_equal. lin.
Qed.

Lemma absorbed_poses (src dest dest' : recon riso) lmap k k0 k1 (u u1 : R) M :
  absorbed iso_mul src dest lmap (iso_inv (world_of k k0 k1 u u1)) M dest' -> (forall v w, has_view src v w -> v_pose w = seen_from k1 u1 (v_frame w)) ->
  (forall v w, has_view dest v w -> has_view dest' v w) /\
    forall v w, has_view dest' v w -> has_view dest v w \/
      (exists sv w0, has_view src sv w0 /\ v_frame w = v_frame w0) /\
      v_pose w = iso_mul (seen_from k u1 (v_frame w)) (seen_from k0 u k) /\
      (v_pose w = seen_from k0 u (v_frame w) <-> u1 = u \/ centre (cam (v_frame w)) = centre (cam k)).
Proof.
  intros Hab Hp. split; [intros v w Hw; apply (ab_old _ _ _ _ _ _ _ Hab), Hw|]. intros v w Hw.
  destruct (decide (v ∈ M.*2)) as [HM|HM]; [right|left; apply (ab_old _ _ _ _ _ _ _ Hab); auto]. apply elem_of_list_fmap in HM as ([sv dv] & Ev & HM). cbn [snd] in Ev. subst dv.
  assert (sv ∈ M.*1) as Hsv by (apply elem_of_list_fmap; exists (sv, v); auto). rewrite (ab_all _ _ _ _ _ _ _ Hab), elem_of_elements, elem_of_dom in Hsv. destruct Hsv as [w0 Hw0]. change (has_view src sv w0) in Hw0.
  destruct (ab_views _ _ _ _ _ _ _ Hab sv v w0 HM Hw0 w Hw) as (Ef & Ep & _). rewrite (Hp sv w0 Hw0), moved_pose, <- Ef in Ep. split; [exists sv, w0; auto|]. split; [exact Ep|]. rewrite Ep. apply moved_true.
Qed.
Lemma merged_thm {F : Type} (e : env riso F) s (d : vdata riso F) src_k dest_k src dest lmap k k0 k1 (u u1 : R) d' :
  env_ok e -> data_ok d -> src_k <> dest_k -> has_recon d src_k src -> has_recon d dest_k dest -> injective lmap -> targets_live lmap dest ->
  (forall v w, has_view src v w -> v_pose w = seen_from k1 u1 (v_frame w)) ->
  incorporate_reconstruction iso_mul iso_inv e s d src_k dest_k (world_of k k0 k1 u u1) lmap = Ok d' ->
  exists dest', has_recon d' dest_k dest' /\ (forall v w, has_view dest v w -> has_view dest' v w) /\
    forall v w, has_view dest' v w -> has_view dest v w \/
      (exists sv w0, has_view src sv w0 /\ v_frame w = v_frame w0) /\
      v_pose w = iso_mul (seen_from k u1 (v_frame w)) (seen_from k0 u k) /\
      (v_pose w = seen_from k0 u (v_frame w) <-> u1 = u \/ centre (cam (v_frame w)) = centre (cam k)).
Proof.
  intros He Hd Hne Hs Hr Hinj Hlive Hp E. destruct (incorporate_thm iso_mul iso_inv e s d src_k dest_k src dest (world_of k k0 k1 u u1) lmap He Hd Hne Hs Hr Hinj Hlive) as (d2 & dest' & M & E2 & _ & _ & _ & Hr' & _ & Hab & _).
  rewrite E in E2. assert (d2 = d') as -> by congruence. exists dest'. split; [exact Hr'|]. exact (absorbed_poses src dest dest' lmap k k0 k1 u u1 M Hab Hp).
Qed.

(** With one unit of length the poses are the true ones; tracks stay true if the landmarks that are joined show one point. *)
Lemma absorbed_same_unit (pt : key -> nat -> rvec3) (src dest dest' : recon riso) lmap k k0 k1 (u : R) M :
  absorbed iso_mul src dest lmap (iso_inv (world_of k k0 k1 u u)) M dest' ->
  (forall v w, has_view src v w -> v_pose w = seen_from k1 u (v_frame w)) -> (forall v w, has_view dest v w -> v_pose w = seen_from k0 u (v_frame w)) ->
  (forall x y p q, same_track src x y -> shows pt src x p -> shows pt src y q -> p = q) -> (forall x y p q, same_track dest x y -> shows pt dest x p -> shows pt dest y q -> p = q) ->
  (forall l l' x y p q, lmap !! l = Some l' -> assigned src x.1 x.2 l -> assigned dest y.1 y.2 l' -> shows pt src x p -> shows pt dest y q -> p = q) ->
  (forall v w, has_view dest' v w -> v_pose w = seen_from k0 u (v_frame w)) /\
  (forall x y p q, same_track dest' x y -> shows pt dest' x p -> shows pt dest' y q -> p = q).
Proof.
  intros Hab Hps Hpd Hts Htd Hjoin. split.
  { intros v w Hw. destruct (proj2 (absorbed_poses src dest dest' lmap k k0 k1 u u M Hab Hps) v w Hw) as [Ho|(_ & _ & Hiff)]; [exact (Hpd v w Ho)|]. apply Hiff. left. reflexivity. }
  assert (forall v w, has_view dest' v w -> v ∈ M.*2 -> exists sv w0, (sv, v) ∈ M /\ has_view src sv w0 /\ v_frame w = v_frame w0 /\ length (v_lms w) = length (v_lms w0)) as Hnew.
  { intros v w Hw HM. apply elem_of_list_fmap in HM as ([sv dv] & Ev & HM). cbn [snd] in Ev. subst dv.
    assert (sv ∈ M.*1) as Hsv by (apply elem_of_list_fmap; exists (sv, v); auto). rewrite (ab_all _ _ _ _ _ _ _ Hab), elem_of_elements, elem_of_dom in Hsv. destruct Hsv as [w0 Hw0]. change (has_view src sv w0) in Hw0.
    destruct (ab_views _ _ _ _ _ _ _ Hab sv v w0 HM Hw0 w Hw) as (Ef & _ & El). exists sv, w0. auto. }
  assert (forall x p v w, x.1 = v -> has_view dest' v w -> shows pt dest' x p -> p = pt (v_frame w) x.2) as Hsh by (intros x p v w <- Hw (w' & Hw' & ->); assert (w' = w) as -> by (eapply has_view_fun; eassumption); reflexivity).
  assert (forall x y p q, x.1 ∈ M.*2 -> y.1 ∉ M.*2 -> same_track dest' x y -> shows pt dest' x p -> shows pt dest' y q -> p = q) as Hmix.
  { intros [v f] [v' f'] p q HM HM' (l' & (w & Hw & Hl) & (w' & Hw' & Hl')) Hx Hy. cbn [fst snd] in *. destruct (Hnew v w Hw HM) as (sv & w0 & HsM & Hw0 & Ef & El). assert (has_view dest v' w') as Ho by (apply (ab_old _ _ _ _ _ _ _ Hab); auto).
    assert (exists l, v_lms w0 !! f = Some l) as [l Hl0] by (apply lookup_lt_is_Some; rewrite <- El; eapply lookup_lt_Some; exact Hl). assert (assigned src sv f l) as Ha by (exists w0; auto).
    destruct (lmap !! l) as [l2|] eqn:Em.
    - destruct (ab_mapped _ _ _ _ _ _ _ Hab sv v f l l2 HsM (ex_intro _ w Hw) Ha Em) as (w2 & Hw2 & Hl2). assert (w2 = w) as -> by (eapply has_view_fun; eassumption). assert (l2 = l') as -> by congruence.
      eapply (Hjoin l l' (sv, f) (v', f')); [exact Em|exact Ha|exists w'; auto|exists w0; split; [exact Hw0|]|exists w'; split; [exact Ho|]].
      + rewrite <- Ef. exact (Hsh (v, f) p v w eq_refl Hw Hx).
      + exact (Hsh (v', f') q v' w' eq_refl Hw' Hy).
    - exfalso. apply (ab_separate _ _ _ _ _ _ _ Hab sv v f l v' f' HsM Ha Em (ex_intro _ w' Ho)). exists l'. split; [exists w; auto|exists w'; auto]. }
  assert (forall (rc : recon riso) x y, same_track rc x y -> same_track rc y x) as Hsym by (intros rc x y (l & H1 & H2); exists l; auto).
  intros x y p q Hxy Hx Hy. destruct (decide (x.1 ∈ M.*2)) as [Mx|Mx]; destruct (decide (y.1 ∈ M.*2)) as [My|My].
  - destruct x as [v f], y as [v' f']. cbn [fst snd] in *. pose proof Hxy as (l & (w & Hw & Hl) & (w' & Hw' & Hl')). cbn [fst snd] in *. destruct (Hnew v w Hw Mx) as (sv & w0 & HsM & Hw0 & Ef & _). destruct (Hnew v' w' Hw' My) as (sv' & w0' & HsM' & Hw0' & Ef' & _).
    apply (ab_tracks _ _ _ _ _ _ _ Hab sv v f sv' v' f' HsM HsM' (ex_intro _ w Hw) (ex_intro _ w' Hw')) in Hxy. eapply Hts; [exact Hxy|exists w0; split; [exact Hw0|]|exists w0'; split; [exact Hw0'|]].
    + rewrite <- Ef. exact (Hsh (v, f) p v w eq_refl Hw Hx).
    + rewrite <- Ef'. exact (Hsh (v', f') q v' w' eq_refl Hw' Hy).
  - exact (Hmix x y p q Mx My Hxy Hx Hy).
  - symmetry. exact (Hmix y x q p My Mx (Hsym _ _ _ Hxy) Hy Hx).
  - destruct Hxy as (l & (w & Hw & Hl) & (w' & Hw' & Hl')). assert (has_view dest x.1 w) as Ho by (apply (ab_old _ _ _ _ _ _ _ Hab); auto). assert (has_view dest y.1 w') as Ho' by (apply (ab_old _ _ _ _ _ _ _ Hab); auto).
    apply (Htd x y p q); [exists l; split; [exists w; split; assumption|exists w'; split; assumption]|exists w; split; [exact Ho|]|exists w'; split; [exact Ho'|]].
    + exact (Hsh x p x.1 w eq_refl Hw Hx).
    + exact (Hsh y q y.1 w' eq_refl Hw' Hy).
Qed.
Lemma merged_same_unit {F : Type} (pt : key -> nat -> rvec3) (e : env riso F) s (d : vdata riso F) src_k dest_k src dest lmap k k0 k1 (u : R) d' :
  env_ok e -> data_ok d -> src_k <> dest_k -> has_recon d src_k src -> has_recon d dest_k dest -> injective lmap -> targets_live lmap dest ->
  (forall v w, has_view src v w -> v_pose w = seen_from k1 u (v_frame w)) -> (forall v w, has_view dest v w -> v_pose w = seen_from k0 u (v_frame w)) ->
  (forall x y p q, same_track src x y -> shows pt src x p -> shows pt src y q -> p = q) -> (forall x y p q, same_track dest x y -> shows pt dest x p -> shows pt dest y q -> p = q) ->
  (forall l l' x y p q, lmap !! l = Some l' -> assigned src x.1 x.2 l -> assigned dest y.1 y.2 l' -> shows pt src x p -> shows pt dest y q -> p = q) ->
  incorporate_reconstruction iso_mul iso_inv e s d src_k dest_k (world_of k k0 k1 u u) lmap = Ok d' ->
  exists dest', has_recon d' dest_k dest' /\ (forall v w, has_view dest' v w -> v_pose w = seen_from k0 u (v_frame w)) /\
    (forall x y p q, same_track dest' x y -> shows pt dest' x p -> shows pt dest' y q -> p = q).
Proof.
  intros He Hd Hne Hs Hr Hinj Hlive Hps Hpd Hts Htd Hjoin E. destruct (incorporate_thm iso_mul iso_inv e s d src_k dest_k src dest (world_of k k0 k1 u u) lmap He Hd Hne Hs Hr Hinj Hlive) as (d2 & dest' & M & E2 & _ & _ & _ & Hr' & _ & Hab & _).
  rewrite E in E2. assert (d2 = d') as -> by congruence. exists dest'. split; [exact Hr'|]. exact (absorbed_same_unit pt src dest dest' lmap k k0 k1 u M Hab Hps Hpd Hts Htd Hjoin).
Qed.

(** The constraints hold, too, if the numerical code records them. *)
Lemma merged_mapped {F : Type} (bo : F -> rvec3) (pt : key -> nat -> rvec3) (D : vdata riso F) nearest eps st (G : tools RNum F) o similar knn sort fuel s (d : vdata riso F) src_k dest_k src dest lmap k k0 k1 (u : R) d' :
  let e := geometric (real_trig nearest eps) st G o similar knn sort fuel in
  true_scene bo cam pt D -> tools_ok G -> t_bearing G = bo -> env_ok e -> data_ok d -> frames_of D d ->
  src_k <> dest_k -> has_recon d src_k src -> has_recon d dest_k dest -> mapped cam pt D src -> mapped cam pt D dest -> injective lmap -> targets_live lmap dest ->
  (exists fr, has_frame D k0 fr) -> 0 < u -> (forall v w, has_view src v w -> v_pose w = seen_from k1 u (v_frame w)) -> (forall v w, has_view dest v w -> v_pose w = seen_from k0 u (v_frame w)) ->
  (forall l l' x y p q, lmap !! l = Some l' -> assigned src x.1 x.2 l -> assigned dest y.1 y.2 l' -> shows pt src x p -> shows pt dest y q -> p = q) ->
  incorporate_reconstruction iso_mul iso_inv e s d src_k dest_k (world_of k k0 k1 u u) lmap = Ok d' ->
  exists dest', has_recon d' dest_k dest' /\ mapped cam pt D dest'.
Proof.
  intros e HD HG Hbo He Hd Hfr Hne Hs Hr Hms Hmd Hinj Hlive Hk0 Hu Hps Hpd Hjoin E. pose proof (proj1 (data_ok_inv d) Hd) as Hinv. pose proof (ok_recons _ Hd _ _ Hr) as Hokd.
  assert (post True (incorporate_reconstruction iso_mul iso_inv e s d src_k dest_k (world_of k k0 k1 u u) lmap) (fun d' => exists dest', has_recon d' dest_k dest' /\ mapped cam pt D dest')) as Hp; [|rewrite E in Hp; exact Hp]. clear E d'.
  unfold incorporate_reconstruction. cbv zeta. apply post_bind, post_unwrap; [left; exact I|]. intros src' Hsrc'. assert (src' = src) as -> by (eapply has_recon_fun; [exact Hsrc'|exact Hs]).
  pose proof (oo_views _ (eo_orders _ He) (sm_keys (r_views src))) as Hperm. set (L := o_views (e_ord e) (sm_keys (r_views src))) in *.
  destruct (move_all iso_mul e none1 none2 d src_k dest_k src (iso_inv (world_of k k0 k1 u u)) dest lmap L Hinv Hne (fun x => x) (fun _ x => x) (fun _ x => x) Hs Hr Hinj Hlive) as (M & d1 & lmap' & EM & Hrun & [Hinv1 Hwi1 (dest1 & Hdest1 & Hmv)]).
  { rewrite Hperm. apply NoDup_elements. }
  { intros v Hv. rewrite Hperm, elem_of_elements in Hv. unfold sm_keys in Hv. apply elem_of_dom in Hv. exact Hv. }
  rewrite Hrun. cbn [bind]. set (ex1 := moved_away src_k M.*1 none2) in *.
  assert (absorbed iso_mul src dest lmap (iso_inv (world_of k k0 k1 u u)) M dest1) as Hab.
  { apply (moved_absorbed iso_mul d src dest _ lmap M dest1 lmap' ∅ dest1 Hokd); [rewrite EM; exact Hperm|exact Hmv|intros v Hv; apply elem_of_empty in Hv as []|]. intros v. rewrite decide_False by apply not_elem_of_empty. reflexivity. }
  assert (mapped cam pt D dest1) as Hm1.
  { destruct (absorbed_same_unit pt src dest dest1 lmap k k0 k1 u M Hab Hps Hpd (mp_tracks _ _ _ _ Hms) (mp_tracks _ _ _ _ Hmd) Hjoin) as [Hp1 Ht1]. split; [exists k0, u; auto|exact Ht1|].
    intros j c Hc. unfold has_constraint in Hc. rewrite (mv_cons _ _ _ _ _ _ _ _ Hmv) in Hc. pose proof (mp_constraints _ _ _ _ Hmd j c Hc) as Hh. pose proof (ok_constraints _ _ Hokd j c Hc) as Hl. unfold holds, names_live_views in *. destruct (c_views c) as [[x y] z].
    destruct Hl as (_ & _ & _ & [w1 V1] & [w2 V2] & [w3 V3]). rewrite (Hh w1 w2 w3 V1 V2 V3). intros wa wb wz Ga Gb Gz. apply (ab_old _ _ _ _ _ _ _ Hab) in V1 as [V1 _], V2 as [V2 _], V3 as [V3 _].
    assert (wa = w1) as -> by (eapply has_view_fun; eassumption). assert (wb = w2) as -> by (eapply has_view_fun; eassumption). assert (wz = w3) as -> by (eapply has_view_fun; eassumption). reflexivity. }
  apply post_bind.
  apply (post_foldM True _ (fun rest d' => NoDup rest /\ inv none1 ex1 d' /\ within (eq dest_k) d d' /\ exists dest', has_recon d' dest_k dest' /\ mapped cam pt D dest' /\ forall v, v ∈ rest -> exists w, has_view dest' v w)).
  - intros v rest d' (Hnd & Hi & Hwi & dest' & Hr' & Hm & Hviews). apply NoDup_cons in Hnd as [Hvr Hnd]. destruct (Hviews v (elem_of_list_here _ _)) as [w Hw].
    assert (frames_of D d') as Hfr'. { intros j fr Hj. destruct (same_base_frame d d' j fr (wi_base _ _ _ Hwi) Hj) as (fr0 & Hj0 & Ef). destruct (Hfr j fr0 Hj0) as (fr1 & H1 & H2). exists fr1. split; [exact H1|]. rewrite H2. apply Ef. }
    apply post_bind. eapply post_mono; [apply (record_post True e s none1 ex1 d' dest_k v He Hi (fun x => x)); left; exact I|].
    intros [d2 ok] [Hi2 Hrec]. cbn [fst snd] in *. pose proof (in_good _ _ _ Hi dest_k dest' Hr' (fun x => x)) as Hok'. assert (within (eq dest_k) d' d2) as Hwi2 by (eapply recorded_within; [reflexivity|exact Hrec]).
    destruct (recorded_effect e s d' dest_k dest' v d2 ok Hok' Hr' Hrec) as (dest2 & Hr2 & He2).
    assert (mapped cam pt D dest2 /\ r_views dest2 = r_views dest') as [Hm2 Ev].
    { destruct ok; [|subst; auto]. split; [|apply (rf_rest _ _ _ _ _ _ _ He2)]. exact (mapped_recorded bo cam pt D HD nearest eps st G o similar knn sort fuel s d' dest_k dest' v dest2 HG Hbo Hok' Hfr' Hr' He2 Hm). }
    destruct ok.
    + cbn [post]. split; [exact Hnd|]. split; [exact Hi2|]. split; [eapply within_trans; [exact Hwi|exact Hwi2]|]. exists dest2. split; [exact Hr2|]. split; [exact Hm2|]. intros x Hx. unfold has_view. rewrite Ev. apply Hviews. right. exact Hx.
    + eapply post_mono; [apply (remove_view_post True none1 ex1 d2 dest_k v Hi2 (fun x => x))|]; [intros [[]|[H _]]; congruence|left; exact I|].
      intros d3 [Hi3 Hrv]. split; [exact Hnd|]. split; [exact Hi3|]. split; [eapply within_trans; [exact Hwi|]; eapply within_trans; [exact Hwi2|]; eapply within_removed_view; [reflexivity|exact Hrv]|].
      destruct Hrv as [(rc3 & rc3' & w3 & fr3 & Hr3 & _ & Hvd & _ & ->)]. assert (rc3 = dest2) as -> by (eapply has_recon_fun; eassumption). exists rc3'. split; [apply relink_recon, upd_recon_same|].
      apply view_removed_deleted in Hvd. split; [eapply mapped_deleted; [exact Hvd|exact Hm2]|]. intros x Hx. destruct (Hviews x (elem_of_list_further _ _ _ Hx)) as [wx Hwx]. exists wx. apply (vd_views _ _ _ Hvd). split; [unfold has_view; rewrite Ev; exact Hwx|]. intros ->. contradiction.
  - split; [apply (mv_distinct _ _ _ _ _ _ _ _ Hmv)|]. split; [exact Hinv1|]. split; [exact Hwi1|]. exists dest1. split; [exact Hdest1|]. split; [exact Hm1|].
    intros v Hv. apply elem_of_list_fmap in Hv as ([sv dv] & Ev & HM). cbn [snd] in Ev. subst dv. destruct (mv_new _ _ _ _ _ _ _ _ Hmv sv v HM) as (w & ls & _ & Hw & _). eauto.
  - intros d2 (_ & _ & _ & dest' & Hr' & Hm & _). cbn [post]. exists dest'. split; [|exact Hm]. unfold has_recon. cbn. rewrite lookup_delete_ne by assumption. exact Hr'.
Qed.
End merge.
Open Scope nat_scope.

(** ** Two maps of one scene in different units *)
Section used.
Context {P F : Type} (one : P) (mul : P -> P -> P) (inv : P -> P).
Lemma used_by_prefix s (ops : list (op P F)) : forall d, (forall n x d', ops !! n = Some x -> foldM (step one mul inv s) (take n ops) d = Ok d' -> op_allowed d' x) -> used_well one mul inv s d ops.
Proof.
  induction ops as [|x ops IH]; intros d H; cbn [used_well]; [exact I|]. split; [apply (H 0 x d); reflexivity|]. intros d' E. apply IH. intros n y d2 Hy E2. apply (H (S n) y d2 Hy). cbn [take foldM]. rewrite E. exact E2.
Qed.
(** A test for [free_frame]. *)
Definition free_test (d : vdata P F) (k : key) : bool :=
  is_some (sm_map (d_frames d) !! k) && forallb (fun x : key * recon P => forallb (fun y : key * view P => negb (v_frame y.2 =? k)) (map_to_list (sm_map (r_views x.2)))) (map_to_list (sm_map (d_recs d))).
Lemma free_test_spec (d : vdata P F) k : free_test d k = true -> free_frame d k.
Proof.
  unfold free_test. intros H. apply andb_true_iff in H as [H1 H2]. split.
  - unfold has_frame. destruct (sm_map (d_frames d) !! k) as [fr|]; [exists fr; reflexivity|discriminate H1].
  - intros r v (rc & w & Hr & Hw & Ek). rewrite forallb_forall in H2. assert (In (r, rc) (map_to_list (sm_map (d_recs d)))) as Hin by (apply elem_of_list_In, elem_of_map_to_list; exact Hr). specialize (H2 _ Hin). cbn [snd] in H2.
    rewrite forallb_forall in H2. assert (In (v, w) (map_to_list (sm_map (r_views rc)))) as Hin' by (apply elem_of_list_In, elem_of_map_to_list; exact Hw). specialize (H2 _ Hin'). cbn [snd] in H2. rewrite Ek, Nat.eqb_refl in H2. discriminate H2.
Qed.
End used.

Definition units_settings : settings := Settings 8 0 0 8 10 3 10 1 4 0 1 1.
Section units.
Context {P : Type} (one : P) (mul : P -> P -> P) (inv : P -> P) (p1 p2 q1 q2 t : P).
Definition units_env : env P nat := {|
  e_ord := demo_orders; e_similar := fun _ _ _ => []; e_knn := demo_knn; e_two_view := fun _ _ _ _ => None; e_three_view := fun _ _ _ _ => TVfail; e_register := fun _ _ _ _ => None;
  e_robust := fun _ _ _ => false; e_bi_robust := fun _ _ _ => false; e_disagree := fun _ _ _ => None; e_too_few := fun _ _ => false; e_optimize3 := fun _ _ _ _ => None;
  e_sort := fun l => l; e_update := fun _ _ => None; e_second_worse := fun _ _ _ _ _ => false; e_rescale := fun _ _ _ => None; e_fuel := 100 |}.
Definition units_ops : list (op P nat) :=
  OpAddFeed :: ((fun k => OpAddFrame units_env 0 [k; k; k]) <$> seq 0 6) ++
  [OpAddReconstruction units_env 0 1 2 p1 p2 [(0, 0, 0); (1, 1, 1); (2, 2, 2)] [] []; OpAddReconstruction units_env 3 4 5 q1 q2 [(0, 0, 0); (1, 1, 1); (2, 2, 2)] [] []].
Definition units_run : outcome (vdata P nat) := run one mul inv units_settings units_ops.
Definition units_data : vdata P nat := match units_run with Ok d => d | _ => vdata_init end.
Definition units_recon (r : key) : recon P := default recon_empty (sm_map (d_recs units_data) !! r).
Definition units_map : gmap key key := {[0 := 0; 1 := 1; 2 := 2]}.
Definition units_merge : outcome (vdata P nat) := incorporate_reconstruction mul inv units_env units_settings units_data 1 0 t units_map.
Definition units_merged : vdata P nat := match units_merge with Ok d => d | _ => vdata_init end.
Definition units_result : recon P := default recon_empty (sm_map (d_recs units_merged) !! 0).
Definition views_of (rc : recon P) : list (key * key * P * list key) := map (fun x : key * view P => (x.1, v_frame x.2, v_pose x.2, v_lms x.2)) (map_to_list (sm_map (r_views rc))).

Lemma units_run_ok : units_run = Ok units_data.
Proof. assert (is_ok units_run = true) as H by (vm_compute; reflexivity). unfold units_data. destruct units_run; [reflexivity|discriminate H..]. Qed.
Lemma units_merge_ok : units_merge = Ok units_merged.
Proof. assert (is_ok units_merge = true) as H by (vm_compute; reflexivity). unfold units_merged. destruct units_merge; [reflexivity|discriminate H..]. Qed.
Lemma units_has r : r < 2 -> has_recon units_data r (units_recon r).
Proof. intros Hr. assert (is_some (sm_map (d_recs units_data) !! r) = true) as H by (destruct r as [|[|r]]; [vm_compute; reflexivity..|lia]). unfold has_recon, units_recon. destruct (sm_map (d_recs units_data) !! r); [reflexivity|discriminate H]. Qed.
Lemma units_has_result : has_recon units_merged 0 units_result.
Proof. assert (is_some (sm_map (d_recs units_merged) !! 0) = true) as H by (vm_compute; reflexivity). unfold has_recon, units_result. destruct (sm_map (d_recs units_merged) !! 0); [reflexivity|discriminate H]. Qed.
Lemma units_views_0 : views_of (units_recon 0) = [(0, 0, one, [0; 1; 2]); (1, 1, p1, [0; 1; 2]); (2, 2, p2, [0; 1; 2])].
Proof. vm_compute. reflexivity. Qed.
Lemma units_views_1 : views_of (units_recon 1) = [(0, 3, one, [0; 1; 2]); (1, 4, q1, [0; 1; 2]); (2, 5, q2, [0; 1; 2])].
Proof. vm_compute. reflexivity. Qed.
Lemma units_constraints_0 : map (fun x : key * constraint3 P => (c_views x.2, c_poses x.2)) (map_to_list (sm_map (r_cons (units_recon 0)))) = [((0, 1, 2), (p1, p2))].
Proof. vm_compute. reflexivity. Qed.
Lemma units_constraints_1 : map (fun x : key * constraint3 P => (c_views x.2, c_poses x.2)) (map_to_list (sm_map (r_cons (units_recon 1)))) = [((0, 1, 2), (q1, q2))].
Proof. vm_compute. reflexivity. Qed.
Lemma units_views_result : exists a b c d e f, views_of units_result = [a; b; c; d; e; f] /\ (0, 0, one) ∈ fst <$> [a; b; c; d; e; f] /\ (1, 1, p1) ∈ fst <$> [a; b; c; d; e; f] /\
  (3, 3, mul one (inv t)) ∈ fst <$> [a; b; c; d; e; f] /\ (5, 5, mul q2 (inv t)) ∈ fst <$> [a; b; c; d; e; f].
Proof. eexists _, _, _, _, _, _. split; [vm_compute; reflexivity|]. cbn [fmap list_fmap fst]. rewrite !elem_of_cons. tauto. Qed.
Lemma units_frames : map (fun x : key * frame nat => (x.1, f_feats x.2)) (map_to_list (sm_map (d_frames units_data))) = (fun k => (k, [k; k; k])) <$> [0; 1; 3; 5; 2; 4].
Proof. vm_compute. reflexivity. Qed.
Lemma units_frame k : k < 6 -> exists fr, has_frame units_data k fr.
Proof.
  intros Hk. assert ((k, [k; k; k]) ∈ map (fun x : key * frame nat => (x.1, f_feats x.2)) (map_to_list (sm_map (d_frames units_data)))) as H.
  { rewrite units_frames. apply elem_of_list_fmap. exists k. split; [reflexivity|]. rewrite !elem_of_cons. lia. }
  apply elem_of_list_fmap in H as ([k' fr] & E & H). assert (k' = k) as -> by (apply (f_equal fst) in E; symmetry; exact E). exists fr. apply elem_of_map_to_list, H.
Qed.
Lemma units_all k fr : has_frame units_data k fr -> k < 6 /\ f_feats fr = [k; k; k].
Proof.
  intros H. assert ((k, f_feats fr) ∈ map (fun x : key * frame nat => (x.1, f_feats x.2)) (map_to_list (sm_map (d_frames units_data)))) as Hin.
  { apply (elem_of_list_fmap_1 (fun x : key * frame nat => (x.1, f_feats x.2)) _ (k, fr)). apply elem_of_map_to_list. exact H. }
  rewrite units_frames in Hin. apply elem_of_list_fmap in Hin as (j & E & Hj). pose proof (f_equal fst E) as Ek. pose proof (f_equal snd E) as Ef. cbn [fst snd] in Ek, Ef. subst j. rewrite !elem_of_cons, elem_of_nil in Hj. split; [lia|exact Ef].
Qed.
Lemma views_of_has rc v w : has_view rc v w -> (v, v_frame w, v_pose w, v_lms w) ∈ views_of rc.
Proof. intros H. apply (elem_of_list_fmap_1 (fun x : key * view P => (x.1, v_frame x.2, v_pose x.2, v_lms x.2)) _ (v, w)). apply elem_of_map_to_list, H. Qed.
Lemma views_of_in rc v k p : (v, k, p) ∈ fst <$> views_of rc -> exists w, has_view rc v w /\ v_frame w = k /\ v_pose w = p.
Proof. intros H. apply elem_of_list_fmap in H as ([[[v' k'] p'] ls] & E & H). cbn [fst] in E. injection E as <- <- <-. apply elem_of_list_fmap in H as ([v' w] & E & H). injection E as -> -> -> ->. exists w. split; [apply elem_of_map_to_list, H|auto]. Qed.
Lemma units_env_ok : env_ok units_env.
Proof.
  destruct (demo_env_ok demo_keep) as [H1 _ H3 _ _]. split; [exact H1| |exact H3| |].
  - intros d k n. cbn. split; [constructor|]. intros x Hx. apply elem_of_nil in Hx as [].
  - intros d a b ms p ixs H. discriminate H.
  - intros l. reflexivity.
Qed.
Lemma units_used : used_well one mul inv units_settings vdata_init units_ops.
Proof.
  apply used_by_prefix. intros n x d Hx E. assert (one_other [(0, 0); (1, 1); (2, 2)]) as Ho by (intros c f f'; rewrite !elem_of_cons, !elem_of_nil; intros [[= -> ->]|[[= -> ->]|[[= -> ->]|[]]]] [[= ->]|[[= ->]|[[= ->]|[]]]]; reflexivity).
  assert (forall m ks, m = n -> forallb (fun k => match foldM (step one mul inv units_settings) (take m units_ops) vdata_init with Ok d => free_test d k | _ => false end) ks = true -> forall k, k ∈ ks -> free_frame d k) as Hfree.
  { intros m ks -> Ht k Hk. rewrite forallb_forall in Ht. specialize (Ht k (proj1 (elem_of_list_In _ _) Hk)). rewrite E in Ht. apply free_test_spec, Ht. }
  assert (forall (A : Type) (x y : A), Some x = Some y -> y = x) as Hinj by congruence.
  do 7 (destruct n as [|n]; [cbn [units_ops fmap list_fmap seq app lookup list_lookup] in Hx; rewrite (Hinj _ _ _ Hx); split; [intros e' He; cbn [op_env] in He; first [discriminate He|assert (e' = units_env) as -> by congruence; exact units_env_ok]|]; cbn [op_args]; exact I|]). destruct n as [|n]; [cbn [units_ops fmap list_fmap seq app lookup list_lookup] in Hx; rewrite (Hinj _ _ _ Hx); split; [intros e' He; cbn [op_env] in He; first [discriminate He|assert (e' = units_env) as -> by congruence; exact units_env_ok]|]; cbn [op_args]|destruct n as [|n]; [cbn [units_ops fmap list_fmap seq app lookup list_lookup] in Hx; rewrite (Hinj _ _ _ Hx); split; [intros e' He; cbn [op_env] in He; first [discriminate He|assert (e' = units_env) as -> by congruence; exact units_env_ok]|]; cbn [op_args]|]].
  - pose proof (Hfree 7 [0; 1; 2] eq_refl ltac:(vm_compute; reflexivity)) as H. do 3 (split; [lia|]). do 3 (split; [apply H; rewrite !elem_of_cons; lia|]). exact (conj Ho Ho).
  - pose proof (Hfree 8 [3; 4; 5] eq_refl ltac:(vm_compute; reflexivity)) as H. do 3 (split; [lia|]). do 3 (split; [apply H; rewrite !elem_of_cons; lia|]). exact (conj Ho Ho).
  - discriminate Hx.
Qed.
Lemma units_ok : data_ok units_data.
Proof. eapply (history_ok P nat one mul inv units_settings); [exact units_used|exact units_run_ok]. Qed.
Lemma units_live : targets_live units_map (units_recon 0).
Proof.
  assert (forall l, l < 3 -> exists m, has_landmark (units_recon 0) l m) as H.
  { intros l Hl. assert (is_some (sm_map (r_lms (units_recon 0)) !! l) = true) as H by (destruct l as [|[|[|l]]]; [vm_compute; reflexivity..|lia]). unfold has_landmark. destruct (sm_map (r_lms (units_recon 0)) !! l) as [m|]; [exists m; reflexivity|discriminate H]. }
  intros a l Hl. apply H. unfold units_map in Hl. rewrite !lookup_insert_Some in Hl. destruct Hl as [[_ <-]|[_ [[_ <-]|[_ Hl]]]]; [lia..|]. apply lookup_singleton_Some in Hl as [_ <-]. lia.
Qed.
Lemma units_inj : injective units_map.
Proof.
  assert (forall a l, units_map !! a = Some l -> a = l) as H by (intros a l Hl; unfold units_map in Hl; rewrite !lookup_insert_Some in Hl; destruct Hl as [[-> <-]|[_ [[-> <-]|[_ Hl]]]]; [reflexivity..|]; apply lookup_singleton_Some in Hl as [-> <-]; reflexivity).
  intros a b l Ha Hb. rewrite (H a l Ha), (H b l Hb). reflexivity.
Qed.
End units.

Definition units_point (k : key) (f : nat) : rvec3 := scene_place 1.
Definition reachable_by (s : settings) (d : vdata riso nat) : Prop := exists ops, used_well iso_id iso_mul iso_inv s vdata_init ops /\ run iso_id iso_mul iso_inv s ops = Ok d.
Section instance.
Context (u : R) (Hu : (0 < u)%R).
Notation far k := (seen_from scene_pose 3 u k).
Notation units_t := (world_of scene_pose 3 0 3 1 u).
Notation D := (units_data iso_id iso_mul iso_inv (scene_pose 1) (scene_pose 2) (far 4) (far 5)).
Notation D' := (units_merged iso_id iso_mul iso_inv (scene_pose 1) (scene_pose 2) (far 4) (far 5) units_t).
Notation map_of := (units_recon iso_id iso_mul iso_inv (scene_pose 1) (scene_pose 2) (far 4) (far 5)).
Notation result := (units_result iso_id iso_mul iso_inv (scene_pose 1) (scene_pose 2) (far 4) (far 5) units_t).

Lemma row_rigid k : rigid (scene_pose k). Proof. apply scene_rigid. Qed.
Lemma row_seen_from k0 (a : R) k : seen_from scene_pose k0 a k = Iso (N := RNum) mid (V3 (a * (INR k0 - INR k)) 0 0 : rvec3)%R.
Proof. unfold seen_from. rewrite row_relative. unfold pose_scale. cbn [rot trans]. f_equal. unfold vscale. cbn [vx vy vz]. f_equal; rnum; ring. Qed.
Lemma units_poses_0 v w : has_view (map_of 0) v w -> v_pose w = seen_from scene_pose 0 1 (v_frame w).
Proof.
  intros H. apply views_of_has in H. rewrite units_views_0 in H. assert (forall k, seen_from scene_pose 0 1 k = scene_pose k) as Hs by (intros k; rewrite row_seen_from; unfold scene_pose; cbn [INR]; rewrite Rminus_0_l, Rmult_1_l; reflexivity). rewrite Hs. rewrite !elem_of_cons, elem_of_nil in H.
  destruct H as [H|[H|[H|[]]]]; injection H as _ -> -> _; [symmetry; apply scene_pose_0|reflexivity..].
Qed.
Lemma units_poses_1 v w : has_view (map_of 1) v w -> v_pose w = far (v_frame w).
Proof.
  intros H. apply views_of_has in H. rewrite units_views_1 in H. rewrite !elem_of_cons, elem_of_nil in H.
  destruct H as [H|[H|[H|[]]]]; injection H as _ -> -> _; [|reflexivity..]. rewrite row_seen_from. replace (u * (INR 3 - INR 3))%R with 0%R by ring. rewrite <- scene_pose_0. unfold scene_pose. cbn [INR]. rewrite Ropp_0. reflexivity.
Qed.
Lemma units_mapped r k0 (a : R) p q : r < 2 -> k0 < 6 -> (0 < a)%R -> (forall v w, has_view (map_of r) v w -> v_pose w = seen_from scene_pose k0 a (v_frame w)) ->
  map (fun x : key * constraint3 riso => (c_views x.2, c_poses x.2)) (map_to_list (sm_map (r_cons (map_of r)))) = [((0, 1, 2), (p, q))] ->
  (forall w, has_view (map_of r) 0 w -> v_pose w = iso_id) -> (forall w, has_view (map_of r) 1 w -> v_pose w = p) -> (forall w, has_view (map_of r) 2 w -> v_pose w = q) ->
  mapped scene_pose units_point D (map_of r).
Proof.
  intros Hr Hk Ha Hp Hc H0 H1 H2. split.
  - exists k0, a. split; [apply units_frame, Hk|]. split; [exact Ha|exact Hp].
  - intros x y a0 b0 _ (w & _ & ->) (w' & _ & ->). reflexivity.
  - intros k c Hkc. assert ((c_views c, c_poses c) ∈ map (fun x : key * constraint3 riso => (c_views x.2, c_poses x.2)) (map_to_list (sm_map (r_cons (map_of r))))) as H.
    { apply (elem_of_list_fmap_1 (fun x : key * constraint3 riso => (c_views x.2, c_poses x.2)) _ (k, c)). apply elem_of_map_to_list. exact Hkc. }
    rewrite Hc in H. apply elem_of_list_singleton in H. pose proof (f_equal fst H) as Ev. pose proof (f_equal snd H) as Ep. cbn [fst snd] in Ev, Ep. unfold holds. rewrite Ev, Ep. intros wa wb wz Ga Gb Gz. rewrite (H0 wa Ga), (H1 wb Gb), (H2 wz Gz).
    assert (forall p : riso, relative p iso_id = p) as E by (intros; unfold relative; lin). rewrite !E. reflexivity.
Qed.
Lemma units_mapped_0 : mapped scene_pose units_point D (map_of 0).
Proof.
  apply (units_mapped 0 0 1 (scene_pose 1) (scene_pose 2)); [lia|lia|lra|exact units_poses_0|exact (units_constraints_0 iso_id iso_mul iso_inv (scene_pose 1) (scene_pose 2) (far 4) (far 5))|..];
  intros w H; apply views_of_has in H; rewrite units_views_0 in H; rewrite !elem_of_cons, elem_of_nil in H; destruct H as [H|[H|[H|[]]]]; pose proof (f_equal (fun x => x.1.1.1) H) as E; pose proof (f_equal (fun x => x.1.2) H) as Ep; cbn [fst snd] in E, Ep; first [discriminate E|exact Ep].
Qed.
Lemma units_mapped_1 : mapped scene_pose units_point D (map_of 1).
Proof.
  apply (units_mapped 1 3 u (far 4) (far 5)); [lia|lia|exact Hu|exact units_poses_1|exact (units_constraints_1 iso_id iso_mul iso_inv (scene_pose 1) (scene_pose 2) (far 4) (far 5))|..];
  intros w H; apply views_of_has in H; rewrite units_views_1 in H; rewrite !elem_of_cons, elem_of_nil in H; destruct H as [H|[H|[H|[]]]]; pose proof (f_equal (fun x => x.1.1.1) H) as E; pose proof (f_equal (fun x => x.1.2) H) as Ep; cbn [fst snd] in E, Ep; first [discriminate E|exact Ep].
Qed.
Lemma units_wrong : u <> 1%R -> ~ mapped scene_pose units_point D' result.
Proof.
  intros Hne [(k0 & a & _ & Ha & Hp) _ _]. destruct (units_views_result iso_id iso_mul iso_inv (scene_pose 1) (scene_pose 2) (far 4) (far 5) units_t) as (b1 & b & c & d & e & f & E & H0 & H1 & _ & H5). rewrite <- E in H0, H1, H5.
  apply views_of_in in H0 as (w0 & V0 & F0 & P0), H1 as (w1 & V1 & F1 & P1), H5 as (w5 & V5 & F5 & P5). rewrite (moved_pose scene_pose row_rigid 3 0 3 1 u 5) in P5.
  apply Hp in V0, V1, V5. rewrite P0, F0, row_seen_from in V0. rewrite P1, F1, row_seen_from in V1. rewrite P5, F5, !row_seen_from in V5.
  apply (f_equal (fun p : riso => vx (trans p))) in V0, V1, V5. unfold scene_pose, iso_id, iso_mul, mvec, mid, vzero, vadd in V0, V1, V5. cbn in V0, V1, V5. assert (a * INR k0 = 0)%R as A0 by lra. assert (a = 1)%R as -> by lra. apply Hne. lra.
Qed.
Lemma units_joins l l' x y p q : units_map !! l = Some l' -> assigned (map_of 1) x.1 x.2 l -> assigned (map_of 0) y.1 y.2 l' -> shows units_point (map_of 1) x p -> shows units_point (map_of 0) y q -> p = q.
Proof. intros _ _ _ (w & _ & ->) (w' & _ & ->). reflexivity. Qed.
Lemma units_case : exists d d' dest', reachable_by units_settings d /\ data_ok d /\ has_recon d 1 (map_of 1) /\ has_recon d 0 (map_of 0) /\ mapped scene_pose units_point d (map_of 1) /\ mapped scene_pose units_point d (map_of 0) /\
  (forall v w, has_view (map_of 1) v w -> v_pose w = seen_from scene_pose 3 u (v_frame w)) /\ (forall v w, has_view (map_of 0) v w -> v_pose w = seen_from scene_pose 0 1 (v_frame w)) /\
  injective units_map /\ targets_live units_map (map_of 0) /\
  (forall l l' x y p q, units_map !! l = Some l' -> assigned (map_of 1) x.1 x.2 l -> assigned (map_of 0) y.1 y.2 l' -> shows units_point (map_of 1) x p -> shows units_point (map_of 0) y q -> p = q) /\
  incorporate_reconstruction iso_mul iso_inv units_env units_settings d 1 0 units_t units_map = Ok d' /\ has_recon d' 0 dest' /\ (u <> 1%R -> ~ mapped scene_pose units_point d' dest').
Proof.
  exists D, D', result. split; [eexists; split; [exact (units_used iso_id iso_mul iso_inv (scene_pose 1) (scene_pose 2) (far 4) (far 5))|exact (units_run_ok iso_id iso_mul iso_inv (scene_pose 1) (scene_pose 2) (far 4) (far 5))]|].
  split; [apply units_ok|]. split; [apply units_has; lia|]. split; [apply units_has; lia|]. split; [exact units_mapped_1|]. split; [exact units_mapped_0|]. split; [exact units_poses_1|]. split; [exact units_poses_0|]. split; [exact units_inj|]. split; [apply units_live|]. split; [exact units_joins|].
  split; [exact (units_merge_ok iso_id iso_mul iso_inv (scene_pose 1) (scene_pose 2) (far 4) (far 5) units_t)|]. split; [apply units_has_result|]. exact units_wrong.
Qed.
End instance.
(** All six cameras see one point, and the numerical code records the constraints. *)
Definition units_bearing (k : nat) : rvec3 := scene_bearing (10 * 1 + k).
Definition units_tools : tools RNum nat :=
  Tools (N := RNum) units_bearing two_ray (fun _ => None) (fun _ => None) asin (fun x => if Req_EM_T x 0 then false else true) (fun _ n => seq 0 n).
Lemma units_tools_ok : tools_ok units_tools.
Proof. split; [discriminate|discriminate|reflexivity]. Qed.
Lemma units_geometric_ok nearest eps : env_ok (geometric (real_trig nearest eps) scene_gs units_tools demo_orders (fun _ _ _ => []) scene_knn (fun l => l) 100).
Proof.
  apply geometric_ok; [apply units_tools_ok|apply (eo_orders _ (demo_env_ok demo_keep))| |exact scene_knn_ok|reflexivity].
  intros d k n. split; [constructor|]. intros x Hx. apply elem_of_nil in Hx as [].
Qed.
Lemma units_true (D : vdata riso nat) : (forall k fr, has_frame D k fr -> k < 6 /\ f_feats fr = [k; k; k]) -> true_scene units_bearing scene_pose units_point D.
Proof.
  intros HD. split.
  - intros k fr _. apply scene_rigid.
  - intros k fr f x Hf Hx. destruct (HD k fr Hf) as [Hk E]. rewrite E in Hx. assert (x = k) as ->. { apply elem_of_list_lookup_2 in Hx. rewrite !elem_of_cons, elem_of_nil in Hx. tauto. } apply scene_sees. lia.
  - intros k fr f x j gr Hf _ Hj. destruct (HD k fr Hf) as [Hk _]. destruct (HD j gr Hj) as [Hj' _]. unfold units_point. split.
    + rewrite row_centre. unfold scene_place. intros [= _ H]. lra.
    + rewrite !row_ray. assert (dot (scene_ray 1 k) (scene_ray 1 j) = (INR 1 - INR k) * (INR 1 - INR j) + 100)%R as -> by (unfold scene_ray; lin).
      assert (forall k : nat, k < 6 -> (0 <= INR k <= 6)%R) as HK by (intros k' Hk'; split; [apply pos_INR|]; replace 6%R with (INR 6) by (cbn; ring); apply le_INR; lia).
      pose proof (HK k Hk) as A. pose proof (HK j Hj') as B. change (INR 1) with 1%R. nra.
  - intros k fr f x j gr g y _ _ _ _ Hne _. unfold units_point. rewrite !row_ray.
    assert (cross (scene_ray 1 k) (scene_ray 1 j) = V3 0 (10 * (INR k - INR j)) 0)%R as -> by (unfold scene_ray; lin). intros [= H]. pose proof (not_INR _ _ Hne). lra.
Qed.
Lemma units_refuted : exists (cam : key -> riso) (pt : key -> nat -> rvec3) (e : env riso nat) (s : settings) (d d' : vdata riso nat) (src dest dest' : recon riso) (lmap : gmap key key),
  env_ok e /\ reachable_by s d /\ has_recon d 1 src /\ has_recon d 0 dest /\ mapped cam pt d src /\ mapped cam pt d dest /\
  (forall v w, has_view src v w -> v_pose w = seen_from cam 3 2 (v_frame w)) /\ (forall v w, has_view dest v w -> v_pose w = seen_from cam 0 1 (v_frame w)) /\
  injective lmap /\ targets_live lmap dest /\
  (forall l l' x y p q, lmap !! l = Some l' -> assigned src x.1 x.2 l -> assigned dest y.1 y.2 l' -> shows pt src x p -> shows pt dest y q -> p = q) /\
  incorporate_reconstruction iso_mul iso_inv e s d 1 0 (world_of cam 3 0 3 1 2) lmap = Ok d' /\ has_recon d' 0 dest' /\ ~ mapped cam pt d' dest'.
Proof.
  destruct (units_case 2 ltac:(lra)) as (d & d' & dest' & H1 & _ & H3 & H4 & H5 & H6 & H7 & H8 & H9 & H10 & H11 & H12 & H13 & H14). eexists scene_pose, units_point, units_env, units_settings, d, d', _, _, dest', units_map.
  split; [exact units_env_ok|]. split; [exact H1|]. split; [exact H3|]. split; [exact H4|]. split; [exact H5|]. split; [exact H6|]. split; [exact H7|]. split; [exact H8|]. split; [exact H9|]. split; [exact H10|]. split; [exact H11|]. split; [exact H12|]. split; [exact H13|]. apply H14. lra.
Qed.
Lemma units_one : exists (cam : key -> riso) (pt : key -> nat -> rvec3) (e : env riso nat) (s : settings) (d d' : vdata riso nat) (src dest : recon riso) (lmap : gmap key key),
  (forall k, rigid (cam k)) /\ env_ok e /\ data_ok d /\ has_recon d 1 src /\ has_recon d 0 dest /\ mapped cam pt d src /\ mapped cam pt d dest /\
  (forall v w, has_view src v w -> v_pose w = seen_from cam 3 1 (v_frame w)) /\ (forall v w, has_view dest v w -> v_pose w = seen_from cam 0 1 (v_frame w)) /\
  injective lmap /\ targets_live lmap dest /\
  (forall l l' x y p q, lmap !! l = Some l' -> assigned src x.1 x.2 l -> assigned dest y.1 y.2 l' -> shows pt src x p -> shows pt dest y q -> p = q) /\
  incorporate_reconstruction iso_mul iso_inv e s d 1 0 (world_of cam 3 0 3 1 1) lmap = Ok d'.
Proof.
  destruct (units_case 1 Rlt_0_1) as (d & d' & dest' & _ & H2 & H3 & H4 & H5 & H6 & H7 & H8 & H9 & H10 & H11 & H12 & _). eexists scene_pose, units_point, units_env, units_settings, d, d', _, _, units_map.
  split; [exact row_rigid|]. split; [exact units_env_ok|]. split; [exact H2|]. split; [exact H3|]. split; [exact H4|]. split; [exact H5|]. split; [exact H6|]. split; [exact H7|]. split; [exact H8|]. split; [exact H9|]. split; [exact H10|]. split; [exact H11|]. exact H12.
Qed.
Lemma units_geometric : forall nearest eps, exists (bo : nat -> rvec3) (cam : key -> riso) (pt : key -> nat -> rvec3) (st : gsettings RNum) (G : tools RNum nat) (s : settings) (d : vdata riso nat) (src dest : recon riso) (lmap : gmap key key),
  let e := geometric (real_trig nearest eps) st G demo_orders (fun _ _ _ => []) scene_knn (fun l => l) 100 in
  (forall k, rigid (cam k)) /\ true_scene bo cam pt d /\ tools_ok G /\ t_bearing G = bo /\ env_ok e /\ data_ok d /\ frames_of d d /\ has_recon d 1 src /\ has_recon d 0 dest /\ mapped cam pt d src /\ mapped cam pt d dest /\
  injective lmap /\ targets_live lmap dest /\ (exists fr, has_frame d 0 fr) /\
  (forall v w, has_view src v w -> v_pose w = seen_from cam 3 1 (v_frame w)) /\ (forall v w, has_view dest v w -> v_pose w = seen_from cam 0 1 (v_frame w)) /\
  (forall l l' x y p q, lmap !! l = Some l' -> assigned src x.1 x.2 l -> assigned dest y.1 y.2 l' -> shows pt src x p -> shows pt dest y q -> p = q) /\
  exists d', incorporate_reconstruction iso_mul iso_inv e s d 1 0 (world_of cam 3 0 3 1 1) lmap = Ok d'.
Proof.
  intros nearest eps. pose proof (units_has iso_id iso_mul iso_inv (scene_pose 1) (scene_pose 2) (seen_from scene_pose 3 1 4) (seen_from scene_pose 3 1 5)) as Hh. pose proof (units_ok iso_id iso_mul iso_inv (scene_pose 1) (scene_pose 2) (seen_from scene_pose 3 1 4) (seen_from scene_pose 3 1 5)) as Hok.
  pose proof (units_geometric_ok nearest eps) as He. pose proof (units_live iso_id iso_mul iso_inv (scene_pose 1) (scene_pose 2) (seen_from scene_pose 3 1 4) (seen_from scene_pose 3 1 5)) as Hl.
  eexists units_bearing, scene_pose, units_point, scene_gs, units_tools, units_settings, _, _, _, units_map. cbv zeta.
  split; [exact row_rigid|]. split; [apply units_true; exact (units_all iso_id iso_mul iso_inv (scene_pose 1) (scene_pose 2) (seen_from scene_pose 3 1 4) (seen_from scene_pose 3 1 5))|]. split; [exact units_tools_ok|]. split; [reflexivity|]. split; [exact He|]. split; [exact Hok|]. split; [intros k fr Hf; exists fr; auto|].
  split; [exact (Hh 1 ltac:(lia))|]. split; [exact (Hh 0 ltac:(lia))|]. split; [exact (units_mapped_1 1 Rlt_0_1)|]. split; [exact (units_mapped_0 1)|]. split; [exact units_inj|]. split; [exact Hl|].
  split; [exact (units_frame iso_id iso_mul iso_inv (scene_pose 1) (scene_pose 2) (seen_from scene_pose 3 1 4) (seen_from scene_pose 3 1 5) 0 ltac:(lia))|]. split; [exact (units_poses_1 1)|]. split; [exact (units_poses_0 1)|]. split; [exact (units_joins 1)|].
  destruct (incorporate_thm iso_mul iso_inv _ units_settings _ 1 0 _ _ (world_of scene_pose 3 0 3 1 1) units_map He Hok ltac:(lia) (Hh 1 ltac:(lia)) (Hh 0 ltac:(lia)) units_inj Hl) as (d' & dest' & M & E & _). exists d'. exact E.
Qed.
