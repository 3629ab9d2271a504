(** Noise-free histories (C67, C68): geometry and single steps. *)
From stdpp Require Import gmap list.
From Coq Require Import Reals Lra Lia.
From Verif Require Import Outcome OutcomeFacts Num Lin LinSpec LinFacts Core CoreSpec CoreFacts Geom GeomSpec GeomFacts OptimizeSpec OptimizeFacts MatchingSpec Sfm SfmSpec SfmUse SfmEffects SfmData SfmRec SfmThms SfmTracks SfmPose SfmPoseSpec SfmPoseFacts.
From Verif Require Import SfmGeom SfmGeomSpec SfmGeomFacts SfmGeomRigid SfmGeomReg SfmGeomThms SfmGeomExact SfmGeomStart SfmGeomStartExact SfmTruthSpec SfmDemand.
Open Scope R_scope.

(** ** Poses in a gauge *)
Section gauge.
Context {F : Type} (bo : F -> rvec3) (cam : key -> riso) (pt : key -> nat -> rvec3) (D : vdata riso F).
Context (HD : true_scene bo cam pt D).
Notation seen_from := (seen_from cam).
Notation place_from := (place_from cam).
Notation relative := SfmPoseSpec.relative.
Notation centre := GeomSpec.centre.
Notation direction := GeomSpec.direction.

Lemma vzero_or (v : rvec3) : v = vzero \/ v <> vzero.
Proof. destruct (Req_dec (norm2 v) 0) as [H|H]; [left; apply norm2_zero, H|]. right. intros ->. apply H. lin. Qed.
Lemma relative_point (a b : riso) (p : rvec3) : rigid b -> iso_point (relative a b) (iso_point b p) = iso_point a p.
Proof. intros Hb. unfold SfmPoseSpec.relative. rewrite iso_point_mul, iso_point_inv_l by exact Hb. reflexivity. Qed.
Lemma gauge_sees k0 (u : R) k p b : rigid (cam k0) -> 0 < u -> sees (cam k) p b -> sees (seen_from k0 u k) (place_from k0 u p) b.
Proof.
  intros H0 Hu Hs. apply scale_sees; [exact Hu|]. destruct Hs as [H1 H2]. unfold sees. rewrite relative_point by exact H0. split; assumption.
Qed.
Lemma gauge_rigid k0 (u : R) k : rigid (cam k0) -> rigid (cam k) -> rigid (seen_from k0 u k).
Proof. intros H0 Hk. exact (relative_rigid (cam k) (cam k0) Hk H0). Qed.
Lemma gauge_direction k0 (u : R) k b : rigid (cam k0) -> direction (seen_from k0 u k, b) = mvec (rot (cam k0)) (direction (cam k, b)).
Proof.
  intros H0. unfold GeomSpec.direction, SfmTruthSpec.seen_from, pose_scale, SfmPoseSpec.relative. cbn [fst snd rot iso_mul iso_inv]. rewrite <- mvec_mmul. f_equal. 
  rewrite mtrans_mmul, mtrans_mtrans. reflexivity.
Qed.
Lemma place_centre k0 (u : R) p : rigid (cam k0) -> place_from k0 u p = vscale u (mvec (rot (cam k0)) (vsub p (centre (cam k0)))).
Proof. intros H0. unfold SfmTruthSpec.place_from. rewrite <- (direction_point (cam k0) p H0), rotation_forth by exact H0. reflexivity. Qed.

(** Feature [f] of frame [k], and a noise-free observation of the point [p]. *)
Definition taken (k : key) (f : nat) (x : F) : Prop := exists fr, has_frame D k fr /\ f_feats fr !! f = Some x.
Definition true_ray k0 (u : R) (p : rvec3) (y : riso * rvec3) : Prop := exists k f x, taken k f x /\ pt k f = p /\ y = (seen_from k0 u k, bo x).
Definition base (k0 : key) (u : R) : Prop := (exists fr, has_frame D k0 fr) /\ 0 < u.

Lemma taken_rigid k f x : taken k f x -> rigid (cam k).
Proof. intros (fr & Hf & _). exact (ts_rigid _ _ _ _ HD k fr Hf). Qed.
Lemma base_rigid k0 u : base k0 u -> rigid (cam k0).
Proof. intros [[fr Hf] _]. exact (ts_rigid _ _ _ _ HD k0 fr Hf). Qed.
Lemma ray_of k0 u k f x : base k0 u -> taken k f x -> exists s : R, 0 < s /\ direction (seen_from k0 u k, bo x) = vscale s (mvec (rot (cam k0)) (vsub (pt k f) (centre (cam k)))).
Proof.
  intros Hb Hk. pose proof (taken_rigid _ _ _ Hk) as Hr. assert (sees (cam k) (pt k f) (bo x)) as Hs. { destruct Hk as (fr & Hf & Hx). exact (ts_seen _ _ _ _ HD k fr f x Hf Hx). }
  destruct (sees_direction (cam k) (pt k f) (bo x) Hr Hs) as (Hn & _ & Hsub & _). exists (/ norm (iso_point (cam k) (pt k f))). split; [apply Rinv_0_lt_compat, Hn|].
  rewrite (gauge_direction k0 u k (bo x) (base_rigid _ _ Hb)). rewrite Hsub, mvec_scale, vscale_scale. symmetry. transitivity (vscale 1 (mvec (rot (cam k0)) (direction (cam k, bo x)))); [|lin]. f_equal. rnum. apply Rinv_l. lra.
Qed.
Lemma ray_direction k0 u p y : base k0 u -> true_ray k0 u p y -> exists k f x (s : R), taken k f x /\ pt k f = p /\ y = (seen_from k0 u k, bo x) /\ 0 < s /\
  direction y = vscale s (mvec (rot (cam k0)) (vsub p (centre (cam k)))).
Proof.
  intros Hb (k & f & x & Hk & Hp & ->). destruct (ray_of k0 u k f x Hb Hk) as (s & Hs & Hd). rewrite Hp in Hd. exists k, f, x, s. auto.
Qed.
Lemma side k f x j gr : taken k f x -> has_frame D j gr -> pt k f <> centre (cam j) /\ 0 <= dot (vsub (pt k f) (centre (cam k))) (vsub (pt k f) (centre (cam j))).
Proof. intros (fr & Hf & Hx) Hj. exact (ts_side _ _ _ _ HD k fr f x j gr Hf Hx Hj). Qed.
Lemma scaled_dot (A : rmat3) (s t : R) (a b : rvec3) : rotation A -> 0 < s -> 0 < t -> 0 <= dot a b -> 0 <= dot (vscale s (mvec A a)) (vscale t (mvec A b)).
Proof.
  intros HA Hs Ht Hd. assert (dot (vscale s (mvec A a)) (vscale t (mvec A b)) = s * (t * dot a b)) as ->.
  { rewrite <- (rotation_dot A a b HA). generalize (mvec A a) (mvec A b). intros c e. lin. }
  apply Rmult_le_pos; [lra|]. apply Rmult_le_pos; [lra|exact Hd].
Qed.
Lemma gauge_exact k0 u p xs : base k0 u -> xs <> [] -> (forall y, y ∈ xs -> true_ray k0 u p y) -> exact_rays (place_from k0 u p) xs.
Proof.
  intros Hb Hne H. pose proof (base_rigid _ _ Hb) as H0. destruct Hb as [[fr0 Hf0] Hu] eqn:Eb. clear Eb. assert (base k0 u) as Hb' by (split; eauto). split.
  - destruct xs as [|y xs]; [now destruct Hne|]. destruct (H y) as (k & f & x & Hk & Hp & _); [left|]. destruct (side k f x k0 fr0 Hk Hf0) as [Hc _]. rewrite Hp in Hc. intros E. apply Hc. rewrite (place_centre k0 u p H0) in E.
    exfalso. apply (vscale_nonzero u (mvec (rot (cam k0)) (vsub p (centre (cam k0)))) Hu); [|exact E]. intros Ez. apply Hc, vsub_zero, (rotation_zero (rot (cam k0))); [exact H0|exact Ez].
  - intros y Hy. destruct (ray_direction k0 u p y Hb' (H y Hy)) as (k & f & x & s & Hk & Hp & -> & Hs & Hd). cbn [fst snd]. split; [apply gauge_rigid; [exact H0|exact (taken_rigid _ _ _ Hk)]|]. split.
    + apply gauge_sees; [exact H0|exact Hu|]. destruct Hk as (fr & Hf & Hx). rewrite <- Hp. exact (ts_seen _ _ _ _ HD k fr f x Hf Hx).
    + rewrite Hd, (place_centre k0 u p H0). destruct (side k f x k0 fr0 Hk Hf0) as [_ Hc]. rewrite Hp in Hc. apply scaled_dot; [exact H0|exact Hs|exact Hu|exact Hc].
  - intros y z Hy Hz. destruct (ray_direction k0 u p y Hb' (H y Hy)) as (k & f & x & s & Hk & Hp & -> & Hs & ->). destruct (ray_direction k0 u p z Hb' (H z Hz)) as (j & g & x' & t & Hj & Hq & -> & Ht & ->).
    destruct Hj as (gr & Hgr & _). destruct (side k f x j gr Hk Hgr) as [_ Hc]. rewrite Hp in Hc. apply scaled_dot; [exact H0|exact Hs|exact Ht|exact Hc].
Qed.
Lemma gauge_resolved k0 u k f x j g y : base k0 u -> taken k f x -> taken j g y -> k <> j -> pt k f = pt j g -> cross (direction (seen_from k0 u k, bo x)) (direction (seen_from k0 u j, bo y)) <> vzero.
Proof.
  intros Hb Hk Hj Hne Hp E. pose proof (base_rigid _ _ Hb) as H0.
  destruct (ray_of k0 u k f x Hb Hk) as (s & Hs & Hd). destruct (ray_of k0 u j g y Hb Hj) as (t & Ht & Hd'). rewrite Hd, Hd' in E.
  destruct Hk as (fr & Hf & Hx). destruct Hj as (gr & Hg & Hy). pose proof (ts_parallax _ _ _ _ HD k fr f x j gr g y Hf Hx Hg Hy Hne Hp) as Hc. rewrite <- Hp in E.
  apply Hc, (rotation_zero (rot (cam k0))); [exact H0|]. rewrite rotation_cross by exact H0. revert E. generalize (mvec (rot (cam k0)) (vsub (pt k f) (centre (cam k)))) (mvec (rot (cam k0)) (vsub (pt k f) (centre (cam j)))). intros a b E.
  assert (cross (vscale s a) (vscale t b) = vscale s (vscale t (cross a b))) as Ec by lin. rewrite Ec in E.
  destruct (vzero_or (cross a b)) as [Hn|Hn]; [exact Hn|]. exfalso. apply (vscale_nonzero s (vscale t (cross a b)) Hs); [|exact E]. apply vscale_nonzero; [exact Ht|exact Hn].
Qed.

(** ** Reconstructions *)
Implicit Types (rc : recon riso) (d : vdata riso F).
Notation shows := (shows pt).
Definition posed rc k0 (u : R) : Prop := forall v w, has_view rc v w -> v_pose w = seen_from k0 u (v_frame w).
Definition tracked rc : Prop := forall x y p q, same_track rc x y -> shows rc x p -> shows rc y q -> p = q.
Definition framed d rc : Prop := forall v w, has_view rc v w -> exists fr, has_frame d (v_frame w) fr.

Lemma mapped_iff rc : mapped cam pt D rc <-> (exists k0 u, base k0 u /\ posed rc k0 u) /\ tracked rc /\ forall k c, has_constraint rc k c -> holds rc c.
Proof.
  split.
  - intros [(k0 & u & H0 & Hu & Hp) Ht Hc]. split; [exists k0, u; split; [split; assumption|exact Hp]|split; assumption].
  - intros ((k0 & u & [H0 Hu] & Hp) & Ht & Hc). split; [exists k0, u; auto|exact Ht|exact Hc].
Qed.
Lemma posed_rigid d rc k0 u : base k0 u -> frames_of D d -> recon_ok d rc -> posed rc k0 u -> rigid_views rc.
Proof.
  intros Hb Hd Hok Hp v w Hw. rewrite (Hp v w Hw). destruct (ok_entries _ _ Hok v w Hw) as (fr & Hf & _). destruct (Hd _ _ Hf) as (fr' & Hf' & _).
  apply gauge_rigid; [exact (base_rigid _ _ Hb)|exact (ts_rigid _ _ _ _ HD _ _ Hf')].
Qed.
Lemma observed_shows d rc x pb : observed bo d rc x pb -> exists p, shows rc x p.
Proof. intros (w & fr & f & Hw & _). exists (pt (v_frame w) x.2), w. auto. Qed.
Lemma shows_fun rc x p q : shows rc x p -> shows rc x q -> p = q.
Proof. intros (w & Hw & ->) (w' & Hw' & ->). unfold has_view in *. assert (w' = w) as -> by congruence. reflexivity. Qed.
Lemma observed_ray d rc k0 u x p pb : frames_of D d -> posed rc k0 u -> observed bo d rc x pb -> shows rc x p -> true_ray k0 u p pb.
Proof.
  intros Hd Hp (w & fr & f & Hw & Hf & Hx & ->) (w' & Hw' & ->). unfold has_view in *. assert (w' = w) as -> by congruence. destruct (Hd _ _ Hf) as (fr' & Hf' & E).
  exists (v_frame w), x.2, f. split; [exists fr'; rewrite E; auto|]. split; [reflexivity|]. rewrite (Hp x.1 w Hw). reflexivity.
Qed.
Lemma ray_sees k0 u p pb : base k0 u -> true_ray k0 u p pb -> sees pb.1 (place_from k0 u p) pb.2.
Proof.
  intros Hb (k & f & x & (fr & Hf & Hx) & Hp & ->). cbn [fst snd]. apply gauge_sees; [exact (base_rigid _ _ Hb)|exact (proj2 Hb)|]. rewrite <- Hp. exact (ts_seen _ _ _ _ HD k fr f x Hf Hx).
Qed.
Lemma same_landmark rc v f v' f' l : assigned rc v f l -> assigned rc v' f' l -> same_track rc (v, f) (v', f').
Proof. intros H H'. exists l. auto. Qed.

(** A constraint made from a correct map holds. *)
Lemma demand_holds st d rc k0 u x y z ls ps : base k0 u -> frames_of D d -> recon_ok d rc -> posed rc k0 u -> tracked rc -> demanded bo st d rc x y z ls ps -> holds rc (Con3 (x, y, z) ps).
Proof.
  intros Hb Hd Hok Hp Ht [_ _ (wx & wy & wz & used & bs & far & Hx & Hy & Hz & H)]. cbv zeta in H. destruct H as (_ & Hall & _ & _ & _ & Hperf). unfold holds. cbn [c_views c_poses].
  intros wa wb wc Ha Hb' Hc. unfold has_view in *. assert (wa = wx) as -> by congruence. assert (wb = wy) as -> by congruence. assert (wc = wz) as -> by congruence. apply Hperf. clear Hperf.
  pose proof (posed_rigid d rc k0 u Hb Hd Hok Hp) as Hrig. intros b Hin. apply elem_of_list_lookup in Hin as [i Hi]. destruct (Forall2_lookup_r _ _ _ _ _ Hall Hi) as (l & _ & (f & g & h & p & q & r & A1 & A2 & A3 & B1 & B2 & B3 & ->)).
  destruct (observed_shows d rc (x, f) p B1) as [P HP]. destruct (observed_shows d rc (y, g) q B2) as [Q HQ]. destruct (observed_shows d rc (z, h) r B3) as [S HS].
  assert (P = Q) as EQ by exact (Ht _ _ _ _ (same_landmark rc x f y g l A1 A2) HP HQ). assert (P = S) as ES by exact (Ht _ _ _ _ (same_landmark rc x f z h l A1 A3) HP HS). subst Q S.
  pose proof (ray_sees k0 u P p Hb (observed_ray d rc k0 u (x, f) P p Hd Hp B1 HP)) as S1. pose proof (ray_sees k0 u P q Hb (observed_ray d rc k0 u (y, g) P q Hd Hp B2 HQ)) as S2. pose proof (ray_sees k0 u P r Hb (observed_ray d rc k0 u (z, h) P r Hd Hp B3 HS)) as S3.
  assert (forall v w k pb, has_view rc v w -> observed bo d rc (v, k) pb -> pb.1 = v_pose w) as Hpose.
  { intros v w k pb Hv (w' & fr & f' & Hw' & _ & _ & ->). cbn [fst snd] in *. unfold has_view in *. assert (w' = w) as -> by congruence. reflexivity. }
  rewrite (Hpose x wx f p Hx B1) in S1. rewrite (Hpose y wy g q Hy B2) in S2. rewrite (Hpose z wz h r Hz B3) in S3. pose proof (Hrig x wx Hx) as Rx.
  exists (iso_point (v_pose wx) (place_from k0 u P)). cbn [fst snd]. unfold sees in *. rewrite iso_point_id, !relative_point by exact Rx. auto.
Qed.

(** ** Steps which keep a map correct *)
Notation mapped := (mapped cam pt D).

(** Fewer views, the same frames and poses, fewer tracks, fewer constraints. *)
Lemma mapped_less rc rc' : mapped rc -> (forall v w', has_view rc' v w' -> exists w, has_view rc v w /\ v_frame w' = v_frame w /\ v_pose w' = v_pose w) ->
  (forall x y, same_track rc' x y -> same_track rc x y) -> (forall k c, has_constraint rc' k c -> exists k', has_constraint rc k' c) -> mapped rc'.
Proof.
  intros H Hv Ht Hc. apply mapped_iff in H as ((k0 & u & Hb & Hp) & Htr & Hco). apply mapped_iff.
  assert (forall x p, shows rc' x p -> shows rc x p) as Hs by (intros x p (w' & Hw' & ->); destruct (Hv _ _ Hw') as (w & Hw & E & _); exists w; rewrite E; auto).
  split; [|split].
  - exists k0, u. split; [exact Hb|]. intros v w' Hw'. destruct (Hv v w' Hw') as (w & Hw & E1 & E2). rewrite E1, E2. exact (Hp v w Hw).
  - intros x y p q Hxy Hx Hy. exact (Htr x y p q (Ht x y Hxy) (Hs x p Hx) (Hs y q Hy)).
  - intros k c Hk. destruct (Hc k c Hk) as [k' Hk']. specialize (Hco k' c Hk'). unfold holds in *. destruct (c_views c) as [[a b] z]. intros wa wb wz Ha Hb' Hz.
    destruct (Hv _ _ Ha) as (a' & Ha' & _ & ->). destruct (Hv _ _ Hb') as (b' & Hb'' & _ & ->). destruct (Hv _ _ Hz) as (z' & Hz' & _ & ->). exact (Hco a' b' z' Ha' Hb'' Hz').
Qed.
Lemma mapped_separated rc rc' : separated rc rc' -> mapped rc -> mapped rc'.
Proof.
  intros [S1 S2 S3 S4] H. apply (mapped_less rc rc' H).
  - intros v w' Hw'. specialize (S1 v). unfold has_view in Hw'. rewrite Hw' in S1. cbn in S1. symmetry in S1. apply fmap_Some in S1 as (w & Hw & E). exists w. split; [exact Hw|].
    assert (forall (a b : key) (p q : riso) (m n : nat), (a, p, m) = (b, q, n) -> a = b /\ p = q) as Hinj by (intros; split; congruence). exact (Hinj _ _ _ _ _ _ E).
  - exact S4.
  - intros k c Hk. exists k. unfold has_constraint in *. rewrite <- S2. exact Hk.
Qed.
Lemma mapped_deleted rc v rc' : view_deleted rc v rc' -> mapped rc -> mapped rc'.
Proof.
  intros [S1 S2] H. apply (mapped_less rc rc' H).
  - intros v' w' Hw'. apply S1 in Hw' as [Hw' _]. exists w'. auto.
  - intros x y (l & (w & Hw & Hl) & (w' & Hw' & Hl')). apply S1 in Hw as [Hw _]. apply S1 in Hw' as [Hw' _]. exists l. split; [exists w|exists w']; auto.
  - intros k c Hk. apply S2 in Hk as [Hk _]. exists k. exact Hk.
Qed.
Lemma mapped_rigid d rc : frames_of D d -> recon_ok d rc -> mapped rc -> rigid_views rc.
Proof. intros Hd Hok H. apply mapped_iff in H as ((k0 & u & Hb & Hp) & _). exact (posed_rigid d rc k0 u Hb Hd Hok Hp). Qed.

Lemma mapped_recorded nearest eps st (G : tools RNum F) o similar knn sort fuel s d r rc v rc' : let e := geometric (real_trig nearest eps) st G o similar knn sort fuel in
  tools_ok G -> t_bearing G = bo -> recon_ok d rc -> frames_of D d -> has_recon d r rc -> recorded_for e s d r rc v rc' -> mapped rc -> mapped rc'.
Proof.
  intros e HG Hbo Hrc Hd Hr [(cs & Hcs & _ & _ & _ & Hall) [Ev El]] H. pose proof (mapped_rigid d rc Hd Hrc H) as Hrig. apply mapped_iff in H as ((k0 & u & Hb & Hp) & Htr & Hco).
  assert (forall c, holds rc c -> holds rc' c) as Hholds. { intros c. unfold holds, has_view. rewrite Ev. intros H'. exact H'. }
  assert (forall x y, same_track rc' x y -> same_track rc x y) as Ht. { intros x y (l & (w & Hw & Hl) & (w' & Hw' & Hl')). unfold has_view in *. rewrite Ev in Hw, Hw'. exists l. split; [exists w|exists w']; auto. }
  assert (forall x p, shows rc' x p -> shows rc x p) as Hs. { intros x p (w & Hw & ->). unfold has_view in Hw. rewrite Ev in Hw. exists w. auto. }
  apply mapped_iff. split; [|split].
  - exists k0, u. split; [exact Hb|]. intros v' w Hw. unfold has_view in Hw. rewrite Ev in Hw. exact (Hp v' w Hw).
  - intros x y p q Hxy Hx Hy. exact (Htr x y p q (Ht x y Hxy) (Hs x p Hx) (Hs y q Hy)).
  - intros k c Hk. apply Hholds. destruct (proj1 (Hcs c) (ex_intro _ k Hk)) as [[k' Hk']|Hc]; [exact (Hco k' c Hk')|]. destruct (Hall c Hc) as (_ & x & y & z & ls & Hviews & _ & Hnd & _ & Hls & Hopt).
    destruct c as [cv cp]. cbn [c_views c_poses] in *. subst cv. change (on_recon d r None (fun rc => optimize_three_view (real_trig nearest eps) st G d rc (x, y, z) ls) = Some cp) in Hopt. unfold on_recon, sm_get in Hopt. unfold has_recon in Hr. rewrite Hr in Hopt.
    apply (demanded_thm nearest eps st G d rc x y z ls cp HG Hrc Hrig Hnd) in Hopt; [|intros l Hl; apply (Hls l Hl)]. rewrite Hbo in Hopt. exact (demand_holds st d rc k0 u x y z ls cp Hb Hd Hrc Hp Htr Hopt).
Qed.

Lemma facts_eq (w w' : view riso) : view_facts w = view_facts w' -> v_frame w = v_frame w' /\ v_pose w = v_pose w' /\ length (v_lms w) = length (v_lms w').
Proof. unfold view_facts. assert (forall (a b : key) (p q : riso) (m n : nat), (a, p, m) = (b, q, n) -> a = b /\ p = q /\ m = n) as Hinj by (intros; repeat split; congruence). apply Hinj. Qed.
(** A new view with the true pose, matched with landmarks of the points it sees. *)
Lemma mapped_inserted rc k0 u k pose existing n v rc' : base k0 u -> posed rc k0 u -> tracked rc -> (forall j c, has_constraint rc j c -> holds rc c) -> constraints_live rc ->
  view_inserted rc k pose existing n v rc' -> pose = seen_from k0 u k ->
  (forall f ls l y p, (f < n)%nat -> existing f = Some ls -> l ∈ ls -> assigned rc y.1 y.2 l -> shows rc y p -> p = pt k f) -> mapped rc'.
Proof.
  intros Hb Hp Ht Hc Hlive [V0 V1 V2 V3 V4 V5 V6] -> Hex. apply fmap_Some in V1 as (wv & Hwv & Ewv). 
  assert (forall v' w', v' <> v -> has_view rc' v' w' -> exists w, has_view rc v' w /\ v_frame w' = v_frame w /\ v_pose w' = v_pose w /\ length (v_lms w') = length (v_lms w)) as Hold.
  { intros v' w' Hne Hw'. specialize (V2 v' Hne). unfold has_view in Hw'. rewrite Hw' in V2. cbn [fmap option_fmap option_map] in V2. symmetry in V2. apply fmap_Some in V2 as (w & Hw & E). exists w. split; [exact Hw|]. apply facts_eq, E. }
  assert (v_frame wv = k /\ v_pose wv = seen_from k0 u k /\ length (v_lms wv) = n) as (K1 & K2 & K3).
  { unfold view_facts in Ewv. assert (forall (a b : key) (p q : riso) (m n : nat), (a, p, m) = (b, q, n) -> b = a /\ q = p /\ n = m) as Hinj by (intros; repeat split; congruence). exact (Hinj _ _ _ _ _ _ Ewv). }
  assert (forall x, x.1 <> v -> observation rc' x -> observation rc x) as Hob.
  { intros x Hne (l & w' & Hw' & Hl). destruct (Hold _ _ Hne Hw') as (w & Hw & _ & _ & El). apply lookup_lt_Some in Hl. rewrite El in Hl. apply lookup_lt_is_Some in Hl as [l' Hl']. exists l', w. auto. }
  assert (forall x p, x.1 <> v -> shows rc' x p -> shows rc x p) as Hsh by (intros x p Hne (w' & Hw' & ->); destruct (Hold _ _ Hne Hw') as (w & Hw & E & _); exists w; rewrite E; auto).
  assert (forall f p, shows rc' (v, f) p -> p = pt k f) as Hshv. { intros f p (w' & Hw' & ->). cbn [fst snd] in *. unfold has_view in Hw'. assert (w' = wv) as -> by congruence. rewrite K1. reflexivity. }
  assert (forall f, observation rc' (v, f) -> (f < n)%nat) as Hfn. { intros f (l & w' & Hw' & Hl). cbn [fst snd] in *. unfold has_view in Hw'. assert (w' = wv) as -> by congruence. apply lookup_lt_Some in Hl. lia. }
  assert (forall f y p q, y.1 <> v -> same_track rc' (v, f) y -> shows rc' (v, f) p -> shows rc' y q -> p = q) as Hmixed.
  { intros f y p q Hne (l & Hl & Hl') Hx Hy. apply Hshv in Hx as ->. assert (observation rc y) as Hoy by (apply Hob; [exact Hne|exists l; exact Hl']).
    destruct (proj1 (V5 f y (Hfn f (ex_intro _ l Hl)) Hoy) (ex_intro _ l (conj Hl Hl'))) as (ls & l0 & E1 & E2 & E3). symmetry. exact (Hex f ls l0 y q (Hfn f (ex_intro _ l Hl)) E1 E2 E3 (Hsh y q Hne Hy)). }
  apply mapped_iff. split; [|split].
  - exists k0, u. split; [exact Hb|]. intros v' w' Hw'. destruct (decide (v' = v)) as [->|Hne].
    + unfold has_view in Hw'. assert (w' = wv) as -> by congruence. rewrite K1, K2. reflexivity.
    + destruct (Hold v' w' Hne Hw') as (w & Hw & E1 & E2 & _). rewrite E1, E2. exact (Hp v' w Hw).
  - intros [x f] [y g] p q Hxy Hx Hy. destruct (decide (x = v)) as [->|Nx], (decide (y = v)) as [->|Ny].
    + pose proof (V6 f g Hxy) as ->. rewrite (Hshv g p Hx), (Hshv g q Hy). reflexivity.
    + exact (Hmixed f (y, g) p q Ny Hxy Hx Hy).
    + symmetry. destruct Hxy as (l & A & B). exact (Hmixed g (x, f) q p Nx (ex_intro _ l (conj B A)) Hy Hx).
    + pose proof Hxy as (l & A & B). assert (observation rc (x, f)) as Ox by (apply Hob; [exact Nx|exists l; exact A]). assert (observation rc (y, g)) as Oy by (apply Hob; [exact Ny|exists l; exact B]).
      pose proof (Hsh (x, f) p Nx Hx) as Sx. pose proof (Hsh (y, g) q Ny Hy) as Sy. apply (V4 _ _ Ox Oy) in Hxy as [Hxy|(f0 & a & b & Hf0 & Ef0 & Hpair)]; [exact (Ht _ _ _ _ Hxy Sx Sy)|].
      assert (forall y0 p0 l0, l0 = a \/ l0 = b -> assigned rc y0.1 y0.2 l0 -> shows rc y0 p0 -> p0 = pt k f0) as Hgo.
      { intros y0 p0 l0 Hl0 Ha0 Hs0. apply (Hex f0 [a; b] l0 y0 p0 Hf0 Ef0); [|exact Ha0|exact Hs0]. destruct Hl0 as [Hl0|Hl0]; rewrite Hl0; [left|right; left]. }
      destruct Hpair as [[A1 A2]|[A1 A2]].
      * rewrite (Hgo (x, f) p a (or_introl eq_refl) A1 Sx), (Hgo (y, g) q b (or_intror eq_refl) A2 Sy). reflexivity.
      * rewrite (Hgo (x, f) p b (or_intror eq_refl) A1 Sx), (Hgo (y, g) q a (or_introl eq_refl) A2 Sy). reflexivity.
  - intros j c Hj. unfold has_constraint in Hj. rewrite V3 in Hj. specialize (Hc j c Hj). specialize (Hlive j c Hj). unfold names_live_views in Hlive. unfold holds in *. destruct (c_views c) as [[a b] z]. destruct Hlive as (_ & _ & _ & [wa Ha] & [wb Hb'] & [wz Hz]).
    assert (forall a w w', has_view rc a w -> has_view rc' a w' -> v_pose w' = v_pose w) as Hpose.
    { intros a0 w w' Hw Hw'. destruct (decide (a0 = v)) as [->|Hne]; [unfold has_view in Hw; congruence|]. destruct (Hold a0 w' Hne Hw') as (w1 & Hw1 & _ & E & _). unfold has_view in *. assert (w1 = w) as -> by congruence. exact E. }
    intros wa' wb' wz' Ha' Hb'' Hz'. rewrite (Hpose a wa wa' Ha Ha'), (Hpose b wb wb' Hb' Hb''), (Hpose z wz wz' Hz Hz'). exact (Hc wa wb wz Ha Hb' Hz).
Qed.

(** Changing the gauge. *)
Lemma mapped_gauge rc rc' v0 w0 (m : R) : rigid_views rc -> (forall v w, has_view rc v w -> rigid (cam (v_frame w)) /\ exists fr, has_frame D (v_frame w) fr) -> has_view rc v0 w0 -> 0 < m -> gauge_changed rc rc' (v_pose w0) m -> mapped rc -> mapped rc'.
Proof.
  intros Hrig Hcam Hw0 Hm Hg H. assert (m <> 0) as Hm0 by lra. destruct (gauge_facts rc rc' v0 w0 m Hrig Hw0 Hm0 Hg) as (_ & _ & _ & Hcons). destruct Hg as [G1 G2 G3]. apply mapped_iff in H as ((k0 & u & Hb & Hp) & Ht & Hc). apply mapped_iff.
  assert (forall x p, shows rc' x p -> shows rc x p) as Hs. { intros x p (w' & Hw' & ->). apply G1 in Hw' as (w & Hw & E & _). exists w. rewrite E. auto. }
  split; [|split].
  - exists (v_frame w0), (u / m). destruct (Hcam v0 w0 Hw0) as [R0 F0]. split. { split; [exact F0|]. apply Rdiv_lt_0_compat; [exact (proj2 Hb)|exact Hm]. }
    intros v w' Hw'. apply G1 in Hw' as (w & Hw & E1 & _ & ->). rewrite E1, (Hp v w Hw), (Hp v0 w0 Hw0). unfold SfmTruthSpec.seen_from. rewrite scale_relative, relative_base; [|exact (proj1 (Hcam v w Hw))|exact R0|exact (base_rigid _ _ Hb)].
    rewrite scale_scale. f_equal. unfold Rdiv. apply Rmult_comm.
  - intros x y p q (l & (w & Hw & Hl) & (w' & Hw' & Hl')) Hx Hy. apply G1 in Hw as (w1 & Hw1 & _ & E1 & _). apply G1 in Hw' as (w2 & Hw2 & _ & E2 & _). rewrite E1 in Hl. rewrite E2 in Hl'.
    apply (Ht x y p q); [exists l; split; [exists w1|exists w2]; auto|exact (Hs x p Hx)|exact (Hs y q Hy)].
  - intros k c' Hk. pose proof Hk as Hk'. apply G3 in Hk' as (c & Hkc & _). exact (Hcons k c c' Hkc Hk (Hc k c Hkc)).
Qed.

(** Registration finds the true pose. *)
Section env.
Context (s : settings) (nearest : rmat3 -> rmat3) (eps : R) (st : gsettings RNum) (G : tools RNum F) (o : orders) (similar : vdata riso F -> key -> nat -> list key) (knn : list F -> F -> nat -> list (nat * nat))
  (sort : list (key * key * key * list key) -> list (key * key * key * list key)) (fuel : nat).
Notation e := (geometric (real_trig nearest eps) st G o similar knn sort fuel).
Context (HT : truthful bo cam pt D s nearest eps st G e).

Lemma landmark_rays d r rc k0 u views k fr f x ls ps : data_ok d -> frames_of D d -> has_recon d r rc -> mapped rc -> posed rc k0 u -> has_frame d k fr -> f_feats fr !! f = Some x ->
  clear_match e s d rc views x ls -> listed_all bo o d rc ls ps -> forall y, y ∈ ps -> true_ray k0 u (pt k f) y.
Proof.
  intros Hok Hd Hr Hm Hp Hf Hx Hc (pss & Hall & ->) y Hy. apply elem_of_list_join in Hy as (qs & Hy & Hqs). apply elem_of_list_lookup in Hqs as [i Hi]. destruct (Forall2_lookup_r _ _ _ _ _ Hall Hi) as (l & Hl & (m & Hlm & Hobs)). apply elem_of_list_lookup_2 in Hl.
  apply elem_of_list_lookup in Hy as [j Hj]. destruct (Forall2_lookup_r _ _ _ _ _ Hobs Hj) as ([v g] & Hvg & Ho). apply elem_of_list_lookup_2 in Hvg. apply (elem_of_obs_list o l m v g) in Hvg; [|exact (eo_orders _ (tf_env _ _ _ _ _ _ _ _ _ _ HT))].
  assert (assigned rc v g l) as Ha by (apply (ok_mirrored _ _ (ok_recons _ Hok r rc Hr)); exists m; auto). destruct (observed_shows d rc (v, g) y Ho) as [P HP].
  rewrite <- (tf_clear _ _ _ _ _ _ _ _ _ _ HT d r rc views k fr f x ls l (v, g) P Hok Hd Hr Hm Hf Hx Hc Hl Ha HP). exact (observed_ray d rc k0 u (v, g) P y Hd Hp Ho HP).
Qed.
Lemma registered_true d r rc k0 u views k fr hi ms pose found points start inliers : data_ok d -> frames_of D d -> has_recon d r rc -> mapped rc -> base k0 u -> posed rc k0 u -> has_frame d k fr ->
  usable_matches e s d rc (f_feats fr) views hi ms -> registered st G o d rc fr ms pose found points start inliers -> pose = seen_from k0 u k.
Proof.
  intros Hok Hd Hr Hm Hb Hp Hf Hum Hreg. pose proof (tf_bearing _ _ _ _ _ _ _ _ _ _ HT) as Hbo. destruct (Hd k fr Hf) as (fr' & Hf' & Efr). destruct (rg_points _ _ _ _ _ _ _ _ _ _ _ _ Hreg) as (good & Hnd & Hgood & Hall & _).
  assert (forall m bh, m ∈ good -> triangulated (t_bearing G) (t_triangulate G) o (robust_minimum_observations st) (robust_observation_incidence_minimum_cosine_distance st) d rc fr m bh ->
     place_from k0 u (pt k m.2) <> vzero /\ exists x, f_feats fr !! m.2 = Some x /\ bh = (bo x, from_point (place_from k0 u (pt k m.2)))) as Hpt.
  { intros [ls f] [b h] Hm' (x & ps & Hx & Hl & Hrob & Htri & Hbb). cbn [fst snd] in *. rewrite Hbo in *. apply Hgood in Hm' as [Hms _]. destruct (um_clear _ _ _ _ _ _ _ _ Hum ls f Hms) as (_ & desc & Hdesc & Hc). assert (desc = x) as -> by congruence.
    pose proof (landmark_rays d r rc k0 u views k fr f x ls ps Hok Hd Hr Hm Hp Hf Hx Hc Hl) as Hrays.
    assert (ps <> []) as Hne. { destruct Hrob as [_ (i & j & y & z & _ & Hi & _)]. intros ->. rewrite lookup_nil in Hi. discriminate Hi. }
    pose proof (gauge_exact k0 u (pt k f) ps Hb Hne Hrays) as Hex. split; [exact (er_point _ _ Hex)|]. exists x. split; [exact Hx|].
    rewrite (tf_triangulate _ _ _ _ _ _ _ _ _ _ HT _ ps Hex) in Htri; [|eapply robust_resolved; [exact Hex| |exact Hrob]; apply (tf_settings _ _ _ _ _ _ _ _ _ _ HT)].
    assert (forall a b : vec4 RNum, Some a = Some b -> b = a) as Hinj by congruence. rewrite Hbb, (Hinj _ _ Htri). reflexivity. }
  assert (start = seen_from k0 u k) as Hst.
  { apply (tf_single_view _ _ _ _ _ _ _ _ _ _ HT k0 u k fr' points start inliers (proj1 Hb) (proj2 Hb) Hf' (rg_enough _ _ _ _ _ _ _ _ _ _ _ _ Hreg)); [|exact (rg_consensus _ _ _ _ _ _ _ _ _ _ _ _ Hreg)].
    exists good.*2. split; [exact Hnd|]. apply Forall2_fmap_l. rewrite Efr. apply Forall2_same_length_lookup. split; [exact (Forall2_length _ _ _ Hall)|]. intros i m bh Hi Hi'. apply (Hpt m bh); [eapply elem_of_list_lookup_2, Hi|]. exact (Forall2_lookup_lr _ _ _ _ _ _ Hall Hi Hi'). }
  rewrite <- Hst. apply (rg_perfect _ _ _ _ _ _ _ _ _ _ _ _ Hreg). intros bh Hbh. apply elem_of_list_lookup in Hbh as [i Hi]. destruct (Forall2_lookup_r _ _ _ _ _ Hall Hi) as (m & Hmi & Htr).
  destruct (Hpt m bh (elem_of_list_lookup_2 _ _ _ Hmi) Htr) as (Hnz & x & Hx & ->). left. exists (place_from k0 u (pt k m.2)). split; [exact Hnz|]. split; [reflexivity|]. rewrite Hst. cbn [fst]. apply gauge_sees; [exact (base_rigid _ _ Hb)|exact (proj2 Hb)|].
  apply (ts_seen _ _ _ _ HD k fr' m.2 x Hf'). rewrite Efr. exact Hx.
Qed.
End env.
End gauge.
