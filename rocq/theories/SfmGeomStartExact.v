(** Starting a reconstruction of a noise-free scene finds the cameras, up to one unit of length
    (C66). *)
From stdpp Require Import gmap list.
From Coq Require Import Reals Lra Lia Sorting.Sorted.
From Verif Require Import Outcome OutcomeFacts Num Lin LinSpec LinFacts Core CoreSpec CoreFacts Geom GeomSpec GeomFacts GeomTri Optimize OptimizeSpec OptimizeFacts OptimizeProps.
From Verif Require Import Matching MatchingSpec MatchingFacts Sfm SfmSpec SfmUse SfmEffects SfmRec SfmTrack SfmPrim SfmData SfmLoc SfmInit SfmThms SfmStart SfmPose SfmPoseSpec SfmPoseFacts.
From Verif Require Import SfmGeom SfmGeomSpec SfmGeomFacts SfmGeomThms SfmGeomRigid SfmGeomReg SfmGeomExact SfmGeomStart.
Open Scope nat_scope.

(** ** Another unit of length *)
Lemma scale_point (p : riso) (s : R) (q : rvec3) : iso_point (pose_scale p s) (vscale s q) = vscale s (iso_point p q).
Proof. unfold pose_scale. lin. Qed.
Lemma scale_id (s : R) : pose_scale iso_id s = iso_id :> riso.
Proof. unfold pose_scale. lin. Qed.
Lemma scale_scale (p : riso) (a b : R) : pose_scale (pose_scale p a) b = pose_scale p (b * a)%R :> riso.
Proof. unfold pose_scale. lin. Qed.
Lemma vscale_nonzero (s : R) (v : rvec3) : (0 < s)%R -> v <> vzero -> vscale s v <> vzero.
Proof. intros Hs Hv E. apply Hv. apply norm2_zero. assert (norm2 (vscale s v) = 0)%R as H by (rewrite E; lin). rewrite norm2_scale in H. change (s * s * norm2 v = 0)%R in H. apply Rmult_integral in H as [H|H]; [apply Rmult_integral in H as [H|H]; exfalso; lra|exact H]. Qed.
Lemma scale_sees (p : riso) (s : R) (q b : rvec3) : (0 < s)%R -> sees p q b -> sees (pose_scale p s) (vscale s q) b.
Proof. intros Hs [H1 H2]. unfold sees. rewrite scale_point. split; [apply vscale_nonzero; assumption|]. rewrite normalize_pos_scale by assumption. exact H2. Qed.
Definition scaled (s : R) (x : riso * rvec3) : riso * rvec3 := (pose_scale x.1 s, x.2).
Lemma scaled_direction s x : direction (scaled s x) = direction x. Proof. reflexivity. Qed.
Lemma scale_exact (s : R) q xs : (0 < s)%R -> exact_rays q xs -> exact_rays (vscale s q) (scaled s <$> xs).
Proof.
  intros Hs [H1 H2 H3]. split.
  - apply vscale_nonzero; assumption.
  - intros x Hx. apply elem_of_list_fmap in Hx as (y & -> & Hy). destruct (H2 y Hy) as (A & B & C). split; [exact A|]. split; [apply scale_sees; assumption|]. rewrite scaled_direction, dot_scale_r. apply Rmult_le_pos; [apply Rlt_le, Hs|exact C].
  - intros x y Hx Hy. apply elem_of_list_fmap in Hx as (x' & -> & Hx), Hy as (y' & -> & Hy). rewrite !scaled_direction. apply H3; assumption.
Qed.
Lemma scale_resolved s xs : resolved xs -> resolved (scaled s <$> xs).
Proof. intros (x & y & Hx & Hy & H). exists (scaled s x), (scaled s y). split; [apply elem_of_list_fmap_1, Hx|]. split; [apply elem_of_list_fmap_1, Hy|exact H]. Qed.

Lemma scale_one (p : riso) : pose_scale p 1%R = p.
Proof. unfold pose_scale. lin. Qed.
Lemma norm2_point_scale (s : R) (q : rvec3) (h : vec4 RNum) u : (0 < s)%R -> q <> vzero -> h = from_point (vscale s q) -> point (from_homogeneous h) = Some u -> u = vscale s q.
Proof.
  intros Hs Hq -> H. pose proof (vscale_nonzero s q Hs Hq) as Hn. unfold from_point in H. rewrite (from_homogeneous_fixed (from_homogeneous _)) in H by (apply from_homogeneous_canonical; rewrite xyz_of_point; exact Hn).
  change (point (from_point (vscale s q)) = Some u) in H. rewrite (point_from_point _ Hn) in H. assert (forall a b : rvec3, Some a = Some b -> b = a) as Hinj by congruence. exact (Hinj _ _ H).
Qed.
Lemma exact_incident q xs x y : exact_rays q xs -> x ∈ xs -> y ∈ xs -> cross (direction x) (direction y) <> vzero -> (0 < cosd (direction x) (direction y))%R.
Proof.
  intros H Hx Hy Hc. destruct (exact_ray q xs x H Hx) as (Ux & _). destruct (exact_ray q xs y H Hy) as (Uy & _). pose proof (er_narrow _ _ H x y Hx Hy) as Hd. unfold cosd.
  pose proof (lagrange (direction x) (direction y)) as L. apply norm2_pos in Hc. unfold unit_vec in Ux, Uy. rewrite Ux, Uy in L. revert Hc Hd L. generalize (dot (direction x) (direction y) : R) (norm2 (cross (direction x) (direction y)) : R). intros z w. intros. nra.
Qed.
Lemma exact_from_point q xs x : exact_rays q xs -> x ∈ xs -> miss (from_homogeneous (from_point q)) x = 0%R.
Proof.
  intros H Hx. unfold from_point at 1. rewrite (from_homogeneous_fixed (from_homogeneous _)) by (apply from_homogeneous_canonical; rewrite xyz_of_point; apply (er_point _ _ H)). apply (exact_miss q xs x H Hx).
Qed.

Section facts.
Context {F : Type} (nearest : rmat3 -> rmat3) (eps : R) (st : gsettings RNum) (G : tools RNum F) (o : orders).
Notation T := (real_trig nearest eps).
Implicit Types (d : vdata riso F) (fc ff fs : frame F).
Notation bo := (t_bearing G).
Notation tri := (t_triangulate G).
Notation inc := (robust_observation_incidence_minimum_cosine_distance st).
Context (Htri : exact_triangulator tri) (Hsine : (0 < maximum_sine_distance st)%R) (Hcosine : (0 < maximum_cosine_distance st)%R).

Lemma exact_fit (maximum minimum : R) (p1 p2 : riso) x q : (0 < maximum)%R -> exact_rays q (three_rays p1 p2 x) -> resolved [(iso_id, x.1.1); (p1, x.1.2)] ->
  (exists i j y z, i <> j /\ three_rays p1 p2 x !! i = Some y /\ three_rays p1 p2 x !! j = Some z /\ (minimum < cosd (direction y) (direction z))%R) -> three_fit tri maximum minimum p1 p2 x.
Proof.
  intros Hm Hq (a & b & Ha & Hb & Hab) Hi. split; [|exact Hi]. assert (forall z, z ∈ [(iso_id, x.1.1); (p1, x.1.2)] -> z ∈ three_rays p1 p2 x) as Hin.
  { intros z Hz. unfold three_rays. apply elem_of_cons in Hz as [->|Hz]; [left|]. apply elem_of_list_singleton in Hz as ->. right. left. }
  exists (from_point q). split.
  - apply Htri; [exact Hq|]. exists a, b. auto.
  - intros y Hy. rewrite (exact_from_point q _ y Hq Hy). exact Hm.
Qed.
Lemma resolved_pair (a b : riso * rvec3) : resolved [a; b] -> cross (direction a) (direction b) <> vzero.
Proof.
  intros (x & y & Hx & Hy & H). apply elem_of_cons in Hx as [->|Hx]; [|apply elem_of_list_singleton in Hx as ->]; (apply elem_of_cons in Hy as [->|Hy]; [|apply elem_of_list_singleton in Hy as ->]).
  - exfalso. apply H, cross_self.
  - exact H.
  - intros E. apply H. transitivity (vneg (cross (direction a) (direction b))); [|rewrite E]; lin.
  - exfalso. apply H, cross_self.
Qed.
Lemma resolved_incident q (p1 p2 : riso) x : exact_rays q (three_rays p1 p2 x) -> resolved [(iso_id, x.1.1); (p1, x.1.2)] ->
  exists i j y z, i <> j /\ three_rays p1 p2 x !! i = Some y /\ three_rays p1 p2 x !! j = Some z /\ (0 < cosd (direction y) (direction z))%R.
Proof.
  intros Hq Hr. apply resolved_pair in Hr. exists 0, 1, (iso_id, x.1.1), (p1, x.1.2). split; [discriminate|]. split; [reflexivity|]. split; [reflexivity|]. apply (exact_incident q _ _ _ Hq); [left|right; left|exact Hr].
Qed.

(** Matches in three frames, each of one point off the lines through the cameras. *)
Section common.
Context (fc ff fs : frame F) (c1 c2 : riso) (ms1 ms2 : list (nat * nat)) (l1 l2 : R) (L1 : (0 < l1)%R) (L2 : (0 < l2)%R).
Context (Hcommon : forall t x, common ms1 ms2 t -> triple_seen bo fc ff fs t x -> exists q, exact_rays q (three_rays c1 c2 x) /\ resolved [(iso_id, x.1.1); (c1, x.1.2)] /\ resolved [(iso_id, x.1.1); (c2, x.2)]).
Lemma rays_scaled (mu : R) (a b : riso) x : scaled mu <$> three_rays a b x = three_rays (pose_scale a mu) (pose_scale b mu) x.
Proof. unfold three_rays, scaled. cbn [fmap list_fmap fst snd]. rewrite scale_id. reflexivity. Qed.
Lemma common_scaled (mu : R) t x : (0 < mu)%R -> common ms1 ms2 t -> triple_seen bo fc ff fs t x ->
  exists q, exact_rays q (three_rays (pose_scale c1 mu) (pose_scale c2 mu) x) /\ resolved [(iso_id, x.1.1); (pose_scale c1 mu, x.1.2)].
Proof.
  intros Hmu Ht Hx. destruct (Hcommon t x Ht Hx) as (q & Hq & Hr & _). exists (vscale mu q). rewrite <- rays_scaled. split; [apply scale_exact; assumption|]. apply (scale_resolved mu) in Hr. unfold scaled in Hr. cbn [fmap list_fmap fst snd] in Hr. rewrite scale_id in Hr. exact Hr.
Qed.
Lemma common_ratio t x r : common ms1 ms2 t -> triple_seen bo fc ff fs t x -> depth_ratio tri (pose_scale c1 l1) (pose_scale c2 l2) x r -> r = ((l1 / l2) * (l1 / l2))%R.
Proof.
  intros Ht Hx (h & k & u & v & Hh & Hu & Hk & Hv & ->). destruct (Hcommon t x Ht Hx) as (q & Hq & Hr1 & Hr2).
  assert (forall (c : riso) (b : rvec3) l hk, (0 < l)%R -> (c, b) ∈ three_rays c1 c2 x -> resolved [(iso_id, x.1.1); (c, b)] -> tri [(iso_id, x.1.1); (pose_scale c l, b)] = Some hk -> hk = from_point (vscale l q)) as Hgo.
  { intros c b l hk Hl Hin Hr E. assert (exact_rays q [(iso_id, x.1.1); (c, b)]) as Hq'. { eapply exact_rays_incl; [exact Hq|]. intros z Hz. apply elem_of_cons in Hz as [->|Hz]; [left|]. apply elem_of_list_singleton in Hz as ->. exact Hin. }
    apply (scale_exact l) in Hq'; [|exact Hl]. apply (scale_resolved l) in Hr. unfold scaled in Hq', Hr. cbn [fmap list_fmap fst snd] in Hq', Hr. rewrite scale_id in Hq', Hr. rewrite (Htri _ _ Hq' Hr) in E. assert (forall a b : vec4 RNum, Some a = Some b -> b = a) as Hinj by congruence. exact (Hinj _ _ E). }
  pose proof (norm2_point_scale l1 q h u L1 (er_point _ _ Hq) (Hgo c1 x.1.2 l1 h L1 ltac:(right; left) Hr1 Hh) Hu) as ->. pose proof (norm2_point_scale l2 q k v L2 (er_point _ _ Hq) (Hgo c2 x.2 l2 k L2 ltac:(right; right; left) Hr2 Hk) Hv) as ->.
  rewrite !norm2_scale. pose proof (norm2_pos q (er_point _ _ Hq)) as Hp. revert Hp. generalize (norm2 q : R). intros z Hz. change (l1 * l1 * z / (l2 * l2 * z) = l1 / l2 * (l1 / l2))%R. field. split; lra.
Qed.

Lemma common_found scale (p1 p2 : riso) : three_started st G fc ff fs ms1 ms2 (pose_scale c1 l1) (pose_scale c2 l2) scale p1 p2 -> p1 = pose_scale c1 l1 /\ p2 = pose_scale c2 l1.
Proof.
  intros Hst. assert (scale = l1 / l2)%R as ->.
  { destruct (th_scale _ _ _ _ _ _ _ _ _ _ _ _ Hst) as (H0 & ts & ratios & _ & Hts & Hall & _ & (l' & Hp & _ & Hm)). apply elem_of_list_lookup_2 in Hm. rewrite Hp in Hm. apply elem_of_list_lookup in Hm as [i Hi]. destruct (Forall2_lookup_r _ _ _ _ _ Hall Hi) as (t & Ht & x & Hx & Hd).
    apply elem_of_list_lookup_2, Hts in Ht as [[Ht _] _]. apply (common_ratio t x _ Ht Hx) in Hd. assert (0 < l1 / l2)%R as Hq by (apply Rdiv_lt_0_compat; assumption). revert Hq Hd. generalize (l1 / l2)%R. intros z. intros. nra. }
  assert (pose_scale (pose_scale c2 l2) (l1 / l2)%R = pose_scale c2 l1) as E. { rewrite scale_scale. replace (l1 / l2 * l2)%R with l1 by (field; lra). reflexivity. }
  rewrite <- E. apply (th_perfect _ _ _ _ _ _ _ _ _ _ _ _ Hst). rewrite E. intros t x Ht Hx. destruct (common_scaled l1 t x L1 Ht Hx) as (q & Hq & _). exists q. cbn [fst snd].
  split; [|split]; apply (er_sees _ _ Hq (_, _)); [left|right; left|right; right; left].
Qed.

End common.

(** The three cameras, in units in which the first pair has been found. *)
Context (knn : list F -> F -> nat -> list (nat * nat)) (margin : nat) (fc ff fs : frame F) (c1 c2 : riso).
Context (S1 : exact_pair_scene st G knn margin fc ff c1) (S2 : exact_pair_scene st G knn margin fc fs c2) (S3 : exact_triples G knn margin fc ff fs c1 c2).

Lemma pair_found fk (cam q : riso) kept : exact_pair_scene st G knn margin fc fk cam -> tools_ok G -> (forall l p ixs, t_two_view G l = Some (p, ixs) -> NoDup ixs) -> pair_started st G knn margin fc fk q kept ->
  exists lambda, (0 < lambda)%R /\ q = pose_scale cam lambda /\ forall i j, (i, j) ∈ kept <-> mutual knn (f_feats fc) (f_feats fk) margin i j.
Proof.
  intros Hs HG Hinl [(order & data & inliers & N & Hm & Hd & Ht & Hk) Hen]. destruct (ep_consensus _ _ _ _ _ _ _ Hs order data N Hm Hd) as (lambda & Hl & Ht').
  { etransitivity; [exact Hen|]. rewrite <- (Forall2_length _ _ _ Hk). destruct (to_two _ HG _ _ _ Ht) as [_ Hlt]. transitivity (length (seq 0 (length data))); [|rewrite seq_length; reflexivity].
    apply submseteq_length, NoDup_submseteq; [exact (Hinl _ _ _ Ht)|]. intros i Hi. apply elem_of_seq. specialize (Hlt i Hi). lia. }
  exists lambda. split; [exact Hl|]. rewrite Ht in Ht'. assert (forall (x y : riso) (l l' : list nat), Some (x, l) = Some (y, l') -> x = y /\ l = l') as Hinj by (intros; split; congruence). apply Hinj in Ht' as [-> ->]. split; [reflexivity|].
  intros i j. rewrite <- Hm. split; intros H; apply elem_of_list_lookup in H as [n Hn].
  - destruct (Forall2_lookup_r _ _ _ _ _ Hk Hn) as (ix & _ & H). eapply elem_of_list_lookup_2, H.
  - assert (n < length data) as Hlt by (rewrite <- (Forall2_length _ _ _ Hd); eapply lookup_lt_Some, Hn). destruct (Forall2_lookup_l _ _ _ n n Hk) as (m & Hm' & H); [apply lookup_seq; lia|]. assert (m = (i, j)) as -> by congruence. eapply elem_of_list_lookup_2, Hm'.
Qed.

Context (ms1 ms2 : list (nat * nat)) (l1 l2 : R) (L1 : (0 < l1)%R) (L2 : (0 < l2)%R).
Context (M1 : forall i j, (i, j) ∈ ms1 <-> mutual knn (f_feats fc) (f_feats ff) margin i j) (M2 : forall i j, (i, j) ∈ ms2 <-> mutual knn (f_feats fc) (f_feats fs) margin i j).

Lemma common_exact t x : common ms1 ms2 t -> triple_seen bo fc ff fs t x -> exists q, exact_rays q (three_rays c1 c2 x) /\ resolved [(iso_id, x.1.1); (c1, x.1.2)] /\ resolved [(iso_id, x.1.1); (c2, x.2)].
Proof.
  destruct t as [[i j] k]. intros [H1 H2] Hx. cbn [fst snd] in *. apply M1 in H1. apply M2 in H2. destruct (S3 i j k x H1 H2 Hx) as [q Hq]. exists q. split; [exact Hq|]. destruct Hx as (a & b & c & Ha & Hb & Hc & ->). cbn [fst snd] in *. split.
  - apply (ep_matches _ _ _ _ _ _ _ S1 i j (bo a, bo b) H1). exists a, b. auto.
  - apply (ep_matches _ _ _ _ _ _ _ S2 i k (bo a, bo c) H2). exists a, c. auto.
Qed.
Lemma common_exact_scaled (mu : R) t x : (0 < mu)%R -> common ms1 ms2 t -> triple_seen bo fc ff fs t x ->
  exists q, exact_rays q (three_rays (pose_scale c1 mu) (pose_scale c2 mu) x) /\ resolved [(iso_id, x.1.1); (pose_scale c1 mu, x.1.2)].
Proof. exact (common_scaled fc ff fs c1 c2 ms1 ms2 common_exact mu t x). Qed.
Lemma exact_ratio t x r : common ms1 ms2 t -> triple_seen bo fc ff fs t x -> depth_ratio tri (pose_scale c1 l1) (pose_scale c2 l2) x r -> r = ((l1 / l2) * (l1 / l2))%R.
Proof. exact (common_ratio fc ff fs c1 c2 ms1 ms2 l1 l2 L1 L2 common_exact t x r). Qed.
Lemma three_found scale (p1 p2 : riso) : three_started st G fc ff fs ms1 ms2 (pose_scale c1 l1) (pose_scale c2 l2) scale p1 p2 -> p1 = pose_scale c1 l1 /\ p2 = pose_scale c2 l1.
Proof. exact (common_found fc ff fs c1 c2 ms1 ms2 l1 l2 L1 L2 common_exact scale p1 p2). Qed.

Lemma kept_all : (forall m, kept_first st G fc ff fs ms1 ms2 (pose_scale c1 l1) (pose_scale c2 l1) m <-> m ∈ ms1) /\ (forall m, kept_second st G fc ff fs ms1 ms2 (pose_scale c1 l1) (pose_scale c2 l1) m <-> m ∈ ms2).
Proof.
  assert (forall t, common ms1 ms2 t -> triple_fits G fc ff fs ms1 ms2 (maximum_cosine_distance st) 0 (pose_scale c1 l1) (pose_scale c2 l1) t) as Hfit.
  { intros t Ht. split; [exact Ht|]. destruct t as [[i j] k]. destruct Ht as [H1 H2]. cbn [fst snd] in *. pose proof H1 as H1'. pose proof H2 as H2'. apply M1 in H1' as (_ & _ & a & b & Ha & Hb & _). apply M2 in H2' as (_ & _ & a' & c & _ & Hc & _).
    exists (bo a, bo b, bo c). assert (triple_seen bo fc ff fs (i, j, k) (bo a, bo b, bo c)) as Hx by (exists a, b, c; auto). split; [exact Hx|]. destruct (common_exact_scaled l1 (i, j, k) _ L1 (conj H1 H2) Hx) as (q & Hq & Hr). eapply exact_fit; [exact Hcosine|exact Hq|exact Hr|]. eapply resolved_incident; eassumption. }
  assert (forall fk (cam : riso) i j, exact_pair_scene st G knn margin fc fk cam -> mutual knn (f_feats fc) (f_feats fk) margin i j -> exists ab, match_seen bo fc fk (i, j) ab /\ (pair_error (iso_id, ab.1) (pose_scale cam l1, ab.2) < maximum_sine_distance st)%R) as Hpair.
  { intros fk cam i j Hs Hm. pose proof Hm as (_ & _ & a & b & Ha & Hb & _). exists (bo a, bo b). assert (match_seen bo fc fk (i, j) (bo a, bo b)) as Hab by (exists a, b; auto). split; [exact Hab|].
    destruct (ep_matches _ _ _ _ _ _ _ Hs i j _ Hm Hab) as ((q & Hq) & _). apply (scale_exact l1) in Hq; [|exact L1]. unfold scaled in Hq. cbn [fmap list_fmap fst snd] in Hq. rewrite scale_id in Hq. cbn [fst snd]. rewrite (exact_pair _ _ _ _ Hq); [exact Hsine|left|right; left]. }
  split.
  - intros [i j]. unfold kept_first. cbn [fst snd]. split; [intros [H _]; exact H|]. intros H. split; [exact H|]. destruct (collect_map ms2 !! i) as [z|] eqn:E.
    + left. exists z. apply Hfit. split; [exact H|]. apply collect_map_elem, E.
    + right. split; [apply collect_none, E|]. apply Hpair; [exact S1|apply M1, H].
  - intros [i j]. unfold kept_second. cbn [fst snd]. split; [intros [H _]; exact H|]. intros H. split; [exact H|]. destruct (collect_map ms1 !! i) as [z|] eqn:E.
    + left. exists z. apply Hfit. split; [|exact H]. apply collect_map_elem, E.
    + right. split; [apply collect_none, E|]. apply Hpair; [exact S2|apply M2, H].
Qed.
End facts.

(** ** Enough is found *)
Lemma filter_all {A} (f : A -> bool) (l : list A) : (forall x, x ∈ l -> f x = true) -> filter (fun x => f x = true) l = l.
Proof. induction l as [|x l IH]; intros H; [reflexivity|]. rewrite filter_cons_True by (apply H; left). rewrite IH; [reflexivity|]. intros y Hy. apply H. right. exact Hy. Qed.
Lemma exactly_length {A} (P : A -> Prop) n (l : list A) : exactly n P -> NoDup l -> (forall x, x ∈ l <-> P x) -> length l = n.
Proof. intros (l' & N' & H' & <-) N H. apply Permutation_length, NoDup_Permutation; [exact N|exact N'|]. intros x. rewrite H, H'. reflexivity. Qed.
Lemma pairs_either {A} (l : list A) x y : x ∈ l -> y ∈ l -> x <> y -> (x, y) ∈ pairs l \/ (y, x) ∈ pairs l.
Proof.
  intros Hx Hy Hne. apply elem_of_list_lookup in Hx as [i Hi], Hy as [j Hj]. destruct (decide (i < j)) as [L|L]; [left; apply elem_of_pairs; exists i, j; auto|]. right. apply elem_of_pairs. exists j, i. split; [|auto].
  assert (i <> j) by (intros ->; congruence). lia.
Qed.
Lemma pairs_count (l : list (nat * nat * nat)) (f : (nat * nat * nat) * (nat * nat * nat) -> bool) tt : NoDup tt ->
  (forall t t', (t, t') ∈ tt -> t ∈ l /\ t' ∈ l /\ t <> t' /\ (t', t) ∉ tt /\ f (t, t') = true /\ f (t', t) = true) -> length tt <= length (filter (fun p => f p = true) (pairs l)).
Proof.
  intros Hnd Htt. set (turned := fun p : (nat * nat * nat) * (nat * nat * nat) => if bool_decide (p ∈ pairs l) then p else (p.2, p.1)).
  transitivity (length (turned <$> tt)); [rewrite fmap_length; reflexivity|]. apply submseteq_length, NoDup_submseteq.
  - assert (forall x y, x ∈ tt -> y ∈ tt -> turned x = turned y -> x = y) as Hinj.
    { intros [a b] [a' b'] Hx Hy. destruct (Htt _ _ Hx) as (_ & _ & _ & Nx & _). destruct (Htt _ _ Hy) as (_ & _ & _ & Ny & _). unfold turned. cbn [fst snd].
      destruct (bool_decide ((a, b) ∈ pairs l)), (bool_decide ((a', b') ∈ pairs l)); intros [= -> ->]; [reflexivity|contradiction|contradiction|reflexivity]. }
    clear Htt. induction Hnd as [|x tt Hx Hnd IH]; cbn [fmap list_fmap]; [constructor|]. constructor; [|apply IH; intros a b Ha Hb; apply Hinj; right; assumption].
    intros Hin. apply elem_of_list_fmap in Hin as (y & E & Hy). apply Hx. assert (x = y) as -> by (apply Hinj; [left|right; exact Hy|exact E]). exact Hy.
  - intros p Hp. apply elem_of_list_fmap in Hp as ([a b] & -> & Hp). destruct (Htt _ _ Hp) as (Ha & Hb & Hne & _ & F1 & F2). unfold turned. cbn [fst snd]. apply elem_of_list_filter.
    destruct (bool_decide ((a, b) ∈ pairs l)) eqn:E; [apply bool_decide_eq_true in E; auto|]. apply bool_decide_eq_false in E. destruct (pairs_either l a b Ha Hb Hne); [contradiction|auto].
Qed.

Section progress.
Context {F : Type} (nearest : rmat3 -> rmat3) (eps : R) (st : gsettings RNum) (G : tools RNum F).
Notation T := (real_trig nearest eps).
Implicit Types (d : vdata riso F) (fc ff fs : frame F).
Notation bo := (t_bearing G).
Notation tri := (t_triangulate G).
Notation inc := (robust_observation_incidence_minimum_cosine_distance st).
Context (Htri : exact_triangulator tri) (Hsine : (0 < maximum_sine_distance st)%R) (Hcosine : (0 < maximum_cosine_distance st)%R) (Hmany : 32 <= three_view_optimization_landmarks st).

Lemma three_loop_exact n : forall minimum l (poses : riso * riso), rigid2 poses -> (forall x, x ∈ l -> three_agree poses x) -> (forall x, x ∈ l -> three_fit tri (maximum_cosine_distance st) inc poses.1 poses.2 x) ->
  32 <= length l -> minimum < Nat.min (three_view_optimization_landmarks st) (length l) -> three_loop T st G n minimum l poses (take (three_view_optimization_landmarks st) l) = Some poses.
Proof.
  induction n as [|n IH]; intros minimum l poses Hr Ha Hf H32 Hm.
  all: pose proof (take_length l (three_view_optimization_landmarks st)) as Hlen.
  all: assert (three_optimize T st poses (take (three_view_optimization_landmarks st) l) = poses) as Hfix
    by (unfold three_optimize; apply (three_perfect nearest eps poses 0%R three_rate (three_view_patience st)); [apply Hr|apply Hr|]; intros x Hx; apply Ha; apply elem_of_list_In, elem_of_take in Hx as (i & Hi & _); eapply elem_of_list_lookup_2, Hi).
  all: assert (((length (take (three_view_optimization_landmarks st) l) <? 32) || (length (take (three_view_optimization_landmarks st) l) <=? minimum)) = false) as Hc
    by (apply orb_false_iff; split; [apply Nat.ltb_ge|apply Nat.leb_gt]; rewrite Hlen; lia).
  all: cbn [three_loop]; rewrite Hc; cbv zeta; rewrite Hfix.
  { reflexivity. }
  assert (three_selection st G poses (maximum_cosine_distance st) l = take (three_view_optimization_landmarks st) l) as ->; [|apply IH; assumption].
  unfold three_selection. f_equal. apply filter_all. intros x Hx. apply tri_robust_spec, Hf, Hx.
Qed.

Context (knn : list F -> F -> nat -> list (nat * nat)) (margin : nat) (fc ff fs : frame F) (c1 c2 : riso).
Context (S1 : exact_pair_scene st G knn margin fc ff c1) (S2 : exact_pair_scene st G knn margin fc fs c2) (S3 : exact_triples G knn margin fc ff fs c1 c2) (En : enough_triples st G knn margin fc ff fs c1 c2).

Lemma three_view_succeeds d center first second ms1 ms2 (l1 l2 : R) : tools_ok G -> has_frame d center fc -> has_frame d first ff -> has_frame d second fs -> (0 < l1)%R -> (0 < l2)%R -> NoDup ms1 -> one_to_one ms2 ->
  pair_started st G knn margin fc ff (pose_scale c1 l1) ms1 -> pair_started st G knn margin fc fs (pose_scale c2 l2) ms2 ->
  (forall i j, (i, j) ∈ ms1 <-> mutual knn (f_feats fc) (f_feats ff) margin i j) -> (forall i j, (i, j) ∈ ms2 <-> mutual knn (f_feats fc) (f_feats fs) margin i j) ->
  exists p1 p2 t1 t2 t3, three_view T st G d center (first, (pose_scale c1 l1, ms1)) (second, (pose_scale c2 l2, ms2)) = TVaccept p1 p2 t1 t2 t3.
Proof.
  intros HG Hc Hf Hs L1 L2 Hnd1 Hone P1 P2 M1 M2. unfold three_view, sm_get. unfold has_frame in Hc, Hf, Hs. rewrite Hc, Hf, Hs. cbv zeta.
  set (q1 := pose_scale c1 l1) in *. set (q2 := pose_scale c2 l2) in *.
  set (cm := shuffled G [center; first; second] (common_matches ms1 ms2)). assert (cm ≡ₚ common_matches ms1 ms2) as Hcm by (apply shuffled_perm, HG).
  assert (forall t, t ∈ cm <-> common ms1 ms2 t) as Hin by (intros t; rewrite Hcm; apply common_elem, Hone).
  assert (NoDup cm) as Hnd by (rewrite Hcm; apply common_NoDup, Hnd1).
  set (l := omap (three_bearings_of G fc ff fs) cm).
  assert (Forall2 (triple_seen bo fc ff fs) cm l) as Hl.
  { eapply Forall2_impl; [apply (omap_total (three_bearings_of G fc ff fs) cm)|intros t x; apply three_bearings_spec]. intros [[c f] x] Ht. apply Hin in Ht as [H1 H2]. cbn [fst snd] in *. apply M1 in H1 as (_ & _ & u & v & Hu & Hv & _). apply M2 in H2 as (_ & _ & u' & w & _ & Hw & _).
    eexists. apply three_bearings_spec. exists u, v, w. cbn [fst snd]. do 3 (split; [assumption|]). reflexivity. }
  assert (forall t, common ms1 ms2 t <-> in_three knn margin fc ff fs t) as Hboth by (intros t; unfold common, in_three; rewrite M1, M2; reflexivity).
  assert (length l = length cm) as Hlen by (symmetry; eapply Forall2_length, Hl).
  destruct (en_count _ _ _ _ _ _ _ _ _ En) as (n & Hn & H32 & Hmin). assert (length cm = n) as Hcmn by (apply (exactly_length _ n cm Hn Hnd); intros t; rewrite Hin; apply Hboth).
  assert (forall x, x ∈ l -> exists t, common ms1 ms2 t /\ triple_seen bo fc ff fs t x) as Hback.
  { intros x Hx. apply elem_of_list_lookup in Hx as [i Hi]. destruct (Forall2_lookup_r _ _ _ _ _ Hl Hi) as (t & Ht & Hx). exists t. split; [apply Hin; eapply elem_of_list_lookup_2, Ht|exact Hx]. }
  assert (forall maximum x, (0 < maximum)%R -> x ∈ l -> three_fit tri maximum inc q1 (pose_scale c2 l1) x) as Hfit.
  { intros maximum x Hm Hx. destruct (Hback x Hx) as (t & Ht & Hs'). destruct (common_exact_scaled st G knn margin fc ff fs c1 c2 S1 S2 S3 ms1 ms2 M1 M2 l1 t x L1 Ht Hs') as (q & Hq & Hr). eapply (exact_fit G Htri); [exact Hm|exact Hq|exact Hr|].
    destruct (en_wide _ _ _ _ _ _ _ _ _ En t x (proj1 (Hboth t) Ht) Hs') as (i & j & y & z & Hij & Hi & Hj & Hyz). exists i, j, (scaled l1 y), (scaled l1 z). unfold q1. rewrite <- rays_scaled, !list_lookup_fmap, Hi, Hj. cbn [fmap option_fmap option_map]. auto. }
  set (ratios := omap (relative_scale st G q1 q2) l).
  set (g := fun t => three_bearings_of G fc ff fs t ≫= relative_scale st G q1 q2).
  assert (forall t r, g t = Some r <-> exists x, triple_seen bo fc ff fs t x /\ relative_scale st G q1 q2 x = Some r) as Hg.
  { intros t r. unfold g. rewrite bind_Some. split; intros (x & Hx & H); exists x; (split; [apply three_bearings_spec, Hx|exact H]). }
  assert (length ratios = length (filter (fun t => defined g t = true) cm)) as Hrl.
  { assert (ratios = omap g cm) as -> by apply omap_omap. symmetry. eapply Forall2_length, omap_filter. }
  destruct (en_scales _ _ _ _ _ _ _ _ _ En q1 q2 ms1 ms2 P1 P2) as (m & Hm & Hm0 & Hmm).
  assert (length ratios = m) as Hrm.
  { rewrite Hrl. apply (exactly_length _ m _ Hm); [apply NoDup_filter, Hnd|]. intros t. rewrite elem_of_list_filter, Hin. unfold triple_fits. split.
    - intros [H1 H2]. unfold defined in H1. destruct (g t) as [r|] eqn:Eg; [|discriminate H1]. apply Hg in Eg as (x & Hx & Hr). apply relative_scale_spec in Hr as (A1 & A2 & A3). split; [split; [exact H2|exists x; auto]|exists x, r; auto].
    - intros [[H1 (x & Hx & A1)] (x' & r & Hx' & A2 & A3)]. assert (x' = x) as ->.
      { apply three_bearings_spec in Hx, Hx'. rewrite Hx in Hx'. assert (forall a b : rvec3 * rvec3 * rvec3, Some a = Some b -> b = a) as Hinj by congruence. exact (Hinj _ _ Hx'). }
      split; [|exact H1]. unfold defined. assert (g t = Some r) as ->; [|reflexivity]. apply Hg. exists x. split; [exact Hx|]. apply relative_scale_spec. auto. }
  assert ((length ratios <? three_view_minimum_relative_scales st) = false) as -> by (apply Nat.ltb_ge; lia).
  assert (is_Some (sort_float ratios !! Nat.div (length ratios) 2)) as [med Hmed].
  { apply lookup_lt_is_Some. assert (length (sort_float ratios) = length ratios) as -> by apply Permutation_length, sort_float_perm. apply Nat.div_lt; lia. }
  rewrite Hmed.
  assert (med = ((l1 / l2) * (l1 / l2))%R) as Emed.
  { apply elem_of_list_lookup_2 in Hmed. rewrite sort_float_perm in Hmed. unfold ratios in Hmed. apply elem_of_list_omap in Hmed as (x & Hx & Ex). apply relative_scale_spec in Ex as (_ & Hd & _). destruct (Hback x Hx) as (t & Ht & Hs').
    exact (exact_ratio st G Htri knn margin fc ff fs c1 c2 S1 S2 S3 ms1 ms2 l1 l2 L1 L2 M1 M2 t x med Ht Hs' Hd). }
  assert (0 < l1 / l2)%R as Hq by (apply Rdiv_lt_0_compat; assumption).
  assert (sqrt_ med = (l1 / l2)%R) as -> by (rewrite Emed; apply sqrt_square, Rlt_le, Hq).
  assert (pose_scale q2 (l1 / l2)%R = pose_scale c2 l1) as ->. { unfold q2. rewrite scale_scale. replace (l1 / l2 * l2)%R with l1 by (field; lra). reflexivity. }
  set (poses := (q1, pose_scale c2 l1)).
  assert (three_selection st G poses one l = take (three_view_optimization_landmarks st) l) as ->.
  { unfold three_selection. f_equal. apply filter_all. intros x Hx. apply tri_robust_spec. apply Hfit; [exact Rlt_0_1|exact Hx]. }
  assert (robust_view_num_robust_bearing_pair st <= robust_pairs st (take (three_view_optimization_landmarks st) l)) as Hpairs.
  { set (usedt := take (three_view_optimization_landmarks st) cm). assert (Forall2 (triple_seen bo fc ff fs) usedt (take (three_view_optimization_landmarks st) l)) as Hu by (apply Forall2_take, Hl).
    destruct (en_apart _ _ _ _ _ _ _ _ _ En usedt) as (tt & Ntt & Htt & Hap).
    - apply NoDup_take', Hnd.
    - intros t Ht. apply Hboth, Hin. unfold usedt in Ht. apply elem_of_take in Ht as (i & Hi & _). eapply elem_of_list_lookup_2, Hi.
    - unfold usedt. rewrite take_length. lia.
    - set (ap := fun tt : (nat * nat * nat) * (nat * nat * nat) => match three_bearings_of G fc ff fs tt.1, three_bearings_of G fc ff fs tt.2 with Some x, Some y => apart st x y | _, _ => false end).
      etransitivity; [exact Htt|]. transitivity (length (filter (fun tt => ap tt = true) (pairs usedt))).
      + apply pairs_count; [exact Ntt|]. intros t t' H. destruct (Hap t t' H) as (A1 & A2 & A3 & A4 & (x & y & Hx & Hy & Hfar)). do 4 (split; [assumption|]).
        apply three_bearings_spec in Hx, Hy. unfold ap. cbn [fst snd]. rewrite Hx, Hy. unfold apart. cbv zeta in Hfar. destruct Hfar as (F1 & F2 & F3).
        assert (forall a b : R, (a < b)%R -> (a <? b)%num = true) as Hlt by (intros a b; apply (Rltb_spec a b)).
        split; (apply andb_true_iff; split; [apply andb_true_iff; split|]); apply Hlt; first [exact F1|exact F2|exact F3|rewrite cosd_comm in F1; exact F1|rewrite cosd_comm in F2; exact F2|rewrite cosd_comm in F3; exact F3].
      + apply Nat.eq_le_incl. unfold robust_pairs. eapply Forall2_length. apply (Forall2_filter _ _ _ _ _ (Forall2_pairs _ _ _ Hu)).
        intros [t t'] [x y] [Hx Hy]. cbn [fst snd] in *. apply three_bearings_spec in Hx, Hy. unfold ap. cbn [fst snd]. rewrite Hx, Hy. reflexivity. }
  assert ((robust_pairs st (take (three_view_optimization_landmarks st) l) <? robust_view_num_robust_bearing_pair st) = false) as -> by (apply Nat.ltb_ge, Hpairs).
  pose proof (take_length l (three_view_optimization_landmarks st)) as Htl.
  assert (Nat.div (length (take (three_view_optimization_landmarks st) l)) 2 < length (take (three_view_optimization_landmarks st) l)) as Hhalf by (apply Nat.div_lt; lia).
  rewrite (three_loop_exact (three_view_filter_loop_iterations st) _ l poses).
  - assert (filter (fun x => tri_robust G poses.1 poses.2 (maximum_cosine_distance st) inc x = true) l = l) as ->.
    { apply filter_all. intros x Hx. apply tri_robust_spec. apply Hfit; [exact Hcosine|exact Hx]. }
    match goal with |- context[if ?c then _ else _] => assert (c = false) as -> end.
    + apply orb_false_iff. split; [apply Nat.leb_gt|apply Nat.ltb_ge]; lia.
    + unfold three_accept. eexists _, _, _, _, _. reflexivity.
  - split; apply scale_rigid; [apply (ep_rigid _ _ _ _ _ _ _ S1)|apply (ep_rigid _ _ _ _ _ _ _ S2)].
  - intros x Hx. destruct (Hback x Hx) as (t & Ht & Hs'). destruct (common_exact_scaled st G knn margin fc ff fs c1 c2 S1 S2 S3 ms1 ms2 M1 M2 l1 t x L1 Ht Hs') as (q & Hq' & _). exists q. unfold poses. cbn [fst snd].
    split; [|split]; apply (er_sees _ _ Hq' (_, _)); [left|right; left|right; right; left].
  - intros x Hx. apply Hfit; [exact Hcosine|exact Hx].
  - lia.
  - rewrite <- Htl. exact Hhalf.
Qed.
End progress.

Section start.
Context {F : Type} (nearest : rmat3 -> rmat3) (eps : R) (st : gsettings RNum) (G : tools RNum F) (o : orders).
Implicit Types (d : vdata riso F).
Lemma try_init_exact_step :
  exact_triangulator (t_triangulate G) -> (0 < maximum_sine_distance st)%R -> (0 < maximum_cosine_distance st)%R ->
  forall similar knn sort fuel s d center options d' (cam : key -> riso),
  let e := geometric (real_trig nearest eps) st G o similar knn sort fuel in
  tools_ok G -> (forall l p ixs, t_two_view G l = Some (p, ixs) -> NoDup ixs) -> env_ok e -> data_ok d -> free_frame d center -> NoDup options -> center ∉ options -> (forall k, k ∈ options -> free_frame d k) ->
  (forall k fc fk, k ∈ options -> has_frame d center fc -> has_frame d k fk -> exact_pair_scene st G knn (two_view_match_better_by s) fc fk (cam k)) ->
  (forall k l fc fk fl, k ∈ options -> l ∈ options -> k <> l -> has_frame d center fc -> has_frame d k fk -> has_frame d l fl -> exact_triples G knn (two_view_match_better_by s) fc fk fl (cam k) (cam l)) ->
  try_init iso_id e s d center options = Ok d' ->
  exists opts, init_options e s d center options = Ok opts /\ (d' = d /\ init_pairs e d center (pairs opts) = None \/ exists first second fc ff fs unit k1 k2 r, first ∈ options /\ second ∈ options /\ first <> second /\
    has_frame d center fc /\ has_frame d first ff /\ has_frame d second fs /\ (0 < unit)%R /\
    (forall i j, (i, j) ∈ k1 <-> mutual knn (f_feats fc) (f_feats ff) (two_view_match_better_by s) i j) /\
    (forall i j, (i, j) ∈ k2 <-> mutual knn (f_feats fc) (f_feats fs) (two_view_match_better_by s) i j) /\
    data_ok d' /\ new_reconstruction iso_id d center first second (pose_scale (cam first) unit) (pose_scale (cam second) unit) k1 k2 r d' /\ exists p1 p2 x y z, init_pairs e d center (pairs opts) = Some (first, p1, (second, p2), x, y, z)).
Proof.
  intros Htri Hsine Hcosine similar knn sort fuel s d center options d' cam e HG Hinl He Hd Hc Hnd Hnc Hopt Hpair Htrip E.
  destruct (try_init_step nearest eps st G o similar knn sort fuel s d center options d' HG Hinl He Hd Hc Hnd Hnc Hopt E) as (opts & Eo & [H|H]); exists opts; (split; [exact Eo|]); [left; exact H|right].
  destruct H as (first & second & fc & ff & fs & q1 & ms1 & q2 & ms2 & scale & p1 & p2 & k1 & k2 & r & Hf & Hs & Hne & Hfc & Hff & Hfs & H1 & H2 & H3 & K1 & K2 & Hok & Hnew & Hip).
  pose proof (Hpair first fc ff Hf Hfc Hff) as S1. pose proof (Hpair second fc fs Hs Hfc Hfs) as S2. pose proof (Htrip first second fc ff fs Hf Hs Hne Hfc Hff Hfs) as S3.
  destruct (pair_found st G knn _ fc ff (cam first) q1 ms1 S1 HG Hinl H1) as (l1 & L1 & -> & M1). destruct (pair_found st G knn _ fc fs (cam second) q2 ms2 S2 HG Hinl H2) as (l2 & L2 & -> & M2).
  destruct (three_found st G Htri knn _ fc ff fs _ _ S1 S2 S3 ms1 ms2 l1 l2 L1 L2 M1 M2 scale p1 p2 H3) as [-> ->].
  destruct (kept_all st G Htri Hsine Hcosine knn _ fc ff fs _ _ S1 S2 S3 ms1 ms2 l1 L1 M1 M2) as [A1 A2].
  exists first, second, fc, ff, fs, l1, k1, k2, r. repeat (split; [assumption|]). split; [intros i j; rewrite K1, A1; apply M1|]. split; [intros i j; rewrite K2, A2; apply M2|]. split; [exact Hok|]. split; [exact Hnew|]. exists (pose_scale (cam first) l1), (pose_scale (cam second) l1). exact Hip.
Qed.

Lemma try_init_exact :
  exact_triangulator (t_triangulate G) -> (0 < maximum_sine_distance st)%R -> (0 < maximum_cosine_distance st)%R ->
  forall similar knn sort fuel s d center options d' (cam : key -> riso),
  let e := geometric (real_trig nearest eps) st G o similar knn sort fuel in
  tools_ok G -> (forall l p ixs, t_two_view G l = Some (p, ixs) -> NoDup ixs) -> env_ok e -> data_ok d -> free_frame d center -> NoDup options -> center ∉ options -> (forall k, k ∈ options -> free_frame d k) ->
  (forall k fc fk, k ∈ options -> has_frame d center fc -> has_frame d k fk -> exact_pair_scene st G knn (two_view_match_better_by s) fc fk (cam k)) ->
  (forall k l fc fk fl, k ∈ options -> l ∈ options -> k <> l -> has_frame d center fc -> has_frame d k fk -> has_frame d l fl -> exact_triples G knn (two_view_match_better_by s) fc fk fl (cam k) (cam l)) ->
  try_init iso_id e s d center options = Ok d' ->
  d' = d \/ exists first second fc ff fs unit k1 k2 r, first ∈ options /\ second ∈ options /\ first <> second /\
    has_frame d center fc /\ has_frame d first ff /\ has_frame d second fs /\ (0 < unit)%R /\
    (forall i j, (i, j) ∈ k1 <-> mutual knn (f_feats fc) (f_feats ff) (two_view_match_better_by s) i j) /\
    (forall i j, (i, j) ∈ k2 <-> mutual knn (f_feats fc) (f_feats fs) (two_view_match_better_by s) i j) /\
    data_ok d' /\ new_reconstruction iso_id d center first second (pose_scale (cam first) unit) (pose_scale (cam second) unit) k1 k2 r d'.
Proof.
  intros H1 H2 H3 similar knn sort fuel s d center options d' cam e B1 B2 B3 B4 B5 B6 B7 B8 B9 B10 E. destruct (try_init_exact_step H1 H2 H3 similar knn sort fuel s d center options d' cam B1 B2 B3 B4 B5 B6 B7 B8 B9 B10 E) as (opts & _ & [[H _]|H]); [left; exact H|right].
  destruct H as (first & second & fc & ff & fs & unit & k1 & k2 & r & A1 & A2 & A3 & A4 & A5 & A6 & A7 & A8 & A9 & A10 & A11 & _). exists first, second, fc, ff, fs, unit, k1, k2, r. repeat (split; [assumption|]). exact A11.
Qed.

Lemma pair_succeeds similar knn sort fuel s d center k fc fk cam :
  let e := geometric (real_trig nearest eps) st G o similar knn sort fuel in
  tools_ok G -> env_ok e -> has_frame d center fc -> has_frame d k fk -> exact_pair_scene st G knn (two_view_match_better_by s) fc fk cam -> enough_pair st knn (two_view_match_better_by s) fc fk ->
  exists p ms, init_two_view e s d center k = Ok (Some (p, ms)).
Proof.
  intros e HG He Hc Hk Hs (n & Hn & Hmin). pose proof (init_two_view_post False e s d center k fc fk He Hc Hk) as Hp.
  destruct (init_two_view e s d center k) as [[[p ms]|]| |] eqn:E; cbn [post] in Hp; [exists p, ms; reflexivity| |contradiction|contradiction]. exfalso. clear Hp.
  revert E. unfold init_two_view, sm_get. unfold has_frame in Hc, Hk. rewrite Hc, Hk. cbn [unwrap bind].
  change (e_knn e) with knn. destruct (symmetric_matching knn (f_feats fc) (f_feats fk) (two_view_match_better_by s)) as [ms| |] eqn:Ems; cbn [bind]; [|discriminate..].
  destruct (symmetric_matching_ok knn _ _ _ _ Ems) as (Hmut & Hnd1 & _). change (e_two_view e d center k ms) with (two_view st G d center k ms). unfold two_view, sm_get. rewrite Hc, Hk. cbv zeta.
  set (ixs := shuffled G [center; k] (seq 0 (length ms))). set (order := omap (fun i => ms !! i) ixs). set (data := omap (match_bearings G fc fk) order).
  assert (ixs ≡ₚ seq 0 (length ms)) as Hix by (apply shuffled_perm, HG).
  assert (Forall2 (fun i m => ms !! i = Some m) ixs order) as Hord.
  { apply omap_total. intros i Hi. rewrite Hix in Hi. apply elem_of_seq in Hi. apply lookup_lt_is_Some. lia. }
  assert (order ≡ₚ ms) as Hperm.
  { unfold order. transitivity (shuffled G [center; k] ms); [|apply shuffled_perm, HG]. unfold ixs, shuffled. rewrite seq_length. apply Permutation_refl'.
    pose proof (to_shuffle _ HG [center; k] (length ms)) as Hp. assert (forall i, i ∈ t_shuffle G [center; k] (length ms) -> i < length ms) as Hlt by (intros i; rewrite Hp; rewrite elem_of_seq; lia). clear Hp.
    revert Hlt. generalize (t_shuffle G [center; k] (length ms)). intros js. induction js as [|j js IH]; intros Hlt; cbn [omap list_omap]; [reflexivity|]. rewrite lookup_seq_lt by (apply Hlt; left). cbn [omap list_omap]. rewrite IH by (intros i Hi; apply Hlt; right; exact Hi). reflexivity. }
  assert (forall i j, (i, j) ∈ order <-> mutual knn (f_feats fc) (f_feats fk) (two_view_match_better_by s) i j) as Hom by (intros i j; rewrite Hperm; apply Hmut).
  assert (NoDup order) as Hnd by (rewrite Hperm; apply (NoDup_fmap_1 fst), Hnd1).
  assert (Forall2 (match_seen (t_bearing G) fc fk) order data) as Hdata.
  { eapply Forall2_impl; [apply (omap_total (match_bearings G fc fk) order)|intros m ab; apply match_bearings_spec]. intros [i j] Hm. apply Hom in Hm as (_ & _ & da & db & Hda & Hdb & _).
    eexists. apply match_bearings_spec. exists da, db. split; [exact Hda|]. split; [exact Hdb|reflexivity]. }
  assert (length ixs = length order) as Hlen by (eapply Forall2_length, Hord).
  assert (length order = length data) as Hlen' by (eapply Forall2_length, Hdata).
  assert (length order = n) as Hon by (apply (exactly_length _ n order Hn Hnd); intros [i j]; apply Hom).
  destruct (ep_consensus _ _ _ _ _ _ _ Hs order data Hnd Hom Hdata) as (lambda & _ & ->); [lia|].
  assert (length (omap (fun i => ixs !! i) (seq 0 (length data))) = length data) as Hkl.
  { transitivity (length (seq 0 (length data))); [|apply seq_length]. symmetry. eapply Forall2_length. apply omap_total. intros i Hi. apply elem_of_seq in Hi. apply lookup_lt_is_Some. lia. }
  match goal with |- context[if ?c then _ else _] => assert (c = false) as -> by (apply Nat.ltb_ge; rewrite Hkl; lia) end.
  destruct (mapM _ _) as [l| |]; cbn [bind]; discriminate.
Qed.

Lemma try_init_progress :
  exact_triangulator (t_triangulate G) -> (0 < maximum_sine_distance st)%R -> (0 < maximum_cosine_distance st)%R -> 32 <= three_view_optimization_landmarks st ->
  forall similar knn sort fuel s d center first second others (cam : key -> riso) fc ff fs,
  let e := geometric (real_trig nearest eps) st G o similar knn sort fuel in
  let options := first :: second :: others in
  tools_ok G -> (forall l p ixs, t_two_view G l = Some (p, ixs) -> NoDup ixs) -> env_ok e -> data_ok d -> free_frame d center -> NoDup options -> center ∉ options -> (forall k, k ∈ options -> free_frame d k) ->
  (forall k fk, k ∈ options -> has_frame d k fk -> exact_pair_scene st G knn (two_view_match_better_by s) fc fk (cam k)) ->
  (forall k l fk fl, k ∈ options -> l ∈ options -> k <> l -> has_frame d k fk -> has_frame d l fl -> exact_triples G knn (two_view_match_better_by s) fc fk fl (cam k) (cam l)) ->
  has_frame d center fc -> has_frame d first ff -> has_frame d second fs ->
  enough_pair st knn (two_view_match_better_by s) fc ff -> enough_pair st knn (two_view_match_better_by s) fc fs ->
  enough_triples st G knn (two_view_match_better_by s) fc ff fs (cam first) (cam second) ->
  exists d' unit r k1 k2, try_init iso_id e s d center options = Ok d' /\ (0 < unit)%R /\
    (forall i j, (i, j) ∈ k1 <-> mutual knn (f_feats fc) (f_feats ff) (two_view_match_better_by s) i j) /\
    (forall i j, (i, j) ∈ k2 <-> mutual knn (f_feats fc) (f_feats fs) (two_view_match_better_by s) i j) /\
    data_ok d' /\ new_reconstruction iso_id d center first second (pose_scale (cam first) unit) (pose_scale (cam second) unit) k1 k2 r d'.
Proof.
  intros Htri Hsine Hcosine Hmany similar knn sort fuel s d center first second others cam fc ff fs e options HG Hinl He Hd Hc Hnd Hnc Hopt Hpair Htrip Hfc Hff Hfs E1 E2 E3.
  assert (first ∈ options) as I1 by left. assert (second ∈ options) as I2 by (right; left). assert (first <> second) as Hne by (apply NoDup_cons in Hnd as [Hnd _]; intros ->; apply Hnd; left).
  assert (forall k, k ∈ options -> post False (init_two_view e s d center k) (fun _ => True)) as Htot.
  { intros k Hk. destruct (Hopt k Hk) as [[fk Hfk] _]. eapply post_mono; [apply (init_two_view_post False e s d center k fc fk He Hfc Hfk)|auto]. }
  assert (exists opts p1 ms1 p2 ms2 rest, init_options e s d center options = Ok opts /\ opts = (first, (p1, ms1)) :: (second, (p2, ms2)) :: rest /\ init_two_view e s d center first = Ok (Some (p1, ms1)) /\ init_two_view e s d center second = Ok (Some (p2, ms2))) as (opts & q1 & ms1 & q2 & ms2 & rest & Eo & Eopts & T1 & T2).
  { destruct (pair_succeeds similar knn sort fuel s d center first fc ff _ HG He Hfc Hff (Hpair _ _ I1 Hff) E1) as (p1 & ms1 & T1). destruct (pair_succeeds similar knn sort fuel s d center second fc fs _ HG He Hfc Hfs (Hpair _ _ I2 Hfs) E2) as (p2 & ms2 & T2).
    assert (post False (init_options e s d center options) (fun opts => exists rest, opts = (first, (p1, ms1)) :: (second, (p2, ms2)) :: rest)) as Hp.
    { unfold init_options. apply post_bind. apply (post_mapM False _ (fun k x => forall y, init_two_view e s d center k = Ok y -> x = (fun y => (k, y)) <$> y)).
      - intros k Hk. specialize (Htot k Hk). destruct (init_two_view e s d center k) as [y| |]; cbn [post bind] in *; [|contradiction..]. intros y' Ey. assert (y' = y) as -> by congruence. reflexivity.
      - intros ys Hys. inversion Hys as [|? x ? ys' Hx Hys']; subst. inversion Hys' as [|? x' ? ys'' Hx' _]; subst. cbn [post]. rewrite (Hx _ T1), (Hx' _ T2). cbn. eexists. reflexivity. }
    destruct (init_options e s d center options) as [opts| |]; cbn [post] in Hp; [|contradiction..]. destruct Hp as [rest Hrest]. exists opts, p1, ms1, p2, ms2, rest. auto. }
  destruct (init_two_view_geometric nearest eps st G o similar knn sort fuel s d center first fc ff q1 ms1 HG He Hfc Hff T1) as [P1 _]. destruct (init_two_view_geometric nearest eps st G o similar knn sort fuel s d center second fc fs q2 ms2 HG He Hfc Hfs T2) as [P2 _].
  pose proof (init_two_view_post False e s d center first fc ff He Hfc Hff) as O1. rewrite T1 in O1. destruct (O1 _ _ eq_refl) as [O1' _]. pose proof (init_two_view_post False e s d center second fc fs He Hfc Hfs) as O2. rewrite T2 in O2. destruct (O2 _ _ eq_refl) as [O2' _]. clear O1 O2.
  pose proof (Hpair first ff I1 Hff) as S1. pose proof (Hpair second fs I2 Hfs) as S2. pose proof (Htrip first second ff fs I1 I2 Hne Hff Hfs) as S3.
  destruct (pair_found st G knn _ fc ff (cam first) q1 ms1 S1 HG Hinl P1) as (l1 & L1 & E1' & M1). destruct (pair_found st G knn _ fc fs (cam second) q2 ms2 S2 HG Hinl P2) as (l2 & L2 & E2' & M2).
  assert (NoDup ms1) as Hndm.
  { destruct P1 as [(order & data & inliers & N1 & _ & _ & Et & Hk) _]. apply NoDup_alt. intros a b m Ha Hb. destruct (Forall2_lookup_r _ _ _ _ _ Hk Ha) as (ia & Ia & La). destruct (Forall2_lookup_r _ _ _ _ _ Hk Hb) as (ib & Ib & Lb).
    assert (ia = ib) as <- by (eapply NoDup_lookup; eassumption). eapply NoDup_lookup; [exact (Hinl _ _ _ Et)|exact Ia|exact Ib]. }
  rewrite E1' in P1. rewrite E2' in P2.
  destruct (three_view_succeeds nearest eps st G Htri Hcosine Hmany knn _ fc ff fs _ _ S1 S2 S3 E3 d center first second ms1 ms2 l1 l2 HG Hfc Hff Hfs L1 L2 Hndm O2' P1 P2 M1 M2) as (p1 & p2 & t1 & t2 & t3 & Hv).
  assert (exists x y z, init_pairs e d center (pairs opts) = Some (first, p1, (second, p2), x, y, z)) as (x & y & z & Hip).
  { rewrite Eopts. cbn [pairs app fmap list_fmap init_pairs]. change (e_three_view e d center (first, (q1, ms1)) (second, (q2, ms2))) with (three_view (real_trig nearest eps) st G d center (first, (q1, ms1)) (second, (q2, ms2))). rewrite E1', E2', Hv. eexists _, _, _. reflexivity. }
  assert (exists d', try_init iso_id e s d center options = Ok d') as [d' Ed].
  { assert (forall k fr, has_frame d k fr -> (forall r v, ~ is_view_of d r v k) -> f_view fr = None) as Hfv.
    { intros k fr Hk Hfr. apply (free_not_linked d k fr (proj1 (data_ok_inv d) Hd) Hk). intros (r' & v & H). exact (Hfr r' v H). }
    pose proof (try_init_post iso_id False e s d center options fc He (proj1 (data_ok_inv d) Hd) Hfc (Hfv _ _ Hfc (proj2 Hc)) Hnd Hnc) as Hp.
    destruct (try_init iso_id e s d center options) as [d'| |]; [exists d'; reflexivity|exfalso; apply Hp..]; intros k Hk; destruct (Hopt k Hk) as [[fk Hfk] Hk']; exists fk; (split; [exact Hfk|]); apply (Hfv k fk Hfk Hk'). }
  destruct (try_init_exact_step Htri Hsine Hcosine similar knn sort fuel s d center options d' cam HG Hinl He Hd Hc Hnd Hnc Hopt) as (opts' & Eo' & H).
  - intros k fc' fk Hk Hfc' Hfk. assert (fc' = fc) as -> by (eapply has_frame_fun; eassumption). apply Hpair; assumption.
  - intros k l fc' fk fl Hk Hl Hkl Hfc' Hfk Hfl. assert (fc' = fc) as -> by (eapply has_frame_fun; eassumption). apply Htrip; assumption.
  - exact Ed.
  - assert (opts' = opts) as -> by (change (init_options e s d center options = Ok opts') in Eo'; congruence). destruct H as [[_ H]|H]; [change (init_pairs e d center (pairs opts) = None) in H; rewrite Hip in H; discriminate H|].
    destruct H as (first' & second' & fc' & ff' & fs' & unit & k1 & k2 & r & _ & _ & _ & A4 & A5 & A6 & A7 & A8 & A9 & A10 & A11 & (p1' & p2' & x' & y' & z' & Hip')).
    change (init_pairs e d center (pairs opts) = Some (first', p1', (second', p2'), x', y', z')) in Hip'. rewrite Hip in Hip'. assert (first' = first /\ second' = second) as [-> ->] by (split; congruence).
    assert (fc' = fc) as -> by (eapply has_frame_fun; eassumption). assert (ff' = ff) as -> by (eapply has_frame_fun; eassumption). assert (fs' = fs) as -> by (eapply has_frame_fun; eassumption).
    exists d', unit, r, k1, k2. auto 10.
Qed.
End start.
