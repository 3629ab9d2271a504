(** Noise-free scenes: nothing is filtered and the pose of a new frame is found (C65). *)
From stdpp Require Import gmap list.
From Coq Require Import Reals Lra Lia.
From Verif Require Import Outcome OutcomeFacts Num Lin LinSpec LinFacts Core CoreSpec CoreFacts Geom GeomSpec GeomFacts GeomTri Optimize OptimizeSpec OptimizeFacts OptimizeProps.
From Verif Require Import Sfm SfmSpec SfmEffects SfmRec SfmReg SfmPose SfmPoseSpec SfmPoseFacts SfmGeom SfmGeomSpec SfmGeomFacts SfmGeomThms SfmGeomRigid SfmGeomReg.
Open Scope nat_scope.

(** ** Rays *)
Lemma exact_rays_incl q xs ys : exact_rays q ys -> (forall x, x ∈ xs -> x ∈ ys) -> exact_rays q xs.
Proof. intros [H1 H2 H3] H. split; [exact H1|auto|auto]. Qed.
Lemma exact_ray q xs x : exact_rays q xs -> x ∈ xs -> unit_vec (direction x) /\ exists s, (0 < s)%R /\ vsub q (centre x.1) = vscale s (direction x).
Proof.
  intros H Hx. destruct (er_sees _ _ H x Hx) as (Hp & Hs & _). destruct (sees_direction x.1 q x.2 Hp Hs) as (H1 & H2 & H3 & _). destruct x as [p b]. cbn [fst snd] in *. split; [exact H2|]. eexists. split; [exact H1|exact H3].
Qed.
Lemma exact_pair q xs x y : exact_rays q xs -> x ∈ xs -> y ∈ xs -> pair_error x y = 0%R.
Proof.
  intros H Hx Hy. destruct (exact_ray q xs x H Hx) as (_ & s & _ & Es). destruct (exact_ray q xs y H Hy) as (_ & t & _ & Et). pose proof (er_narrow _ _ H x y Hx Hy) as Hd.
  unfold pair_error. cbv zeta. destruct (Rlt_dec _ _) as [N|_]; [exfalso; exact (Rlt_irrefl _ (Rlt_le_trans _ _ _ N Hd))|].
  assert (vsub (centre x.1) (centre y.1) = vsub (vscale t (direction y)) (vscale s (direction x))) as -> by (rewrite <- Es, <- Et; generalize (centre x.1) (centre y.1); intros; lin).
  assert (dot (direction x) (cross (direction y) (vsub (vscale t (direction y)) (vscale s (direction x)))) = 0)%R as -> by (generalize (direction x) (direction y); intros; lin).
  rewrite Rabs_R0. unfold Rdiv. apply Rmult_0_l.
Qed.
Lemma exact_miss q xs x : exact_rays q xs -> x ∈ xs -> miss (from_point q) x = 0%R.
Proof.
  intros H Hx. destruct (er_sees _ _ H x Hx) as (_ & [Hn Hb] & _). unfold miss, cosd, bearing. rewrite transform_from_point by apply (er_point _ _ H). destruct (from_point_coords _ Hn) as [-> _]. rewrite Hb.
  pose proof (normalize_unit _ Hn) as Hu. unfold unit_vec in Hu. rewrite norm2_dot in Hu. rewrite Hu. ring.
Qed.
Lemma exact_apart q xs x y (inc : R) : exact_rays q xs -> x ∈ xs -> y ∈ xs -> (0 <= inc)%R -> (inc < cosd (direction x) (direction y))%R -> cross (direction x) (direction y) <> vzero.
Proof.
  intros H Hx Hy Hi Hc Hz. destruct (exact_ray q xs x H Hx) as (Ux & _). destruct (exact_ray q xs y H Hy) as (Uy & _). pose proof (er_narrow _ _ H x y Hx Hy) as Hd. unfold cosd in Hc.
  pose proof (lagrange (direction x) (direction y)) as L. rewrite Hz in L. unfold unit_vec in Ux, Uy. rewrite Ux, Uy in L. assert (norm2 (vzero : rvec3) = 0)%R as E0 by lin. rewrite E0 in L.
  revert Hc Hd L. generalize (dot (direction x) (direction y) : R). intros z. intros. nra.
Qed.
Lemma robust_resolved q ps minimum views (inc : R) : exact_rays q ps -> (0 <= inc)%R -> robust_observations minimum views inc ps -> resolved ps.
Proof.
  intros H Hi [_ (i & j & x & y & _ & Hx & Hy & Hc)]. apply elem_of_list_lookup_2 in Hx, Hy. exists x, y. split; [exact Hx|]. split; [exact Hy|]. eapply exact_apart; eassumption.
Qed.

(** The linear triangulator is exact, with a correct eigenvalue decomposition. *)
Lemma linear_exact_triangulator eigen : (forall l, exists es, eigen (design l) = Some es /\ eigen_correct (design l) es) -> exact_triangulator (linear_eigen eigen).
Proof.
  intros He q xs H (x & y & Hx & Hy & Hc). destruct (He xs) as (es & E & Hes). apply (linear_exact eigen xs q (er_point _ _ H)) with (es := es).
  - intros p b Hin. apply elem_of_list_In in Hin. destruct (er_sees _ _ H _ Hin) as (Hp & Hs & _). destruct (sees_on_line p q b Hs) as [L U]. auto.
  - exists x, y. rewrite <- !elem_of_list_In. auto.
  - exact E.
  - exact Hes.
  - intros z Hz. apply elem_of_list_In in Hz. apply (er_sees _ _ H z Hz).
Qed.

Section facts.
Context {F : Type} (nearest : rmat3 -> rmat3) (eps : R) (st : gsettings RNum) (G : tools RNum F) (o : orders).
Notation T := (real_trig nearest eps).
Implicit Types (rc : recon riso) (d : vdata riso F) (fr : frame F).
Notation bo := (t_bearing G).
Notation tri := (t_triangulate G).
Notation inc := (robust_observation_incidence_minimum_cosine_distance st).
Context (Htri : exact_triangulator tri) (Hsine : (0 < maximum_sine_distance st)%R) (Hcosine : (0 < maximum_cosine_distance st)%R) (Hinc : (0 <= inc)%R).

Lemma exact_kept d rc l x y : orders_ok o -> recon_ok d rc -> exact_recon bo o d rc -> x <> y -> assigned rc x.1 x.2 l -> assigned rc y.1 y.2 l ->
  kept_together bo tri o (maximum_sine_distance st) (maximum_cosine_distance st) d rc l x y.
Proof.
  intros Ho Hok Hex Hne Hx Hy. destruct x as [v f], y as [v' f']. cbn [fst snd] in *. destruct (assigned_observed G d rc v f l) as [px Hpx]; [apply Hok|exact Hx|]. destruct (assigned_observed G d rc v' f' l) as [py Hpy]; [apply Hok|exact Hy|].
  pose proof Hx as Hx'. pose proof Hy as Hy'. apply (ok_mirrored _ _ Hok) in Hx' as (m & Hm & Hvm). apply (ok_mirrored _ _ Hok) in Hy' as (m' & Hm' & Hvm'). assert (m' = m) as -> by (unfold has_landmark in *; congruence).
  pose proof (landmark_listed G o d rc l m Ho Hok Hm) as Hl. set (ps := pose_bearings G d rc (obs_list o l m)) in *. exists px, py, ps. split; [exact Hpx|]. split; [exact Hpy|]. split; [exact Hl|].
  apply (elem_of_obs_list o l m v f Ho) in Hvm. apply (elem_of_obs_list o l m v' f' Ho) in Hvm'.
  assert (forall z pz, z ∈ obs_list o l m -> observed bo d rc z pz -> pz ∈ ps) as Hin.
  { intros z pz Hz Hpz. destruct Hl as (m0 & Hm0 & Hall). assert (m0 = m) as -> by (unfold has_landmark in *; congruence). apply elem_of_list_lookup in Hz as [i Hi]. destruct (Forall2_lookup_l _ _ _ _ _ Hall Hi) as (pz' & Hi' & Hpz').
    assert (pz' = pz) as -> by (eapply (observed_fun G); eassumption). eapply elem_of_list_lookup_2, Hi'. }
  pose proof (Hin _ _ Hvm Hpx) as Ix. pose proof (Hin _ _ Hvm' Hpy) as Iy. destruct (Hex l ps Hl) as (q & Hq & Hc). match goal with |- context[if ?c then _ else _] => destruct c eqn:E end.
  - rewrite (exact_pair q ps px py Hq Ix Iy). exact Hsine.
  - apply Nat.eqb_neq in E. assert (resolved ps) as Hres.
    { destruct Hc as [Hc|Hc]; [|exact Hc]. exfalso. destruct Hl as (m0 & Hm0 & Hall). assert (m0 = m) as -> by (unfold has_landmark in *; congruence). apply Forall2_length in Hall.
      assert (length (obs_list o l m) <= 1) as Hlen. { etransitivity; [apply Nat.eq_le_incl, Hall|]. fold ps. lia. }
      destruct (obs_list o l m) as [|z [|z' zs]]; [apply elem_of_nil in Hvm as []| |cbn in Hlen; lia]. apply elem_of_list_singleton in Hvm, Hvm'. congruence. }
    exists (from_point q). split; [apply Htri; assumption|]. rewrite (exact_miss q ps px Hq Ix), (exact_miss q ps py Hq Iy). split; apply Rlt_le, Hcosine.
Qed.

Lemma exact_match_fits d rc fr pose m : exact_match bo o d rc fr pose m -> match_fits bo tri o (maximum_sine_distance st) (maximum_cosine_distance st) d rc fr pose m.
Proof.
  intros (x & q & ps & Hx & Hl & Hq & Hc). exists x, ps. split; [exact Hx|]. split; [exact Hl|]. assert ((pose, bo x) ∈ ps ++ [(pose, bo x)]) as Hin by (apply elem_of_app; right; left).
  unfold fits. destruct ps as [|y [|z ps]].
  - destruct Hc as [Hc|[Hc _]]; cbn in Hc; lia.
  - rewrite (exact_pair q _ _ _ Hq Hin); [exact Hsine|left].
  - destruct Hc as [Hc|[_ Hc]]; [cbn in Hc; lia|]. exists (from_point q). split; [apply Htri; assumption|]. intros w Hw. rewrite (exact_miss q _ w Hq Hw). exact Hcosine.
Qed.
Lemma exact_match_agrees d rc fr pose m bh : exact_match bo o d rc fr pose m -> triangulated bo tri o (robust_minimum_observations st) inc d rc fr m bh -> agrees pose bh.
Proof.
  intros (x & q & ps & Hx & Hl & Hq & _) (x' & ps' & Hx' & Hl' & Hr & Hh & Hb). assert (x' = x) as -> by congruence. assert (ps' = ps) as -> by (eapply (listed_all_fun G o); eassumption).
  assert (exact_rays q ps) as Hq' by (eapply exact_rays_incl; [exact Hq|]; intros z Hz; apply elem_of_app; left; exact Hz).
  rewrite (Htri q ps Hq') in Hh by (eapply robust_resolved; eassumption). left. exists q. split; [apply (er_point _ _ Hq)|]. assert (forall a b : vec4 RNum, Some a = Some b -> b = a) as Hinj by congruence. split; [exact (Hinj _ _ Hh)|].
  rewrite Hb. destruct (er_sees _ _ Hq (pose, bo x)) as (_ & Hs & _); [apply elem_of_app; right; left|exact Hs].
Qed.

(** ** Registration finds the pose *)
Lemma register_exact d rc fr ms pose : tools_ok G -> orders_ok o -> recon_ok d rc -> rigid_views rc -> NoDup ms.*2 -> (forall m l, m ∈ ms -> l ∈ m.1 -> exists x, has_landmark rc l x) ->
  (forall m, m ∈ ms -> exact_match bo o d rc fr pose m) ->
  (forall points, (forall bh, bh ∈ points -> agrees pose bh) -> single_view_minimum_landmarks st <= length points -> t_single_view G points = Some (pose, seq 0 (length points))) ->
  0 < single_view_optimization_num_matches st -> single_view_minimum_robust_landmarks st <= length ms ->
  (exists n, exactly n (fun m => m ∈ ms /\ exists bh, triangulated bo tri o (robust_minimum_observations st) inc d rc fr m bh) /\ 0 < n /\ single_view_minimum_landmarks st <= n) ->
  exists ok, register T st G o d rc fr ms = Some (pose, ok) /\ forall m, m ∈ ms -> ok m = true.
Proof.
  intros HG Ho Hok Hrig Hnd Hls Hex Hcons Hcap Hmin (n & (lm & Hlnd & Hlin & Hll) & Hn0 & Hn).
  assert (forall m, m ∈ ms -> match_consistent st G o d rc fr pose m = true) as Hacc by (intros m Hm; apply match_consistent_spec; try assumption; [exact (fun l => Hls m l Hm)|apply exact_match_fits, Hex, Hm]).
  exists (match_consistent st G o d rc fr pose). split; [|exact Hacc]. unfold register. set (count := fun m : list key * nat => foldr Nat.add 0 (observation_count rc <$> m.1)). cbv zeta. set (ms' := sort_most count ms). assert (ms' ≡ₚ ms) as Hperm by apply sort_most_perm.
  assert (forall m, m ∈ ms' -> m ∈ ms) as Hin by (intros m; rewrite Hperm; auto). set (points := omap (match_point st G o d rc fr) ms').
  assert (forall bh, bh ∈ points -> agrees pose bh) as Hag.
  { intros bh Hbh. unfold points in Hbh. apply elem_of_list_omap in Hbh as (m & Hm & E). apply match_point_spec in E; [|assumption..|intros l; apply Hls, Hin, Hm]. eapply exact_match_agrees; [apply Hex, Hin, Hm|exact E]. }
  assert (length points = n) as Hlen.
  { unfold points. rewrite <- (Forall2_length _ _ _ (omap_filter (match_point st G o d rc fr) ms')), <- Hll. apply Permutation_length. apply NoDup_Permutation.
    - apply NoDup_filter. apply (NoDup_fmap_1 snd). rewrite Hperm. exact Hnd.
    - exact Hlnd.
    - intros m. rewrite elem_of_list_filter, Hlin, Hperm. unfold defined. split.
      + intros [H1 H2]. split; [exact H2|]. destruct (match_point st G o d rc fr m) as [bh|] eqn:E; [|discriminate H1]. exists bh. apply match_point_spec; [assumption..|exact (fun l => Hls m l H2)|exact E].
      + intros [H1 [bh H2]]. split; [|exact H1]. apply match_point_spec in H2; [|assumption..|exact (fun l => Hls m l H1)]. rewrite H2. reflexivity. }
  destruct (length points <? single_view_minimum_landmarks st) eqn:E1; [apply Nat.ltb_lt in E1; lia|]. clear E1. rewrite (Hcons points Hag) by lia.
  assert (omap (fun i => points !! i) (seq 0 (length points)) = points) as Hall.
  { clear. generalize points. intros pts. clear points. rename pts into points. transitivity (omap (fun i => points !! i) (seq 0 (length points))); [reflexivity|]. induction points as [|x l IH]; [reflexivity|]. cbn [length seq]. rewrite <- fmap_S_seq. cbn [omap list_omap lookup list_lookup]. f_equal. etransitivity; [|exact IH]. clear. generalize (seq 0 (length l)). intros js. induction js as [|j js IHj]; [reflexivity|]. rewrite fmap_cons. cbn [omap list_omap]. change ((x :: l) !! S j) with (l !! j). destruct (l !! j); [f_equal|]; exact IHj. }
  rewrite Hall. set (used := take (single_view_optimization_num_matches st) points).
  assert (0 < length used) as Hused by (unfold used; rewrite take_length; lia).
  assert (consistent_points st G o d rc fr ms' pose = used) as Hagain.
  { unfold consistent_points, used, points. f_equal. f_equal. assert (forall l : list (list key * nat), (forall m, m ∈ l -> m ∈ ms) -> filter (fun m => match_consistent st G o d rc fr pose m = true) l = l) as Hf.
    { induction l as [|m l IH]; intros Hs; [reflexivity|]. rewrite filter_cons, decide_True by (apply Hacc, Hs; left). f_equal. apply IH. intros m' Hm'. apply Hs. right. exact Hm'. }
    apply Hf, Hin. }
  assert (forall k, single_loop T st (consistent_points st G o d rc fr ms') k (Nat.div (length used) 2) pose used = Some pose) as Hloop.
  { assert (single_optimize T st pose used = pose) as Hfix.
    { unfold single_optimize. apply (single_perfect nearest eps pose 0%R (single_view_optimization_rate st) (single_view_patience st) used). intros x Hx. apply Hag. apply elem_of_list_In in Hx. unfold used in Hx. apply elem_of_take in Hx as (i & Hi & _). eapply elem_of_list_lookup_2, Hi. }
    assert ((length used <=? Nat.div (length used) 2) = false) as Hhalf by (apply Nat.leb_gt, Nat.div_lt; lia).
    induction k as [|k IH]; cbn [single_loop]; rewrite Hhalf; cbv zeta; rewrite Hfix; [reflexivity|]. rewrite Hagain. exact IH. }
  rewrite Hloop. set (good := filter (fun m => match_consistent st G o d rc fr pose m = true) ms').
  assert (good = ms') as Hgood. { unfold good. revert Hin. clear -Hacc. induction ms' as [|m l IH]; intros Hs; [reflexivity|]. rewrite filter_cons, decide_True by (apply Hacc, Hs; left). f_equal. apply IH. intros m' Hm'. apply Hs. right. exact Hm'. }
  rewrite Hgood. fold points. assert ((length points <=? Nat.div (length used) 2) = false) as ->.
  { apply Nat.leb_gt. assert (length used <= length points) by (unfold used; rewrite take_length; lia). pose proof (Nat.div_lt (length used) 2). lia. }
  assert ((length ms' <? single_view_minimum_robust_landmarks st) = false) as ->; [|reflexivity]. apply Nat.ltb_ge. rewrite Hperm. exact Hmin.
Qed.

Context (similar : vdata riso F -> key -> nat -> list key) (knn : list F -> F -> nat -> list (nat * nat))
  (sort : list (key * key * key * list key) -> list (key * key * key * list key)) (fuel : nat).
Notation e := (geometric T st G o similar knn sort fuel).

Lemma filter_exact d r rc : orders_ok o -> data_ok d -> has_recon d r rc -> rigid_views rc -> exact_recon bo o d rc ->
  exists d' b rc' n, filter_observations e d r = Ok (d', b) /\ data_ok d' /\ only_recon r d d' /\ separated rc rc' /\
    (forall x y, same_track rc' x y <-> same_track rc x y) /\
    exactly n (robust_landmark bo (robust_minimum_observations st) inc d rc') /\ (b = true <-> minimum_robust_landmarks st <= n) /\
    if b then has_recon d' r rc' else sm_map (d_recs d') !! r = None.
Proof.
  intros Ho Hd Hr Hrig Hex. destruct (filter_observations_geometric T st G o similar knn sort fuel d r rc Ho Hd Hr Hrig) as (d' & b & rc' & n & H1 & H2 & H3 & H4 & H5 & H6).
  exists d', b, rc', n. do 4 (split; [assumption|]). split; [|exact H6]. intros x y. destruct (decide (x = y)) as [<-|Hne].
  - pose proof (sep_observations _ _ H4 x) as Hobs. split; intros (l & Hx & _).
    + destruct (proj1 Hobs) as [l' Hl']; [exists l; exact Hx|]. exists l'. auto.
    + destruct (proj2 Hobs) as [l' Hl']; [exists l; exact Hx|]. exists l'. auto.
  - rewrite (H5 x y Hne). split; [intros (l & Hx & Hy & _); exists l; auto|]. intros (l & Hx & Hy). exists l. split; [exact Hx|]. split; [exact Hy|]. apply exact_kept; try assumption. apply (ok_recons _ Hd r rc Hr).
Qed.

Lemma register_frame_exact s d r k views rc fr pose res :
  tools_ok G -> env_ok e -> has_recon d r rc -> recon_ok d rc -> rigid_views rc -> has_frame d k fr ->
  (forall v, v ∈ views -> exists w, has_view rc v w) -> 0 < single_view_match_better_by s ->
  (forall hi ms, usable_matches e s d rc (f_feats fr) views hi ms -> forall m, m ∈ ms -> exact_match bo o d rc fr pose m) ->
  (forall points, (forall bh, bh ∈ points -> agrees pose bh) -> single_view_minimum_landmarks st <= length points -> t_single_view G points = Some (pose, seq 0 (length points))) ->
  0 < single_view_optimization_num_matches st ->
  (forall ms, usable_matches e s d rc (f_feats fr) views (length (f_feats fr)) ms -> single_view_minimum_robust_landmarks st <= length ms /\
    exists n, exactly n (fun m => m ∈ ms /\ exists bh, triangulated bo tri o (robust_minimum_observations st) inc d rc fr m bh) /\ 0 < n /\ single_view_minimum_landmarks st <= n) ->
  register_frame e s d r k views = Ok res ->
  exists found hi ms, res = Some (pose, found) /\ usable_matches e s d rc (f_feats fr) views hi ms /\ forall f ls, found !! f = Some ls <-> (ls, f) ∈ ms.
Proof.
  intros HG He Hr Hok Hrig Hfr Hv Hby Hex Hcons Hcap Henough E. pose proof (eo_orders _ He) as Ho.
  assert (forall hi ms m l, usable_matches e s d rc (f_feats fr) views hi ms -> m ∈ ms -> l ∈ m.1 -> exists x, has_landmark rc l x) as Hlm.
  { intros hi ms [ls f] l Hum Hm Hl. destruct (um_clear _ _ _ _ _ _ _ _ Hum ls f Hm) as (_ & desc & _ & Hc). eapply clear_landmarks; eassumption. }
  destruct res as [[p found]|].
  - destruct (register_frame_geometric nearest eps st G o similar knn sort fuel s d r k views rc fr p found HG He Hr Hok Hrig Hfr Hv Hby E) as (hi & ms & points & start & inliers & _ & Hum & Hreg).
    assert (forall bh, bh ∈ points -> agrees pose bh) as Hag.
    { intros bh Hbh. destruct (rg_points _ _ _ _ _ _ _ _ _ _ _ _ Hreg) as (good & _ & Hg & Hall & _). apply elem_of_list_lookup in Hbh as [i Hi]. destruct (Forall2_lookup_r _ _ _ _ _ Hall Hi) as (m & Hm & Ht). apply elem_of_list_lookup_2, Hg in Hm as [Hm _].
      eapply exact_match_agrees; [eapply Hex; eassumption|exact Ht]. }
    pose proof (rg_consensus _ _ _ _ _ _ _ _ _ _ _ _ Hreg) as Hc. rewrite (Hcons points Hag (rg_enough _ _ _ _ _ _ _ _ _ _ _ _ Hreg)) in Hc.
    assert (forall (x y : riso) (f g : list nat), Some (x, f) = Some (y, g) -> y = x) as Hinj by congruence. apply Hinj in Hc. rewrite Hc in Hreg. assert (p = pose) as -> by (apply (rg_perfect _ _ _ _ _ _ _ _ _ _ _ _ Hreg), Hag).
    exists found, hi, ms. split; [reflexivity|]. split; [exact Hum|]. intros f ls. rewrite (rg_found _ _ _ _ _ _ _ _ _ _ _ _ Hreg). split; [tauto|]. intros Hm. split; [exact Hm|]. apply exact_match_fits. eapply Hex; eassumption.
  - exfalso. destruct (register_frame_answer e s d r k views rc fr _ He Hr Hok Hfr Hv Hby E) as (hi & _ & (ms & Hum & Hreg) & Hhi). rewrite (Hhi eq_refl) in Hum. destruct (Henough ms Hum) as [Hm1 Hm2].
    destruct (register_exact d rc fr ms pose HG Ho Hok Hrig (um_once _ _ _ _ _ _ _ _ Hum)) as (ok & Hs & _); [intros m l; apply (Hlm _ _ _ _ Hum)|eapply Hex; eassumption|exact Hcons|exact Hcap|exact Hm1|exact Hm2|].
    cbn [e_register geometric] in Hreg. unfold on_recon, sm_get in Hreg. unfold has_recon in Hr. unfold has_frame in Hfr. rewrite Hr, Hfr, Hs in Hreg. discriminate Hreg.
Qed.
End facts.
