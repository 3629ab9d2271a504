(** Registration of a frame with the numerical code (C64). *)
From stdpp Require Import gmap list.
From Coq Require Import Reals Lra Lia.
From Verif Require Import Outcome OutcomeFacts Num Lin LinSpec LinFacts Core CoreSpec CoreFacts Geom GeomSpec Optimize OptimizeSpec OptimizeFacts OptimizeProps.
From Verif Require Import Sfm SfmSpec SfmRec SfmReg SfmPose SfmPoseSpec SfmPoseFacts SfmGeom SfmGeomSpec SfmGeomFacts SfmGeomRigid.
Open Scope nat_scope.

(** ** Lists *)
Section lists.
Context {A : Type}.
Implicit Types (l : list A).
Lemma insert_most_perm (count : A -> nat) x l : insert_most count x l ≡ₚ x :: l.
Proof. induction l as [|y l IH]; [reflexivity|]. cbn [insert_most]. destruct (_ <=? _); [reflexivity|]. rewrite IH. apply Permutation_swap. Qed.
Lemma sort_most_perm (count : A -> nat) l : sort_most count l ≡ₚ l.
Proof. induction l as [|x l IH]; [reflexivity|]. unfold sort_most in *. cbn [foldr]. rewrite insert_most_perm, IH. reflexivity. Qed.
Definition descending (count : A -> nat) l : Prop := forall i j x y, i < j -> l !! i = Some x -> l !! j = Some y -> count y <= count x.
Lemma descending_cons (count : A -> nat) x l : descending count (x :: l) <-> (forall y, y ∈ l -> count y <= count x) /\ descending count l.
Proof.
  split.
  - intros H. split.
    + intros y Hy. apply elem_of_list_lookup in Hy as [j Hj]. apply (H 0 (S j) x y); [lia|reflexivity|exact Hj].
    + intros i j a b Hij Ha Hb. apply (H (S i) (S j)); [lia|exact Ha|exact Hb].
  - intros [H1 H2] [|i] [|j] a b Hij Ha Hb; try lia; cbn in Ha, Hb.
    + injection Ha as ->. apply H1. eapply elem_of_list_lookup_2, Hb.
    + apply (H2 i j); [lia|exact Ha|exact Hb].
Qed.
Lemma insert_most_descending (count : A -> nat) x l : descending count l -> descending count (insert_most count x l).
Proof.
  induction l as [|y l IH]; intros H; cbn [insert_most]; [apply descending_cons; split; [intros z Hz; apply elem_of_nil in Hz as []|exact H]|]. destruct (count y <=? count x) eqn:E.
  - apply Nat.leb_le in E. apply descending_cons. split; [|exact H]. apply descending_cons in H as [H _]. intros z Hz. apply elem_of_cons in Hz as [->|Hz]; [exact E|]. etransitivity; [apply H, Hz|exact E].
  - apply Nat.leb_gt in E. apply descending_cons in H as [H1 H2]. apply descending_cons. split; [|apply IH, H2]. intros z Hz. rewrite insert_most_perm in Hz. apply elem_of_cons in Hz as [->|Hz]; [lia|apply H1, Hz].
Qed.
Lemma sort_most_descending (count : A -> nat) l : descending count (sort_most count l).
Proof. induction l as [|x l IH]; [intros i j a b _ H; exfalso; change (([] : list A) !! i = Some a) in H; rewrite lookup_nil in H; discriminate H|]. unfold sort_most in *. cbn [foldr]. apply insert_most_descending, IH. Qed.
Lemma descending_filter (count : A -> nat) (P : A -> Prop) `{forall x, Decision (P x)} l : descending count l -> descending count (filter P l).
Proof.
  induction l as [|x l IH]; intros Hd; [exact Hd|]. apply descending_cons in Hd as [H1 H2]. rewrite filter_cons. destruct (decide (P x)); [|apply IH, H2]. apply descending_cons. split; [|apply IH, H2].
  intros y Hy. apply elem_of_list_filter in Hy as [_ Hy]. apply H1, Hy.
Qed.
Lemma omap_length_in {B} (f : A -> option B) l : (forall x, x ∈ l -> is_Some (f x)) -> length (omap f l) = length l.
Proof. induction l as [|x l IH]; intros H; [reflexivity|]. cbn [omap list_omap]. destruct (H x) as [y ->]; [left|]. cbn. f_equal. apply IH. intros z Hz. apply H. right. exact Hz. Qed.
Definition defined {B} (f : A -> option B) (x : A) : bool := match f x with Some _ => true | None => false end.
Lemma omap_filter {B} (f : A -> option B) l : Forall2 (fun x y => f x = Some y) (filter (fun x => defined f x = true) l) (omap f l).
Proof.
  induction l as [|x l IH]; [constructor|]. rewrite filter_cons. cbn [omap list_omap]. destruct (decide (defined f x = true)) as [E|E].
  - pose proof E as E'. unfold defined in E'. destruct (f x) as [y|] eqn:Ey; [|discriminate E']. constructor; assumption.
  - pose proof E as E'. unfold defined in E'. destruct (f x) as [y|] eqn:Ey; [contradiction|exact IH].
Qed.
Lemma NoDup_filter_fmap {B} (g : A -> B) (P : A -> Prop) `{forall x, Decision (P x)} l : NoDup (g <$> l) -> NoDup (g <$> filter P l).
Proof.
  induction l as [|x l IH]; intros Hd; [exact Hd|]. rewrite fmap_cons in Hd. apply NoDup_cons in Hd as [H1 H2]. rewrite filter_cons. destruct (decide (P x)); [|apply IH, H2]. rewrite fmap_cons. apply NoDup_cons. split; [|apply IH, H2].
  intros Hx. apply H1. apply elem_of_list_fmap in Hx as (y & E & Hy). apply elem_of_list_filter in Hy as [_ Hy]. rewrite E. apply elem_of_list_fmap_1, Hy.
Qed.
End lists.

Section facts.
Context {F : Type} (nearest : rmat3 -> rmat3) (eps : R) (st : gsettings RNum) (G : tools RNum F) (o : orders).
Notation T := (real_trig nearest eps).
Implicit Types (rc : recon riso) (d : vdata riso F) (fr : frame F).
Notation bo := (t_bearing G).
Notation tri := (t_triangulate G).
Notation inc := (robust_observation_incidence_minimum_cosine_distance st).

(** ** Groups of landmarks *)
Lemma group_listed d rc ls : orders_ok o -> recon_ok d rc -> (forall l, l ∈ ls -> exists m, has_landmark rc l m) ->
  listed_all bo o d rc ls (pose_bearings G d rc (landmarks_observations o rc ls)).
Proof.
  intros Ho Hok H. exists ((fun l => pose_bearings G d rc (landmark_observations o rc l)) <$> ls). split.
  - apply Forall2_fmap_r. apply Forall2_same_length_lookup. split; [reflexivity|]. intros i x y Hx Hy. assert (y = x) as -> by congruence. destruct (H x) as [m Hm]; [eapply elem_of_list_lookup_2, Hx|]. unfold compose. rewrite (landmark_list o rc x m Hm). apply landmark_listed; assumption.
  - unfold landmarks_observations, pose_bearings. clear. induction ls as [|l ls IH]; [reflexivity|]. rewrite !fmap_cons. cbn [mjoin list_join]. etransitivity; [apply omap_app|]. f_equal. exact IH.
Qed.
Lemma listed_all_fun d rc ls ps qs : listed_all bo o d rc ls ps -> listed_all bo o d rc ls qs -> ps = qs.
Proof.
  intros (pss & Hp & ->) (qss & Hq & ->). f_equal. revert qss Hq. induction Hp as [|l p ls pss Hl _ IH]; intros qss Hq; [apply Forall2_nil_inv_l in Hq as ->; reflexivity|].
  apply Forall2_cons_inv_l in Hq as (q & qss' & Hq & Hqs & ->). f_equal; [eapply listed_fun; eassumption|apply IH, Hqs].
Qed.
Lemma group_rigid d rc ls ps x : rigid_views rc -> listed_all bo o d rc ls ps -> x ∈ ps -> rigid x.1.
Proof.
  intros Hr (pss & Hp & ->) Hx. apply elem_of_list_join in Hx as (p & Hx & Hps). apply elem_of_list_lookup in Hps as [i Hi]. destruct (Forall2_lookup_r _ _ _ _ _ Hp Hi) as (l & _ & m & _ & Hall).
  apply elem_of_list_lookup in Hx as [j Hj]. destruct (Forall2_lookup_r _ _ _ _ _ Hall Hj) as (y & _ & (w & fr & f & Hw & _ & _ & ->)). exact (Hr _ _ Hw).
Qed.
Lemma count_observations rc ls n : observations_of rc ls n -> foldr Nat.add 0 (observation_count rc <$> ls) = n.
Proof.
  intros (ns & H & ->). induction H as [|l k ls ns (m & Hm & Hk) _ IH]; [reflexivity|]. rewrite fmap_cons. cbn [foldr]. rewrite IH. unfold observation_count at 1, sm_get. unfold has_landmark in Hm. rewrite Hm, Hk. reflexivity.
Qed.

Lemma observations_robust_spec d rc ls ps : orders_ok o -> recon_ok d rc -> (forall l, l ∈ ls -> exists m, has_landmark rc l m) -> listed_all bo o d rc ls ps ->
  landmarks_robust st G o d rc ls = true <-> robust_observations (robust_minimum_observations st) (size (sm_map (r_views rc))) inc ps.
Proof.
  intros Ho Hok Hls Hps. pose proof (group_listed d rc ls Ho Hok Hls) as Hl. assert (ps = pose_bearings G d rc (landmarks_observations o rc ls)) as -> by (eapply listed_all_fun; eassumption).
  unfold landmarks_robust, observations_robust, robust_observations.
  assert (length (pose_bearings G d rc (landmarks_observations o rc ls)) = length (landmarks_observations o rc ls)) as Hlen.
  { unfold pose_bearings. apply omap_length_in. intros [v f] Hx. unfold landmarks_observations in Hx. apply elem_of_list_join in Hx as (xs & Hx & Hxs). apply elem_of_list_fmap in Hxs as (l & -> & Hin). destruct (Hls l Hin) as [m Hm]. rewrite (landmark_list o rc l m Hm) in Hx.
    apply (elem_of_obs_list o l m v f Ho) in Hx. destruct (assigned_observed G d rc v f l) as [p Hp]; [apply Hok|apply (ok_mirrored _ _ Hok); exists m; auto|]. apply pose_bearing_iff in Hp. eauto. }
  match goal with |- context[(_ <= ?n \/ _ <= ?n)] => replace n with (length (landmarks_observations o rc ls)) by (symmetry; exact Hlen) end.
  rewrite andb_true_iff, Nat.leb_le, (existsb_pairs_sym (incident (N := RNum) inc)).
  2: { intros a b. apply eq_bool_prop_intro. rewrite !Is_true_true, !incident_spec, cosd_comm. reflexivity. }
  apply Morphisms_Prop.and_iff_morphism; [unfold sm_size; lia|]. split.
  - intros (i & j & a & b & Hij & Ha & Hb & H). rewrite list_lookup_fmap in Ha, Hb. apply fmap_Some in Ha as (x & Hx & ->). apply fmap_Some in Hb as (y & Hy & ->). exists i, j, x, y. split; [exact Hij|]. split; [exact Hx|]. split; [exact Hy|]. apply incident_spec. exact H.
  - intros (i & j & x & y & Hij & Hx & Hy & H). exists i, j, (world_ray x), (world_ray y). split; [exact Hij|]. split; [rewrite list_lookup_fmap; apply fmap_Some; exists x; split; [exact Hx|reflexivity]|]. split; [rewrite list_lookup_fmap; apply fmap_Some; exists y; split; [exact Hy|reflexivity]|]. apply incident_spec. exact H.
Qed.

Lemma match_point_spec d rc fr m bh : orders_ok o -> recon_ok d rc -> (forall l, l ∈ m.1 -> exists x, has_landmark rc l x) ->
  match_point st G o d rc fr m = Some bh <-> triangulated bo tri o (robust_minimum_observations st) inc d rc fr m bh.
Proof.
  intros Ho Hok Hls. pose proof (group_listed d rc m.1 Ho Hok Hls) as Hl. pose proof (observations_robust_spec d rc m.1 _ Ho Hok Hls Hl) as Hr. unfold match_point, triangulate_robust, frame_bearing, triangulated.
  set (ps := pose_bearings G d rc (landmarks_observations o rc m.1)) in *. destruct bh as [b h]. cbn [fst snd]. split.
  - destruct (f_feats fr !! m.2) as [x|]; [|discriminate]. cbn. destruct (landmarks_robust st G o d rc m.1); [|discriminate]. destruct (t_triangulate G ps) as [h'|] eqn:Eh; [|discriminate].
    intros E. assert (b = t_bearing G x /\ h = h') as [-> ->] by (split; congruence). exists x, ps. split; [reflexivity|]. split; [exact Hl|]. split; [apply Hr; reflexivity|]. auto.
  - intros (x & ps' & Hx & Hl' & Hr' & Hh & ->). assert (ps' = ps) as -> by (eapply listed_all_fun; eassumption). apply Hr in Hr'. rewrite Hx, Hr', Hh. reflexivity.
Qed.

Lemma consistent_spec (pose : riso) (b : rvec3) ps : (forall x, x ∈ ps -> rigid x.1) ->
  consistent st G pose b ps = true <-> fits tri (maximum_sine_distance st) (maximum_cosine_distance st) (pose, b) ps.
Proof.
  intros Hrig. assert (forall qs, (match tri (qs ++ [(pose, b)]) with None => false | Some p => forallb (fun x => (point_distance p x <? maximum_cosine_distance st)%num) (qs ++ [(pose, b)]) end) = true <->
    exists h, tri (qs ++ [(pose, b)]) = Some h /\ forall y, y ∈ qs ++ [(pose, b)] -> (miss h y < maximum_cosine_distance st)%R) as Hmany.
  { intros qs. destruct (tri (qs ++ [(pose, b)])) as [h|].
    - rewrite forallb_forall. assert (forall x, ltb (point_distance h x) (maximum_cosine_distance st) = true <-> (miss h x < maximum_cosine_distance st)%R) as E by (intros x; apply Rltb_spec). split.
      + intros H. exists h. split; [reflexivity|]. intros y Hy. apply E, H. apply elem_of_list_In, Hy.
      + intros (h' & Eh & H) y Hy. assert (h' = h) as -> by congruence. apply E, H. apply elem_of_list_In, Hy.
    - split; [discriminate|]. intros (h & E & _). discriminate E. }
  unfold consistent, fits. destruct ps as [|[q c] [|y ps]]; [split; [discriminate|contradiction]| |apply Hmany].
  unfold bi_robust. assert (rigid q) as Hq by (apply (Hrig (q, c)); left). rewrite (pair_error_loss pose q b c Hq). apply Rltb_spec.
Qed.
Lemma match_consistent_spec d rc fr (pose : riso) m : orders_ok o -> recon_ok d rc -> rigid_views rc -> (forall l, l ∈ m.1 -> exists x, has_landmark rc l x) ->
  match_consistent st G o d rc fr pose m = true <-> match_fits bo tri o (maximum_sine_distance st) (maximum_cosine_distance st) d rc fr pose m.
Proof.
  intros Ho Hok Hrig Hls. pose proof (group_listed d rc m.1 Ho Hok Hls) as Hl. unfold match_consistent, match_fits, frame_bearing. set (ps := pose_bearings G d rc (landmarks_observations o rc m.1)) in *.
  assert (forall x, x ∈ ps -> rigid x.1) as Hr by (intros x Hx; eapply group_rigid; eassumption). destruct (f_feats fr !! m.2) as [x|].
  - cbn. rewrite consistent_spec by exact Hr. split; [intros H; exists x, ps; auto|]. intros (x' & ps' & Ex & Hl' & H). assert (x' = x) as -> by congruence. assert (ps' = ps) as -> by (eapply listed_all_fun; eassumption). exact H.
  - cbn. split; [discriminate|]. intros (x' & ps' & Ex & _). discriminate Ex.
Qed.

Lemma single_loop_perfect again n : forall minimum (pose : riso) used pose', (forall bh, bh ∈ used -> agrees pose bh) -> (forall p bh, bh ∈ again p -> agrees pose bh) ->
  single_loop T st again n minimum pose used = Some pose' -> pose' = pose.
Proof.
  assert (forall (pose : riso) used, (forall bh, bh ∈ used -> agrees pose bh) -> single_optimize T st pose used = pose) as Hfix.
  { intros pose used H. unfold single_optimize. apply (single_perfect nearest eps pose 0%R (single_view_optimization_rate st) (single_view_patience st) used). intros l Hl. apply H, elem_of_list_In, Hl. }
  induction n as [|n IH]; intros minimum pose used pose' Hu Ha; cbn [single_loop]; destruct (length used <=? minimum); try discriminate; cbv zeta; rewrite (Hfix pose used Hu).
  - intros E. assert (forall x y : riso, Some x = Some y -> y = x) as Hinj by congruence. exact (Hinj _ _ E).
  - apply IH; [|exact Ha]. intros bh H. eapply Ha, H.
Qed.

Lemma clear_landmarks (e : env riso F) s d rc views desc ls : recon_ok d rc -> clear_match e s d rc views desc ls -> forall l, l ∈ ls -> exists m, has_landmark rc l m.
Proof.
  intros Hok Hc. assert (forall l x, best_offer e d rc views desc l x -> exists m, has_landmark rc l m) as Hb.
  { intros l x [(v & w & fr & i & _ & Hw & _ & _ & Hi) _]. assert (assigned rc v i l) as H by (exists w; auto). apply (ok_mirrored _ _ Hok) in H as (m & Hm & _). eauto. }
  destruct Hc as [a x Ha _|a b x y ma mb _ _ _ _ _ _ Ha Hb' _]; intros l Hl; rewrite !elem_of_cons, elem_of_nil in Hl.
  - destruct Hl as [->|[]]. eapply Hb, Ha.
  - destruct Hl as [->|[->|[]]]; eauto.
Qed.

Lemma register_spec d rc fr ms pose ok found : tools_ok G -> orders_ok o -> recon_ok d rc -> rigid_views rc -> NoDup ms.*2 -> (forall m l, m ∈ ms -> l ∈ m.1 -> exists x, has_landmark rc l x) ->
  register T st G o d rc fr ms = Some (pose, ok) -> (forall f ls, found !! f = Some ls <-> (ls, f) ∈ ms /\ ok (ls, f) = true) ->
  exists points start inliers, registered st G o d rc fr ms pose found points start inliers.
Proof.
  intros HG Ho Hok Hrig Hnd Hls Hreg Hfound. pose proof Hreg as Hrigid. apply (register_rigid nearest eps st G o HG) in Hrigid. unfold register in Hreg. set (count := fun m : list key * nat => foldr Nat.add 0 (observation_count rc <$> m.1)) in Hreg. cbv zeta in Hreg.
  set (ms' := sort_most count ms) in Hreg. assert (ms' ≡ₚ ms) as Hperm by apply sort_most_perm. set (points := omap (match_point st G o d rc fr) ms') in Hreg.
  destruct (length points <? single_view_minimum_landmarks st) eqn:E1; [discriminate Hreg|]. apply Nat.ltb_ge in E1. destruct (t_single_view G points) as [[start inliers]|] eqn:E2; [|discriminate Hreg].
  set (used := take (single_view_optimization_num_matches st) (omap (fun i => points !! i) inliers)) in Hreg. destruct (single_loop _ _ _ _ _ _ _) as [pose'|] eqn:E3; [|discriminate Hreg].
  set (good := filter (fun m => match_consistent st G o d rc fr pose' m = true) ms') in Hreg. destruct (_ <=? _) eqn:E4; [discriminate Hreg|]. apply Nat.leb_gt in E4. destruct (length good <? _) eqn:E5; [discriminate Hreg|]. apply Nat.ltb_ge in E5.
  assert (forall (x y : riso) (f g : list key * nat -> bool), Some (x, f) = Some (y, g) -> x = y /\ f = g) as Hinj by (intros; split; congruence). destruct (Hinj _ _ _ _ Hreg) as [-> <-]. clear Hinj Hreg.
  assert (forall m, m ∈ ms' <-> m ∈ ms) as Hin by (intros m; rewrite Hperm; reflexivity).
  assert (NoDup ms'.*2) as Hnd' by (rewrite Hperm; exact Hnd).
  assert (forall m, m ∈ good <-> m ∈ ms /\ match_consistent st G o d rc fr pose m = true) as Hgood by (intros m; unfold good; rewrite elem_of_list_filter, Hin; tauto).
  assert (NoDup good.*2) as Hndg by (apply NoDup_filter_fmap, Hnd').
  assert (dom found = (list_to_set good.*2 : gset nat)) as Hdom.
  { apply set_eq. intros f. rewrite elem_of_dom, elem_of_list_to_set, elem_of_list_fmap. split.
    - intros [ls H]. apply Hfound in H as [H1 H2]. exists (ls, f). split; [reflexivity|]. apply Hgood. auto.
    - intros ([ls f'] & -> & H). apply Hgood in H. exists ls. apply Hfound. exact H. }
  exists points, start, inliers. split.
  - exists (filter (fun m => defined (match_point st G o d rc fr) m = true) ms'). split; [apply NoDup_filter_fmap, Hnd'|]. split; [|split].
    + intros m. rewrite elem_of_list_filter, Hin. unfold defined. split.
      * intros [H1 H2]. split; [exact H2|]. destruct (match_point st G o d rc fr m) as [bh|] eqn:E; [|discriminate H1]. exists bh. apply match_point_spec; [assumption..|exact (fun l => Hls m l H2)|exact E].
      * intros [H1 [bh H2]]. split; [|exact H1]. apply match_point_spec in H2; [|assumption..|exact (fun l => Hls m l H1)]. rewrite H2. reflexivity.
    + pose proof (omap_filter (match_point st G o d rc fr) ms') as H. fold points in H.
      assert (forall m, m ∈ filter (fun m => defined (match_point st G o d rc fr) m = true) ms' -> m ∈ ms) as Hsub by (intros m Hm; apply elem_of_list_filter in Hm as [_ Hm]; apply Hin, Hm).
      revert Hsub H. generalize (filter (fun m => defined (match_point st G o d rc fr) m = true) ms') points. intros gs pts Hsub H. induction H as [|m bh gs pts Hm _ IH]; constructor.
      * apply match_point_spec; [assumption..|intros l; apply Hls, Hsub; left|exact Hm].
      * apply IH. intros m' Hm'. apply Hsub. right. exact Hm'.
    + intros i j m m' n n' Hij Hi Hj Hn Hn'. apply count_observations in Hn as <-. apply count_observations in Hn' as <-. exact (descending_filter count _ ms' (sort_most_descending count ms) i j m m' Hij Hi Hj).
  - exact E1.
  - exact E2.
  - exact Hrigid.
  - intros f ls. rewrite Hfound. split; intros [H1 H2]; (split; [exact H1|]); [apply match_consistent_spec|apply match_consistent_spec in H2]; try assumption; exact (fun l => Hls (ls, f) l H1).
  - rewrite <- (size_dom (D := gset nat)), Hdom, size_list_to_set by exact Hndg. rewrite fmap_length. exact E5.
  - exists (length (omap (match_point st G o d rc fr) good)). split.
    + exists (filter (fun m => defined (match_point st G o d rc fr) m = true) good).*2. split; [apply NoDup_filter_fmap, Hndg|]. split.
      * intros f. rewrite elem_of_list_fmap. split.
        -- intros ([ls f'] & -> & H). apply elem_of_list_filter in H as [H1 H2]. apply Hgood in H2. cbn [snd]. unfold defined in H1. destruct (match_point st G o d rc fr (ls, f')) as [bh|] eqn:E; [|discriminate H1]. exists ls, bh. split; [apply Hfound, H2|].
           apply match_point_spec; [assumption..| |exact E]. exact (fun l => Hls (ls, f') l (proj1 H2)).
        -- intros (ls & bh & H1 & H2). apply Hfound in H1. exists (ls, f). split; [reflexivity|]. apply elem_of_list_filter. split; [|apply Hgood, H1]. apply match_point_spec in H2; [|assumption..|exact (fun l => Hls (ls, f) l (proj1 H1))]. unfold defined. rewrite H2. reflexivity.
      * rewrite fmap_length. apply (Forall2_length _ _ _ (omap_filter (match_point st G o d rc fr) good)).
    + eapply Nat.le_lt_trans; [|exact E4]. apply Nat.div_le_mono; [lia|]. unfold used. rewrite take_length. rewrite omap_length_in; [lia|]. intros i Hi. apply lookup_lt_is_Some. apply (to_single G HG _ _ _ E2), Hi.
  - intros Hag. eapply single_loop_perfect; [| |exact E3].
    + intros bh Hbh. apply Hag. unfold used in Hbh. apply elem_of_take in Hbh as (i & Hi & _). apply elem_of_list_lookup_2, elem_of_list_omap in Hi as (j & _ & Hj). eapply elem_of_list_lookup_2, Hj.
    + intros p bh Hbh. apply Hag. unfold consistent_points in Hbh. apply elem_of_take in Hbh as (i & Hi & _). apply elem_of_list_lookup_2, elem_of_list_omap in Hi as (m & Hm & Hj). apply elem_of_list_filter in Hm as [_ Hm].
      unfold points. apply elem_of_list_omap. eauto.
Qed.

Context (similar : vdata riso F -> key -> nat -> list key) (knn : list F -> F -> nat -> list (nat * nat))
  (sort : list (key * key * key * list key) -> list (key * key * key * list key)) (fuel : nat).
Notation e := (geometric T st G o similar knn sort fuel).

Lemma geometric_ok : tools_ok G -> orders_ok o ->
  (forall d k n, NoDup (similar d k n) /\ similar d k n ⊆ d_lsh d) ->
  (forall fs f n, length (knn fs f n) = Nat.min n (length fs) /\ NoDup (knn fs f n).*1 /\ forall i x, (i, x) ∈ knn fs f n -> i < length fs) ->
  (forall l, sort l ≡ₚ l) -> env_ok e.
Proof.
  intros HG Ho Hs Hk Hsort. split; [exact Ho|exact Hs|exact Hk| |exact Hsort]. cbn [e_two_view geometric]. intros d a b ms p ixs. unfold two_view. destruct (sm_get _ _) as [fa|]; [|discriminate]. destruct (sm_get _ _) as [fb|]; [|discriminate].
  cbv zeta. destruct (t_two_view G _) as [[q jxs]|]; [|discriminate]. destruct (_ <? _); [discriminate|]. intros H. assert (forall (x y : riso) (f g : list nat), Some (x, f) = Some (y, g) -> g = f) as Hinj by congruence. rewrite (Hinj _ _ _ _ H).
  intros i Hi. apply elem_of_list_omap in Hi as (j & _ & Hj). apply elem_of_list_lookup_2 in Hj. unfold shuffled in Hj. apply elem_of_list_omap in Hj as (k & Hk' & Hj). rewrite (to_shuffle G HG) in Hk'. apply lookup_seq in Hj as [-> Hj]. exact Hj.
Qed.

Lemma register_frame_geometric s d r k views rc fr pose found :
  tools_ok G -> env_ok e -> has_recon d r rc -> recon_ok d rc -> rigid_views rc -> has_frame d k fr ->
  (forall v, v ∈ views -> exists w, has_view rc v w) -> 0 < single_view_match_better_by s ->
  register_frame e s d r k views = Ok (Some (pose, found)) ->
  exists hi ms points start inliers, hi <= length (f_feats fr) /\ usable_matches e s d rc (f_feats fr) views hi ms /\
    registered st G o d rc fr ms pose found points start inliers.
Proof.
  intros HG He Hr Hok Hrig Hfr Hv Hby E. destruct (register_frame_answer e s d r k views rc fr _ He Hr Hok Hfr Hv Hby E) as (hi & Hhi & (ms & Hum & accepts & Hreg & Hfound) & _).
  exists hi, ms. cbn [e_register geometric] in Hreg. unfold on_recon, sm_get in Hreg. unfold has_recon in Hr. unfold has_frame in Hfr. rewrite Hr, Hfr in Hreg.
  destruct (register_spec d rc fr ms pose accepts found HG (eo_orders _ He) Hok Hrig (um_once _ _ _ _ _ _ _ _ Hum)) as (points & start & inliers & H); [|exact Hreg|exact Hfound|].
  - intros [ls f] l Hm Hl. destruct (um_clear _ _ _ _ _ _ _ _ Hum ls f Hm) as (_ & desc & _ & Hc). eapply clear_landmarks; eassumption.
  - exists points, start, inliers. auto.
Qed.
End facts.
