(** Starting a reconstruction with the numerical code: what the two new poses and the matches which
    are kept satisfy (C66). *)
From stdpp Require Import gmap list.
From Coq Require Import Reals Lra Lia Sorting.Sorted.
From Verif Require Import Outcome OutcomeFacts Num Lin LinSpec LinFacts Core CoreSpec CoreFacts Geom GeomSpec GeomFacts GeomTri Optimize OptimizeSpec OptimizeFacts OptimizeProps.
From Verif Require Import Matching MatchingSpec MatchingFacts Sfm SfmSpec SfmUse SfmEffects SfmRec SfmTrack SfmInit SfmThms SfmStart SfmPose SfmPoseSpec SfmPoseFacts SfmGeom SfmGeomSpec SfmGeomFacts SfmGeomThms SfmGeomRigid SfmGeomReg.
Open Scope nat_scope.

(** ** Lists *)
Lemma shuffled_perm {F A} (G : tools RNum F) call (l : list A) : tools_ok G -> shuffled G call l ≡ₚ l.
Proof.
  intros HG. unfold shuffled. transitivity (omap (fun i => l !! i) (seq 0 (length l))).
  - pose proof (to_shuffle _ HG call (length l)) as Hp. revert Hp. generalize (t_shuffle G call (length l)) (seq 0 (length l)). intros a b Hp.
    induction Hp as [|x a b Hp IH|x y a|a b c H1 IH1 H2 IH2]; cbn [omap list_omap].
    + reflexivity.
    + destruct (l !! x); [constructor|]; exact IH.
    + destruct (l !! x), (l !! y); try reflexivity. constructor.
    + etransitivity; eassumption.
  - apply Permutation_refl'. induction l as [|x l IH]; [reflexivity|]. cbn [length seq]. rewrite <- fmap_S_seq. cbn [omap list_omap lookup list_lookup]. f_equal. etransitivity; [|exact IH]. clear.
    generalize (seq 0 (length l)). intros js. induction js as [|j js IHj]; [reflexivity|]. rewrite fmap_cons. cbn [omap list_omap]. change ((x :: l) !! S j) with (l !! j). destruct (l !! j); [f_equal|]; exact IHj.
Qed.

Lemma insert_float_perm (x : R) (l : list R) : insert_float (N := RNum) x l ≡ₚ x :: l.
Proof. induction l as [|y l IH]; cbn [insert_float]; [reflexivity|]. match goal with |- context[if ?c then _ else _] => destruct c end; [|reflexivity]. rewrite IH. constructor. Qed.
Lemma sort_float_perm (l : list R) : sort_float (N := RNum) l ≡ₚ l.
Proof. unfold sort_float. induction l as [|x l IH]; cbn [foldr]; [reflexivity|]. rewrite insert_float_perm. constructor. exact IH. Qed.
Lemma insert_float_sorted (x : R) (l : list R) : StronglySorted Rle l -> StronglySorted Rle (insert_float (N := RNum) x l).
Proof.
  induction 1 as [|y l Hs IH Hy]; cbn [insert_float]; [repeat constructor|]. rewrite float_ord_ltb_R. destruct (Rltb y x) eqn:E.
  - apply Rltb_spec in E. constructor; [exact IH|]. rewrite List.Forall_forall in *. intros z Hz. apply elem_of_list_In in Hz. rewrite insert_float_perm in Hz. apply elem_of_cons in Hz as [->|Hz]; [lra|]. apply Hy, elem_of_list_In, Hz.
  - apply Rltb_false in E. constructor; [constructor; assumption|]. constructor; [exact E|]. rewrite List.Forall_forall in *. intros z Hz. specialize (Hy z Hz). lra.
Qed.
Lemma sort_float_sorted (l : list R) : StronglySorted Rle (sort_float (N := RNum) l).
Proof. unfold sort_float. induction l as [|x l IH]; cbn [foldr]; [constructor|]. apply insert_float_sorted, IH. Qed.

Lemma Forall2_filter {A B} (R : A -> B -> Prop) (P : A -> Prop) (Q : B -> Prop) `{forall x, Decision (P x)} `{forall y, Decision (Q y)} a b :
  Forall2 R a b -> (forall x y, R x y -> P x <-> Q y) -> Forall2 R (filter P a) (filter Q b).
Proof.
  intros Hf HPQ. induction Hf as [|x y a b Hxy Hf IH]; [constructor|]. rewrite !filter_cons. destruct (decide (P x)) as [p|p], (decide (Q y)) as [q|q]; try (constructor; assumption); try exact IH; exfalso; [apply q|apply p]; apply (HPQ x y Hxy); assumption.
Qed.
Lemma Forall2_pairs {A B} (R : A -> B -> Prop) a b : Forall2 R a b -> Forall2 (fun x y => R x.1 y.1 /\ R x.2 y.2) (pairs a) (pairs b).
Proof.
  induction 1 as [|x y a b Hxy Hf IH]; cbn [pairs]; [constructor|]. apply Forall2_app; [|exact IH]. clear IH. induction Hf as [|x' y' a b Hxy' Hf IH]; cbn; constructor; [split; assumption|exact IH].
Qed.
Lemma NoDup_take' {A} n (l : list A) : NoDup l -> NoDup (take n l).
Proof. intros H. rewrite <- (take_drop n l) in H. apply NoDup_app in H as [H _]. exact H. Qed.
Lemma NoDup_pairs {A} (l : list A) : NoDup l -> NoDup (pairs l).
Proof.
  induction 1 as [|x l Hx Hl IH]; cbn [pairs]; [constructor|]. apply NoDup_app. split; [apply NoDup_fmap_2; [intros a b E; congruence|exact Hl]|]. split; [|exact IH].
  intros [a b] H H'. apply elem_of_list_fmap in H as (y & [= -> ->] & Hy). apply elem_of_pairs in H' as (i & j & _ & Hi & _). apply Hx. eapply elem_of_list_lookup_2, Hi.
Qed.
Lemma pairs_ordered {A} (l : list A) x y : NoDup l -> (x, y) ∈ pairs l -> x <> y /\ (y, x) ∉ pairs l /\ x ∈ l /\ y ∈ l.
Proof.
  intros Hnd H. apply elem_of_pairs in H as (i & j & Hij & Hi & Hj). split; [|split; [|split; eapply elem_of_list_lookup_2; eassumption]].
  - intros <-. assert (i = j) by (eapply NoDup_lookup; eassumption). lia.
  - intros H. apply elem_of_pairs in H as (j' & i' & Hij' & Hj' & Hi'). assert (i = i') by (eapply NoDup_lookup; eassumption). assert (j = j') by (eapply NoDup_lookup; eassumption). lia.
Qed.
Lemma omap_omap {A B C} (f : A -> option B) (g : B -> option C) (l : list A) : omap g (omap f l) = omap (fun x => f x ≫= g) l.
Proof. induction l as [|x l IH]; cbn [omap list_omap]; [reflexivity|]. destruct (f x) as [y|]; cbn [mbind option_bind]; [|exact IH]. cbn [omap list_omap]. destruct (g y); [f_equal|]; exact IH. Qed.

Lemma common_elem ms1 ms2 t : one_to_one ms2 -> t ∈ common_matches ms1 ms2 <-> common ms1 ms2 t.
Proof.
  intros H2. destruct t as [[c f] x]. unfold common_matches, common. cbn [fst snd]. rewrite elem_of_list_omap. split.
  - intros ([c' f'] & Hin & E). apply fmap_Some in E as (sx & E & [= -> -> ->]). cbn [fst snd] in *. split; [exact Hin|apply collect_map_elem, E].
  - intros [Hf Hx]. exists (c, f). split; [exact Hf|]. cbn [fst snd]. destruct (collect_map_some ms2 c x Hx) as [y Hy]. rewrite Hy. cbn. pose proof (collect_map_elem _ _ _ Hy) as Hy'.
    assert (x = y) as -> by (apply (H2 c x c y Hx Hy'); reflexivity). reflexivity.
Qed.
Lemma common_NoDup ms1 ms2 : NoDup ms1 -> NoDup (common_matches ms1 ms2).
Proof.
  unfold common_matches. induction 1 as [|[c f] l Hx Hl IH]; cbn [omap list_omap]; [constructor|]. destruct (_ <$> _) as [t|] eqn:E; [|exact IH]. constructor; [|exact IH]. intros Hin. apply Hx.
  apply fmap_Some in E as (sx & _ & ->). cbn [fst snd] in *. apply elem_of_list_omap in Hin as ([c' f'] & Hin & E'). apply fmap_Some in E' as (sx' & _ & E'). cbn [fst snd] in E'. congruence.
Qed.

(** ** Three rays *)
Lemma from_homogeneous_twice (h : vec4 RNum) : bearing (from_homogeneous (from_homogeneous h)) = bearing (from_homogeneous h).
Proof.
  destruct (Req_EM_T (norm2 (xyz h)) 0) as [E|E].
  - apply norm2_zero in E. unfold bearing. rewrite !from_homogeneous_scale, !xyz_scale, E. lin.
  - rewrite (from_homogeneous_fixed (from_homogeneous h)); [reflexivity|]. apply from_homogeneous_canonical. intros H. apply E. rewrite H. lin.
Qed.
Lemma direction_id (b : rvec3) : direction (iso_id, b) = b.
Proof. unfold direction. cbn [fst snd]. lin. Qed.
Lemma lookup3 {A} (P : A -> A -> Prop) (a b c : A) : (forall x y, P x y -> P y x) -> (exists i j y z, i <> j /\ [a; b; c] !! i = Some y /\ [a; b; c] !! j = Some z /\ P y z) <-> P a b \/ P a c \/ P b c.
Proof.
  intros Hs. split.
  - intros (i & j & y & z & Hij & Hi & Hj & H). destruct i as [|[|[|i]]], j as [|[|[|j]]]; cbn in Hi, Hj; try discriminate Hi; try discriminate Hj; try (exfalso; apply Hij; reflexivity);
      injection Hi as <-; injection Hj as <-; auto.
  - intros [H|[H|H]]; [exists 0, 1, a, b|exists 0, 2, a, c|exists 1, 2, b, c]; split; try discriminate; auto.
Qed.

Section facts.
Context {F : Type} (nearest : rmat3 -> rmat3) (eps : R) (st : gsettings RNum) (G : tools RNum F).
Notation T := (real_trig nearest eps).
Implicit Types (d : vdata riso F) (fr fc ff fs : frame F).
Notation bo := (t_bearing G).
Notation tri := (t_triangulate G).
Notation inc := (robust_observation_incidence_minimum_cosine_distance st).

Lemma tri_robust_spec (p1 p2 : riso) (maximum minimum : R) (x : rvec3 * rvec3 * rvec3) : tri_robust G p1 p2 maximum minimum x = true <-> three_fit tri maximum minimum p1 p2 x.
Proof.
  destruct x as [[c f] s]. unfold tri_robust, three_fit, to_camera. cbv zeta. change (tri ((iso_id, c) :: [(p1, f); (p2, s)])) with (tri (three_rays p1 p2 (c, f, s))). cbn [fst snd].
  destruct (tri (three_rays p1 p2 (c, f, s))) as [h|]; cbn [option_map]; [|split; [discriminate|intros [(h & H & _) _]; discriminate H]].
  set (p := from_homogeneous h).
  assert (cosine_distance (bearing p) c = miss p (iso_id, c)) as Hc.
  { unfold miss. cbn [fst snd]. unfold transform. rewrite pose_output_id. unfold p. rewrite from_homogeneous_twice. reflexivity. }
  rewrite Hc. clear Hc. rewrite andb_true_iff, !andb_true_iff, !orb_true_iff. change (point_distance p (p1, f)) with (miss p (p1, f)). change (point_distance p (p2, s)) with (miss p (p2, s)). rewrite !incident_spec.
  assert (forall a b : R, (a <? b)%num = true <-> (a < b)%R) as Hlt by (intros a b; exact (Rltb_spec a b)). rewrite !Hlt. clear Hlt.
  assert (turn (iso_inv p1) f = direction (p1, f)) as -> by reflexivity. assert (turn (iso_inv p2) s = direction (p2, s)) as -> by reflexivity. rewrite <- (direction_id c) at 2 3.
  unfold three_rays. cbn [fst snd]. rewrite (lookup3 (fun y z => (minimum < cosd (direction y) (direction z))%R)) by (intros y z Hyz; rewrite cosd_comm; exact Hyz).
  split.
  - intros [[[H1 H2] H3] H4]. split; [|tauto]. exists h. split; [reflexivity|]. intros y Hy. apply elem_of_cons in Hy as [->|Hy]; [exact H1|]. apply elem_of_cons in Hy as [->|Hy]; [exact H2|]. apply elem_of_list_singleton in Hy as ->. exact H3.
  - intros [(h' & Hh & Hall) H4]. assert (forall a b : vec4 RNum, Some a = Some b -> b = a) as Hinj by congruence. apply Hinj in Hh. subst h'. split; [|tauto].
    split; [split|]; apply Hall; [left|right; left|right; right; left].
Qed.

(** ** Two views *)
Lemma match_bearings_spec fa fb m ab : match_bearings G fa fb m = Some ab <-> match_seen bo fa fb m ab.
Proof.
  unfold match_bearings, frame_bearing, match_seen. destruct (f_feats fa !! m.1) as [x|]; cbn [fmap option_fmap option_map]; [|split; [discriminate|intros (x & y & Hx & _); discriminate Hx]].
  destruct (f_feats fb !! m.2) as [y|]; cbn [fmap option_fmap option_map]; [|split; [discriminate|intros (x' & y & _ & Hy & _); discriminate Hy]].
  split; [intros H; exists x, y; split; [reflexivity|]; split; [reflexivity|]; assert (forall a b : rvec3 * rvec3, Some a = Some b -> b = a) as Hinj by congruence; exact (Hinj _ _ H)|].
  intros (x' & y' & Hx & Hy & ->). assert (forall a b : F, Some a = Some b -> b = a) as Hinj by congruence. rewrite (Hinj _ _ Hx), (Hinj _ _ Hy). reflexivity.
Qed.
Lemma three_bearings_spec fc ff fs t x : three_bearings_of G fc ff fs t = Some x <-> triple_seen bo fc ff fs t x.
Proof.
  unfold three_bearings_of, frame_bearing, triple_seen. destruct (f_feats fc !! t.1.1) as [a|]; cbn [fmap option_fmap option_map]; [|split; [discriminate|intros (a & b & c & Ha & _); discriminate Ha]].
  destruct (f_feats ff !! t.1.2) as [b|]; cbn [fmap option_fmap option_map]; [|split; [discriminate|intros (a' & b & c & _ & Hb & _); discriminate Hb]].
  destruct (f_feats fs !! t.2) as [c|]; cbn [fmap option_fmap option_map]; [|split; [discriminate|intros (a' & b' & c & _ & _ & Hc & _); discriminate Hc]].
  split; [intros H; exists a, b, c; do 3 (split; [reflexivity|]); assert (forall a b : rvec3 * rvec3 * rvec3, Some a = Some b -> b = a) as Hinj by congruence; exact (Hinj _ _ H)|].
  intros (a' & b' & c' & Ha & Hb & Hc & ->). assert (forall a b : F, Some a = Some b -> b = a) as Hinj by congruence. rewrite (Hinj _ _ Ha), (Hinj _ _ Hb), (Hinj _ _ Hc). reflexivity.
Qed.

Context (o : orders) (similar : vdata riso F -> key -> nat -> list key) (knn : list F -> F -> nat -> list (nat * nat))
  (sort : list (key * key * key * list key) -> list (key * key * key * list key)) (fuel : nat).
Notation e := (geometric T st G o similar knn sort fuel).

Lemma omap_total {A B} (f : A -> option B) (l : list A) : (forall x, x ∈ l -> is_Some (f x)) -> Forall2 (fun x y => f x = Some y) l (omap f l).
Proof.
  induction l as [|x l IH]; intros H; cbn [omap list_omap]; [constructor|]. destruct (H x) as [y Hy]; [left|]. rewrite Hy. constructor; [exact Hy|]. apply IH. intros z Hz. apply H. right. exact Hz.
Qed.

Lemma init_two_view_geometric s d a b fa fb pose kept : tools_ok G -> env_ok e -> has_frame d a fa -> has_frame d b fb -> init_two_view e s d a b = Ok (Some (pose, kept)) ->
  pair_started st G knn (two_view_match_better_by s) fa fb pose kept /\ rigid pose.
Proof.
  intros HG He Ha Hb. unfold init_two_view, sm_get. unfold has_frame in Ha, Hb. rewrite Ha, Hb. cbn [unwrap bind e_knn geometric].
  destruct (symmetric_matching knn (f_feats fa) (f_feats fb) (two_view_match_better_by s)) as [ms| |] eqn:Ems; cbn [bind]; [|discriminate..].
  destruct (symmetric_matching_ok knn _ _ _ _ Ems) as (Hmut & Hnd1 & _). change (e_two_view e d a b ms) with (two_view st G d a b ms). unfold two_view, sm_get. rewrite Ha, Hb. cbv zeta.
  set (ixs := shuffled G [a; b] (seq 0 (length ms))). set (order := omap (fun i => ms !! i) ixs). set (data := omap (match_bearings G fa fb) order).
  assert (ixs ≡ₚ seq 0 (length ms)) as Hix by (apply shuffled_perm, HG).
  assert (Forall2 (fun i m => ms !! i = Some m) ixs order) as Hord.
  { apply omap_total. intros i Hi. rewrite Hix in Hi. apply elem_of_seq in Hi. apply lookup_lt_is_Some. lia. }
  destruct (t_two_view G data) as [[p inliers]|] eqn:Et; [|discriminate]. match goal with |- context[if ?c then _ else _] => destruct c eqn:En end; [discriminate|]. apply Nat.ltb_ge in En.
  intros H. destruct (to_two _ HG _ _ _ Et) as [Hrig Hin].
  assert (order ≡ₚ ms) as Hperm.
  { unfold order. transitivity (shuffled G [a; b] ms); [|apply shuffled_perm, HG]. unfold ixs, shuffled. rewrite seq_length. apply Permutation_refl'.
    pose proof (to_shuffle _ HG [a; b] (length ms)) as Hp. assert (forall i, i ∈ t_shuffle G [a; b] (length ms) -> i < length ms) as Hlt by (intros i; rewrite Hp; rewrite elem_of_seq; lia). clear Hp.
    revert Hlt. generalize (t_shuffle G [a; b] (length ms)). intros js. induction js as [|j js IH]; intros Hlt; cbn [omap list_omap]; [reflexivity|]. rewrite lookup_seq_lt by (apply Hlt; left). cbn [omap list_omap]. rewrite IH by (intros i Hi; apply Hlt; right; exact Hi). reflexivity. }
  assert (forall i j, (i, j) ∈ order <-> mutual knn (f_feats fa) (f_feats fb) (two_view_match_better_by s) i j) as Hom by (intros i j; rewrite Hperm; apply Hmut).
  assert (Forall2 (match_seen bo fa fb) order data) as Hdata.
  { eapply Forall2_impl; [apply (omap_total (match_bearings G fa fb) order)|intros m ab; apply match_bearings_spec]. intros [i j] Hm. apply Hom in Hm as (_ & _ & da & db & Hda & Hdb & _).
    eexists. apply match_bearings_spec. exists da, db. split; [exact Hda|]. split; [exact Hdb|reflexivity]. }
  assert (length ixs = length order) as Hlen by (eapply Forall2_length, Hord).
  assert (length order = length data) as Hlen' by (eapply Forall2_length, Hdata).
  assert (Forall2 (fun i ix => ixs !! i = Some ix) inliers (omap (fun i => ixs !! i) inliers)) as Hk.
  { apply omap_total. intros i Hi. apply lookup_lt_is_Some. rewrite Hlen, Hlen'. apply Hin, Hi. }
  assert (pose = p /\ Forall2 (fun i m => order !! i = Some m) inliers kept /\ length kept = length inliers) as (-> & Hkept & Hll).
  { destruct (mapM (fun ix => unwrap (ms !! ix)) (omap (fun i => ixs !! i) inliers)) as [l| |] eqn:Em; cbn [bind] in H; [|discriminate H..].
    assert (forall (x y : riso) (l l' : list (nat * nat)), Ok (Some (x, l)) = Ok (Some (y, l')) -> y = x /\ l' = l) as Hinj by (intros x y l1 l2 E; split; congruence). apply Hinj in H as [-> ->]. split; [reflexivity|].
    assert (Forall2 (fun ix m => ms !! ix = Some m) (omap (fun i => ixs !! i) inliers) l) as Hl.
    { pose proof (post_mapM True (fun ix => unwrap (ms !! ix)) (fun ix m => ms !! ix = Some m) (omap (fun i => ixs !! i) inliers)) as Hp. specialize (Hp (fun l => Forall2 (fun ix m => ms !! ix = Some m) (omap (fun i => ixs !! i) inliers) l)).
      rewrite Em in Hp. apply Hp; [|auto]. intros ix _. apply post_unwrap; [left; exact I|auto]. }
    assert (Forall2 (fun i m => order !! i = Some m) inliers l) as Hfin.
    { revert Hl. clear -Hk Hord. revert Hk. generalize (omap (fun i => ixs !! i) inliers). intros js Hk. revert l. induction Hk as [|i ix inl js Hi Hk IH]; intros l Hl; inversion Hl as [|? m ? l' Hm Hl']; subst; constructor; [|apply IH, Hl'].
      destruct (Forall2_lookup_l _ _ _ _ _ Hord Hi) as (m' & Hm' & E). congruence. }
    split; [exact Hfin|]. symmetry. eapply Forall2_length, Hfin. }
  split; [|exact Hrig]. split.
  - exists order, data, inliers. split; [rewrite Hperm; apply (NoDup_fmap_1 fst), Hnd1|]. auto.
  - rewrite Hll, (Forall2_length _ _ _ Hk). exact En.
Qed.

(** ** Three views *)
Lemma three_loop_start n : forall minimum l (poses : riso * riso) used poses', three_loop T st G n minimum l poses used = Some poses' -> 32 <= length used /\ minimum < length used.
Proof. intros minimum l poses used poses' H. destruct n; cbn [three_loop] in H; destruct (_ || _) eqn:E; try discriminate H; apply orb_false_iff in E as [E1 E2]; apply Nat.ltb_ge in E1; apply Nat.leb_gt in E2; auto. Qed.
Lemma three_loop_perfect n : forall minimum l (poses : riso * riso) used poses', rigid2 poses -> (forall x, x ∈ l -> three_agree poses x) -> (forall x, x ∈ used -> x ∈ l) ->
  three_loop T st G n minimum l poses used = Some poses' -> poses' = poses.
Proof.
  assert (forall (poses : riso * riso) used, rigid2 poses -> (forall x, x ∈ used -> three_agree poses x) -> three_optimize T st poses used = poses) as Hfix.
  { intros poses used [R1 R2] H. unfold three_optimize. apply (three_perfect nearest eps poses 0%R three_rate (three_view_patience st) used R1 R2). intros x Hx. apply H, elem_of_list_In, Hx. }
  induction n as [|n IH]; intros minimum l poses used poses' Hr Hl Hu; cbn [three_loop]; destruct (_ || _); try discriminate; cbv zeta; rewrite Hfix by (try exact Hr; auto).
  - intros E. assert (forall x y : riso * riso, Some x = Some y -> y = x) as Hinj by congruence. exact (Hinj _ _ E).
  - apply IH; [exact Hr|exact Hl|]. intros x Hx. unfold three_selection in Hx. apply elem_of_take in Hx as (i & Hi & _). apply elem_of_list_lookup_2, elem_of_list_filter in Hi as [_ Hi]. exact Hi.
Qed.

Lemma relative_scale_spec (q1 q2 : riso) (x : rvec3 * rvec3 * rvec3) (r : R) : relative_scale st G q1 q2 x = Some r <-> three_fit tri 1 inc q1 q2 x /\ depth_ratio tri q1 q2 x r /\ t_normal G r = true.
Proof.
  unfold relative_scale. match goal with |- context[if ?c then _ else _] => destruct c eqn:E end.
  2:{ split; [discriminate|]. intros [H _]. apply tri_robust_spec in H. assert (true = false) as Hd by (rewrite <- H; exact E). discriminate Hd. }
  apply tri_robust_spec in E. destruct x as [[c f] s]. unfold depth_ratio, Geom.relative, to_camera. cbn [fst snd].
  destruct (tri [(iso_id, c); (q1, f)]) as [h|]; cbn [option_map]; [|split; [discriminate|intros (_ & (h & k & u & v & H & _) & _); discriminate H]].
  destruct (point (from_homogeneous h)) as [u|] eqn:Eu; [|split; [discriminate|]; intros (_ & (h' & k & u & v & H & Hu & _) & _); assert (forall a b : vec4 RNum, Some a = Some b -> b = a) as Hinj by congruence; apply Hinj in H; subst h'; rewrite Eu in Hu; discriminate Hu].
  destruct (tri [(iso_id, c); (q2, s)]) as [k|]; cbn [option_map]; [|split; [discriminate|intros (_ & (h' & k & u' & v & _ & _ & H & _) & _); discriminate H]].
  destruct (point (from_homogeneous k)) as [v|] eqn:Ev; [|split; [discriminate|]; intros (_ & (h' & k' & u' & v & _ & _ & H & Hv & _) & _); assert (forall a b : vec4 RNum, Some a = Some b -> b = a) as Hinj by congruence; apply Hinj in H; subst k'; rewrite Ev in Hv; discriminate Hv].
  assert (forall a b : vec4 RNum, Some a = Some b -> b = a) as Hinj by congruence. assert (forall a b : rvec3, Some a = Some b -> b = a) as Hinj3 by congruence. assert (forall a b : R, Some a = Some b -> b = a) as Hinj1 by congruence.
  cbv zeta. split.
  - match goal with |- (if ?c then _ else _) = _ -> _ => destruct c eqn:En end; [|discriminate]. intros H. apply Hinj1 in H. subst r. split; [exact E|]. split; [|exact En]. exists h, k, u, v. do 4 (split; [first [reflexivity|assumption]|]). reflexivity.
  - intros (_ & (h' & k' & u' & v' & Hh & Hu & Hk & Hv & ->) & Hn). apply Hinj in Hh, Hk. subst h' k'. rewrite Eu in Hu. rewrite Ev in Hv. apply Hinj3 in Hu, Hv. subst u' v'.
    match goal with |- (if ?c then _ else _) = _ => destruct c eqn:En end; [reflexivity|]. exfalso. assert (true = false) as Hd by (rewrite <- Hn; exact En). discriminate Hd.
Qed.

Lemma bi_robust_spec (p : riso) (a b : rvec3) : rigid p -> bi_robust st p a b = true <-> (pair_error (iso_id, a) (p, b) < maximum_sine_distance st)%R.
Proof.
  intros Hp. rewrite <- (pair_error_loss iso_id p a b Hp). assert (iso_inv iso_id = iso_id :> riso) as -> by lin. rewrite iso_mul_id_r. unfold bi_robust. exact (Rltb_spec _ _).
Qed.

Lemma three_view_geometric d center first second fc ff fs (q1 q2 : riso) ms1 ms2 (p1 p2 : riso) t1 t2 t3 : tools_ok G ->
  has_frame d center fc -> has_frame d first ff -> has_frame d second fs -> rigid q1 -> rigid q2 -> NoDup ms1 -> one_to_one ms2 ->
  (forall i j, (i, j) ∈ ms1 -> i < length (f_feats fc) /\ j < length (f_feats ff)) -> (forall i j, (i, j) ∈ ms2 -> i < length (f_feats fc) /\ j < length (f_feats fs)) ->
  three_view T st G d center (first, (q1, ms1)) (second, (q2, ms2)) = TVaccept p1 p2 t1 t2 t3 ->
  (exists scale, three_started st G fc ff fs ms1 ms2 q1 q2 scale p1 p2) /\
  (forall t, common ms1 ms2 t -> t1 t = true <-> triple_fits G fc ff fs ms1 ms2 (maximum_cosine_distance st) 0 p1 p2 t) /\
  (forall m, m ∈ ms1 -> t2 m = true <-> exists ab, match_seen bo fc ff m ab /\ (pair_error (iso_id, ab.1) (p1, ab.2) < maximum_sine_distance st)%R) /\
  (forall m, m ∈ ms2 -> t3 m = true <-> exists ab, match_seen bo fc fs m ab /\ (pair_error (iso_id, ab.1) (p2, ab.2) < maximum_sine_distance st)%R).
Proof.
  intros HG Hc Hf Hs R1 R2 Hnd1 Hone Hr1 Hr2 E. pose proof (three_view_rigid nearest eps st G d center (first, (q1, ms1)) (second, (q2, ms2)) p1 p2 t1 t2 t3 R1 R2 E) as Hrig. revert E.
  unfold three_view, sm_get. unfold has_frame in Hc, Hf, Hs. rewrite Hc, Hf, Hs. cbv zeta.
  set (cm := shuffled G [center; first; second] (common_matches ms1 ms2)). assert (cm ≡ₚ common_matches ms1 ms2) as Hcm by (apply shuffled_perm, HG).
  assert (forall t, t ∈ cm <-> common ms1 ms2 t) as Hin by (intros t; rewrite Hcm; apply common_elem, Hone).
  assert (NoDup cm) as Hnd by (rewrite Hcm; apply common_NoDup, Hnd1).
  set (l := omap (three_bearings_of G fc ff fs) cm).
  assert (Forall2 (triple_seen bo fc ff fs) cm l) as Hl.
  { eapply Forall2_impl; [apply (omap_total (three_bearings_of G fc ff fs) cm)|intros t x; apply three_bearings_spec]. intros [[c f] x] Ht. apply Hin in Ht as [H1 H2]. cbn [fst snd] in *. destruct (Hr1 _ _ H1) as [L1 L2]. destruct (Hr2 _ _ H2) as [_ L3].
    apply lookup_lt_is_Some in L1 as [u Hu], L2 as [v Hv], L3 as [w Hw]. eexists. apply three_bearings_spec. exists u, v, w. cbn [fst snd]. do 3 (split; [assumption|]). reflexivity. }
  assert (forall t x y, triple_seen bo fc ff fs t x -> triple_seen bo fc ff fs t y -> x = y) as Hfun.
  { intros t x y Hx Hy. apply three_bearings_spec in Hx, Hy. rewrite Hx in Hy. assert (forall a b : rvec3 * rvec3 * rvec3, Some a = Some b -> a = b) as Hinj by congruence. exact (Hinj _ _ Hy). }
  set (sel := fun (P : rvec3 * rvec3 * rvec3 -> bool) t => match three_bearings_of G fc ff fs t with Some x => P x | None => false end).
  assert (forall P t x, triple_seen bo fc ff fs t x -> sel P t = true <-> P x = true) as Hsel by (intros P t x Hx; apply three_bearings_spec in Hx; unfold sel; rewrite Hx; reflexivity).
  assert (forall P, Forall2 (triple_seen bo fc ff fs) (filter (fun t => sel P t = true) cm) (filter (fun x => P x = true) l)) as Hfil by (intros P; apply (Forall2_filter _ _ _ _ _ Hl); intros t x Hx; apply Hsel, Hx).
  assert (forall (maximum minimum : R) (a b : riso) t, t ∈ filter (fun t => sel (tri_robust G a b maximum minimum) t = true) cm <-> triple_fits G fc ff fs ms1 ms2 maximum minimum a b t) as Hfits.
  { intros maximum minimum a b t. rewrite elem_of_list_filter, Hin. unfold triple_fits. split.
    - intros [H1 H2]. split; [exact H2|]. apply Hin, elem_of_list_lookup in H2 as [i Hi]. destruct (Forall2_lookup_l _ _ _ _ _ Hl Hi) as (x & _ & Hx). exists x. split; [exact Hx|]. apply tri_robust_spec. apply (Hsel _ t x Hx), H1.
    - intros [H2 (x & Hx & H1)]. split; [|exact H2]. apply (Hsel _ t x Hx). apply tri_robust_spec, H1. }
  assert (forall (maximum minimum : R) (a b : riso), exactly (length (filter (fun x => tri_robust G a b maximum minimum x = true) l)) (triple_fits G fc ff fs ms1 ms2 maximum minimum a b)) as Hex.
  { intros maximum minimum a b. exists (filter (fun t => sel (tri_robust G a b maximum minimum) t = true) cm). split; [apply NoDup_filter, Hnd|]. split; [intros t; apply Hfits|]. exact (Forall2_length _ _ _ (Hfil _)). }
  set (ratios := omap (relative_scale st G q1 q2) l). destruct (_ <? _) eqn:En; [discriminate|]. apply Nat.ltb_ge in En.
  destruct (sort_float ratios !! Nat.div (length ratios) 2) as [med|] eqn:Em; [|discriminate]. set (scale := sqrt_ med : R). set (poses := (q1, pose_scale q2 scale)). set (used := three_selection st G poses one l).
  destruct (robust_pairs st used <? _) eqn:Ep; [discriminate|]. apply Nat.ltb_ge in Ep. destruct (three_loop T st G _ _ l poses used) as [ps|] eqn:El; [|discriminate].
  set (n := length _). destruct (_ || _) eqn:Er; [discriminate|]. apply orb_false_iff in Er as [Er1 Er2]. apply Nat.leb_gt in Er1. apply Nat.ltb_ge in Er2.
  unfold three_accept. intros E.
  assert (forall (x x' y y' : riso) a b c a' b' c', TVaccept x y a b c = TVaccept x' y' a' b' c' -> x = x' /\ y = y' /\ a = a' /\ b = b' /\ c = c') as Hinj by (intros; repeat split; congruence). apply Hinj in E as (E1 & E2 & E3 & E4 & E5). subst t1 t2 t3. clear Hinj.
  assert (ps = (p1, p2)) as -> by (rewrite <- E1, <- E2; destruct ps; reflexivity). clear E1 E2. cbn [fst snd] in *.
  assert (0 <= med)%R as Hmed.
  { apply elem_of_list_lookup_2 in Em. rewrite sort_float_perm in Em. unfold ratios in Em. apply elem_of_list_omap in Em as (x & _ & Ex). apply relative_scale_spec in Ex as (_ & (h & k & u & v & _ & _ & _ & _ & ->) & _).
    pose proof (norm2_nonneg u) as N1. pose proof (norm2_nonneg v) as N2. unfold Rdiv. apply Rmult_le_pos; [exact N1|]. destruct (Req_dec (norm2 v) 0) as [Z|Z]; [|apply Rlt_le, Rinv_0_lt_compat; destruct N2 as [N2|N2]; [exact N2|exfalso; apply Z; symmetry; exact N2]].
    assert (/ norm2 v = 0)%R as Z'; [|apply Req_le; symmetry; exact Z']. assert (forall z : R, z = 0 -> / z = 0)%R as Hz by (intros z ->; apply Rinv_0). exact (Hz _ Z). }
  split; [|split; [|split]].
  2:{ intros t Ht. rewrite <- Hfits, elem_of_list_filter, Hin. unfold sel. tauto. }
  2:{ intros m Hm. split.
    - destruct (match_bearings G fc ff m) as [[a b]|] eqn:Eb; [|discriminate]. intros H. exists (a, b). split; [apply match_bearings_spec, Eb|]. apply bi_robust_spec; [apply Hrig|exact H].
    - intros ([a b] & Hab & H). apply match_bearings_spec in Hab. rewrite Hab. apply bi_robust_spec; [apply Hrig|exact H]. }
  2:{ intros m Hm. split.
    - destruct (match_bearings G fc fs m) as [[a b]|] eqn:Eb; [|discriminate]. intros H. exists (a, b). split; [apply match_bearings_spec, Eb|]. apply bi_robust_spec; [apply Hrig|exact H].
    - intros ([a b] & Hab & H). apply match_bearings_spec in Hab. rewrite Hab. apply bi_robust_spec; [apply Hrig|exact H]. }
  exists scale. split.
  - exact Hrig.
  - split; [apply sqrt_pos|]. set (g := fun t => three_bearings_of G fc ff fs t ≫= relative_scale st G q1 q2). exists (filter (fun t => defined g t = true) cm), ratios. split; [apply NoDup_filter, Hnd|].
    assert (forall t r, g t = Some r <-> exists x, triple_seen bo fc ff fs t x /\ relative_scale st G q1 q2 x = Some r) as Hg.
    { intros t r. unfold g. rewrite bind_Some. split; intros (x & Hx & H); exists x; (split; [apply three_bearings_spec, Hx|exact H]). }
    split; [|split; [|split]].
    + intros t. rewrite elem_of_list_filter, Hin. unfold triple_fits. split.
      * intros [H1 H2]. unfold defined in H1. destruct (g t) as [r|] eqn:Eg; [|discriminate H1]. apply Hg in Eg as (x & Hx & Hr). apply relative_scale_spec in Hr as (A1 & A2 & A3). split; [split; [exact H2|exists x; auto]|exists x, r; auto].
      * intros [[H1 (x & Hx & A1)] (x' & r & Hx' & A2 & A3)]. assert (x' = x) as -> by (eapply Hfun; eassumption). split; [|exact H1]. unfold defined. assert (g t = Some r) as ->; [|reflexivity]. apply Hg. exists x. split; [exact Hx|]. apply relative_scale_spec. auto.
    + assert (ratios = omap g cm) as -> by apply omap_omap. eapply Forall2_impl; [apply omap_filter|]. intros t r H. apply Hg in H as (x & Hx & Hr). apply relative_scale_spec in Hr as (_ & A2 & _). exists x. auto.
    + exact En.
    + exists (sort_float ratios). split; [apply sort_float_perm|]. split; [apply sort_float_sorted|]. assert (scale * scale = med)%R as -> by (apply sqrt_sqrt, Hmed). exact Em.
  - set (usedt := take (three_view_optimization_landmarks st) (filter (fun t => sel (tri_robust G poses.1 poses.2 one inc) t = true) cm)).
    assert (Forall2 (triple_seen bo fc ff fs) usedt used) as Hu by (apply Forall2_take, Hfil).
    assert (NoDup usedt) as Hndu by (apply NoDup_take', NoDup_filter, Hnd).
    assert (forall t, t ∈ usedt -> triple_fits G fc ff fs ms1 ms2 1 inc q1 (pose_scale q2 scale) t) as Hut.
    { intros t Ht. apply Hfits. unfold usedt in Ht. apply elem_of_take in Ht as (i & Hi & _). eapply elem_of_list_lookup_2, Hi. }
    set (ap := fun tt : (nat * nat * nat) * (nat * nat * nat) => match three_bearings_of G fc ff fs tt.1, three_bearings_of G fc ff fs tt.2 with Some x, Some y => apart st x y | _, _ => false end).
    exists (filter (fun tt => ap tt = true) (pairs usedt)). split; [apply NoDup_filter, NoDup_pairs, Hndu|]. split.
    + transitivity (robust_pairs st used); [exact Ep|]. apply Nat.eq_le_incl. unfold robust_pairs. symmetry. eapply Forall2_length. apply (Forall2_filter _ _ _ _ _ (Forall2_pairs _ _ _ Hu)).
      intros [t t'] [x y] [Hx Hy]. cbn [fst snd] in *. apply three_bearings_spec in Hx, Hy. unfold ap. cbn [fst snd]. rewrite Hx, Hy. reflexivity.
    + intros t t' H. apply elem_of_list_filter in H as [H1 H2]. destruct (pairs_ordered usedt t t' Hndu H2) as (N1 & N2 & I1 & I2). split; [exact N1|]. split; [intros H; apply elem_of_list_filter in H as [_ H]; exact (N2 H)|]. split; [|split; apply Hut; assumption].
      unfold ap in H1. cbn [fst snd] in H1. destruct (three_bearings_of G fc ff fs t) as [x|] eqn:Ex; [|discriminate H1]. destruct (three_bearings_of G fc ff fs t') as [y|] eqn:Ey; [|discriminate H1]. apply three_bearings_spec in Ex, Ey.
      exists x, y. split; [exact Ex|]. split; [exact Ey|]. unfold apart in H1. apply andb_true_iff in H1 as [H1 H3]. apply andb_true_iff in H1 as [H1 H4].
      assert (forall a b : R, (a <? b)%num = true -> (a < b)%R) as Hlt by (intros a b; apply (Rltb_spec a b)). apply Hlt in H1, H3, H4. cbv zeta. auto.
  - exists (length (filter (fun x => tri_robust G q1 (pose_scale q2 scale) 1%R inc x = true) l)), n. split; [apply Hex|]. split; [apply Hex|]. cbv zeta.
    assert (length used = Nat.min (three_view_optimization_landmarks st) (length (filter (fun x => tri_robust G q1 (pose_scale q2 scale) 1%R inc x = true) l))) as Hlu by (unfold used, three_selection; apply take_length).
    rewrite <- Hlu. apply three_loop_start in El. split; [apply El|]. split; [exact Er1|exact Er2].
  - intros Hag. apply (three_loop_perfect _ _ l poses used) in El.
    + injection El as -> ->. split; reflexivity.
    + split; [exact R1|apply scale_rigid, R2].
    + intros x Hx. apply elem_of_list_lookup in Hx as [i Hi]. destruct (Forall2_lookup_r _ _ _ _ _ Hl Hi) as (t & Ht & Hx). apply (Hag t x); [apply Hin; eapply elem_of_list_lookup_2, Ht|exact Hx].
    + intros x Hx. unfold used, three_selection in Hx. apply elem_of_take in Hx as (i & Hi & _). apply elem_of_list_lookup_2, elem_of_list_filter in Hi as [_ Hi]. exact Hi.
Qed.

(** ** The whole start *)
Lemma init_pairs_accept (e : env riso F) d center ps first p1 second p2 combined firsts seconds :
  init_pairs e d center ps = Some (first, p1, (second, p2), combined, firsts, seconds) ->
  exists q1 ms1 q2 ms2 t1 t2 t3, ((first, (q1, ms1)), (second, (q2, ms2))) ∈ ps /\ e_three_view e d center (first, (q1, ms1)) (second, (q2, ms2)) = TVaccept p1 p2 t1 t2 t3 /\
    combined = filter (fun t => t1 t = true) (common_matches ms1 ms2) /\
    firsts = filter (fun cf : nat * nat => collect_map ms2 !! cf.1 = None /\ t2 cf = true) ms1 /\
    seconds = filter (fun cs : nat * nat => collect_map ms1 !! cs.1 = None /\ t3 cs = true) ms2.
Proof.
  induction ps as [|[[a [q1 ms1]] [b [q2 ms2]]] ps IH]; cbn [init_pairs]; [discriminate|].
  destruct (e_three_view _ _ _ _ _) as [| |p1' p2' t1 t2 t3] eqn:E; intros H.
  - destruct (IH H) as (q1' & m1' & q2' & m2' & u1 & u2 & u3 & Hin & Hrest). exists q1', m1', q2', m2', u1, u2, u3. split; [right; exact Hin|exact Hrest].
  - discriminate.
  - assert (forall (a b : key) (p q p' q' : riso) (a' b' : key) (x x' : list (nat * nat * nat)) (y y' z z' : list (nat * nat)), Some (a, p, (b, q), x, y, z) = Some (a', p', (b', q'), x', y', z') -> a' = a /\ p' = p /\ b' = b /\ q' = q /\ x' = x /\ y' = y /\ z' = z) as Hinj by (intros; repeat split; congruence).
    apply Hinj in H as (-> & -> & -> & -> & -> & -> & ->). exists q1, ms1, q2, ms2, t1, t2, t3. split; [left|]. split; [exact E|]. auto.
Qed.

Lemma collect_none (ms : list (nat * nat)) c : collect_map ms !! c = None <-> forall z, (c, z) ∉ ms.
Proof.
  split; [intros H z Hz; destruct (collect_map_some ms c z Hz) as [y Hy]; congruence|]. intros H. destruct (collect_map ms !! c) as [z|] eqn:E; [|reflexivity]. exfalso. apply (H z), collect_map_elem, E.
Qed.

Lemma try_init_step s d center options d' :
  tools_ok G -> (forall l p ixs, t_two_view G l = Some (p, ixs) -> NoDup ixs) -> env_ok e -> data_ok d -> free_frame d center -> NoDup options -> center ∉ options -> (forall k, k ∈ options -> free_frame d k) ->
  try_init iso_id e s d center options = Ok d' ->
  exists opts, init_options e s d center options = Ok opts /\ (d' = d /\ init_pairs e d center (pairs opts) = None \/ exists first second fc ff fs q1 ms1 q2 ms2 scale p1 p2 k1 k2 r, first ∈ options /\ second ∈ options /\ first <> second /\
    has_frame d center fc /\ has_frame d first ff /\ has_frame d second fs /\
    pair_started st G knn (two_view_match_better_by s) fc ff q1 ms1 /\ pair_started st G knn (two_view_match_better_by s) fc fs q2 ms2 /\
    three_started st G fc ff fs ms1 ms2 q1 q2 scale p1 p2 /\
    (forall m, m ∈ k1 <-> kept_first st G fc ff fs ms1 ms2 p1 p2 m) /\ (forall m, m ∈ k2 <-> kept_second st G fc ff fs ms1 ms2 p1 p2 m) /\
    data_ok d' /\ new_reconstruction iso_id d center first second p1 p2 k1 k2 r d' /\ exists x y z, init_pairs e d center (pairs opts) = Some (first, p1, (second, p2), x, y, z)).
Proof.
  intros HG Hinl He Hd Hfree Hnd Hnc Hopt E. pose proof Hfree as [[fc Hc] _]. unfold try_init in E.
  assert (post True (init_options e s d center options) (fun l => forall i k (x : riso * list (nat * nat)), l !! i = Some (k, x) -> exists i', options !! i' = Some k /\ (forall j k' x', i < j -> l !! j = Some (k', x') -> exists j', i' < j' /\ options !! j' = Some k') /\
    exists fo, has_frame d k fo /\ pair_started st G knn (two_view_match_better_by s) fc fo x.1 x.2 /\ rigid x.1 /\ one_to_one x.2 /\ (forall i j, (i, j) ∈ x.2 -> mutual knn (f_feats fc) (f_feats fo) (two_view_match_better_by s) i j))) as Hpost.
  { unfold init_options. apply post_bind.
    apply (post_mapM True _ (fun o x => forall k p ms, x = Some (k, (p, ms)) -> k = o /\ exists fo, has_frame d k fo /\ pair_started st G knn (two_view_match_better_by s) fc fo p ms /\ rigid p /\ one_to_one ms /\ (forall i j, (i, j) ∈ ms -> mutual knn (f_feats fc) (f_feats fo) (two_view_match_better_by s) i j))).
    - intros k0 Hk0. destruct (Hopt k0 Hk0) as [[fo Hfo] _]. apply post_bind. pose proof (init_two_view_post True e s d center k0 fc fo He Hc Hfo) as Hp. destruct (init_two_view e s d center k0) as [x| |] eqn:Ei; [|exact Hp..].
      cbn [post] in *. intros k p ms Ex. apply fmap_Some in Ex as ([p' ms'] & -> & Ex). injection Ex as -> -> ->. split; [reflexivity|]. exists fo. split; [exact Hfo|].
      destruct (init_two_view_geometric s d center k0 fc fo p' ms' HG He Hc Hfo Ei) as [A1 A2]. destruct (Hp p' ms' eq_refl) as [A3 A4]. auto.
    - intros l Hl. cbn [post]. clear E Hnd Hnc Hopt. induction Hl as [|k0 x options l Hx Hl IH]; intros i k y Hi; cbn in Hi; [discriminate|].
      destruct x as [[k' y']|]; cbn in Hi.
      + destruct i as [|i].
        * injection Hi as -> ->. destruct y as [p ms]. destruct (Hx k p ms eq_refl) as (-> & Hfo). exists 0. split; [reflexivity|]. split; [|exact Hfo].
          intros j k'' x'' Hj Hl''. destruct j as [|j]; [lia|]. cbn in Hl''. destruct (IH j k'' x'' Hl'') as (j' & Hj' & _). exists (S j'). split; [lia|exact Hj'].
        * destruct (IH i k y Hi) as (i' & A1 & A2 & A3). exists (S i'). split; [exact A1|]. split; [|exact A3]. intros j k'' x'' Hj Hl''. destruct j as [|j]; [lia|]. cbn in Hl''. destruct (A2 j k'' x'' ltac:(lia) Hl'') as (j' & B1 & B2). exists (S j'). split; [lia|exact B2].
      + destruct (IH i k y Hi) as (i' & A1 & A2 & A3). exists (S i'). split; [exact A1|]. split; [|exact A3]. intros j k'' x'' Hj Hl''. cbn in Hl''. destruct (A2 j k'' x'' Hj Hl'') as (j' & B1 & B2). exists (S j'). split; [lia|exact B2]. }
  destruct (init_options e s d center options) as [opts| |] eqn:Eopts; cbn [bind] in E; [|discriminate E..]. cbn [post] in Hpost.
  destruct (init_pairs e d center (pairs opts)) as [[[[[[first p1] [second p2]] combined] firsts] seconds]|] eqn:Eip; [|exists opts; split; [reflexivity|]; left; split; [congruence|exact Eip]]. exists opts. split; [reflexivity|]. right.
  pose proof Eip as Eip'. apply init_pairs_accept in Eip as (q1 & ms1 & q2 & ms2 & t1 & t2 & t3 & Hin & Ht & Ecom & Efi & Ese). apply elem_of_pairs in Hin as (i & j & Hij & Hi & Hj).
  destruct (Hpost i first (q1, ms1) Hi) as (i' & Oi & Hlater & ff & Hff & P1 & R1 & O1 & M1). destruct (Hpost j second (q2, ms2) Hj) as (j0 & Oj & _ & fs & Hfs & P2 & R2 & O2 & M2). cbn [fst snd] in *.
  assert (first <> second) as Hne. { intros <-. destruct (Hlater j first (q2, ms2) Hij Hj) as (j' & Hlt & Oj'). assert (i' = j') by (eapply NoDup_lookup; eassumption). lia. }
  apply elem_of_list_lookup_2 in Oi, Oj.
  assert (forall fo p ms, pair_started st G knn (two_view_match_better_by s) fc fo p ms -> NoDup ms) as Hndm.
  { intros fo p ms [(order & data & inliers & N1 & _ & _ & Et & Hk) _]. apply NoDup_alt. intros a b m Ha Hb. destruct (Forall2_lookup_r _ _ _ _ _ Hk Ha) as (ia & Ia & La). destruct (Forall2_lookup_r _ _ _ _ _ Hk Hb) as (ib & Ib & Lb).
    assert (ia = ib) as <- by (eapply NoDup_lookup; eassumption). eapply NoDup_lookup; [exact (Hinl _ _ _ Et)|exact Ia|exact Ib]. }
  assert (forall (f0 : frame F) (ms : list (nat * nat)), (forall i j, (i, j) ∈ ms -> mutual knn (f_feats fc) (f_feats f0) (two_view_match_better_by s) i j) -> forall i j, (i, j) ∈ ms -> i < length (f_feats fc) /\ j < length (f_feats f0)) as Hrange.
  { intros f0 ms HM a b Hab. destruct (HM a b Hab) as (_ & _ & da & db & Ha & Hb & _). split; eapply lookup_lt_Some; eassumption. }
  destruct (three_view_geometric d center first second fc ff fs q1 q2 ms1 ms2 p1 p2 t1 t2 t3 HG Hc Hff Hfs R1 R2 (Hndm _ _ _ P1) O2 (Hrange _ _ M1) (Hrange _ _ M2) Ht) as ((scale & Hst) & H1 & H2 & H3).
  destruct (add_reconstruction iso_id (e_ord e) d center first second p1 p2 combined firsts seconds) as [[d'' r]| |] eqn:Ea; cbn [bind] in E; [|discriminate E..]. assert (d'' = d') as -> by congruence.
  assert (forall c f z, common ms1 ms2 (c, f, z) <-> (c, f) ∈ ms1 /\ (c, z) ∈ ms2) as Hcom by (intros; reflexivity).
  assert (forall t, t ∈ combined <-> triple_fits G fc ff fs ms1 ms2 (maximum_cosine_distance st) 0 p1 p2 t) as Hcomb.
  { intros t. rewrite Ecom, elem_of_list_filter, (common_elem ms1 ms2 t O2). split; [intros [A B]; apply H1; assumption|]. intros A. split; [|apply A]. apply H1; [apply A|exact A]. }
  assert (forall m, m ∈ first_matches combined firsts <-> kept_first st G fc ff fs ms1 ms2 p1 p2 m) as Hk1.
  { intros [c f]. unfold first_matches, kept_first. rewrite elem_of_app, Efi, elem_of_list_filter, elem_of_list_fmap. cbn [fst snd]. rewrite collect_none. split.
    - intros [[[A1 A2] A3]|([[c' f'] z] & [= -> ->] & A)]; [split; [exact A3|]; right; split; [exact A1|]; apply H2; assumption|]. cbn [fst snd] in *. apply Hcomb in A. split; [apply A|]. left. exists z. exact A.
    - intros [A [[z B]|[B C]]]; [right; exists (c, f, z); split; [reflexivity|]; apply Hcomb, B|]. left. split; [|exact A]. split; [exact B|]. apply H2; assumption. }
  assert (forall m, m ∈ second_matches combined seconds <-> kept_second st G fc ff fs ms1 ms2 p1 p2 m) as Hk2.
  { intros [c f]. unfold second_matches, kept_second. rewrite elem_of_app, Ese, elem_of_list_filter, elem_of_list_fmap. cbn [fst snd]. rewrite collect_none. split.
    - intros [[[A1 A2] A3]|([[c' z] f'] & [= -> ->] & A)]; [split; [exact A3|]; right; split; [exact A1|]; apply H3; assumption|]. cbn [fst snd] in *. apply Hcomb in A. split; [apply A|]. left. exists z. exact A.
    - intros [A [[z B]|[B C]]]; [right; exists (c, z, f); split; [reflexivity|]; apply Hcomb, B|]. left. split; [|exact A]. split; [exact B|]. apply H3; assumption. }
  assert (forall ms ms' : list (nat * nat), (forall x, x ∈ ms -> x ∈ ms') -> one_to_one ms' -> one_to_one ms) as Hsub. { intros ms ms' Hs Ho c f c' f' Ha Hb. apply Ho; auto. }
  apply add_reconstruction_thm in Ea as [Hok Hnew].
  - exists first, second, fc, ff, fs, q1, ms1, q2, ms2, scale, p1, p2, (first_matches combined firsts), (second_matches combined seconds), r. repeat (split; [first [assumption]|]). exists combined, firsts, seconds. exact Eip'.
  - apply (eo_orders _ He).
  - exact Hd.
  - intros ->. contradiction.
  - intros ->. contradiction.
  - exact Hne.
  - exact Hfree.
  - apply Hopt, Oi.
  - apply Hopt, Oj.
  - apply (Hsub _ ms1); [|exact O1]. intros x Hx. apply Hk1 in Hx. apply Hx.
  - apply (Hsub _ ms2); [|exact O2]. intros x Hx. apply Hk2 in Hx. apply Hx.
Qed.
Lemma try_init_geometric s d center options d' :
  tools_ok G -> (forall l p ixs, t_two_view G l = Some (p, ixs) -> NoDup ixs) -> env_ok e -> data_ok d -> free_frame d center -> NoDup options -> center ∉ options -> (forall k, k ∈ options -> free_frame d k) ->
  try_init iso_id e s d center options = Ok d' ->
  d' = d \/ exists first second fc ff fs q1 ms1 q2 ms2 scale p1 p2 k1 k2 r, first ∈ options /\ second ∈ options /\ first <> second /\
    has_frame d center fc /\ has_frame d first ff /\ has_frame d second fs /\
    pair_started st G knn (two_view_match_better_by s) fc ff q1 ms1 /\ pair_started st G knn (two_view_match_better_by s) fc fs q2 ms2 /\
    three_started st G fc ff fs ms1 ms2 q1 q2 scale p1 p2 /\
    (forall m, m ∈ k1 <-> kept_first st G fc ff fs ms1 ms2 p1 p2 m) /\ (forall m, m ∈ k2 <-> kept_second st G fc ff fs ms1 ms2 p1 p2 m) /\
    data_ok d' /\ new_reconstruction iso_id d center first second p1 p2 k1 k2 r d'.
Proof.
  intros H1 H2 H3 H4 H5 H6 H7 H8 E. destruct (try_init_step s d center options d' H1 H2 H3 H4 H5 H6 H7 H8 E) as (opts & _ & [[H _]|H]); [left; exact H|right].
  destruct H as (first & second & fc & ff & fs & q1 & ms1 & q2 & ms2 & scale & p1 & p2 & k1 & k2 & r & A1 & A2 & A3 & A4 & A5 & A6 & A7 & A8 & A9 & A10 & A11 & A12 & A13 & _).
  exists first, second, fc, ff, fs, q1, ms1, q2, ms2, scale, p1, p2, k1, k2, r. repeat (split; [assumption|]). exact A13.
Qed.
End facts.
