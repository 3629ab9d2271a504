(** Splitting tracks: consequences of [split_observation] for lists of observations. *)
From stdpp Require Import gmap list.
From Verif Require Import Outcome OutcomeFacts Sfm SfmSpec SfmRec.

Section facts.
Context {P : Type}.
Implicit Types (rc : recon P).

Lemma observation_iff rc x : observation rc x <-> exists w, has_view rc x.1 w /\ x.2 < length (v_lms w).
Proof.
  unfold observation, assigned. split.
  - intros (l & w & Hw & Hl). exists w. split; [exact Hw|]. apply lookup_lt_Some in Hl. exact Hl.
  - intros (w & Hw & Hl). apply lookup_lt_is_Some in Hl as (l & Hl). eauto.
Qed.

Lemma observation_shape rc rc' :
  (forall v, (fun w => (v_frame w, v_pose w, length (v_lms w))) <$> sm_map (r_views rc') !! v =
             (fun w => (v_frame w, v_pose w, length (v_lms w))) <$> sm_map (r_views rc) !! v) ->
  forall x, observation rc' x <-> observation rc x.
Proof.
  intros H x. rewrite !observation_iff. specialize (H x.1). unfold has_view. split; intros (w & Hw & Hl); rewrite Hw in H; cbn in H.
  - symmetry in H. apply fmap_Some in H as (w' & Hw' & [= _ _ Hlen]). exists w'. split; [exact Hw'|]. lia.
  - apply fmap_Some in H as (w' & Hw' & [= _ _ Hlen]). exists w'. split; [exact Hw'|]. lia.
Qed.

Lemma separated_refl rc : separated rc rc.
Proof. split; auto. Qed.

Lemma separated_trans rc1 rc2 rc3 : separated rc1 rc2 -> separated rc2 rc3 -> separated rc1 rc3.
Proof.
  intros [a b c d] [a' b' c' d']. split.
  - intros v. rewrite a'. apply a.
  - congruence.
  - intros x. rewrite c'. apply c.
  - intros x y H. apply d, d', H.
Qed.

Lemma same_track_sym rc x y : same_track rc x y -> same_track rc y x.
Proof. intros (l & H1 & H2). exists l. auto. Qed.

Lemma same_track_obs rc x y : same_track rc x y -> observation rc x.
Proof. intros (l & H1 & H2). exists l. auto. Qed.

(** What splitting the observations [X] achieves. *)
Record split_off (X : list (key * nat)) rc rc' : Prop := {
  so_core : core rc';
  so_sep : separated rc rc';
  so_rest : forall v f l, (v, f) ∉ X -> (assigned rc' v f l <-> assigned rc v f l);
  so_alone : forall x, x ∈ X -> alone rc' x;
  so_fresh : forall v f l, assigned rc' v f l -> assigned rc v f l \/ sm_next (r_lms rc) <= l;
  so_next_views : sm_next (r_views rc') = sm_next (r_views rc);
  so_next_lms : sm_next (r_lms rc) <= sm_next (r_lms rc');
  so_kept : forall l m, has_landmark rc l m -> exists m', has_landmark rc' l m'
}.

Lemma assigned_lt rc v f l : core rc -> assigned rc v f l -> l < sm_next (r_lms rc).
Proof. intros Hc H. apply (co_mirrored _ Hc) in H as (m & Hm & _). apply (co_lms _ Hc) in Hm. exact Hm. Qed.

Lemma split_one rc v f l :
  core rc -> assigned rc v f l ->
  exists rc' b, split_observation rc v f = Ok (rc', b) /\ split_off [(v, f)] rc rc' /\
    (b = true -> ~ assigned rc' v f l) /\
    (b = true -> exists y, y <> (v, f) /\ assigned rc y.1 y.2 l) /\
    (b = false -> rc' = rc /\ alone rc (v, f)).
Proof.
  intros Hc Hl. destruct (split_observation_spec rc v f l Hc Hl) as (rc' & b & Hrun & Hb).
  exists rc', b. split; [exact Hrun|]. destruct b.
  - pose proof (observation_split_assigned v f rc rc' Hc Hb) as Has.
    pose proof (observation_split_core v f rc rc' Hc Hb) as Hc'.
    assert (forall x y, same_track rc' x y -> x = y \/ same_track rc x y /\ x <> (v, f) /\ y <> (v, f)) as Htr.
    { intros [v1 f1] [v2 f2] (l' & H1 & H2). cbn [fst snd] in *. apply Has in H1, H2.
      destruct (decide ((v1, f1) = (v, f))) as [E1|N1], (decide ((v2, f2) = (v, f))) as [E2|N2]; subst.
      - left. congruence.
      - exfalso. apply (assigned_lt _ _ _ _ Hc) in H2. lia.
      - exfalso. apply (assigned_lt _ _ _ _ Hc) in H1. lia.
      - right. split; [|auto]. exists l'. auto. }
    assert (forall v0, (fun w => (v_frame w, v_pose w, length (v_lms w))) <$> sm_map (r_views rc') !! v0 =
             (fun w => (v_frame w, v_pose w, length (v_lms w))) <$> sm_map (r_views rc) !! v0) as Hshape.
    { destruct Hb as [(w & l0 & m & Hw & Hf & Hlm & Hsz & Hv & _) _ _ _]. intros v0. rewrite Hv.
      destruct (decide (v = v0)) as [<-|Hne].
      - rewrite lookup_insert. unfold has_view in Hw. rewrite Hw. cbn. rewrite insert_length. reflexivity.
      - rewrite lookup_insert_ne by assumption. reflexivity. }
    pose proof (observation_shape rc rc' Hshape) as Hobs.
    split; [|split; [|split; [|discriminate]]].
    + split; auto.
      * split; auto.
        -- destruct Hb as [_ _ _ Hcs]. exact Hcs.
        -- intros x y Hxy. destruct (Htr x y Hxy) as [->|[H _]]; [|exact H].
           apply same_track_obs in Hxy. apply Hobs in Hxy as (l' & Hl'). exists l'. auto.
      * intros v' f' l' Hnin. rewrite Has. rewrite decide_False; [reflexivity|]. intros E. apply Hnin. rewrite E. left.
      * intros x Hx y Hxy. apply elem_of_list_singleton in Hx as ->. destruct (Htr _ _ Hxy) as [H|(_ & H & _)]; congruence.
      * intros v' f' l' H. apply Has in H. destruct (decide ((v', f') = (v, f))); [right; lia|left; exact H].
      * destruct Hb as [_ H _ _]. exact H.
      * destruct Hb as [_ _ H _]. lia.
      * intros l1 m1 Hl1. destruct Hb as [(w & l0 & m & _ & _ & _ & _ & _ & Hlm) _ _ _]. unfold has_landmark in *. rewrite Hlm.
        destruct (decide (l1 = sm_next (r_lms rc))) as [->|N1]; [rewrite lookup_insert; eauto|]. rewrite lookup_insert_ne by congruence.
        destruct (decide (l1 = l0)) as [->|N2]; [rewrite lookup_insert; eauto|]. rewrite lookup_insert_ne by congruence. eauto.
    + intros _ H. apply Has in H. rewrite decide_True in H by reflexivity. apply (assigned_lt _ _ _ _ Hc) in Hl. lia.
    + intros _. destruct Hb as [(w & l0 & m & Hw & Hf & Hlm & Hsz & Hv & _) _ _ _].
      assert (l0 = l) as ->. { apply (assigned_fun rc v f); [exists w; auto|exact Hl]. }
      apply (co_mirrored _ Hc) in Hl as (m' & Hm' & Hmv). assert (m' = m) as -> by (unfold has_landmark in *; congruence).
      assert (delete v m <> ∅) as He.
      { intros He. assert (size m = S (size (delete v m))) as H1.
        { rewrite <- (map_size_insert_None v f (delete v m)) by apply lookup_delete.
          f_equal. symmetry. apply insert_delete. exact Hmv. }
        rewrite He, map_size_empty in H1. lia. }
      apply map_choose in He as (v2 & f2 & H2). apply lookup_delete_Some in H2 as [Hne H2].
      exists (v2, f2). split; [congruence|]. apply (co_mirrored _ Hc). exists m. auto.
  - destruct Hb as [-> Hal].
    assert (alone rc (v, f)) as Ha.
    { intros [v' f'] (l' & H1 & H2). cbn [fst snd] in *. assert (l' = l) as -> by (apply (assigned_fun rc v f); assumption).
      assert (v' = v) as ->. { apply (Hal v' f'). apply (co_mirrored _ Hc). exact H2. }
      f_equal. apply (assigned_inj rc v f' f l (co_mirrored _ Hc)); assumption. }
    split; [|split; [discriminate|split; [discriminate|auto]]].
    split; eauto; [apply separated_refl|]. intros x Hx. apply elem_of_list_singleton in Hx as ->. exact Ha.
Qed.

Lemma split_off_nil rc : core rc -> split_off [] rc rc.
Proof. intros Hc. split; eauto; [apply separated_refl|]. intros x Hx. inversion Hx. Qed.

Lemma split_off_app X Y rc1 rc2 rc3 :
  split_off X rc1 rc2 -> split_off Y rc2 rc3 -> split_off (X ++ Y) rc1 rc3.
Proof.
  intros H1 H2. split.
  - apply (so_core _ _ _ H2).
  - eapply separated_trans; [apply (so_sep _ _ _ H1)|apply (so_sep _ _ _ H2)].
  - intros v f l Hnin. apply not_elem_of_app in Hnin as [Hx Hy]. rewrite (so_rest _ _ _ H2 v f l Hy). apply (so_rest _ _ _ H1 v f l Hx).
  - intros x Hx. apply elem_of_app in Hx as [Hx|Hx]; [|apply (so_alone _ _ _ H2 x Hx)].
    intros y Hy. apply (so_alone _ _ _ H1 x Hx). apply (sep_tracks _ _ (so_sep _ _ _ H2)). exact Hy.
  - intros v f l Hl. apply (so_fresh _ _ _ H2) in Hl as [Hl|Hl].
    + apply (so_fresh _ _ _ H1) in Hl. exact Hl.
    + right. pose proof (so_next_lms _ _ _ H1). lia.
  - rewrite (so_next_views _ _ _ H2). apply (so_next_views _ _ _ H1).
  - pose proof (so_next_lms _ _ _ H1). pose proof (so_next_lms _ _ _ H2). lia.
  - intros l m Hm. destruct (so_kept _ _ _ H1 l m Hm) as (m' & Hm'). apply (so_kept _ _ _ H2 l m' Hm').
Qed.

Lemma alone_separated rc rc' x : separated rc rc' -> alone rc x -> alone rc' x.
Proof. intros Hs Ha y Hy. apply Ha. apply (sep_tracks _ _ Hs). exact Hy. Qed.

(** Splitting observations of one landmark leaves the others untouched. *)
Lemma split_off_other X rc rc' l l' m :
  core rc -> split_off X rc rc' -> (forall x, x ∈ X -> assigned rc x.1 x.2 l') -> l <> l' -> has_landmark rc l m -> has_landmark rc' l m.
Proof.
  intros Hc Hso HX Hne Hm. destruct (so_kept _ _ _ Hso l m Hm) as (m' & Hm').
  assert (m' = m) as ->; [|exact Hm']. apply map_eq. intros v. apply option_eq. intros f.
  assert (forall rc0 m0, core rc0 -> has_landmark rc0 l m0 -> (m0 !! v = Some f <-> assigned rc0 v f l)) as Hiff.
  { intros rc0 m0 Hc0 Hm0. rewrite (co_mirrored _ Hc0 v f l). split.
    - intros H. exists m0. auto.
    - intros (m1 & Hm1 & H). assert (m1 = m0) as -> by (unfold has_landmark in *; congruence). exact H. }
  rewrite (Hiff rc' m' (so_core _ _ _ Hso) Hm'), (Hiff rc m Hc Hm).
  destruct (decide ((v, f) ∈ X)) as [Hx|Hx]; [|apply (so_rest _ _ _ Hso v f l Hx)].
  specialize (HX _ Hx). cbn in HX. split.
  - intros H. apply (so_fresh _ _ _ Hso) in H as [H|H]; [exact H|]. apply (co_lms _ Hc) in Hm. lia.
  - intros H. exfalso. apply Hne. eapply assigned_fun; eassumption.
Qed.

(** Splitting some of a list of existing observations. *)
Lemma split_list (bad : key * nat -> bool) X rc :
  core rc -> (forall x, x ∈ X -> observation rc x) ->
  exists rc', foldM (fun rc (vf : key * nat) => if bad vf : bool
                       then let! (rc', _) := split_observation rc vf.1 vf.2 in Ok rc'
                       else Ok rc) X rc = Ok rc' /\
    split_off (filter (fun x => bad x = true) X) rc rc'.
Proof.
  revert rc. induction X as [|[v f] X IH]; intros rc Hc HX.
  - exists rc. split; [reflexivity|]. apply split_off_nil. exact Hc.
  - cbn [foldM]. destruct (bad (v, f)) eqn:Hbad.
    + destruct (HX (v, f)) as (l & Hl); [left|]. cbn [fst snd] in *.
      destruct (split_one rc v f l Hc Hl) as (rc1 & b & Hrun & Hso & _). rewrite Hrun. cbn [bind].
      destruct (IH rc1 (so_core _ _ _ Hso)) as (rc' & Hrun' & Hso').
      { intros x Hx. apply (sep_observations _ _ (so_sep _ _ _ Hso)). apply HX. right. exact Hx. }
      exists rc'. split; [exact Hrun'|]. rewrite filter_cons_True by exact Hbad.
      change ((v, f) :: filter (fun x => bad x = true) X) with ([(v, f)] ++ filter (fun x => bad x = true) X).
      eapply split_off_app; eassumption.
    + cbn [bind]. destruct (IH rc Hc) as (rc' & Hrun' & Hso'). { intros x Hx. apply HX. right. exact Hx. }
      exists rc'. split; [exact Hrun'|]. rewrite filter_cons_False by congruence. exact Hso'.
Qed.

Lemma foldM_ext {S X} (f g : S -> X -> outcome S) l s :
  (forall s x, f s x = g s x) -> foldM f l s = foldM g l s.
Proof.
  intros H. revert s. induction l as [|x l IH]; intros s; cbn [foldM]; [reflexivity|].
  rewrite H. destruct (g s x); cbn [bind]; auto.
Qed.

(** Splitting a landmark leaves each of its observations alone and changes no other track. *)
Lemma split_landmark_spec o rc l m :
  orders_ok o -> core rc -> has_landmark rc l m ->
  exists rc' v f rest, obs_list o l m = (v, f) :: rest /\ split_landmark o rc l = Ok rc' /\ split_off rest rc rc' /\
    forall x, assigned rc x.1 x.2 l -> alone rc' x.
Proof.
  intros Ho Hc Hl. unfold split_landmark, sm_get. pose proof Hl as Hl'. unfold has_landmark in Hl'. rewrite Hl'. cbn [unwrap bind].
  destruct (obs_list o l m) as [|[v f] rest] eqn:EL.
  - exfalso. pose proof (obs_list_perm o l m Ho) as Hp. rewrite EL in Hp.
    symmetry in Hp. apply Permutation_nil_r, map_to_list_empty_iff in Hp. apply (co_no_empty _ Hc l m Hl Hp).
  - destruct (split_list (fun _ => true) rest rc Hc) as (rc' & Hrun & Hso).
    { intros [v' f'] Hx. exists l. apply (co_mirrored _ Hc). exists m. split; [exact Hl|]. cbn.
      apply (elem_of_obs_list o l m v' f' Ho). rewrite EL. right. exact Hx. }
    assert (filter (fun x => (fun _ : key * nat => true) x = true) rest = rest) as Hfl.
    { clear. induction rest as [|x rest IH]; [reflexivity|]. rewrite filter_cons_True by reflexivity. f_equal. exact IH. }
    rewrite Hfl in Hso. exists rc', v, f, rest. split; [reflexivity|].
    split; [exact Hrun|]. split; [exact Hso|].
    intros [v1 f1] Hx y Hy. cbn [fst snd] in Hx.
    assert (forall v2 f2, assigned rc v2 f2 l -> (v2, f2) = (v, f) \/ (v2, f2) ∈ rest) as Hin.
    { intros v2 f2 H2. apply (co_mirrored _ Hc) in H2 as (m' & Hm' & Hv2).
      assert (m' = m) as -> by (unfold has_landmark in *; congruence).
      apply (elem_of_obs_list o l m v2 f2 Ho) in Hv2. rewrite EL in Hv2. apply elem_of_cons in Hv2. exact Hv2. }
    destruct (decide ((v1, f1) ∈ rest)) as [Hr|Hr]; [apply (so_alone _ _ _ Hso _ Hr y Hy)|].
    destruct (decide (y ∈ rest)) as [Hyr|Hyr].
    { symmetry. apply (so_alone _ _ _ Hso _ Hyr). apply same_track_sym. exact Hy. }
    pose proof (sep_tracks _ _ (so_sep _ _ _ Hso) _ _ Hy) as (l' & H1 & H2). cbn [fst snd] in *.
    assert (l' = l) as -> by (apply (assigned_fun rc v1 f1); assumption).
    destruct y as [v2 f2]. cbn [fst snd] in *. destruct (Hin _ _ Hx) as [E1|]; [|contradiction].
    destruct (Hin _ _ H2) as [E2|]; [|contradiction]. congruence.
Qed.

End facts.
