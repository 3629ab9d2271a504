(** Lemmas about the matching model. *)
From Coq Require Import Sorting.Sorted.
From stdpp Require Import list.
From Verif Require Import Outcome OutcomeFacts Matching MatchingSpec.

Section facts.
Context {D : Type} (knn : list D -> D -> nat -> list (nat * nat)).

Lemma match_one_ok fs bb d m :
  match_one knn fs bb d = Ok m -> forall j, m = Some j <-> clearly_best knn fs bb d j.
Proof.
  unfold match_one, clearly_best. intros H j.
  destruct (knn fs d 2) as [|[i0 d0] [|[i1 d1] rest]] eqn:E; try discriminate.
  injection H as <-. destruct (decide (d0 + bb <= d1)) as [Hle|Hle]; split.
  - intros [= <-]. eauto 10.
  - intros (x & k & y & r & Heq & _). congruence.
  - discriminate.
  - intros (x & k & y & r & Heq & Hle'). exfalso. apply Hle. congruence.
Qed.

Lemma matching_ok a b bb ms i j :
  2 <= length a -> 2 <= length b -> matching knn a b bb = Ok ms ->
  ms !! i = Some (Some j) <-> exists d, a !! i = Some d /\ clearly_best knn b bb d j.
Proof.
  intros Ha Hb H. unfold matching in H. destruct (decide _) as [Hd|_]; [lia|].
  apply mapM_ok in H as [Hl Hm]. split.
  - intros Hi. destruct (a !! i) as [d|] eqn:Ed.
    + destruct (Hm _ _ Ed) as (m & Hm1 & Hm2). exists d. split; [reflexivity|].
      rewrite Hi in Hm1. injection Hm1 as <-. eapply match_one_ok; eauto.
    + apply lookup_ge_None in Ed. apply lookup_lt_Some in Hi. lia.
  - intros (d & Hd & Hc). destruct (Hm _ _ Hd) as (m & Hm1 & Hm2).
    rewrite Hm1. f_equal. eapply match_one_ok; eauto.
Qed.

Lemma keep_symmetric_ok rev n fwd ps :
  keep_symmetric rev n fwd = Ok ps ->
  (forall i j, (i, j) ∈ ps <-> exists k, i = n + k /\ fwd !! k = Some (Some j) /\ rev !! j = Some (Some i))
  /\ NoDup (ps.*1).
Proof.
  revert n ps. induction fwd as [|m fwd IH]; intros n ps H; cbn [keep_symmetric] in H; inv_ok.
  - split; [|constructor]. intros i j. split.
    + intros Hin. apply elem_of_nil in Hin. contradiction.
    + intros (k & _ & Hk & _). rewrite lookup_nil in Hk. discriminate.
  - destruct (IH _ _ E0) as [Hiff Hnd].
    assert (Hhere : forall i j, (i, j) ∈ a <-> i = n /\ m = Some j /\ rev !! j = Some (Some i)).
    { intros i j. destruct m as [bix|]; inv_ok.
      - case_decide as Hd; subst.
        + rewrite elem_of_list_singleton. split; [intros [= -> ->]; auto|].
          intros (-> & [= ->] & _). reflexivity.
        + rewrite elem_of_nil. split; [contradiction|]. intros (-> & [= ->] & Hr). congruence.
      - rewrite elem_of_nil. split; [contradiction|]. intros (_ & Hm & _). discriminate. }
    split.
    + intros i j. rewrite elem_of_app, Hhere, Hiff. split.
      * intros [(-> & -> & Hr)|(k & -> & Hk & Hr)].
        -- exists 0. split; [lia|]. auto.
        -- exists (S k). split; [lia|]. auto.
      * intros ([|k] & -> & Hk & Hr); cbn in Hk.
        -- left. injection Hk as ->. rewrite Nat.add_0_r in *. auto.
        -- right. exists k. split; [lia|]. auto.
    + rewrite fmap_app. apply NoDup_app. split; [|split; [|exact Hnd]].
      * destruct m as [bix|]; inv_ok; [|constructor]. case_decide; [|constructor].
        apply NoDup_singleton.
      * intros x Hx Hx'. apply elem_of_list_fmap in Hx as ([i j] & -> & Hx).
        apply elem_of_list_fmap in Hx' as ([i' j'] & Heq & Hx'). cbn in Heq. subst i'.
        apply Hhere in Hx as (-> & _). apply Hiff in Hx' as (k & Hk & _). lia.
Qed.

Lemma symmetric_small a b bb ps :
  ~ (2 <= length a /\ 2 <= length b) -> symmetric_matching knn a b bb = Ok ps -> ps = [].
Proof.
  unfold symmetric_matching, matching. intros Hs H.
  rewrite decide_True in H by lia. cbn [bind] in H.
  rewrite decide_True in H by lia. cbn in H. congruence.
Qed.

Lemma symmetric_matching_ok a b bb ps :
  symmetric_matching knn a b bb = Ok ps ->
  (forall i j, (i, j) ∈ ps <-> mutual knn a b bb i j) /\ NoDup (ps.*1) /\ NoDup (ps.*2).
Proof.
  intros H.
  assert (Hiff : (forall i j, (i, j) ∈ ps <-> mutual knn a b bb i j) /\ NoDup (ps.*1)).
  { destruct (decide (2 <= length a)) as [Ha|Ha]; [destruct (decide (2 <= length b)) as [Hb|Hb]|].
    - unfold symmetric_matching in H. inv_ok.
      apply keep_symmetric_ok in H as [Hiff Hnd]. split; [|exact Hnd].
      intros i j. rewrite Hiff. unfold mutual. split.
      + intros (k & -> & Hk & Hr). cbn [plus] in *.
        apply (matching_ok _ _ _ _ _ _ Ha Hb E) in Hk as (da & Hda & Hca).
        apply (matching_ok _ _ _ _ _ _ Hb Ha E0) in Hr as (db & Hdb & Hcb).
        eauto 10.
      + intros (_ & _ & da & db & Hda & Hdb & Hca & Hcb). exists i. split; [reflexivity|]. split.
        * apply (matching_ok _ _ _ _ _ _ Ha Hb E). eauto.
        * apply (matching_ok _ _ _ _ _ _ Hb Ha E0). eauto.
    - rewrite (symmetric_small a b bb ps) by (auto; lia). split; [|constructor].
      intros i j. rewrite elem_of_nil. split; [contradiction|]. intros (_ & Hb' & _). lia.
    - rewrite (symmetric_small a b bb ps) by (auto; lia). split; [|constructor].
      intros i j. rewrite elem_of_nil. split; [contradiction|]. intros (Ha' & _). lia. }
  destruct Hiff as [Hiff Hnd]. split; [exact Hiff|]. split; [exact Hnd|].
  apply NoDup_fmap_2_strong; [|eapply NoDup_fmap_1; exact Hnd].
  intros [i j] [i' j'] Hin Hin' Heq. cbn in Heq. subst j'. f_equal.
  apply Hiff in Hin as (_ & _ & da & db & _ & Hdb & _ & (x & k & y & r & He & _)).
  apply Hiff in Hin' as (_ & _ & da' & db' & _ & Hdb' & _ & (x' & k' & y' & r' & He' & _)).
  congruence.
Qed.

Lemma mutual_sym a b bb i j : mutual knn a b bb i j <-> mutual knn b a bb j i.
Proof.
  unfold mutual. split; intros (H1 & H2 & da & db & Hda & Hdb & Hca & Hcb); eauto 10.
Qed.

Lemma symmetric_matching_swap a b bb ps qs :
  symmetric_matching knn a b bb = Ok ps -> symmetric_matching knn b a bb = Ok qs ->
  (swap_pair <$> ps) ≡ₚ qs.
Proof.
  intros Hp Hq.
  apply symmetric_matching_ok in Hp as (Hp & Hp1 & _).
  apply symmetric_matching_ok in Hq as (Hq & Hq1 & _).
  apply NoDup_fmap_1 in Hp1. apply NoDup_fmap_1 in Hq1.
  apply NoDup_Permutation.
  - apply NoDup_fmap_2; [|exact Hp1]. intros [x y] [x' y'] Heq. unfold swap_pair in Heq. cbn in Heq. congruence.
  - exact Hq1.
  - intros [j i]. rewrite elem_of_list_fmap, Hq, <- mutual_sym, <- Hp. split.
    + intros ([x y] & Heq & Hin). unfold swap_pair in Heq. cbn in Heq. injection Heq as -> ->. exact Hin.
    + intros Hin. exists (i, j). auto.
Qed.

Lemma match_one_total fs bb d : knn_in_range knn -> 2 <= length fs ->
  exists m, match_one knn fs bb d = Ok m /\ forall j, m = Some j -> j < length fs.
Proof.
  intros Hk Hl. unfold match_one. destruct (Hk fs d Hl) as [Hlen Hin].
  destruct (knn fs d 2) as [|[i0 d0] [|[i1 d1] rest]]; try discriminate.
  eexists. split; [reflexivity|]. intros j Hj. case_decide; [|discriminate].
  injection Hj as <-. apply (Hin i0 d0). left.
Qed.

Lemma symmetric_matching_total a b bb : knn_in_range knn ->
  exists ps, symmetric_matching knn a b bb = Ok ps /\
    forall i j, (i, j) ∈ ps -> i < length a /\ j < length b.
Proof.
  intros Hk.
  assert (Hm : forall a b, exists ms, matching knn a b bb = Ok ms /\
    (ms = [] \/ length ms = length a) /\ (forall i j, ms !! i = Some (Some j) -> j < length b /\
       2 <= length a /\ 2 <= length b)).
  { clear a b. intros a b. unfold matching. case_decide as Hd.
    - exists []. split; [reflexivity|]. split; [auto|]. intros i j Hi.
      rewrite lookup_nil in Hi. discriminate.
    - destruct (mapM_total (match_one knn b bb) a) as [ms Hms].
      { intros x _. destruct (match_one_total b bb x Hk) as (m & Hm & _); [lia|]. eauto. }
      exists ms. split; [exact Hms|]. apply mapM_ok in Hms as [Hl Hi]. split; [auto|].
      intros i j Hij. split; [|lia]. destruct (a !! i) as [d|] eqn:Ed.
      + destruct (Hi _ _ Ed) as (m & Hm1 & Hm2). destruct (match_one_total b bb d Hk) as (m' & Hm' & Hj); [lia|].
        apply Hj. congruence.
      + apply lookup_ge_None in Ed. apply lookup_lt_Some in Hij. lia. }
  destruct (Hm a b) as (fwd & Hf & Hfl & Hfi). destruct (Hm b a) as (rev & Hr & Hrl & Hri).
  assert (Hks : forall n fwd', (forall i j, fwd' !! i = Some (Some j) -> j < length rev) ->
    exists ps, keep_symmetric rev n fwd' = Ok ps).
  { intros n fwd'. revert n. induction fwd' as [|m fwd' IH]; intros n Hin; cbn [keep_symmetric]; [eauto|].
    destruct (IH (S n)) as [ps Hps]; [intros i j Hij; apply (Hin (S i)); exact Hij|].
    destruct m as [bix|].
    - destruct (lookup_lt_is_Some_2 rev bix) as [x Hx]; [apply (Hin 0); reflexivity|].
      rewrite Hx. cbn [unwrap bind]. rewrite Hps. cbn [bind]. eauto.
    - cbn [bind]. rewrite Hps. cbn [bind]. eauto. }
  destruct (Hks 0 fwd) as [ps Hps].
  { intros i j Hij. destruct (Hfi _ _ Hij) as (Hj & Ha & Hb). destruct Hrl as [->|Hrl]; [|lia].
    exfalso. unfold matching in Hr. rewrite decide_False in Hr by lia.
    apply mapM_ok in Hr as [Hl _]. cbn in Hl. lia. }
  exists ps. split.
  - unfold symmetric_matching. rewrite Hf. cbn [bind]. rewrite Hr. exact Hps.
  - intros i j Hij.
    assert (Hsm : symmetric_matching knn a b bb = Ok ps).
    { unfold symmetric_matching. rewrite Hf. cbn [bind]. rewrite Hr. exact Hps. }
    apply symmetric_matching_ok in Hsm as [Hiff _]. apply Hiff in Hij.
    destruct Hij as (_ & _ & da & db & Hda & Hdb & _). split; eapply lookup_lt_Some; eauto.
Qed.

Lemma symmetric_matching_exact (dist : D -> D -> nat) a b bb ps i j da db :
  knn_exact knn dist -> symmetric_matching knn a b bb = Ok ps -> (i, j) ∈ ps ->
  a !! i = Some da -> b !! j = Some db ->
  (forall k d, b !! k = Some d -> k <> j -> dist da db + bb <= dist da d) /\
  (forall k d, a !! k = Some d -> k <> i -> dist db da + bb <= dist db d).
Proof.
  intros Hk Hs Hij Hda Hdb. apply symmetric_matching_ok in Hs as [Hiff _].
  apply Hiff in Hij as (Ha & Hb & da' & db' & Hda' & Hdb' & (x & y & z & r & He & Hle) & (x' & y' & z' & r' & He' & Hle')).
  rewrite Hda in Hda'. injection Hda' as <-. rewrite Hdb in Hdb'. injection Hdb' as <-.
  destruct (Hk b da Hb) as (i0 & i1 & f0 & f1 & Hkn & H0 & H1 & Hne & Hord & Hall).
  destruct (Hk a db Ha) as (i0' & i1' & f0' & f1' & Hkn' & H0' & H1' & Hne' & Hord' & Hall').
  rewrite He in Hkn. injection Hkn as -> -> -> -> ->.
  rewrite He' in Hkn'. injection Hkn' as -> -> -> -> ->.
  rewrite Hdb in H0. injection H0 as <-. rewrite Hda in H0'. injection H0' as <-.
  split; intros k d Hd Hnk.
  - specialize (Hall _ _ Hd Hnk). lia.
  - specialize (Hall' _ _ Hd Hnk). lia.
Qed.
End facts.

(** A small exact index used by the non-vacuity examples: descriptors are naturals, distance
    is the absolute difference, linear search. *)
Definition adist (x y : nat) : nat := (x - y) + (y - x).

Fixpoint insert_by (p : nat * nat) (l : list (nat * nat)) : list (nat * nat) :=
  match l with
  | [] => [p]
  | q :: l' => if decide (p.2 <= q.2) then p :: l else q :: insert_by p l'
  end.

Definition linear_knn (fs : list nat) (d k : nat) : list (nat * nat) :=
  take k (foldr insert_by [] (imap (fun i f => (i, adist d f)) fs)).

Lemma insert_by_perm p l : insert_by p l ≡ₚ p :: l.
Proof.
  induction l as [|q l IH]; cbn [insert_by]; [reflexivity|].
  case_decide; [reflexivity|]. rewrite IH. constructor.
Qed.

Lemma insert_by_sorted p l :
  StronglySorted (fun x y : nat * nat => x.2 <= y.2) l ->
  StronglySorted (fun x y : nat * nat => x.2 <= y.2) (insert_by p l).
Proof.
  induction 1 as [|q l Hs IH Hf]; cbn [insert_by].
  - constructor; constructor.
  - case_decide as Hd.
    + constructor; [constructor; assumption|]. constructor; [exact Hd|].
      eapply Forall_impl; [exact Hf|]. intros x Hx. cbn in *. lia.
    + constructor; [exact IH|]. rewrite insert_by_perm. constructor; [lia|exact Hf].
Qed.

Lemma linear_knn_exact : knn_exact linear_knn adist.
Proof.
  intros fs d Hl. unfold linear_knn.
  set (raw := imap (fun i f => (i, adist d f)) fs).
  set (L := foldr insert_by [] raw).
  assert (Hp : L ≡ₚ raw).
  { unfold L. induction raw as [|x raw IH]; cbn [foldr]; [reflexivity|].
    rewrite insert_by_perm, IH. reflexivity. }
  assert (Hs : StronglySorted (fun x y : nat * nat => x.2 <= y.2) L).
  { unfold L. clear. induction raw as [|x raw IH]; cbn [foldr]; [constructor|].
    apply insert_by_sorted. exact IH. }
  assert (Hraw : forall i x, (i, x) ∈ raw <-> exists f, fs !! i = Some f /\ x = adist d f).
  { intros i x. unfold raw. rewrite elem_of_list_lookup. split.
    - intros (k & Hk). rewrite list_lookup_imap in Hk. destruct (fs !! k) as [f|] eqn:E; [|discriminate].
      injection Hk as <- <-. eauto.
    - intros (f & Hf & ->). exists i. rewrite list_lookup_imap, Hf. reflexivity. }
  assert (Hnd : NoDup (raw.*1)).
  { apply NoDup_alt. intros i j x Hi Hj. rewrite list_lookup_fmap in Hi, Hj.
    unfold raw in Hi, Hj. rewrite list_lookup_imap in Hi, Hj.
    destruct (fs !! i); [|discriminate]. destruct (fs !! j); [|discriminate].
    cbn in Hi, Hj. congruence. }
  assert (Hlen : length L = length fs) by (rewrite Hp; unfold raw; apply imap_length).
  rewrite <- Hp in Hnd.
  destruct L as [|[i0 d0] [|[i1 d1] L]]; [cbn in Hlen; lia|cbn in Hlen; lia|].
  assert (Hin0 : (i0, d0) ∈ raw) by (rewrite <- Hp; left).
  assert (Hin1 : (i1, d1) ∈ raw) by (rewrite <- Hp; right; left).
  apply Hraw in Hin0 as (f0 & Hf0 & ->). apply Hraw in Hin1 as (f1 & Hf1 & ->).
  exists i0, i1, f0, f1. split; [reflexivity|]. split; [exact Hf0|]. split; [exact Hf1|].
  cbn [fmap list_fmap fst] in Hnd. apply NoDup_cons in Hnd as [Hn0 Hnd].
  split; [intros ->; apply Hn0; left|].
  inversion Hs as [|? ? Hs' Hf]; subst. inversion Hs' as [|? ? _ Hf']; subst.
  split; [inversion Hf; subst; assumption|].
  intros i f Hi Hne. assert (Hin : (i, adist d f) ∈ raw) by (apply Hraw; eauto).
  rewrite <- Hp in Hin. rewrite !elem_of_cons in Hin.
  destruct Hin as [[= -> _]|[[= -> Heq]|Hin]]; [contradiction|lia|].
  rewrite Forall_forall in Hf'. apply (Hf' _ Hin).
Qed.
