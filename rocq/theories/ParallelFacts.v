(** Parallel programs whose branches keep apart have one result (C79). *)
From stdpp Require Import list relations.
From Coq Require Import Lia Bool.
From Verif Require Import Outcome OutcomeFacts Parallel ParallelSpec.

Section facts.
Context {C : Type}.
Implicit Types (m : list C).

(** ** Running the left branch of every fork first *)
Fixpoint run {A : Type} (p : prog C A) (m : list C) : outcome (list C * A) :=
  match p with
  | Done o => let! a := o in Ok (m, a)
  | Act f k => let! (m, b) := f m in run (k b) m
  | Join p q k => let! (m, b) := run p m in let! (m, d) := run q m in run (k (b, d)) m
  end.

(** ** Footprints *)
Definition agree (r : nat -> bool) m m' : Prop := forall i, r i = true -> m !! i = m' !! i.
Definition kept (w : nat -> bool) m m' : Prop := forall i, w i = false -> m' !! i = m !! i.
(** The same result, and the same cells in [r]. *)
Definition alike {A} (r : nat -> bool) (x y : outcome (list C * A)) : Prop :=
  match x, y with
  | Ok (m, a), Ok (m', a') => a = a' /\ agree r m m'
  | Panic, Panic => True
  | Fuel, Fuel => True
  | _, _ => False
  end.
Definition access {B} (r w : nat -> bool) (f : list C -> outcome (list C * B)) : Prop :=
  (forall m m', agree r m m' -> alike r (f m) (f m')) /\ forall m m1 b, f m = Ok (m1, b) -> kept w m m1.
Definition sub (a b : nat -> bool) : Prop := forall i, a i = true -> b i = true.
Definition apart (a b : nat -> bool) : Prop := forall i, a i = true -> b i = false.
(** The program reads only cells in [r], writes only cells in [w], and its branches never disturb each other. *)
Fixpoint within {A : Type} (r w : nat -> bool) (p : prog C A) : Prop :=
  match p with
  | Done _ => True
  | Act f k => access r w f /\ forall b, within r w (k b)
  | Join p q k => (exists rp wp rq wq, within rp wp p /\ within rq wq q /\ sub rp r /\ sub rq r /\ sub wp w /\ sub wq w /\ sub wp rp /\ sub wq rq /\ apart wp rq /\ apart wq rp) /\
      forall x, within r w (k x)
  end.

Lemma agree_refl r m : agree r m m. Proof. intros i _. reflexivity. Qed.
Lemma kept_refl w m : kept w m m. Proof. intros i _. reflexivity. Qed.
Lemma kept_trans w m m' m'' : kept w m m' -> kept w m' m'' -> kept w m m''.
Proof. intros H1 H2 i Hi. rewrite (H2 i Hi). exact (H1 i Hi). Qed.
Lemma kept_sub w w' m m' : sub w w' -> kept w m m' -> kept w' m m'.
Proof. intros H1 H2 i Hi. apply H2. destruct (w i) eqn:E; [|reflexivity]. apply H1 in E. congruence. Qed.
Lemma agree_sub r r' m m' : sub r r' -> agree r' m m' -> agree r m m'.
Proof. intros H1 H2 i Hi. apply H2, H1, Hi. Qed.

Lemma run_kept {A} (p : prog C A) : forall r w, within r w p -> forall m m1 a, run p m = Ok (m1, a) -> kept w m m1.
Proof.
  induction p as [A o|A B f k IH|A B D p IHp q IHq k IH]; intros r w Hw m m1 a; cbn [run].
  - destruct o as [x| |]; cbn [bind]; [|discriminate|discriminate]. intros [= <- _]. apply kept_refl.
  - destruct Hw as [Hf Hk]. destruct (f m) as [[m2 b]| |] eqn:E; cbn [bind]; [|discriminate|discriminate]. intros H. eapply kept_trans; [exact (proj2 Hf m m2 b E)|exact (IH b r w (Hk b) m2 m1 a H)].
  - destruct Hw as [(rp & wp & rq & wq & Hp & Hq & _ & _ & Sp & Sq & _) Hk].
    destruct (run p m) as [[m2 b]| |] eqn:E; cbn [bind]; [|discriminate|discriminate]. destruct (run q m2) as [[m3 d]| |] eqn:E'; cbn [bind]; [|discriminate|discriminate].
    intros H. eapply kept_trans; [exact (kept_sub _ _ _ _ Sp (IHp rp wp Hp m m2 b E))|]. eapply kept_trans; [exact (kept_sub _ _ _ _ Sq (IHq rq wq Hq m2 m3 d E'))|]. exact (IH (b, d) r w (Hk _) m3 m1 a H).
Qed.
(** What is outside the cells that are read does not matter. *)
Lemma agree_more r rp wp m m' m1 m1' : agree r m m' -> sub wp rp -> agree rp m1 m1' -> kept wp m m1 -> kept wp m' m1' -> agree r m1 m1'.
Proof.
  intros H S H1 K K' i Hi. destruct (wp i) eqn:E; [exact (H1 i (S i E))|]. rewrite (K i E), (K' i E). exact (H i Hi).
Qed.
Lemma run_alike {A} (p : prog C A) : forall r w, within r w p -> forall m m', agree r m m' -> alike r (run p m) (run p m').
Proof.
  induction p as [A o|A B f k IH|A B D p IHp q IHq k IH]; intros r w Hw m m' Hm; cbn [run].
  - destruct o as [x| |]; cbn [bind alike]; auto.
  - destruct Hw as [Hf Hk]. pose proof (proj1 Hf m m' Hm) as H. destruct (f m) as [[m2 b]| |], (f m') as [[m2' b']| |]; cbn [bind alike] in *; try contradiction; auto.
    destruct H as [<- H]. exact (IH b r w (Hk b) m2 m2' H).
  - destruct Hw as [(rp & wp & rq & wq & Hp & Hq & Rp & Rq & Sp & Sq & Wp & Wq & _) Hk].
    pose proof (IHp rp wp Hp m m' (agree_sub _ _ _ _ Rp Hm)) as H. destruct (run p m) as [[m2 b]| |] eqn:E, (run p m') as [[m2' b']| |] eqn:E'; cbn [bind alike] in *; try contradiction; auto.
    destruct H as [<- H]. pose proof (agree_more r rp wp m m' m2 m2' Hm Wp H (run_kept p rp wp Hp m m2 b E) (run_kept p rp wp Hp m' m2' b E')) as H2.
    pose proof (IHq rq wq Hq m2 m2' (agree_sub _ _ _ _ Rq H2)) as H3. destruct (run q m2) as [[m3 d]| |] eqn:F, (run q m2') as [[m3' d']| |] eqn:F'; cbn [bind alike] in *; try contradiction; auto.
    destruct H3 as [<- H3]. apply (IH (b, d) r w (Hk _)). exact (agree_more r rq wq m2 m2' m3 m3' H2 Wq H3 (run_kept q rq wq Hq m2 m3 d F) (run_kept q rq wq Hq m2' m3' d F')).
Qed.

(** ** One step *)
Lemma next_kept {A} (p : prog C A) : forall r w, within r w p -> forall m m' p', next p m m' p' -> kept w m m' /\ within r w p'.
Proof.
  induction p as [A o|A B f k IH|A B D p IHp q IHq k IH]; intros r w Hw m m' p'; cbn [next].
  - intros [].
  - destruct Hw as [Hf Hk]. destruct (f m) as [[m1 b]| |] eqn:E; intros [-> ->].
    + split; [exact (proj2 Hf m m1 b E)|apply Hk].
    + split; [apply kept_refl|exact I].
    + split; [apply kept_refl|exact I].
  - destruct Hw as [(rp & wp & rq & wq & Hp & Hq & Rp & Rq & Sp & Sq & Wp & Wq & A1 & A2) Hk]. intros [(p1 & Hn & ->)|[(q1 & Hn & ->)|(a & b & -> & -> & -> & ->)]].
    + destruct (IHp rp wp Hp _ _ _ Hn) as [K W]. split; [exact (kept_sub _ _ _ _ Sp K)|]. split; [|exact Hk]. exists rp, wp, rq, wq. auto 12.
    + destruct (IHq rq wq Hq _ _ _ Hn) as [K W]. split; [exact (kept_sub _ _ _ _ Sq K)|]. split; [|exact Hk]. exists rp, wp, rq, wq. auto 12.
    + split; [apply kept_refl|]. destruct a as [a| |], b as [b| |]; cbn [joined]; try exact I. apply Hk.
Qed.
(** A step can be done just as well with other cells elsewhere. *)
Lemma next_alike {A} (p : prog C A) : forall r w, within r w p -> forall m1 m2 m1' p', next p m1 m1' p' -> agree r m1 m2 -> exists m2', next p m2 m2' p' /\ agree r m1' m2' .
Proof.
  induction p as [A o|A B f k IH|A B D p IHp q IHq k IH]; intros r w Hw m1 m2 m1' p'; cbn [next].
  - intros [].
  - destruct Hw as [Hf Hk]. intros H Hm. pose proof (proj1 Hf m1 m2 Hm) as Ha. destruct (f m1) as [[n1 b]| |], (f m2) as [[n2 b']| |]; cbn [alike] in Ha; try contradiction; destruct H as [-> ->].
    + destruct Ha as [<- Ha]. exists n2. auto.
    + exists m2. auto.
    + exists m2. auto.
  - destruct Hw as [(rp & wp & rq & wq & Hp & Hq & Rp & Rq & Sp & Sq & Wp & Wq & A1 & A2) Hk]. intros H Hm. destruct H as [(p1 & Hn & ->)|[(q1 & Hn & ->)|(a & b & -> & -> & -> & ->)]].
    + destruct (IHp rp wp Hp _ m2 _ _ Hn (agree_sub _ _ _ _ Rp Hm)) as (m2' & Hn' & Ha). exists m2'. split; [left; eauto|].
      exact (agree_more r rp wp m1 m2 m1' m2' Hm Wp Ha (proj1 (next_kept p rp wp Hp _ _ _ Hn)) (proj1 (next_kept p rp wp Hp _ _ _ Hn'))).
    + destruct (IHq rq wq Hq _ m2 _ _ Hn (agree_sub _ _ _ _ Rq Hm)) as (m2' & Hn' & Ha). exists m2'. split; [right; left; eauto|].
      exact (agree_more r rq wq m1 m2 m1' m2' Hm Wq Ha (proj1 (next_kept q rq wq Hq _ _ _ Hn)) (proj1 (next_kept q rq wq Hq _ _ _ Hn'))).
    + exists m2. split; [right; right; exists a, b; auto|exact Hm].
Qed.
(** No step changes where the program leads. *)
Lemma next_run {A} (p : prog C A) : forall r w, within r w p -> forall m m' p', next p m m' p' -> run p m = run p' m'.
Proof.
  induction p as [A o|A B f k IH|A B D p IHp q IHq k IH]; intros r w Hw m m' p'; cbn [next run].
  - intros [].
  - destruct (f m) as [[m1 b]| |]; intros [-> ->]; reflexivity.
  - destruct Hw as [(rp & wp & rq & wq & Hp & Hq & Rp & Rq & Sp & Sq & Wp & Wq & A1 & A2) Hk]. intros [(p1 & Hn & ->)|[(q1 & Hn & ->)|(a & b & -> & -> & -> & ->)]].
    + cbn [run]. rewrite (IHp rp wp Hp _ _ _ Hn). reflexivity.
    + cbn [run]. pose proof (proj1 (next_kept q rq wq Hq _ _ _ Hn)) as K.
      assert (agree rp m m') as Hm. { intros i Hi. symmetry. apply K. destruct (wq i) eqn:E; [|reflexivity]. apply A2 in E. congruence. }
      pose proof (run_alike p rp wp Hp m m' Hm) as H. destruct (run p m) as [[m1 b]| |] eqn:E, (run p m') as [[m1' b']| |] eqn:E'; cbn [alike] in H; try contradiction; [|reflexivity|reflexivity]. destruct H as [<- H]. cbn [bind].
      pose proof (run_kept p rp wp Hp m m1 b E) as K1. pose proof (run_kept p rp wp Hp m' m1' b E') as K1'.
      assert (agree rq m m1) as Hm1. { intros i Hi. symmetry. apply K1. destruct (wp i) eqn:F; [|reflexivity]. apply A1 in F. congruence. }
      destruct (next_alike q rq wq Hq m m1 m' q1 Hn Hm1) as (m2 & Hn2 & Ha). pose proof (proj1 (next_kept q rq wq Hq _ _ _ Hn2)) as K2.
      assert (m2 = m1') as ->. { apply list_eq. intros i. destruct (wq i) eqn:F.
        - rewrite <- (Ha i (Wq i F)). symmetry. apply K1'. destruct (wp i) eqn:F'; [|reflexivity]. apply A1 in F'. apply Wq in F. congruence.
        - rewrite (K2 i F). destruct (wp i) eqn:F'; [exact (H i (Wp i F'))|]. rewrite (K1 i F'), (K1' i F'). symmetry. exact (K i F). }
      rewrite (IHq rq wq Hq _ _ _ Hn2). reflexivity.
    + destruct a as [a| |], b as [b| |]; reflexivity.
Qed.

(** ** Whole executions *)
Lemma reaches_run {A} r w (s s' : list C * prog C A) : reaches s s' -> within r w s.2 -> run s.2 s.1 = run s'.2 s'.1 /\ within r w s'.2.
Proof.
  unfold reaches. intros H. induction H as [s|s s1 s2 H1 _ IH]; [auto|]. intros Hw. unfold step in H1. destruct (next_kept s.2 r w Hw _ _ _ H1) as [_ Hw1]. destruct (IH Hw1) as [E Hw2].
  split; [|exact Hw2]. rewrite (next_run s.2 r w Hw _ _ _ H1). exact E.
Qed.
Lemma goes_on {A} (p : prog C A) : forall m, (exists m' p', next p m m' p') \/ exists o, p = Done o.
Proof.
  induction p as [A o|A B f k IH|A B D p IHp q IHq k IH]; intros m.
  - right. eauto.
  - left. cbn [next]. destruct (f m) as [[m1 b]| |]; eauto.
  - left. cbn [next]. destruct (IHp m) as [(m' & p' & H)|[a ->]]; [eauto 6|]. destruct (IHq m) as [(m' & q' & H)|[b ->]]; [eauto 8|]. eexists _, _. right. right. exists a, b. auto.
Qed.
Definition smaller {A} (p' p : prog C A) : Prop := exists m m', next p m m' p'.
Lemma done_ends {A} (o : outcome A) : Acc smaller (Done o : prog C A).
Proof. constructor. intros p' (m & m' & []). Qed.
Lemma join_ends {A B D} (k : B * D -> prog C A) (Hk : forall x, Acc smaller (k x)) (p : prog C B) (Hp : Acc smaller p) : forall q : prog C D, Acc smaller q -> Acc smaller (Join p q k).
Proof.
  induction Hp as [p Hp IHp]. intros q Hq. induction Hq as [q Hq IHq]. constructor. intros p' (m & m' & H). cbn [next] in H. destruct H as [(p1 & Hn & ->)|[(q1 & Hn & ->)|(a & b & -> & -> & -> & ->)]].
  - apply IHp; [exists m, m'; exact Hn|constructor; exact Hq].
  - apply IHq. exists m, m'. exact Hn.
  - destruct a as [a| |], b as [b| |]; cbn [joined]; try apply done_ends. apply Hk.
Qed.
Lemma all_end {A} (p : prog C A) : Acc smaller p.
Proof.
  induction p as [A o|A B f k IH|A B D p IHp q IHq k IH].
  - apply done_ends.
  - constructor. intros p' (m & m' & H). cbn [next] in H. destruct (f m) as [[m1 b]| |]; destruct H as [-> ->]; [apply IH|apply done_ends|apply done_ends].
  - apply join_ends; auto.
Qed.
Lemma ends {A} (s : list C * prog C A) : always_ends s.
Proof.
  destruct s as [m p]. unfold always_ends. pose proof (all_end p) as H. revert m. induction H as [p _ IH]. intros m. constructor. intros [m' p'] Hs. apply IH. exists m, m'. exact Hs.
Qed.
Lemma one_result {A} (p : prog C A) m r w : within r w p -> only_result (m, p) (run p m).
Proof.
  intros Hw. split.
  - apply ends.
  - intros [m' p'] _. destruct (goes_on p' m') as [(m'' & p'' & H)|H]; [left; exists (m'', p''); exact H|right; exact H].
  - intros m' o H. destruct (reaches_run r w _ _ H Hw) as [E _]. cbn [fst snd run] in E. symmetry. exact E.
Qed.

(** ** The footprints of the building blocks *)
Definition all_cells (i : nat) : bool := true.
Definition no_cells (i : nat) : bool := false.
Definition cell (i j : nat) : bool := Nat.eqb i j.
Definition cells (first count j : nat) : bool := Nat.leb first j && Nat.ltb j (first + count).

Lemma within_sub {A} (p : prog C A) : forall r w r' w', within r w p -> sub r r' -> sub w w' -> sub w r -> within r' w' p.
Proof.
  induction p as [A o|A B f k IH|A B D p IHp q IHq k IH]; intros r w r' w' Hw Hr Hww Hwr; cbn [within] in *.
  - exact I.
  - destruct Hw as [Hf Hk]. split; [|intros b; exact (IH b r w r' w' (Hk b) Hr Hww Hwr)]. split.
    + intros m m' Hm. pose proof (proj1 Hf m m' (agree_sub _ _ _ _ Hr Hm)) as H. destruct (f m) as [[m1 b]| |] eqn:E, (f m') as [[m1' b']| |] eqn:E'; cbn [alike] in *; auto. destruct H as [-> H]. split; [reflexivity|].
      exact (agree_more r' r w m m' m1 m1' Hm Hwr H (proj2 Hf _ _ _ E) (proj2 Hf _ _ _ E')).
    + intros m m1 b E. exact (kept_sub _ _ _ _ Hww (proj2 Hf _ _ _ E)).
  - destruct Hw as [(rp & wp & rq & wq & Hp & Hq & Rp & Rq & Sp & Sq & H) Hk]. split; [|intros x; exact (IH x r w r' w' (Hk x) Hr Hww Hwr)].
    exists rp, wp, rq, wq. repeat split; try assumption; try (intros i Hi; auto); apply H; assumption.
Qed.
Lemma within_then {A B} (p : prog C A) : forall r w (f : A -> prog C B), within r w p -> (forall a, within r w (f a)) -> within r w (then_ p f).
Proof.
  induction p as [A o|A B' f' k IH|A B' D p IHp q IHq k IH]; intros r w f Hw Hf; cbn [then_ within] in *.
  - destruct o; [apply Hf|exact I|exact I].
  - split; [apply Hw|]. intros b. apply IH; [apply Hw|exact Hf].
  - split; [apply Hw|]. intros x. apply IH; [apply Hw|exact Hf].
Qed.
Lemma within_peek r w i : r i = true -> within r w (peek i : prog C C).
Proof.
  intros Hi. split; [|intros; exact I]. split.
  - intros m m' Hm. rewrite <- (Hm i Hi). destruct (m !! i); cbn [alike]; auto.
  - intros m m1 b. destruct (m !! i); [|discriminate]. intros [= <- _]. apply kept_refl.
Qed.
Lemma within_poke r w i g : r i = true -> w i = true -> within r w (poke i g : prog C unit).
Proof.
  intros Hi Hwi. split; [|intros; exact I]. split.
  - intros m m' Hm. rewrite <- (Hm i Hi). destruct (m !! i) as [c|] eqn:E; cbn [alike]; [|exact I]. split; [reflexivity|]. intros j Hj. destruct (decide (i = j)) as [<-|Hne].
    + rewrite !list_lookup_insert; [reflexivity| |]; apply lookup_lt_is_Some; [rewrite <- (Hm i Hi)|]; eauto.
    + rewrite !list_lookup_insert_ne by exact Hne. exact (Hm j Hj).
  - intros m m1 b. destruct (m !! i); [|discriminate]. intros [= <- _] j Hj. apply list_lookup_insert_ne. congruence.
Qed.
Lemma agree_all m m' : agree all_cells m m' -> m = m'.
Proof. intros H. apply list_eq. intros i. exact (H i eq_refl). Qed.
Lemma within_look {A} w (f : list C -> outcome A) : within all_cells w (look f).
Proof.
  split; [|intros; exact I]. split.
  - intros m m' Hm. apply agree_all in Hm. subst m'. destruct (f m); cbn [bind alike]; auto using agree_refl.
  - intros m m1 b. destruct (f m); cbn [bind]; [|discriminate|discriminate]. intros [= <- _]. apply kept_refl.
Qed.
Lemma within_act {A B} (f : list C -> outcome (list C * B)) (k : B -> prog C A) : (forall b, within all_cells all_cells (k b)) -> within all_cells all_cells (Act f k).
Proof.
  intros Hk. split; [|exact Hk]. split.
  - intros m m' Hm. apply agree_all in Hm. subst m'. destruct (f m) as [[m1 b]| |]; cbn [alike]; auto using agree_refl.
  - intros m m1 b _ i Hi. discriminate Hi.
Qed.
Lemma within_loop {X S} r w (f : S -> X -> prog C S) (l : list X) : (forall s x, x ∈ l -> within r w (f s x)) -> forall s, within r w (loop l f s).
Proof.
  induction l as [|x l IH]; intros Hf s; cbn [loop]; [exact I|]. apply within_then; [apply Hf; left|]. intros a. apply IH. intros s' y Hy. apply Hf. right. exact Hy.
Qed.
(** Two branches that only read. *)
Lemma within_readers {A B D} r w (p : prog C B) (q : prog C D) (k : B * D -> prog C A) : within r no_cells p -> within r no_cells q -> (forall x, within r w (k x)) -> within r w (Join p q k).
Proof.
  intros Hp Hq Hk. split; [|exact Hk]. exists r, no_cells, r, no_cells. repeat split; try assumption; intros i H; try discriminate H; exact H.
Qed.
Lemma cells_spec first count j : cells first count j = true <-> first <= j < first + count.
Proof. unfold cells. rewrite andb_true_iff, Nat.leb_le, Nat.ltb_lt. reflexivity. Qed.
Lemma cells_not first count j : cells first count j = false <-> ~ first <= j < first + count.
Proof. rewrite <- cells_spec. destruct (cells first count j); split; congruence. Qed.
Lemma within_for_each (f : nat -> prog C unit) (Hf : forall i, within (cell i) (cell i) (f i)) : forall sh first count, within (cells first count) (cells first count) (for_each sh first count f).
Proof.
  induction sh as [|n a IHa b IHb]; intros first count; cbn [for_each].
  - apply within_loop. intros _ i Hi. apply elem_of_seq in Hi. assert (sub (cell i) (cells first count)) as Hs. { intros j Hj. apply Nat.eqb_eq in Hj. subst j. apply cells_spec. lia. }
    exact (within_sub _ _ _ _ _ (Hf i) Hs Hs (fun j H => H)).
  - split; [|intros; exact I]. set (k := Nat.min n count). exists (cells first k), (cells first k), (cells (first + k) (count - k)), (cells (first + k) (count - k)).
    split; [apply IHa|]. split; [apply IHb|]. assert (k <= count) by (apply Nat.le_min_r).
    assert (sub (cells first k) (cells first count)) as S1 by (intros j Hj; apply cells_spec in Hj; apply cells_spec; lia).
    assert (sub (cells (first + k) (count - k)) (cells first count)) as S2 by (intros j Hj; apply cells_spec in Hj; apply cells_spec; lia).
    do 4 (split; [assumption|]). split; [intros j Hj; exact Hj|]. split; [intros j Hj; exact Hj|]. split; intros j Hj; apply cells_spec in Hj; apply cells_not; lia.
Qed.
Lemma within_filter_map {X Y} (f : X -> prog C (option Y)) (Hf : forall x, within all_cells no_cells (f x)) : forall sh l, within all_cells no_cells (filter_map sh l f).
Proof.
  induction sh as [|n a IHa b IHb]; intros l; cbn [filter_map].
  - apply within_loop. intros ys x _. apply within_then; [apply Hf|]. intros y. exact I.
  - apply within_readers; [apply IHa|apply IHb|]. intros x. exact I.
Qed.

(** ** Running the building blocks *)
Lemma run_then {A B} (p : prog C A) : forall (f : A -> prog C B) m, run (then_ p f) m = let! (m, a) := run p m in run (f a) m.
Proof.
  induction p as [A o|A B' f' k IH|A B' D p IHp q IHq k IH]; intros f m; cbn [then_ run].
  - destruct o; reflexivity.
  - destruct (f' m) as [[m1 b]| |]; cbn [bind]; [apply IH|reflexivity|reflexivity].
  - destruct (run p m) as [[m1 b]| |]; cbn [bind]; [|reflexivity|reflexivity]. destruct (run q m1) as [[m2 d]| |]; cbn [bind]; [apply IH|reflexivity|reflexivity].
Qed.
Lemma run_peek i m c : m !! i = Some c -> run (peek i) m = Ok (m, c).
Proof. intros E. cbn [peek run]. rewrite E. reflexivity. Qed.
Lemma run_poke i g m c : m !! i = Some c -> run (poke i g) m = Ok (<[i:=g c]> m, tt).
Proof. intros E. cbn [poke run]. rewrite E. reflexivity. Qed.
Lemma run_look {A} (f : list C -> outcome A) m : run (look f) m = let! a := f m in Ok (m, a).
Proof. cbn [look run]. destruct (f m); reflexivity. Qed.
Lemma run_join {A B} (p : prog C A) (q : prog C B) m : run (join p q) m = let! (m, a) := run p m in let! (m, b) := run q m in Ok (m, (a, b)).
Proof. reflexivity. Qed.
End facts.
