(** Lemmas about [outcome]. *)
From stdpp Require Import list.
From Verif Require Import Outcome.

Lemma bind_ok {A B} (m : outcome A) (k : A -> outcome B) b :
  bind m k = Ok b -> exists a, m = Ok a /\ k a = Ok b.
Proof. destruct m as [a| |]; cbn; intros H; try discriminate. exists a. auto. Qed.

Lemma unwrap_ok {A} (o : option A) a : unwrap o = Ok a -> o = Some a.
Proof. destruct o; cbn; congruence. Qed.

Lemma assert_ok {A} b (k : outcome A) a : assert_ b k = Ok a -> b = true /\ k = Ok a.
Proof. destruct b; cbn; intros H; [auto|discriminate]. Qed.

(** Invert every [bind], [unwrap] and [assert_] in the hypotheses. *)
Ltac inv_ok :=
  repeat match goal with
  | H : bind ?m ?k = Ok ?b |- _ =>
      let a := fresh "a" in let H1 := fresh "E" in
      apply bind_ok in H; destruct H as (a & H1 & H); cbn beta in H
  | H : unwrap _ = Ok _ |- _ => apply unwrap_ok in H
  | H : assert_ _ _ = Ok _ |- _ => let Hb := fresh "Hb" in apply assert_ok in H; destruct H as [Hb H]
  | H : Ok _ = Ok _ |- _ => injection H as H; try subst
  | H : Panic = Ok _ |- _ => discriminate H
  | H : Fuel = Ok _ |- _ => discriminate H
  end.

Lemma foldM_nil {S X} (f : S -> X -> outcome S) s : foldM f [] s = Ok s.
Proof. reflexivity. Qed.

Lemma foldM_cons {S X} (f : S -> X -> outcome S) x l s :
  foldM f (x :: l) s = bind (f s x) (foldM f l).
Proof. reflexivity. Qed.

Lemma foldM_app {S X} (f : S -> X -> outcome S) l k s :
  foldM f (l ++ k) s = bind (foldM f l s) (foldM f k).
Proof.
  revert s. induction l as [|x l IH]; intros s; [reflexivity|].
  cbn [app foldM]. destruct (f s x) as [s'| |]; cbn [bind]; [apply IH| |]; reflexivity.
Qed.

(** An invariant on states lifts over a loop. *)
Lemma foldM_inv {S X} (f : S -> X -> outcome S) (I : S -> Prop) l s s' :
  (forall s x s', x ∈ l -> I s -> f s x = Ok s' -> I s') ->
  I s -> foldM f l s = Ok s' -> I s'.
Proof.
  revert s. induction l as [|x l IH]; intros s Hstep Hs Hf; cbn [foldM] in Hf.
  - injection Hf as <-. assumption.
  - apply bind_ok in Hf as (s1 & H1 & Hf). apply (IH s1); [|eapply Hstep; eauto; left|assumption].
    intros t y t' Hy. apply Hstep. right; assumption.
Qed.

(** A loop whose body never fails under the invariant does not fail. *)
Lemma foldM_total {S X} (f : S -> X -> outcome S) (I : S -> Prop) l s :
  (forall s x, x ∈ l -> I s -> exists s', f s x = Ok s' /\ I s') ->
  I s -> exists s', foldM f l s = Ok s' /\ I s'.
Proof.
  revert s. induction l as [|x l IH]; intros s Hstep Hs; cbn [foldM].
  - exists s. auto.
  - destruct (Hstep s x) as (s1 & -> & H1); [left|assumption|]. cbn [bind].
    apply IH; [|assumption]. intros t y Hy. apply Hstep. right; assumption.
Qed.

Lemma mapM_ok {X Y} (f : X -> outcome Y) l ys :
  mapM f l = Ok ys -> length ys = length l /\
  forall i x, l !! i = Some x -> exists y, ys !! i = Some y /\ f x = Ok y.
Proof.
  revert ys. induction l as [|x l IH]; intros ys H; cbn [mapM] in H; inv_ok.
  - split; [reflexivity|]. intros i x Hx. rewrite lookup_nil in Hx. discriminate.
  - destruct (IH _ E0) as [Hl Hi]. split; [cbn; congruence|].
    intros [|i] z Hz; cbn in Hz.
    + injection Hz as <-. exists a. auto.
    + cbn. apply Hi. assumption.
Qed.

Lemma mapM_total {X Y} (f : X -> outcome Y) l :
  (forall x, x ∈ l -> exists y, f x = Ok y) -> exists ys, mapM f l = Ok ys.
Proof.
  induction l as [|x l IH]; intros H; cbn [mapM]; [eauto|].
  destruct (H x) as [y ->]; [left|]. cbn [bind].
  destruct IH as [ys ->]; [intros z Hz; apply H; right; assumption|]. cbn [bind]. eauto.
Qed.

(** [post T m Q]: if [m] returns, its result satisfies [Q]; it fails only if [T].  With
    [T := True] this is partial correctness, with [T := False] total correctness. *)
Definition post {A} (T : Prop) (m : outcome A) (Q : A -> Prop) : Prop :=
  match m with Ok a => Q a | _ => T end.

Lemma post_ret {A} T (a : A) (Q : A -> Prop) : Q a -> post T (Ok a) Q.
Proof. exact id. Qed.

Lemma post_bind {A B} T (m : outcome A) (k : A -> outcome B) (Q : B -> Prop) :
  post T m (fun a => post T (k a) Q) -> post T (bind m k) Q.
Proof. destruct m; cbn; auto. Qed.

Lemma post_unwrap {A} T (o : option A) (Q : A -> Prop) :
  (T \/ is_Some o) -> (forall a, o = Some a -> Q a) -> post T (unwrap o) Q.
Proof. intros [HT|[a ->]] H; [|cbn; auto]. destruct o; cbn; auto. Qed.

Lemma post_assert {A} T b (m : outcome A) (Q : A -> Prop) :
  (T \/ b = true) -> (b = true -> post T m Q) -> post T (assert_ b m) Q.
Proof. intros [HT| ->] H; [|cbn; auto]. destruct b; cbn; auto. Qed.

Lemma post_eq {A} T (m : outcome A) (Q : A -> Prop) : post T m Q -> post T m (fun a => m = Ok a /\ Q a).
Proof. destruct m; cbn; auto. Qed.

Lemma post_mono {A} T (m : outcome A) (Q Q' : A -> Prop) :
  post T m Q -> (forall a, Q a -> Q' a) -> post T m Q'.
Proof. destruct m; cbn; auto. Qed.

Lemma post_fail {A} (T : Prop) (m : outcome A) (Q : A -> Prop) : T -> (forall a, m = Ok a -> Q a) -> post T m Q.
Proof. destruct m; cbn; auto. Qed.

Lemma post_total {A} (m : outcome A) (Q : A -> Prop) : post False m Q -> exists a, m = Ok a /\ Q a.
Proof. destruct m; cbn; intros H; [eauto|destruct H|destruct H]. Qed.

Lemma post_Ok {A} T (m : outcome A) (Q : A -> Prop) a : post T m Q -> m = Ok a -> Q a.
Proof. intros H ->. exact H. Qed.

Lemma post_exists {A} T (m : outcome A) (Q : A -> Prop) : (exists a, m = Ok a /\ Q a) -> post T m Q.
Proof. intros (a & -> & H). exact H. Qed.

(** Loops: the invariant may mention the elements still to come. *)
Lemma post_foldM {S X} T (f : S -> X -> outcome S) (I : list X -> S -> Prop) l s (Q : S -> Prop) :
  (forall x rest s, I (x :: rest) s -> post T (f s x) (I rest)) ->
  I l s -> (forall s, I [] s -> Q s) -> post T (foldM f l s) Q.
Proof.
  intros Hstep. revert s. induction l as [|x l IH]; intros s Hs HQ; cbn [foldM].
  - apply HQ. exact Hs.
  - apply post_bind. eapply post_mono; [apply Hstep; exact Hs|]. intros s' Hs'. apply IH; assumption.
Qed.

Lemma post_mapM {X Y} T (f : X -> outcome Y) (R : X -> Y -> Prop) l (Q : list Y -> Prop) :
  (forall x, x ∈ l -> post T (f x) (R x)) -> (forall ys, Forall2 R l ys -> Q ys) -> post T (mapM f l) Q.
Proof.
  revert Q. induction l as [|x l IH]; intros Q Hf HQ; cbn [mapM].
  - apply HQ. constructor.
  - apply post_bind. eapply post_mono; [apply Hf; left|]. intros y Hy. apply post_bind. apply IH.
    + intros x' Hx'. apply Hf. right. exact Hx'.
    + intros ys Hys. apply HQ. constructor; assumption.
Qed.
