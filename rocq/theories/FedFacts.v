(** Lemmas about the FED reordering. *)
From Coq Require Import List Arith Bool Lia Permutation ZArith Znumtheory.
From Verif Require Import Outcome Fed.
Import ListNotations.
Open Scope nat_scope.

(** ** Primes *)
Lemma is_prime_iff p :
  is_prime p = true <-> 2 <= p /\ forall d, 2 <= d < p -> p mod d <> 0.
Proof.
  unfold is_prime. rewrite andb_true_iff, Nat.leb_le, forallb_forall.
  split; intros [H1 H2]; split; try assumption; intros d Hd.
  - assert (Hin : In d (seq 2 (p - 2))) by (apply in_seq; lia).
    specialize (H2 d Hin). apply negb_true_iff, Nat.eqb_neq in H2. exact H2.
  - apply in_seq in Hd. apply negb_true_iff, Nat.eqb_neq, H2. lia.
Qed.

Lemma is_prime_prime p : is_prime p = true -> prime (Z.of_nat p).
Proof.
  intros H. apply is_prime_iff in H. destruct H as [H2 Hd].
  apply prime_alt. split; [lia|]. intros n Hn [q Hq].
  apply (Hd (Z.to_nat n)); [lia|].
  apply Nat.mod_divide; [lia|]. exists (Z.to_nat q).
  apply Nat2Z.inj. rewrite Nat2Z.inj_mul, !Z2Nat.id by nia. exact Hq.
Qed.

Lemma least_divisor N : 2 <= N ->
  exists d, 2 <= d <= N /\ N mod d = 0 /\ forall e, 2 <= e < d -> N mod e <> 0.
Proof.
  intros HN.
  assert (Hs : forall m, (exists d, 2 <= d <= m /\ N mod d = 0 /\
             forall e, 2 <= e < d -> N mod e <> 0) \/ forall e, 2 <= e <= m -> N mod e <> 0).
  { induction m as [|m IH]; [right; intros; lia|].
    destruct IH as [(d & Hd & Hm & He)|Hn].
    - left. exists d. repeat split; auto; lia.
    - destruct (Nat.eq_dec (N mod S m) 0) as [Hz|Hnz].
      + destruct (le_lt_dec 2 (S m)) as [Hle|Hgt].
        * left. exists (S m). repeat split; auto; try lia. intros e He. apply Hn. lia.
        * right. intros e He. lia.
      + right. intros e He. destruct (Nat.eq_dec e (S m)) as [->|]; [assumption|].
        apply Hn. lia. }
  destruct (Hs N) as [H|H]; [exact H|].
  exfalso. apply (H N); [lia|]. apply Nat.mod_same. lia.
Qed.

Lemma divide_fact m d : 1 <= d <= m -> Nat.divide d (fact m).
Proof.
  induction m as [|m IH]; intros H; [lia|].
  change (fact (S m)) with (S m * fact m).
  destruct (Nat.eq_dec d (S m)) as [->|Hne].
  - apply Nat.divide_mul_l, Nat.divide_refl.
  - apply Nat.divide_mul_r, IH. lia.
Qed.

Lemma primes_unbounded m : exists p, m <= p /\ is_prime p = true.
Proof.
  assert (HN : 2 <= fact m + 1) by (pose proof (lt_O_fact m); lia).
  destruct (least_divisor _ HN) as (d & Hd & Hm & He).
  exists d. split.
  - destruct (le_lt_dec m d) as [|Hlt]; [assumption|exfalso].
    assert (Hdiv : Nat.divide d (fact m)) by (apply divide_fact; lia).
    apply Nat.mod_divide in Hm; [|lia].
    assert (H1 : Nat.divide d 1) by (apply (Nat.divide_add_cancel_r d (fact m) 1); assumption).
    apply Nat.divide_1_r in H1. lia.
  - apply is_prime_iff. split; [lia|]. intros e Hlt Hz. apply (He e Hlt).
    apply Nat.mod_divide; [lia|]. apply Nat.mod_divide in Hz; [|lia].
    apply Nat.mod_divide in Hm; [|lia]. eapply Nat.divide_trans; eassumption.
Qed.

Lemma next_prime_mono f1 f2 p q :
  f1 <= f2 -> next_prime f1 p = Ok q -> next_prime f2 p = Ok q.
Proof.
  revert f2 p. induction f1 as [|f1 IH]; intros f2 p Hle H; [discriminate|].
  destruct f2 as [|f2]; [lia|]. cbn [next_prime] in *.
  destruct (is_prime p); [assumption|]. apply IH; [lia|assumption].
Qed.

Lemma next_prime_ok p q d :
  q = p + d -> is_prime q = true ->
  exists q', next_prime (S d) p = Ok q' /\ p <= q' /\ is_prime q' = true.
Proof.
  revert p. induction d as [|d IH]; intros p Hq Hp; cbn [next_prime].
  - rewrite Nat.add_0_r in Hq. subst q. rewrite Hp. exists p. auto.
  - destruct (is_prime p) eqn:E; [exists p; auto|].
    destruct (IH (p + 1)) as (q' & H1 & H2 & H3); [lia|assumption|].
    exists q'. repeat split; auto. lia.
Qed.

Lemma next_prime_total p :
  exists q f0, p <= q /\ is_prime q = true /\
    forall f, f0 <= f -> next_prime f p = Ok q.
Proof.
  destruct (primes_unbounded p) as (r & Hr & Hp).
  destruct (next_prime_ok p r (r - p)) as (q & H1 & H2 & H3); [lia|assumption|].
  exists q, (S (r - p)). repeat split; auto.
  intros f Hf. eapply next_prime_mono; eassumption.
Qed.

(** ** The index sequence visits every residue once *)
Section Cycle.
  Variables n kappa p : nat.
  Hypothesis Hp : is_prime p = true.
  Hypothesis Hnp : n < p.
  Hypothesis Hk : 1 <= kappa < p.

  Definition resid (j : nat) : nat := (j * kappa) mod p.

  Lemma p_pos : p <> 0.
  Proof. lia. Qed.

  Lemma resid_inj a b : a < b < p -> resid a <> resid b.
  Proof.
    unfold resid. intros Hab Heq.
    pose proof (is_prime_prime p Hp) as Hpr.
    assert (Hd : (Z.of_nat p | Z.of_nat (b - a) * Z.of_nat kappa)%Z).
    { exists (Z.of_nat (b * kappa / p) - Z.of_nat (a * kappa / p))%Z.
      pose proof (Nat.div_mod (a * kappa) p p_pos) as Ha.
      pose proof (Nat.div_mod (b * kappa) p p_pos) as Hb.
      rewrite Heq in Ha. nia. }
    apply prime_mult in Hd; [|assumption].
    destruct Hd as [Hd|Hd]; apply Z.divide_pos_le in Hd; lia.
  Qed.

  Lemma resid_range j : 1 <= j < p -> 1 <= resid j < p.
  Proof.
    intros Hj. assert (H0 : resid 0 <> resid j) by (apply resid_inj; lia).
    unfold resid at 1 in H0. simpl in H0. rewrite Nat.mod_0_l in H0 by exact p_pos.
    pose proof (Nat.mod_upper_bound (j * kappa) p p_pos). unfold resid in *. lia.
  Qed.

  Lemma resid_perm : Permutation (map resid (seq 1 (p - 1))) (seq 1 (p - 1)).
  Proof.
    apply NoDup_Permutation_bis.
    - apply NoDup_nth with (d := 0). intros i j Hi Hj Heq.
      rewrite map_length, seq_length in Hi, Hj.
      rewrite (nth_indep _ 0 (resid 0)) in Heq by (rewrite map_length, seq_length; lia).
      rewrite (nth_indep (map resid _) 0 (resid 0)) in Heq
        by (rewrite map_length, seq_length; lia).
      rewrite !map_nth, !seq_nth in Heq by lia.
      destruct (lt_eq_lt_dec i j) as [[Hlt|]|Hlt]; [|assumption|]; exfalso.
      + apply (resid_inj (1 + i) (1 + j)); [lia|assumption].
      + apply (resid_inj (1 + j) (1 + i)); [lia|symmetry; assumption].
    - rewrite map_length. lia.
    - intros x Hx. apply in_map_iff in Hx. destruct Hx as (j & <- & Hj).
      apply in_seq in Hj. apply in_seq. pose proof (resid_range j). lia.
  Qed.

  (** Residues kept by the loop, from position [k] on. *)
  Definition kept (k : nat) : list nat :=
    filter (fun r => r <=? n) (map resid (seq (k + 1) (p - 1 - k))).

  Lemma filter_seq_le a b : a <= b -> filter (fun r => r <=? a) (seq 1 b) = seq 1 a.
  Proof.
    intros Hab. replace b with (a + (b - a)) by lia. rewrite seq_app, filter_app.
    assert (H1 : filter (fun r => r <=? a) (seq 1 a) = seq 1 a).
    { assert (Hg : forall l, (forall x, In x l -> x <= a) -> filter (fun r => r <=? a) l = l).
      { induction l as [|x l IH]; intros H; [reflexivity|]. cbn [filter].
        rewrite (proj2 (Nat.leb_le x a)) by (apply H; left; reflexivity).
        f_equal. apply IH. intros y Hy. apply H. right; assumption. }
      apply Hg. intros x Hx. apply in_seq in Hx. lia. }
    assert (H2 : filter (fun r => r <=? a) (seq (1 + a) (b - a)) = []).
    { assert (Hg : forall l, (forall x, In x l -> a < x) -> filter (fun r => r <=? a) l = []).
      { induction l as [|x l IH]; intros H; [reflexivity|]. cbn [filter].
        rewrite (proj2 (Nat.leb_gt x a)) by (apply H; left; reflexivity).
        apply IH. intros y Hy. apply H. right; assumption. }
      apply Hg. intros x Hx. apply in_seq in Hx. lia. }
    rewrite H1, H2, app_nil_r. reflexivity.
  Qed.

  Lemma filter_perm {A} (f : A -> bool) l l' :
    Permutation l l' -> Permutation (filter f l) (filter f l').
  Proof.
    induction 1; cbn [filter].
    - constructor.
    - destruct (f x); [constructor|]; assumption.
    - destruct (f x), (f y); auto using perm_swap, Permutation_refl.
    - etransitivity; eassumption.
  Qed.

  Lemma kept_perm : Permutation (kept 0) (seq 1 n).
  Proof.
    unfold kept. rewrite Nat.sub_0_r. simpl (0 + 1).
    rewrite <- (filter_seq_le n (p - 1)) by lia.
    apply filter_perm, resid_perm.
  Qed.

  Lemma find_index_kept checks k r rest fuel :
    k <= p - 1 -> p <= fuel + k -> kept k = r :: rest ->
    exists k', find_index checks fuel n kappa p k = Ok (r - 1, k') /\
               k < k' <= p - 1 /\ kept k' = rest.
  Proof.
    intros Hkp Hf. remember (p - 1 - k) as m eqn:Hm.
    revert k fuel Hkp Hf Hm. induction m as [|m IH]; intros k fuel Hkp Hf Hm Hkept.
    - unfold kept in Hkept. rewrite <- Hm in Hkept. discriminate.
    - destruct fuel as [|fuel]; [lia|]. cbn [find_index].
      unfold kept in Hkept. rewrite <- Hm in Hkept. cbn [seq map filter] in Hkept.
      change (((k + 1) * kappa) mod p) with (resid (k + 1)).
      pose proof (resid_range (k + 1)) as Hr. destruct (resid (k + 1)) as [|idx] eqn:E; [lia|].
      assert (Htail : filter (fun r => r <=? n) (map resid (seq (S (k + 1)) m)) = kept (k + 1)).
      { unfold kept. replace (p - 1 - (k + 1)) with m by lia. f_equal. f_equal. f_equal. lia. }
      destruct (Nat.leb_spec n idx) as [Hni|Hni].
      + rewrite (proj2 (Nat.leb_gt (S idx) n)) in Hkept by lia. rewrite Htail in Hkept.
        destruct (IH (k + 1) fuel) as (k' & H1 & H2 & H3); try lia; try assumption.
        exists k'. repeat split; auto; lia.
      + rewrite (proj2 (Nat.leb_le (S idx) n)) in Hkept by lia. rewrite Htail in Hkept.
        inversion Hkept; subst r rest. exists (k + 1). repeat split; auto; try lia.
        simpl. rewrite Nat.sub_0_r. reflexivity.
  Qed.

  Lemma reorder_loop_kept {A} checks fuel (tau : list A) todo k :
    length tau = n -> p <= fuel -> k <= p - 1 -> todo <= length (kept k) ->
    exists out, reorder_loop checks fuel tau n kappa p todo k = Ok out /\
      map Some out = map (fun r => nth_error tau (r - 1)) (firstn todo (kept k)).
  Proof.
    intros Hlen Hf. revert k. induction todo as [|todo IH]; intros k Hkp Htodo.
    - exists []. split; reflexivity.
    - destruct (kept k) as [|r rest] eqn:E; [simpl in Htodo; lia|].
      destruct (find_index_kept checks k r rest fuel) as (k' & H1 & H2 & H3);
        [assumption|lia|assumption|].
      cbn [reorder_loop]. rewrite H1. cbn [bind].
      assert (Hr : r - 1 < n /\ 1 <= r).
      { assert (Hin : In r (kept k)) by (rewrite E; left; reflexivity).
        unfold kept in Hin. apply filter_In in Hin. destruct Hin as [Hin Hle].
        apply Nat.leb_le in Hle. apply in_map_iff in Hin. destruct Hin as (j & <- & Hj).
        apply in_seq in Hj. pose proof (resid_range j). lia. }
      destruct (nth_error tau (r - 1)) as [x|] eqn:En.
      2:{ apply nth_error_None in En. lia. }
      cbn [unwrap bind].
      destruct (IH k') as (out & Ho & Hm); [lia| |].
      { rewrite H3. simpl in Htodo. lia. }
      rewrite Ho. cbn [bind]. exists (x :: out). split; [reflexivity|].
      cbn [firstn map]. rewrite En, Hm, H3. reflexivity.
  Qed.
End Cycle.

Lemma map_nth_error_seq {A} (tau : list A) :
  map (fun r => nth_error tau (r - 1)) (seq 1 (length tau)) = map Some tau.
Proof.
  apply nth_ext with (d := nth_error tau (0 - 1)) (d' := None).
  - rewrite !map_length, seq_length. reflexivity.
  - intros i Hi. rewrite map_length, seq_length in Hi.
    rewrite (map_nth (fun r => nth_error tau (r - 1))), seq_nth by assumption.
    destruct (nth_error tau i) as [x|] eqn:E.
    + replace (1 + i - 1) with i by lia. rewrite E.
      symmetry. apply nth_error_nth. rewrite nth_error_map, E. reflexivity.
    + apply nth_error_None in E. lia.
Qed.

Lemma Permutation_map_Some {A} (l l' : list A) :
  Permutation (map Some l) (map Some l') -> Permutation l l'.
Proof.
  intros H.
  assert (Hf : forall m : list A,
      flat_map (fun o : option A => match o with Some x => [x] | None => [] end) (map Some m) = m).
  { induction m as [|x m IH]; [reflexivity|]. cbn. rewrite IH. reflexivity. }
  rewrite <- (Hf l), <- (Hf l').
  apply Permutation_flat_map. exact H.
Qed.

Lemma fed_order_permutation {A} checks (tau : list A) reordering :
  length tau <> 1 ->
  exists fuel0 out, (forall fuel, fuel0 <= fuel -> fed_order checks fuel tau reordering = Ok out)
    /\ Permutation out tau.
Proof.
  intros Hn. destruct reordering; cycle 1.
  { exists 0, tau. split; [reflexivity|apply Permutation_refl]. }
  destruct (next_prime_total (length tau + 1)) as (p & f0 & Hle & Hp & Hf).
  destruct (Nat.eq_dec (length tau) 0) as [Hz|Hnz].
  { exists f0, []. destruct tau; [|discriminate]. split; [|constructor].
    intros fuel Hfu. unfold fed_order. rewrite Hf by assumption. reflexivity. }
  set (n := length tau) in *.
  assert (Hkap : 1 <= n / 2 < p).
  { split; [apply Nat.div_le_lower_bound; lia|].
    pose proof (Nat.div_le_upper_bound n 2 n). lia. }
  assert (Hnp : n < p) by lia.
  pose proof (kept_perm n (n / 2) p Hp Hnp Hkap) as Hperm.
  assert (Hlen : length (kept n (n / 2) p 0) = n).
  { rewrite (Permutation_length Hperm), seq_length. reflexivity. }
  destruct (reorder_loop_kept n (n / 2) p Hp Hnp Hkap checks (f0 + p) tau n 0)
    as (out & Ho & Hm); [reflexivity|lia|lia|lia|].
  rewrite firstn_all2 in Hm by lia.
  exists (f0 + p), out. split.
  - intros fuel Hfu. unfold fed_order. fold n. rewrite Hf by lia. cbn [bind].
    destruct (reorder_loop_kept n (n / 2) p Hp Hnp Hkap checks fuel tau n 0)
      as (out' & Ho' & Hm'); [reflexivity|lia|lia|lia|].
    rewrite firstn_all2 in Hm' by lia.
    assert (out' = out).
    { rewrite <- Hm in Hm'. clear -Hm'. revert out Hm'.
      induction out' as [|x l IH]; destruct out as [|y l']; cbn; intros H; try discriminate;
        [reflexivity|]. inversion H; subst. f_equal. apply IH. assumption. }
    subst out'. exact Ho'.
  - apply Permutation_map_Some. rewrite Hm.
    rewrite <- (map_nth_error_seq tau). fold n.
    apply Permutation_map. exact Hperm.
Qed.

(** A cycle of a single step: [kappa] is 0 and every index underflows. *)
Lemma find_index_single checks fuel k :
  find_index checks fuel 1 0 2 k =
  match fuel with 0 => Fuel | S _ => if checks then Panic else Fuel end.
Proof.
  revert k. induction fuel as [|fuel IH]; intros k; [reflexivity|].
  cbn [find_index]. rewrite Nat.mul_0_r. cbn [Nat.modulo Nat.divmod].
  destruct checks; [reflexivity|]. change (0 mod 2) with 0. cbn iota. rewrite IH.
  destruct fuel; reflexivity.
Qed.

Lemma fed_order_single {A} checks fuel (x : A) :
  fed_order checks fuel [x] true =
  match fuel with 0 => Fuel | S _ => if checks then Panic else Fuel end.
Proof.
  unfold fed_order. cbn [length]. destruct fuel as [|fuel]; [reflexivity|].
  cbn [next_prime]. change (is_prime (1 + 1)) with true. cbn iota. cbn [bind].
  change (1 / 2) with 0. change (1 + 1) with 2. cbn [reorder_loop].
  rewrite find_index_single. destruct checks; reflexivity.
Qed.

Lemma fed_order_single_witness :
  exists tau : list nat, length tau = 1 /\
    (forall fuel, fed_order true (S fuel) tau true = Panic) /\
    (forall fuel, fed_order false fuel tau true = Fuel).
Proof.
  exists [0]. split; [reflexivity|].
  split; intros fuel; rewrite fed_order_single; [reflexivity|destruct fuel; reflexivity].
Qed.
