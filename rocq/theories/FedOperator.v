(** A product of explicit diffusion steps with FED step sizes is an average of Chebyshev polynomials of
    the diffusion operator, so it does not increase the norm although single steps may. *)
From Coq Require Import List Reals Lra Lia Arith Permutation FunctionalExtensionality.
From Verif Require Import Fed FedSpec FedFacts FedSum.
Import ListNotations.
Open Scope R_scope.

(** ** Coefficients of a polynomial which vanishes everywhere *)
Lemma peval_zero_tail a l : (forall y, peval (a :: l) y = 0) -> a = 0 /\ forall y, peval l y = 0.
Proof.
  intros H. assert (a = 0) as -> by (specialize (H 0); cbn in H; lra). split; [reflexivity|].
  apply (too_many_roots (map (fun k => INR (S k)) (seq 0 (length l)))).
  - apply FinFun.Injective_map_NoDup; [|apply seq_NoDup]. intros i j E. apply INR_eq in E. lia.
  - rewrite map_length, seq_length. lia.
  - intros x (k & <- & _)%in_map_iff. specialize (H (INR (S k))). cbn [peval] in H.
    apply (Rmult_eq_reg_l (INR (S k))); [lra|]. apply not_0_INR. lia.
Qed.

(** [prodl rs] has the value [(1 - y / r1) (1 - y / r2) ...]. *)
Fixpoint prodl (rs : list R) : list R :=
  match rs with [] => [1] | r :: rs => padd (prodl rs) (0 :: pscale (- / r) (prodl rs)) end.
Definition prodv (rs : list R) (y : R) : R := fold_right Rmult 1 (map (fun r => 1 - y / r) rs).
Lemma peval_prodl rs y : peval (prodl rs) y = prodv rs y.
Proof. unfold prodv. induction rs as [|r rs IH]; [cbn; ring|]. cbn [prodl map fold_right]. rewrite peval_padd. cbn [peval]. rewrite peval_pscale, IH. unfold Rdiv. ring. Qed.
Lemma length_prodl rs : length (prodl rs) = S (length rs).
Proof. induction rs as [|r rs IH]; [reflexivity|]. cbn [prodl length]. rewrite length_padd. cbn [length]. rewrite length_pscale, IH. lia. Qed.
Lemma prodv_perm rs rs' y : Permutation rs rs' -> prodv rs y = prodv rs' y.
Proof. unfold prodv. induction 1; cbn [map fold_right]; try congruence; ring. Qed.
Lemma prodv_root rs r : In r rs -> r <> 0 -> prodv rs r = 0.
Proof. unfold prodv. intros H Hr. induction rs as [|x rs IH]; [destruct H|]. cbn [map fold_right]. destruct H as [->|H]; [unfold Rdiv; rewrite Rinv_r by exact Hr; ring|rewrite IH by exact H; ring]. Qed.
Lemma prodv_0 rs : prodv rs 0 = 1.
Proof. unfold prodv. induction rs as [|x rs IH]; [reflexivity|]. cbn [map fold_right]. rewrite IH. unfold Rdiv. ring. Qed.

(** Coefficients of [oc n]. *)
Fixpoint ocl (n : nat) : list R :=
  match n with
  | 0%nat => [1]
  | S m => match m with
           | 0%nat => [-3; 4]
           | S k => padd (padd (0 :: pscale 4 (ocl m)) (pscale (-2) (ocl m))) (pscale (-1) (ocl k))
           end
  end.
Lemma two_step (P : nat -> Prop) : P 0%nat -> P 1%nat -> (forall n, P n -> P (S n) -> P (S (S n))) -> forall n, P n.
Proof. intros H0 H1 H n. assert (P n /\ P (S n)) as [? _]; [|assumption]. induction n as [|n [? ?]]; auto. Qed.
Lemma ocl_SS n : ocl (S (S n)) = padd (padd (0 :: pscale 4 (ocl (S n))) (pscale (-2) (ocl (S n)))) (pscale (-1) (ocl n)).
Proof. reflexivity. Qed.
Lemma peval_ocl n y : peval (ocl n) y = oc n y.
Proof. revert n. apply two_step; [cbn; ring|cbn; ring|]. intros n H1 H2. rewrite oc_SS, ocl_SS, !peval_padd, !peval_pscale. cbn [peval]. rewrite peval_pscale, H1, H2. ring. Qed.
Lemma length_ocl n : length (ocl n) = S n.
Proof. revert n. apply two_step; [reflexivity|reflexivity|]. intros n H1 H2. rewrite ocl_SS, !length_padd, !length_pscale. cbn [length]. rewrite length_pscale, H1, H2. lia. Qed.
Lemma oc_0 n : oc n 0 = sgn n * (2 * INR n + 1).
Proof. destruct (rep_oc n) as (l & _ & E). rewrite E. ring. Qed.
Lemma sgn_sq n : sgn n * sgn n = 1.
Proof. unfold sgn. rewrite <- pow_add, <- (Rmult_1_r ((-1) ^ (n + n))). replace (n + n)%nat with (2 * n)%nat by lia. rewrite pow_1_even. ring. Qed.

(** The product over the squared cosines of a cycle. *)
Definition squares (n : nat) : list R := map (cos2 n) (seq 0 n).
Lemma product_is_oc n y : (2 * INR n + 1) * prodv (squares n) y = sgn n * oc n y.
Proof.
  assert (pos : 0 < 2 * INR n + 1) by (pose proof (pos_INR n); lra).
  assert (nz : forall r, In r (squares n) -> r <> 0).
  { intros r (k & <- & Hk)%in_map_iff. apply in_seq in Hk. apply Rgt_not_eq, cos2_pos. lia. }
  enough (H : peval (padd (pscale (2 * INR n + 1) (prodl (squares n))) (pscale (- sgn n) (ocl n))) y = 0).
  { rewrite peval_padd, !peval_pscale, peval_prodl, peval_ocl in H. lra. }
  apply (too_many_roots (0 :: squares n)).
  - constructor; [|apply NoDup_cos2]. intros H. exact (nz 0 H eq_refl).
  - rewrite length_padd, !length_pscale, length_prodl, length_ocl. unfold squares. cbn [length]. rewrite map_length, seq_length. lia.
  - intros x Hx. rewrite peval_padd, !peval_pscale, peval_prodl, peval_ocl. destruct Hx as [<-|Hx].
    + rewrite prodv_0, oc_0. pose proof (sgn_sq n). nra.
    + rewrite (prodv_root _ x Hx (nz x Hx)). unfold squares in Hx. apply in_map_iff in Hx as (k & <- & Hk). apply in_seq in Hk. rewrite cos2_root by lia. ring.
Qed.

Section operator.
Context {A : Type}.
Notation V := (A -> R).
Definition comb (a : R) (f : V) (b : R) (g : V) : V := fun x => a * f x + b * g x.
Variable ip : V -> V -> R.
Hypothesis ip_sym : forall f g, ip f g = ip g f.
Hypothesis ip_comb : forall a f b g k, ip (comb a f b g) k = a * ip f k + b * ip g k.
Hypothesis ip_pos : forall f, 0 <= ip f f.
Variable M : V -> V.
Hypothesis M_comb : forall a f b g, M (comb a f b g) = comb a (M f) b (M g).
Hypothesis M_sym : forall f g, ip (M f) g = ip f (M g).
(** [M] is between 0 and 1, in the form needed below. *)
Hypothesis M_bound : forall f, ip (M f) (M f) <= ip (M f) f.

(** A polynomial in [M]. *)
Fixpoint pop (p : list R) (f : V) : V := match p with [] => fun _ => 0 | a :: p => comb a f 1 (M (pop p f)) end.
Lemma M_zero : M (fun _ => 0) = fun _ => 0.
Proof. transitivity (M (comb 0 (fun _ => 0) 0 (fun _ => 0))); [f_equal; extensionality x; unfold comb; ring|]. rewrite M_comb. extensionality x. unfold comb. ring. Qed.
Lemma pop_padd p q f : pop (padd p q) f = comb 1 (pop p f) 1 (pop q f).
Proof.
  revert q. induction p as [|a p IH]; intros [|b q]; cbn [padd pop]; try (extensionality x; unfold comb; ring).
  rewrite IH, M_comb. extensionality x. unfold comb. ring.
Qed.
Lemma pop_pscale c p f : pop (pscale c p) f = comb c (pop p f) 0 f.
Proof.
  induction p as [|a p IH]; [extensionality x; unfold comb; cbn; ring|]. unfold pscale in *. cbn [map pop]. rewrite IH, M_comb.
  extensionality x. unfold comb. ring.
Qed.
Lemma pop_zero p f : (forall y, peval p y = 0) -> pop p f = fun _ => 0.
Proof.
  induction p as [|a p IH]; intros H; [reflexivity|]. apply peval_zero_tail in H as [-> H]. cbn [pop]. rewrite IH, M_zero by exact H.
  extensionality x. unfold comb. ring.
Qed.
Lemma pop_ext p q f : (forall y, peval p y = peval q y) -> pop p f = pop q f.
Proof.
  intros H. assert (Z : pop (padd p (pscale (-1) q)) f = fun _ => 0).
  { apply pop_zero. intros y. rewrite peval_padd, peval_pscale, H. ring. }
  rewrite pop_padd, pop_pscale in Z. extensionality x. apply (f_equal (fun k : V => k x)) in Z. unfold comb in Z. lra.
Qed.
Lemma pop_shift p f : pop (0 :: p) f = M (pop p f).
Proof. cbn [pop]. extensionality x. unfold comb. ring. Qed.

(** One step, a sequence of steps. *)
Definition step (r : R) (f : V) : V := comb 1 f (- / r) (M f).
Lemma pop_step r rs f : pop (prodl (r :: rs)) f = step r (pop (prodl rs) f).
Proof. cbn [prodl]. rewrite pop_padd, pop_shift, pop_pscale. unfold step. replace (comb (- / r) (pop (prodl rs) f) 0 f) with (comb (- / r) (pop (prodl rs) f) 0 (pop (prodl rs) f)) by (extensionality x; unfold comb; ring).
  rewrite M_comb. extensionality x. unfold comb. ring. Qed.
Lemma steps_pop rs f : fold_left (fun g r => step r g) rs f = pop (prodl rs) f.
Proof.
  rewrite <- (fold_left_rev_right (fun r g => step r g)).
  transitivity (pop (prodl (rev rs)) f).
  - induction (rev rs) as [|r l IH]; cbn [fold_right]; [extensionality x; cbn [prodl pop]; rewrite M_zero; unfold comb; ring|]. rewrite IH. symmetry. apply pop_step.
  - apply pop_ext. intros y. rewrite !peval_prodl. apply prodv_perm, Permutation_sym, Permutation_rev.
Qed.

(** Chebyshev polynomials of [W = 1 - 2 M]. *)
Definition W (f : V) : V := comb 1 f (-2) (M f).
Lemma W_comb a f b g : W (comb a f b g) = comb a (W f) b (W g).
Proof. unfold W. rewrite M_comb. extensionality x. unfold comb. ring. Qed.
Lemma ip_comb_r a f b g k : ip k (comb a f b g) = a * ip k f + b * ip k g.
Proof. rewrite ip_sym, ip_comb, !(ip_sym k). reflexivity. Qed.
Lemma W_sym f g : ip (W f) g = ip f (W g).
Proof. unfold W. rewrite ip_comb, ip_comb_r, M_sym. reflexivity. Qed.
Lemma W_contracts f : ip (W f) (W f) <= ip f f.
Proof. unfold W. rewrite !ip_comb, !ip_comb_r. rewrite (ip_sym f (M f)). pose proof (M_bound f). lra. Qed.

Fixpoint cheb (n : nat) (f : V) : V * V :=
  match n with
  | 0%nat => (f, fun _ => 0)
  | S n => let '(a, b) := cheb n f in (comb 1 (W a) (-1) (comb 1 b (-1) (W (W b))), comb 1 a 1 (W b))
  end.
Definition energy (ab : V * V) : R := ip (fst ab) (fst ab) + ip (snd ab) (snd ab) - ip (W (snd ab)) (W (snd ab)).
Lemma ip_zero_l k : ip (fun _ => 0) k = 0.
Proof. transitivity (ip (comb 0 (fun _ => 0) 0 (fun _ => 0)) k); [f_equal; extensionality x; unfold comb; ring|]. rewrite ip_comb. ring. Qed.
Lemma W_zero : W (fun _ => 0) = fun _ => 0.
Proof. unfold W. rewrite M_zero. extensionality x. unfold comb. ring. Qed.
Lemma energy_kept n f : energy (cheb n f) = ip f f.
Proof.
  induction n as [|n IH]; cbn [cheb].
  - unfold energy. cbn [fst snd]. rewrite W_zero, !ip_zero_l. ring.
  - destruct (cheb n f) as [a b]. rewrite <- IH. clear IH. unfold energy. cbn [fst snd].
    rewrite !W_comb, !ip_comb, !ip_comb_r.
    rewrite (ip_sym (W (W b)) (W a)), (ip_sym b (W a)), (W_sym a b), (ip_sym (W b) a), (ip_sym (W (W b)) b), <- (W_sym b (W b)). ring.
Qed.
Lemma cheb_short n f : ip (fst (cheb n f)) (fst (cheb n f)) <= ip f f.
Proof. rewrite <- (energy_kept n f). unfold energy. pose proof (W_contracts (snd (cheb n f))). lra. Qed.

(** [gsum n] is the sum [1 + 2 T_1 + ... + 2 T_n]. *)
Definition gsum (n : nat) (f : V) : V := comb 1 (snd (cheb (S n) f)) 1 (snd (cheb n f)).
Lemma snd_SS n f : snd (cheb (S (S n)) f) = comb 2 (fst (cheb (S n) f)) 1 (snd (cheb n f)).
Proof.
  cbn [cheb]. destruct (cheb n f) as [a b]. cbn [fst snd]. rewrite !W_comb. extensionality x. unfold comb. ring.
Qed.
Lemma snd_rec n f : snd (cheb (S (S n)) f) = comb 2 (W (snd (cheb (S n) f))) (-1) (snd (cheb n f)).
Proof. cbn [cheb]. destruct (cheb n f) as [a b]. cbn [fst snd]. rewrite !W_comb. extensionality x. unfold comb. ring. Qed.
Lemma gsum_short n f : ip (gsum n f) (gsum n f) <= (2 * INR n + 1) * (2 * INR n + 1) * ip f f.
Proof.
  induction n as [|n IH].
  - replace (gsum 0 f) with f; [cbn [INR]; pose proof (ip_pos f); lra|]. unfold gsum. cbn [cheb snd]. rewrite W_zero. extensionality x. unfold comb. ring.
  - replace (gsum (S n) f) with (comb 1 (gsum n f) 2 (fst (cheb (S n) f))).
    2:{ unfold gsum. rewrite snd_SS. extensionality x. unfold comb. ring. }
    pose proof (cheb_short (S n) f) as Ha. set (a := fst (cheb (S n) f)) in *. set (g := gsum n f) in *. rewrite S_INR. pose proof (pos_INR n) as Hn. set (m := 2 * INR n + 1) in *.
    pose proof (ip_pos (comb 1 g (- m) a)) as Hp. rewrite !ip_comb, !ip_comb_r in Hp. rewrite !ip_comb, !ip_comb_r. rewrite (ip_sym a g) in *. pose proof (ip_pos f) as Hf.
    assert (Hm : 0 < m) by (unfold m; lra).
    assert (Hga : ip g a <= m * ip f f).
    { apply (Rmult_le_reg_l (2 * m)); [lra|]. assert (m * m * ip a a <= m * m * ip f f) by (apply Rmult_le_compat_l; nra). nra. }
    replace (2 * (INR n + 1) + 1) with (m + 2) by (unfold m; ring). nra.
Qed.
Lemma gsum_pop n f : gsum n f = pop (pscale (sgn n) (ocl n)) f.
Proof.
  revert n. apply two_step.
  - unfold gsum. cbn [cheb snd ocl sgn pow pscale map pop]. rewrite W_zero, M_zero. extensionality x. unfold comb. ring.
  - unfold gsum. cbn [cheb snd fst ocl sgn pow pscale map pop]. rewrite !W_zero, M_zero.
    replace (comb 1 f (-1) (comb 1 (fun _ : A => 0) (-1) (fun _ => 0))) with f by (extensionality x; unfold comb; ring).
    replace (comb (-1 * 1 * 4) f 1 (fun _ : A => 0)) with (comb (-4) f 0 f) by (extensionality x; unfold comb; ring).
    rewrite M_comb. unfold W. replace (comb 1 f 1 (fun _ : A => 0)) with (comb 1 f 0 f) by (extensionality x; unfold comb; ring). 
    extensionality x. unfold comb at 1 2 3. rewrite !M_comb. replace (comb 1 (W f) (-1) (comb 1 (fun _ : A => 0) (-1) (fun _ => 0))) with (W f) by (extensionality z; unfold comb; ring). unfold W. unfold comb. ring.
  - intros n H1 H2.
    transitivity (comb 2 (W (gsum (S n) f)) (-1) (gsum n f)).
    { unfold gsum. rewrite (snd_rec (S n)), (snd_rec n), !W_comb. extensionality x. unfold comb. ring. }
    rewrite H1, H2, !pop_pscale, ocl_SS, !pop_padd, pop_shift, !pop_pscale. rewrite !W_comb. unfold W. rewrite !M_comb. unfold sgn. cbn [pow]. extensionality x. unfold comb. ring.
Qed.

(** Steps with the squared cosines of a cycle, in any order, do not increase the norm. *)
Lemma cycle_short n rs f : Permutation rs (squares n) ->
  let out := fold_left (fun g r => step r g) rs f in ip out out <= ip f f.
Proof.
  intros Hp out. unfold out. rewrite steps_pop.
  assert (E : comb (2 * INR n + 1) (pop (prodl rs) f) 0 f = gsum n f).
  { rewrite gsum_pop, <- pop_pscale. apply pop_ext. intros y. rewrite !peval_pscale, peval_prodl, peval_ocl, (prodv_perm _ _ y Hp). apply product_is_oc. }
  pose proof (gsum_short n f) as H. rewrite <- E in H. set (g := pop (prodl rs) f) in *. rewrite !ip_comb, !ip_comb_r in H.
  assert (pos : 0 < 2 * INR n + 1) by (pose proof (pos_INR n); lra).
  apply (Rmult_le_reg_l ((2 * INR n + 1) * (2 * INR n + 1))); [nra|]. nra.
Qed.
End operator.
