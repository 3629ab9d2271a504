(** The FED step sizes of an [n]-step cycle add up to the cycle time.
    Uses the polynomial whose roots are the squared cosines of the cycle. *)
From Coq Require Import List Reals Lra Lia Arith ZArith Psatz.
From Verif Require Import Outcome Fed FedSpec FedFacts.
From Coq Require Import Permutation.
Import ListNotations.
Open Scope R_scope.

Lemma Rsum_cons x l : Rsum (x :: l) = x + Rsum l.
Proof. reflexivity. Qed.

Lemma Rsum_map_scale {A} (c : R) (f : A -> R) l :
  Rsum (map (fun x => c * f x) l) = c * Rsum (map f l).
Proof. induction l as [|x l IH]; cbn; [lra|]. unfold Rsum in IH. rewrite IH. lra. Qed.

(** ** Polynomials as coefficient lists, lowest degree first *)
Fixpoint peval (l : list R) (x : R) : R :=
  match l with [] => 0 | a :: l' => a + x * peval l' x end.

Fixpoint padd (l m : list R) : list R :=
  match l, m with
  | [], _ => m
  | _, [] => l
  | a :: l', b :: m' => (a + b) :: padd l' m'
  end.

Lemma peval_padd l m x : peval (padd l m) x = peval l x + peval m x.
Proof.
  revert m. induction l as [|a l IH]; intros [|b m]; cbn [padd peval]; try lra.
  rewrite IH. lra.
Qed.

Lemma length_padd l m : length (padd l m) = Nat.max (length l) (length m).
Proof.
  revert m. induction l as [|a l IH]; intros [|b m]; cbn [padd length Nat.max]; try lia.
  rewrite IH. lia.
Qed.

Definition pscale (c : R) (l : list R) : list R := map (Rmult c) l.

Lemma peval_pscale c l x : peval (pscale c l) x = c * peval l x.
Proof. induction l as [|a l IH]; cbn; [lra|]. unfold pscale in IH. rewrite IH. lra. Qed.

Lemma length_pscale c l : length (pscale c l) = length l.
Proof. apply map_length. Qed.

(** Synthetic division by [x - r]. *)
Lemma pdivide l r : peval l r = 0 ->
  exists q, (length q <= length l - 1)%nat /\ forall x, peval l x = (x - r) * peval q x.
Proof.
  intros Hr.
  assert (H : forall l, exists q, (length q <= length l - 1)%nat /\
             forall x, peval l x = peval l r + (x - r) * peval q x).
  { clear. induction l as [|a l IH].
    - exists []. split; [simpl; lia|]. intros x. cbn. lra.
    - destruct IH as (q & Hq & He). destruct l as [|b l].
      + exists []. split; [simpl; lia|]. intros x. cbn. lra.
      + exists (peval (b :: l) r :: q). split; [cbn [length] in *; lia|].
        intros x.
        change (peval (a :: b :: l) x) with (a + x * peval (b :: l) x).
        change (peval (a :: b :: l) r) with (a + r * peval (b :: l) r).
        change (peval (peval (b :: l) r :: q) x) with (peval (b :: l) r + x * peval q x).
        rewrite (He x). ring. }
  destruct (H l) as (q & Hq & He). exists q. split; [assumption|].
  intros x. rewrite (He x), Hr. ring.
Qed.

Lemma too_many_roots xs : NoDup xs -> forall l, (length l <= length xs)%nat ->
  (forall x, In x xs -> peval l x = 0) -> forall x, peval l x = 0.
Proof.
  induction 1 as [|r xs Hnin Hnd IH]; intros l Hlen Hroot x.
  - destruct l; [reflexivity|cbn in Hlen; lia].
  - destruct (pdivide l r) as (q & Hq & He); [apply Hroot; left; reflexivity|].
    rewrite He. rewrite (IH q); [ring|cbn in Hlen; lia|].
    intros y Hy. assert (Hyr : y - r <> 0).
    { intros Hz. apply Hnin. replace r with y by lra. assumption. }
    apply (Rmult_eq_reg_l (y - r)); [|assumption].
    rewrite <- He, Rmult_0_r. apply Hroot. right; assumption.
Qed.

(** [f] is [a0 + a1 x + x^2 * (a polynomial with at most [d] coefficients)]. *)
Definition rep (d : nat) (f : R -> R) (a0 a1 : R) : Prop :=
  exists l, (length l <= d)%nat /\ forall x, f x = a0 + x * (a1 + x * peval l x).

Lemma sum_inverse_roots n f a0 a1 xs :
  rep (n - 1) f a0 a1 -> length xs = n -> (1 <= n)%nat -> NoDup xs ->
  (forall x, In x xs -> x <> 0 /\ f x = 0) -> a1 + a0 * Rsum (map Rinv xs) = 0.
Proof.
  intros (lf & Hlf & Hf) Hn Hn1 Hnd Hroots.
  assert (Hprod : forall ys, (forall y, In y ys -> y <> 0) ->
    rep (length ys - 1) (fun x => fold_right Rmult 1 (map (fun y => 1 - x / y) ys))
        1 (- Rsum (map Rinv ys))).
  { induction ys as [|y ys IH]; intros Hnz.
    - exists []. split; [simpl; lia|]. intros x. cbn. lra.
    - destruct IH as (l & Hl & He); [intros z Hz; apply Hnz; right; assumption|].
      set (s := - Rsum (map Rinv ys)) in *.
      destruct ys as [|y' ys'].
      + exists []. split; [simpl; lia|]. intros x. unfold Rsum. cbn [map fold_right peval].
        assert (y <> 0) by (apply Hnz; left; reflexivity). field. assumption.
      + exists (padd l ((- (s / y)) :: pscale (- / y) l)). split.
        * rewrite length_padd. cbn [length] in *. rewrite length_pscale. lia.
        * intros x. cbn [map fold_right]. cbn [map fold_right] in He. rewrite He, peval_padd. cbn [peval].
          rewrite peval_pscale.
          match goal with |- _ = 1 + x * (?q + _) => replace q with (s - / y) by
            (unfold s; cbn [map]; rewrite !Rsum_cons; ring) end.
          assert (y <> 0) by (apply Hnz; left; reflexivity). field. assumption. }
  destruct (Hprod xs) as (lp & Hlp & Hp); [intros y Hy; apply Hroots; assumption|].
  assert (Hzero : forall x, In x xs -> fold_right Rmult 1 (map (fun y => 1 - x / y) xs) = 0).
  { intros x Hx. assert (Hx0 : x <> 0) by (apply Hroots; assumption).
    clear -Hx Hx0. induction xs as [|y ys IH]; [destruct Hx|]. cbn [map fold_right].
    destruct Hx as [->|Hx].
    - unfold Rdiv. rewrite Rinv_r by assumption. ring.
    - rewrite IH by assumption. ring. }
  set (S := Rsum (map Rinv xs)) in *.
  pose proof (too_many_roots xs Hnd ((a1 + a0 * S) :: padd lf (pscale (- a0) lp))) as Hr.
  assert (H0 : peval ((a1 + a0 * S) :: padd lf (pscale (- a0) lp)) 0 = 0).
  { apply Hr.
    - cbn [length]. rewrite length_padd, length_pscale. lia.
    - intros x Hx. destruct (Hroots x Hx) as [Hx0 Hfx].
      apply (Rmult_eq_reg_l x); [|assumption]. rewrite Rmult_0_r.
      cbn [peval]. rewrite peval_padd, peval_pscale.
      pose proof (Hf x) as H1. rewrite Hfx in H1.
      pose proof (Hp x) as H2. rewrite (Hzero x Hx) in H2.
      transitivity ((a0 + x * (a1 + x * peval lf x)) - a0 * (1 + x * (- S + x * peval lp x)));
        [ring|]. rewrite <- H1, <- H2. ring. }
  cbn [peval] in H0. lra.
Qed.

(** ** The odd-cosine polynomials: [cos ((2n+1) t) = cos t * oc n (cos t ^ 2)] *)
Fixpoint oc (n : nat) (y : R) : R :=
  match n with
  | 0%nat => 1
  | S m => match m with
           | 0%nat => 4 * y - 3
           | S k => (4 * y - 2) * oc m y - oc k y
           end
  end.

Lemma oc_SS n y : oc (S (S n)) y = (4 * y - 2) * oc (S n) y - oc n y.
Proof. reflexivity. Qed.

Lemma cos_oc n t : cos ((2 * INR n + 1) * t) = cos t * oc n (cos t * cos t).
Proof.
  assert (H : cos ((2 * INR n + 1) * t) = cos t * oc n (cos t * cos t) /\
              cos ((2 * INR (S n) + 1) * t) = cos t * oc (S n) (cos t * cos t)).
  { induction n as [|n [IH1 IH2]].
    - split.
      + cbn [INR oc]. replace ((2 * 0 + 1) * t) with t by ring. ring.
      + cbn [INR oc]. replace ((2 * 1 + 1) * t) with (2 * t + t) by ring.
        rewrite cos_plus, cos_2a, sin_2a.
        pose proof (sin2_cos2 t) as Hs. unfold Rsqr in Hs.
        replace (sin t * sin t) with (1 - cos t * cos t) by lra.
        transitivity ((cos t * cos t - (1 - cos t * cos t)) * cos t - 2 * (sin t * sin t) * cos t);
          [ring|].
        replace (sin t * sin t) with (1 - cos t * cos t) by lra. ring.
    - split; [exact IH2|].
      rewrite oc_SS.
      replace ((2 * INR (S (S n)) + 1) * t)
        with ((2 * INR (S n) + 1) * t + 2 * t) by (rewrite (S_INR (S n)); ring).
      assert (Hn : cos ((2 * INR n + 1) * t) =
                   cos ((2 * INR (S n) + 1) * t - 2 * t)).
      { f_equal. rewrite S_INR. ring. }
      rewrite IH1 in Hn. rewrite cos_minus in Hn.
      rewrite cos_plus.
      set (A := cos ((2 * INR (S n) + 1) * t)) in *.
      set (B := sin ((2 * INR (S n) + 1) * t) * sin (2 * t)) in *.
      assert (HB : B = cos t * oc n (cos t * cos t) - A * cos (2 * t)) by lra.
      rewrite HB, IH2.
      replace (cos (2 * t)) with (2 * (cos t * cos t) - 1); [ring|].
      rewrite cos_2a. pose proof (sin2_cos2 t) as Hs. unfold Rsqr in Hs. lra. }
  apply H.
Qed.

Definition sgn (n : nat) : R := (-1) ^ n.

Lemma rep_oc n :
  rep (n - 1) (oc n) (sgn n * (2 * INR n + 1))
      (- sgn n * (2 * INR n + 1) * (2 * INR n * (INR n + 1) / 3)).
Proof.
  assert (H : rep (n - 1) (oc n) (sgn n * (2 * INR n + 1))
      (- sgn n * (2 * INR n + 1) * (2 * INR n * (INR n + 1) / 3)) /\
     rep n (oc (S n)) (sgn (S n) * (2 * INR (S n) + 1))
      (- sgn (S n) * (2 * INR (S n) + 1) * (2 * INR (S n) * (INR (S n) + 1) / 3))).
  { induction n as [|n [IH1 IH2]].
    - split; exists []; (split; [cbn; lia|]); intros y; unfold sgn; cbn [oc INR pow peval]; field.
    - split; [replace (S n - 1)%nat with n by lia; exact IH2|].
      destruct IH1 as (l1 & Hl1 & He1). destruct IH2 as (l2 & Hl2 & He2).
      exists (padd (pscale (-1) l1)
               ((4 * (- sgn (S n) * (2 * INR (S n) + 1) * (2 * INR (S n) * (INR (S n) + 1) / 3))
                 - 2 * hd 0 l2) :: padd (pscale 4 l2) (pscale (-2) (tl l2)))).
      split.
      + rewrite length_padd, length_pscale. cbn [length].
        rewrite length_padd, !length_pscale. destruct l2; cbn [tl length] in *; lia.
      + intros y. rewrite oc_SS, He1, He2, peval_padd, peval_pscale. cbn [peval].
        rewrite peval_padd, !peval_pscale.
        assert (Hl : peval l2 y = hd 0 l2 + y * peval (tl l2) y).
        { destruct l2; cbn [hd tl peval]; ring. }
        rewrite Hl. unfold sgn. cbn [pow]. rewrite !S_INR. field. }
  apply H.
Qed.

(** ** The squared cosines of the cycle *)
Definition theta (n k : nat) : R := PI * (2 * INR k + 1) * (1 / (4 * INR n + 2)).

Lemma theta_bounds n k : (k < n)%nat -> 0 < theta n k < PI / 2.
Proof.
  intros Hk. unfold theta. pose proof PI_RGT_0 as Hpi.
  assert (Hkn : INR k + 1 <= INR n) by (rewrite <- S_INR; apply le_INR; lia).
  pose proof (pos_INR k) as Hk0.
  assert (Hd : 0 < 4 * INR n + 2) by lra.
  split.
  - apply Rmult_lt_0_compat; [apply Rmult_lt_0_compat; lra|].
    unfold Rdiv. rewrite Rmult_1_l. apply Rinv_0_lt_compat. assumption.
  - apply (Rmult_lt_reg_r (4 * INR n + 2)); [assumption|].
    replace (PI * (2 * INR k + 1) * (1 / (4 * INR n + 2)) * (4 * INR n + 2))
      with (PI * (2 * INR k + 1)) by (field; lra).
    replace (PI / 2 * (4 * INR n + 2)) with (PI * (2 * INR n + 1)) by field.
    apply Rmult_lt_compat_l; lra.
Qed.

Lemma theta_mono n j k : (j < k < n)%nat -> theta n j < theta n k.
Proof.
  intros Hjk. unfold theta. pose proof PI_RGT_0 as Hpi. pose proof (pos_INR n) as Hn.
  apply Rmult_lt_compat_r.
  - unfold Rdiv. rewrite Rmult_1_l. apply Rinv_0_lt_compat. lra.
  - apply Rmult_lt_compat_l; [assumption|].
    assert (INR j < INR k) by (apply lt_INR; lia). lra.
Qed.

Definition cos2 (n k : nat) : R := cos (theta n k) * cos (theta n k).

Lemma cos_theta_pos n k : (k < n)%nat -> 0 < cos (theta n k).
Proof. intros Hk. pose proof (theta_bounds n k Hk). apply cos_gt_0; lra. Qed.

Lemma cos2_pos n k : (k < n)%nat -> 0 < cos2 n k.
Proof. intros Hk. apply Rmult_lt_0_compat; apply cos_theta_pos; assumption. Qed.

Lemma cos2_decr n j k : (j < k < n)%nat -> cos2 n k < cos2 n j.
Proof.
  intros Hjk. unfold cos2.
  assert (Hj : (j < n)%nat) by lia. assert (Hk : (k < n)%nat) by lia.
  pose proof (cos_theta_pos n j Hj). pose proof (cos_theta_pos n k Hk).
  pose proof (theta_bounds n j Hj). pose proof (theta_bounds n k Hk).
  pose proof (theta_mono n j k Hjk).
  assert (cos (theta n k) < cos (theta n j)) by (apply cos_decreasing_1; lra).
  nra.
Qed.

Lemma cos2_root n k : (k < n)%nat -> oc n (cos2 n k) = 0.
Proof.
  intros Hk. pose proof (cos_theta_pos n k Hk) as Hc.
  apply (Rmult_eq_reg_l (cos (theta n k))); [|lra].
  unfold cos2. rewrite <- cos_oc, Rmult_0_r.
  assert (Ht : (2 * INR n + 1) * theta n k = PI / 2 + INR k * PI).
  { unfold theta. pose proof (pos_INR n). field. lra. }
  rewrite Ht. apply cos_eq_0_1. exists (Z.of_nat k). rewrite <- INR_IZR_INZ. lra.
Qed.

Lemma NoDup_cos2 n : NoDup (map (cos2 n) (seq 0 n)).
Proof.
  apply NoDup_nth with (d := cos2 n 0). intros i j Hi Hj Heq.
  rewrite map_length, seq_length in Hi, Hj.
  rewrite !map_nth, !seq_nth in Heq by assumption. cbn [plus] in Heq.
  destruct (lt_eq_lt_dec i j) as [[Hlt|]|Hlt]; [|assumption|]; exfalso.
  - pose proof (cos2_decr n i j). lra || (assert (cos2 n j < cos2 n i) by (apply cos2_decr; lia); lra).
  - assert (cos2 n i < cos2 n j) by (apply cos2_decr; lia). lra.
Qed.

Lemma sgn_neq_0 n : sgn n <> 0.
Proof. apply pow_nonzero. lra. Qed.

Lemma sum_inv_cos2 n :
  Rsum (map (fun k => / cos2 n k) (seq 0 n)) = 2 * INR n * (INR n + 1) / 3.
Proof.
  destruct n as [|n]; [cbn; field|]. set (N := S n).
  pose proof (sum_inverse_roots N (oc N) _ _ (map (cos2 N) (seq 0 N)) (rep_oc N)) as H.
  rewrite map_map in H.
  rewrite map_length, seq_length in H.
  specialize (H eq_refl ltac:(unfold N; lia) (NoDup_cos2 N)).
  assert (Hr : forall x, In x (map (cos2 N) (seq 0 N)) -> x <> 0 /\ oc N x = 0).
  { intros x Hx. apply in_map_iff in Hx. destruct Hx as (k & <- & Hk). apply in_seq in Hk.
    split; [pose proof (cos2_pos N k); lra || (apply Rgt_not_eq, cos2_pos; lia)|].
    apply cos2_root. lia. }
  specialize (H Hr).
  pose proof (sgn_neq_0 N) as Hs. pose proof (pos_INR N) as HN.
  set (X := Rsum _) in *. set (Y := 2 * INR N * (INR N + 1) / 3) in *.
  assert (Hf : sgn N * (2 * INR N + 1) * (X - Y) = 0) by lra.
  apply Rmult_integral in Hf. destruct Hf as [Hf|Hf]; [|lra].
  apply Rmult_integral in Hf. destruct Hf as [Hf|Hf]; [contradiction|lra].
Qed.

Lemma fed_step_cos2 n scale tau_max k :
  fed_step n scale tau_max k = scale * tau_max / 2 * / cos2 n k.
Proof. reflexivity. Qed.

Lemma fed_steps_sum n scale tau_max :
  Rsum (fed_steps n scale tau_max) = scale * (tau_max * (INR n * (INR n + 1)) / 3).
Proof.
  unfold fed_steps.
  rewrite (map_ext _ (fun k => scale * tau_max / 2 * / cos2 n k)) by
    (intros k; apply fed_step_cos2).
  rewrite Rsum_map_scale, sum_inv_cos2. field.
Qed.

Lemma fed_steps_pos n scale tau_max x :
  0 < scale -> 0 < tau_max -> In x (fed_steps n scale tau_max) -> 0 < x.
Proof.
  intros Hs Ht Hx. unfold fed_steps in Hx. apply in_map_iff in Hx.
  destruct Hx as (k & <- & Hk). apply in_seq in Hk. rewrite fed_step_cos2.
  apply Rmult_lt_0_compat; [nra|]. apply Rinv_0_lt_compat, cos2_pos. lia.
Qed.

Lemma Permutation_Rsum l m : Permutation l m -> Rsum l = Rsum m.
Proof. induction 1; rewrite ?Rsum_cons; lra. Qed.

(** ** The step count *)
Lemma Rceil_bounds x : x <= IZR (Rceil x) < x + 1.
Proof.
  unfold Rceil. rewrite opp_IZR. pose proof (base_Int_part (- x)) as [H1 H2]. lra.
Qed.

Lemma fed_count_least t tau_max : 0 < t -> 0 < tau_max ->
  least_step_count tau_max t (fed_count t tau_max).
Proof.
  intros Ht Htau.
  assert (Hq0 : 0 < 3 * t / tau_max) by (apply Rdiv_lt_0_compat; lra).
  unfold fed_count. set (q := 3 * t / tau_max) in *.
  assert (Htq : t = tau_max * q / 3) by (unfold q; field; lra).
  set (s := sqrt (q + 1 / 4)).
  assert (Hs : s * s = q + 1 / 4) by (apply sqrt_sqrt; lra).
  assert (Hs0 : 0 <= s) by apply sqrt_pos.
  set (c := Rceil (s - 1 / 2 - 1 / 100000000)).
  pose proof (Rceil_bounds (s - 1 / 2 - 1 / 100000000)) as [Hc1 Hc2]. fold c in Hc1, Hc2.
  unfold least_step_count, max_cycle_time, slack. set (e := 1 / 100000000) in *.
  assert (He : 0 < e) by (unfold e; lra).
  split.
  - assert (Hn : s - 1 / 2 - e <= INR (Z.to_nat c)).
    { rewrite INR_IZR_INZ. apply Rle_trans with (IZR c); [assumption|].
      apply IZR_le. lia. }
    set (N := INR (Z.to_nat c)) in *. rewrite Htq. unfold Rdiv.
    apply Rmult_le_compat_r; [lra|]. apply Rmult_le_compat_l; [lra|].
    nra.
  - intros m Hm. assert (Hmc : (Z.of_nat m + 1 <= c)%Z) by lia.
    apply IZR_le in Hmc. rewrite plus_IZR, <- INR_IZR_INZ in Hmc.
    assert (Hms : INR m + e + 1 / 2 < s) by lra.
    pose proof (pos_INR m) as Hm0. rewrite Htq. unfold Rdiv.
    apply Rmult_lt_compat_r; [lra|]. apply Rmult_lt_compat_l; [lra|]. nra.
Qed.

Lemma fed_scale_sum n t tau_max : (0 < n)%nat -> 0 < tau_max ->
  Rsum (fed_steps n (fed_scale n t tau_max) tau_max) = t.
Proof.
  intros Hn Htau. rewrite fed_steps_sum. unfold fed_scale.
  assert (0 < INR n) by (apply lt_0_INR; assumption). field. lra.
Qed.

Lemma fed_scale_pos n t tau_max : (0 < n)%nat -> 0 < t -> 0 < tau_max ->
  0 < fed_scale n t tau_max.
Proof.
  intros Hn Ht Htau. unfold fed_scale. assert (0 < INR n) by (apply lt_0_INR; assumption).
  apply Rdiv_lt_0_compat; [lra|]. apply Rmult_lt_0_compat; [assumption|nra].
Qed.

(** A run which returns is a permutation of the steps, whatever the fuel. *)
Lemma fed_order_ok_permutation {A} checks fuel (tau : list A) reordering out :
  fed_order checks fuel tau reordering = Ok out -> Permutation out tau.
Proof.
  intros H. destruct (Nat.eq_dec (length tau) 1) as [H1|H1].
  - destruct tau as [|x [|y tau]]; try discriminate. destruct reordering.
    + rewrite fed_order_single in H. destruct fuel; [discriminate|].
      destruct checks; discriminate.
    + cbn in H. injection H as <-. apply Permutation_refl.
  - destruct (fed_order_permutation checks tau reordering H1) as (fuel0 & out' & Hok & Hp).
    assert (Hmono : forall f f' o, (f <= f')%nat -> fed_order checks f tau reordering = Ok o ->
                    fed_order checks f' tau reordering = Ok o).
    { clear. assert (Hfi : forall f f' n kappa prime k o, (f <= f')%nat ->
        find_index checks f n kappa prime k = Ok o ->
        find_index checks f' n kappa prime k = Ok o).
      { induction f as [|f IH]; intros f' n kappa prime k o Hle Ho; [discriminate|].
        destruct f' as [|f']; [lia|]. cbn [find_index] in *.
        destruct (((k + 1) * kappa) mod prime)%nat as [|index].
        - destruct checks; [discriminate|]. apply IH; [lia|assumption].
        - destruct (n <=? index)%nat; [apply IH; [lia|assumption]|assumption]. }
      assert (Hnp : forall f f' p o, (f <= f')%nat -> next_prime f p = Ok o -> next_prime f' p = Ok o).
      { induction f as [|f IH]; intros f' p o Hle Ho; [discriminate|].
        destruct f' as [|f']; [lia|]. cbn [next_prime] in *.
        destruct (is_prime p); [assumption|]. apply IH; [lia|assumption]. }
      assert (Hrl : forall todo f f' n kappa prime k o, (f <= f')%nat ->
        reorder_loop checks f tau n kappa prime todo k = Ok o ->
        reorder_loop checks f' tau n kappa prime todo k = Ok o).
      { induction todo as [|todo IH]; intros f f' n kappa prime k o Hle Ho; [assumption|].
        cbn [reorder_loop] in *.
        destruct (find_index checks f n kappa prime k) as [[i k']| |] eqn:E; try discriminate.
        rewrite (Hfi _ _ _ _ _ _ _ Hle E). cbn [bind] in *.
        destruct (unwrap (nth_error tau i)) as [x| |] eqn:Ex; try discriminate. cbn [bind] in *.
        destruct (reorder_loop checks f tau n kappa prime todo k') as [r| |] eqn:Er; try discriminate.
        rewrite (IH _ _ _ _ _ _ _ Hle Er). assumption. }
      intros f f' o Hle Ho. unfold fed_order in *. destruct reordering; [|assumption].
      destruct (next_prime f (length tau + 1)) as [p| |] eqn:Ep; try discriminate.
      rewrite (Hnp _ _ _ _ Hle Ep). cbn [bind] in *. eapply Hrl; eassumption. }
    pose proof (Hmono _ (Nat.max fuel fuel0) _ (Nat.le_max_l _ _) H) as H2.
    rewrite (Hok _ (Nat.le_max_r _ _)) in H2. injection H2 as ->. assumption.
Qed.

Lemma length_fed_steps n scale tau_max : length (fed_steps n scale tau_max) = n.
Proof. unfold fed_steps. rewrite map_length, seq_length. reflexivity. Qed.

Lemma fed_process_ok checks fuel T M tau_max reordering out :
  0 < T -> (0 < M)%Z -> 0 < tau_max ->
  fed_tau_by_process_time checks fuel T M tau_max reordering = Ok out ->
  least_step_count tau_max (T / IZR M) (length out) /\
  (out <> [] -> Rsum out = T / IZR M) /\ (forall x, In x out -> 0 < x).
Proof.
  intros HT HM Htau H.
  assert (Ht : 0 < T / IZR M) by (apply Rdiv_lt_0_compat; [assumption|apply IZR_lt; assumption]).
  unfold fed_tau_by_process_time, fed_tau_by_cycle_time, fed_tau_internal in H.
  set (t := T / IZR M) in *. set (n := fed_count t tau_max) in *.
  apply fed_order_ok_permutation in H.
  assert (Hl : length out = n) by
    (rewrite (Permutation_length H), length_fed_steps; reflexivity).
  rewrite Hl. split; [apply fed_count_least; assumption|].
  split.
  - intros Hne. rewrite (Permutation_Rsum _ _ H). apply fed_scale_sum; [|assumption].
    destruct out; [contradiction|]. cbn in Hl. lia.
  - intros x Hx. assert (0 < n)%nat by (destruct out; [destruct Hx|cbn in Hl; lia]).
    apply (Permutation_in x H) in Hx. revert Hx.
    apply fed_steps_pos; [apply fed_scale_pos; assumption|assumption].
Qed.

Lemma fed_process_total checks T M tau_max reordering :
  0 < T -> (0 < M)%Z -> 0 < tau_max ->
  ~ least_step_count tau_max (T / IZR M) 1 ->
  exists fuel0 out, forall fuel, (fuel0 <= fuel)%nat ->
    fed_tau_by_process_time checks fuel T M tau_max reordering = Ok out.
Proof.
  intros HT HM Htau H1.
  assert (Ht : 0 < T / IZR M) by (apply Rdiv_lt_0_compat; [assumption|apply IZR_lt; assumption]).
  pose proof (fed_count_least _ _ Ht Htau) as Hleast.
  assert (Hn1 : fed_count (T / IZR M) tau_max <> 1%nat) by (intros E; rewrite E in Hleast; contradiction).
  set (t := T / IZR M) in *. set (n := fed_count t tau_max) in *.
  destruct (fed_order_permutation checks (fed_steps n (fed_scale n t tau_max) tau_max) reordering)
    as (fuel0 & out & Hok & Hp); [rewrite length_fed_steps; assumption|].
  exists fuel0, out. exact Hok.
Qed.

(** ** Witnesses *)
Lemma Rceil_unique x z : IZR z - 1 < x <= IZR z -> Rceil x = z.
Proof.
  intros H. pose proof (Rceil_bounds x) as [H1 H2].
  assert (IZR (Rceil x) < IZR (z + 1)) by (rewrite plus_IZR; lra).
  assert (IZR z < IZR (Rceil x + 1)) by (rewrite plus_IZR; lra).
  apply lt_IZR in H0. apply lt_IZR in H3. lia.
Qed.

Lemma fed_count_of_sqrt t tau_max s z :
  0 < s -> 3 * t / tau_max + 1 / 4 = s * s -> IZR z - 1 < s - 1 / 2 - slack <= IZR z ->
  fed_count t tau_max = Z.to_nat z.
Proof.
  intros Hs Hq Hz. unfold fed_count. rewrite Hq, sqrt_square by lra.
  f_equal. apply Rceil_unique. exact Hz.
Qed.

(** 2/48 = tau_max * (1/2^2 + ... ) : one step suffices for every time up to 1/6. *)
Lemma fed_count_one : fed_count (1 / 6) (1 / 4) = 1%nat.
Proof. apply (fed_count_of_sqrt _ _ (3 / 2) 1); unfold slack; lra. Qed.

Lemma fed_count_two : fed_count (1 / 2) (1 / 4) = 2%nat.
Proof. apply (fed_count_of_sqrt _ _ (5 / 2) 2); unfold slack; lra. Qed.

Lemma fed_process_one_step :
  (forall fuel, fed_tau_by_process_time true (S fuel) (1 / 6) 1 (1 / 4) true = Panic) /\
  (forall fuel, fed_tau_by_process_time false fuel (1 / 6) 1 (1 / 4) true = Fuel).
Proof.
  assert (H : forall checks fuel, fed_tau_by_process_time checks fuel (1 / 6) 1 (1 / 4) true =
    fed_order checks fuel [fed_step 1 (fed_scale 1 (1 / 6) (1 / 4)) (1 / 4) 0] true).
  { intros checks fuel. unfold fed_tau_by_process_time, fed_tau_by_cycle_time.
    replace (1 / 6 / IZR 1) with (1 / 6) by field. rewrite fed_count_one. reflexivity. }
  split; intros fuel; rewrite H, fed_order_single; [reflexivity|destruct fuel; reflexivity].
Qed.

Lemma fed_process_no_step checks fuel :
  fed_tau_by_process_time checks (S (S (S fuel))) (1 / 12 * (slack * (slack + 1))) 1 (1 / 4) true
  = Ok [].
Proof.
  unfold fed_tau_by_process_time, fed_tau_by_cycle_time.
  rewrite (fed_count_of_sqrt _ _ (slack + 1 / 2) 0); [reflexivity| | |]; unfold slack; lra.
Qed.

Lemma fed_process_tiny :
  exists T, 0 < T /\ (forall fuel,
    fed_tau_by_process_time true (S (S (S fuel))) T 1 (1 / 4) true = Ok []) /\ Rsum [] <> T.
Proof.
  exists (1 / 12 * (slack * (slack + 1))). split; [unfold slack; lra|].
  split; [intros fuel; apply fed_process_no_step|]. unfold slack. cbn [Rsum fold_right]. lra.
Qed.

Lemma least_unique tau_max t n m : 0 < tau_max ->
  least_step_count tau_max t n -> least_step_count tau_max t m -> n = m.
Proof.
  intros Htau [Hn1 Hn2] [Hm1 Hm2]. destruct (lt_eq_lt_dec n m) as [[H|H]|H]; [|assumption|].
  - specialize (Hm2 n H). lra.
  - specialize (Hn2 m H). lra.
Qed.

Lemma fed_process_one_step_witness :
  exists T, 0 < T /\
    (forall fuel, fed_tau_by_process_time true (S fuel) T 1 (1 / 4) true = Panic) /\
    (forall fuel, fed_tau_by_process_time false fuel T 1 (1 / 4) true = Fuel).
Proof. exists (1 / 6). split; [lra|]. exact fed_process_one_step. Qed.
