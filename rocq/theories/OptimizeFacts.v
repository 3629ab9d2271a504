(** Facts about the pose optimisers. *)
From Coq Require Import Reals Lra Psatz List ZArith Bool Lia.
From Verif Require Import Num Lin LinSpec LinFacts Core CoreSpec CoreFacts So3Facts Geom GeomSpec GeomFacts GeomEpi Optimize OptimizeSpec.
Import ListNotations.
Open Scope R_scope.

(** ** The loop *)
Definition is_best (f : nat -> R) (j : nat) (b : option R) : Prop :=
  match b with None => j = 0%nat | Some x => (exists i, (i < j)%nat /\ f i = x) /\ forall i, (i < j)%nat -> x <= f i end.
Lemma below_best (f : nat -> R) j b : is_best f j b -> (below (N := RNum) (f j) b = true <-> new_low f j).
Proof.
  unfold below, new_low. destruct b as [x|]; cbn [is_best].
  - intros [(i & Hi & E) H]. change (Rltb (f j) x = true <-> forall i, (i < j)%nat -> f j < f i). rewrite Rltb_spec. split.
    + intros L i' Hi'. specialize (H i' Hi'). lra.
    + intros L. rewrite <- E. apply L, Hi.
  - intros ->. split; [intros _ i Hi; lia|reflexivity].
Qed.
Lemma better_best (f : nat -> R) j b : is_best f j b -> is_best f (S j) (better (N := RNum) (f j) b).
Proof.
  intros H. pose proof (below_best f j b H) as B. unfold better. destruct (below (N := RNum) (f j) b) eqn:E.
  - assert (new_low f j) as L by (apply B; reflexivity). cbn [is_best]. split; [exists j; split; [lia|reflexivity]|]. intros i Hi. destruct (Nat.eq_dec i j) as [->|]; [lra|]. specialize (L i ltac:(lia)). lra.
  - assert (~ new_low f j) as L by (intros L; apply B in L; discriminate). destruct b as [x|]; cbn [is_best] in *.
    + destruct H as [(i & Hi & Ei) H]. split; [exists i; split; [lia|exact Ei]|]. intros i' Hi'. destruct (Nat.eq_dec i' j) as [->|]; [|apply H; lia].
      unfold below in E. change (Rltb (f j) x = false) in E. apply Rltb_false in E. exact E.
    + exfalso. subst j. apply L. intros i Hi. lia.
Qed.

Section loop.
Context {S : Type} (sums : S -> list (se3 RNum)) (step : S -> S) (m : nat) (Hm : forall s, length (sums s) = m) (Hpos : (0 < m)%nat) (start : S).
Notation gs := (fun j => sums (Nat.iter j step start)).
Definition bests_ok (j : nat) (bests : list (option RNum * option RNum)) : Prop :=
  length bests = m /\ forall a, (a < m)%nat ->
    is_best (fun i => norm (se_t (nth a (gs i) se3_id))) j (fst (nth a bests (None, None))) /\ is_best (fun i => norm (se_r (nth a (gs i) se3_id))) j (snd (nth a bests (None, None))).
Lemma existsb_nth {A} (f : A -> bool) (l : list A) d : existsb f l = true <-> exists a, (a < length l)%nat /\ f (nth a l d) = true.
Proof.
  rewrite existsb_exists. split.
  - intros (x & Hx & Hf). destruct (In_nth l x d Hx) as (a & Ha & E). exists a. rewrite E. auto.
  - intros (a & Ha & Hf). exists (nth a l d). split; [apply nth_In, Ha|exact Hf].
Qed.
Lemma improved_progress j bests : bests_ok j bests -> (existsb (fun bg => improved (fst bg) (snd bg)) (combine bests (gs j)) = true <-> progress gs j).
Proof.
  intros [Hl Hb]. rewrite (existsb_nth _ _ ((None, None), se3_id)). unfold progress. rewrite combine_length, Hl, Hm, Nat.min_id. split; intros (a & Ha & H); exists a; (split; [exact Ha|]); destruct (Hb a Ha) as [H1 H2].
  - rewrite combine_nth in H by (rewrite Hl, Hm; reflexivity). cbn [fst snd] in H. unfold improved in H. apply orb_prop in H as [H|H]; [left; apply (below_best _ _ _ H1), H|right; apply (below_best _ _ _ H2), H].
  - rewrite combine_nth by (rewrite Hl, Hm; reflexivity). cbn [fst snd]. unfold improved. apply orb_true_intro. destruct H as [H|H]; [left; apply (below_best _ _ _ H1), H|right; apply (below_best _ _ _ H2), H].
Qed.
Lemma keep_bests j bests : bests_ok j bests -> bests_ok (Datatypes.S j) (map (fun bg => keep_best (fst bg) (snd bg)) (combine bests (gs j))).
Proof.
  intros [Hl Hb]. assert (length (combine bests (gs j)) = m) as Hc by (rewrite combine_length, Hl, Hm, Nat.min_id; reflexivity). split; [rewrite map_length; exact Hc|].
  intros a Ha. destruct (Hb a Ha) as [H1 H2]. set (d := (((None, None), se3_id) : (option RNum * option RNum) * se3 RNum)). rewrite (nth_indep _ ((None, None) : option RNum * option RNum) (keep_best (fst d) (snd d))) by (rewrite map_length, Hc; exact Ha).
  rewrite (map_nth (fun bg : (option RNum * option RNum) * se3 RNum => keep_best (fst bg) (snd bg))). unfold d. rewrite combine_nth by (rewrite Hl, Hm; reflexivity). cbn [fst snd keep_best]. split; [apply (better_best _ _ _ H1)|apply (better_best _ _ _ H2)].
Qed.
Lemma first_progress : progress gs 0.
Proof. exists 0%nat. rewrite Hm. split; [exact Hpos|]. left. intros i Hi. lia. Qed.
(** The counter: so many iterations before [j] made no progress, and the one before them did. *)
Definition counter_ok (j c : nat) : Prop := (c <= j)%nat /\ (forall i, (i < j)%nat -> (j <= i + c)%nat -> ~ progress gs i) /\ ((c < j)%nat -> progress gs (j - c - 1)).
Lemma descend_run n : forall j bests c, bests_ok j bests -> counter_ok j c -> (c < 50)%nat ->
  exists k, (k <= n)%nat /\ descend sums step n bests c (Nat.iter j step start) = Nat.iter (j + k) step start /\
    (forall k', (j <= k' < j + k)%nat -> ~ stalled gs k') /\ ((k < n)%nat -> stalled gs (j + k)).
Proof.
  induction n as [|n IH]; intros j bests c Hb Hc Hlt; cbn [descend].
  - exists 0%nat. rewrite Nat.add_0_r. split; [lia|]. split; [reflexivity|]. split; [intros; lia|lia].
  - pose proof (improved_progress j bests Hb) as Hi. pose proof (keep_bests j bests Hb) as Hk. destruct Hc as (C1 & C2 & C3).
    match goal with |- context [existsb ?f ?l] => set (e := existsb f l) in * end. destruct e.
    + assert (progress gs j) as Hp by (apply Hi; reflexivity). change (Nat.leb 50 0) with false. cbv iota.
      change (step (Nat.iter j step start)) with (Nat.iter (Datatypes.S j) step start).
      destruct (IH (Datatypes.S j) _ 0%nat Hk) as (k & K1 & K2 & K3 & K4).
      { split; [lia|]. split; [intros; lia|]. intros _. replace (Datatypes.S j - 0 - 1)%nat with j by lia. exact Hp. }
      { lia. }
      exists (Datatypes.S k). split; [lia|]. split; [etransitivity; [exact K2|]; f_equal; lia|]. split.
      * intros k' Hk'. destruct (Nat.eq_dec k' j) as [->|]; [intros [_ Hs]; apply (Hs j); [lia|lia|exact Hp]|apply K3; lia].
      * intros H. replace (j + Datatypes.S k)%nat with (Datatypes.S j + k)%nat by lia. apply K4. lia.
    + assert (~ progress gs j) as Hp by (intros H; apply Hi in H; discriminate). assert (c < j)%nat as Hcj.
      { destruct (Nat.eq_dec j 0) as [->|]; [destruct (Hp first_progress)|]. destruct (Nat.eq_dec c j) as [->|]; [|lia]. exfalso. apply (C2 0%nat); [lia|lia|exact first_progress]. }
      destruct (Nat.leb 50 (Datatypes.S c)) eqn:E.
      * apply Nat.leb_le in E. exists 0%nat. rewrite Nat.add_0_r. split; [lia|]. split; [reflexivity|]. split; [intros; lia|]. intros _. split; [lia|]. intros i I1 I2. destruct (Nat.eq_dec i j) as [->|]; [exact Hp|apply C2; lia].
      * apply Nat.leb_gt in E. change (step (Nat.iter j step start)) with (Nat.iter (Datatypes.S j) step start).
        destruct (IH (Datatypes.S j) _ (Datatypes.S c) Hk) as (k & K1 & K2 & K3 & K4).
        { split; [lia|]. split; [intros i I1 I2; destruct (Nat.eq_dec i j) as [->|]; [exact Hp|apply C2; lia]|]. intros _. replace (Datatypes.S j - Datatypes.S c - 1)%nat with (j - c - 1)%nat by lia. apply C3, Hcj. }
        { exact E. }
        exists (Datatypes.S k). split; [lia|]. split; [etransitivity; [exact K2|]; f_equal; lia|]. split.
        -- intros k' Hk'. destruct (Nat.eq_dec k' j) as [->|]; [|apply K3; lia]. intros [S1 S2]. apply (S2 (j - c - 1)%nat); [lia|lia|apply C3, Hcj].
        -- intros H. replace (j + Datatypes.S k)%nat with (Datatypes.S j + k)%nat by lia. apply K4. lia.
Qed.
Lemma descend_spec n : run sums step n start (descend sums step n (repeat (None, None) m) 0 start).
Proof.
  destruct (descend_run n 0 (repeat (None, None) m) 0) as (k & K1 & K2 & K3 & K4).
  - split; [apply repeat_length|]. intros a Ha. rewrite nth_repeat. cbn. auto.
  - split; [lia|]. split; [intros; lia|lia].
  - lia.
  - exists k. cbn in K2. split; [exact K1|]. split; [exact K2|]. split; [intros k' Hk'; apply K3; lia|exact K4].
Qed.
End loop.
Lemma run_zero {S : Type} sums (step : S -> S) start result : run sums step 0 start result -> result = start.
Proof. intros (k & Hk & -> & _). assert (k = 0)%nat as -> by lia. reflexivity. Qed.
Lemma run_fixed {S : Type} sums (step : S -> S) n start result : step start = start -> run sums step n start result -> result = start.
Proof. intros Hs (k & _ & -> & _). induction k as [|k IH]; [reflexivity|]. cbn [Nat.iter nat_rect]. change (step (Nat.iter k step start) = start). rewrite IH. exact Hs. Qed.
Lemma run_invariant {S : Type} sums (step : S -> S) (P : S -> Prop) n start result : (forall s, P s -> P (step s)) -> P start -> run sums step n start result -> P result.
Proof. intros Hs H0 (k & _ & -> & _). induction k as [|k IH]; [exact H0|]. apply Hs, IH. Qed.

(** ** The steps *)
Lemma l1_fold kt eps (gl : list (se3 RNum)) sum ts rs :
  fold_left (l1_term kt eps) gl (sum, ts, rs) =
  (Se3 (vadd (se_t sum) (vtotal (fun g => normalize (se_t g)) gl)) (vadd (se_r sum) (vtotal (fun g => normalize (se_r g)) gl)),
   ts + Rtotal (fun g => 1 / (norm (se_t g) + kt * eps)) gl, rs + Rtotal (fun g => 1 / (norm (se_r g) + eps)) gl).
Proof.
  revert sum ts rs. induction gl as [|g gl IH]; intros sum ts rs; cbn [fold_left vtotal Rtotal fold_right].
  - rewrite !vadd_zero_r, !Rplus_0_r. destruct sum; reflexivity.
  - cbn [l1_term]. rewrite IH. unfold se3_l1. rewrite se3_new_R. cbn [se3_add se_t se_r]. rewrite !vadd_assoc. rnum. rewrite !Rplus_assoc. reflexivity.
Qed.
Lemma se3_sum_total (gl : list (se3 RNum)) : se3_sum gl = Se3 (vtotal se_t gl) (vtotal se_r gl).
Proof. induction gl as [|g gl IH]; [reflexivity|]. rewrite se3_sum_cons, IH. reflexivity. Qed.
Lemma l1_delta_value rate kt eps (gl : list (se3 RNum)) : l1_delta rate (fold_left (l1_term kt eps) gl (se3_id, zero, zero)) = weiszfeld_step rate (kt * eps) eps gl.
Proof.
  rewrite l1_fold. unfold l1_delta, weiszfeld_step, se3_scale_rotation, se3_scale_translation, se3_scale, se3_id. cbn [se_t se_r]. rewrite !vadd_zero_l. rnum. rewrite !Rplus_0_l, !vscale_scale. f_equal; f_equal; unfold Rdiv; ring.
Qed.
Lemma l1_sum_value kt eps (gl : list (se3 RNum)) : fst (fst (fold_left (l1_term kt eps) gl (se3_id, zero, zero))) = Se3 (vtotal (fun g => normalize (se_t g)) gl) (vtotal (fun g => normalize (se_r g)) gl).
Proof. rewrite l1_fold. cbn [fst se3_id se_t se_r]. rewrite !vadd_zero_l. reflexivity. Qed.
Lemma inverse_length_value {A} (l : list A) : inverse_length (N := RNum) l = 1 / INR (length l).
Proof. unfold inverse_length. change (ofZ (Z.of_nat (length l)) : RNum) with (IZR (Z.of_nat (length l))). rewrite <- INR_IZR_INZ. reflexivity. Qed.
Lemma l2_delta_value {A} rate (l : list A) (gl : list (se3 RNum)) : se3_scale (se3_scale (se3_sum gl) (inverse_length l)) rate = mean_step rate (length l) gl.
Proof. rewrite inverse_length_value, se3_sum_total. unfold mean_step, se3_scale. cbn [se_t se_r]. rewrite !vscale_scale. rnum. f_equal; f_equal; unfold Rdiv; ring. Qed.
Lemma l2_delta_value' {A} rate (l : list A) (gl : list (se3 RNum)) : se3_scale (se3_sum gl) (mul (inverse_length l) rate) = mean_step rate (length l) gl.
Proof. rewrite inverse_length_value, se3_sum_total. unfold mean_step, se3_scale. cbn [se_t se_r]. rnum. f_equal; f_equal; unfold Rdiv; ring. Qed.
Lemma fold_norm (f : se3 RNum -> R) (gl : list (se3 RNum)) k : fold_left (fun acc g => acc + f g) gl k = k + Rtotal f gl.
Proof. revert k. induction gl as [|g gl IH]; intros k; cbn [fold_left Rtotal fold_right]; [ring|]. rewrite IH. unfold Rtotal. ring. Qed.
Lemma adaptive_value {A} (l : list A) (gl : list (se3 RNum)) : adaptive_gradient (inverse_length l) gl = shortened_step (length l) gl.
Proof.
  unfold adaptive_gradient, shortened_step. rewrite inverse_length_value, se3_sum_total.
  pose proof (fold_norm (fun g => norm (se_t g)) gl 0) as Et. pose proof (fold_norm (fun g => norm (se_r g)) gl 0) as Er. rewrite Rplus_0_l in Et, Er.
  change (fold_left (fun acc g => add acc (norm (se_t g))) gl zero) with (fold_left (fun acc g => acc + norm (se_t g)) gl 0). change (fold_left (fun acc g => add acc (norm (se_r g))) gl zero) with (fold_left (fun acc g => acc + norm (se_r g)) gl 0). rewrite Et, Er.
  cbv zeta. unfold se3_scale_rotation, se3_scale_translation, se3_scale. cbn [se_t se_r].
  cbn [isfin RNum]. f_equal; f_equal; rnum; unfold Rdiv; rewrite Rmult_1_l; reflexivity.
Qed.

Lemma in_deltas (pose : riso) ls g : In g (deltas pose ls) <-> exists l, In l ls /\ gives pose l g.
Proof.
  unfold deltas. rewrite in_flat_map. unfold gives, landmark_delta. split; intros (l & Hl & H); exists l; (split; [exact Hl|]).
  - destruct (point _) as [q|]; [|destruct H]. destruct H as [<-|[]]. exists q. auto.
  - destruct H as (q & -> & ->). left. reflexivity.
Qed.

Section real.
Context (nearest : rmat3 -> rmat3) (eps : R).
Notation T := (real_trig nearest eps).

Lemma iso_back (a : riso) : rigid a -> iso_inv (iso_inv a) = a.
Proof.
  intros Ha. apply iso_unique. intros v. rewrite <- (iso_point_inv_l a v Ha) at 1. apply iso_point_inv_l. apply rotation_mtrans, Ha.
Qed.

(** ** What each optimiser computes *)
Lemma run_ext {S : Type} sums sums' (step step' : S -> S) n start result : (forall s, sums s = sums' s) -> (forall s, step s = step' s) -> run sums step n start result -> run sums' step' n start result.
Proof.
  intros H1 H2 (k & K1 & K2 & K3 & K4). assert (forall j, Nat.iter j step start = Nat.iter j step' start) as Hi.
  { intros j. induction j as [|j IH]; [reflexivity|]. change (step (Nat.iter j step start) = step' (Nat.iter j step' start)). rewrite H2, IH. reflexivity. }
  assert (forall j, sums (Nat.iter j step start) = sums' (Nat.iter j step' start)) as Hg by (intros j; rewrite H1, Hi; reflexivity).
  assert (forall k, stalled (fun j => sums (Nat.iter j step start)) k <-> stalled (fun j => sums' (Nat.iter j step' start)) k) as Hs.
  { intros k'. unfold stalled. assert (forall j, progress (fun j => sums (Nat.iter j step start)) j <-> progress (fun j => sums' (Nat.iter j step' start)) j) as Hp.
    - intros j. unfold progress, new_low. rewrite Hg. split; intros (a & Ha & [H|H]); exists a; (split; [exact Ha|]); [left|right|left|right]; intros i Hi'; specialize (H i Hi'); rewrite !Hg in *; exact H.
    - split; intros [A B]; (split; [exact A|]); intros j J1 J2 J3; apply (B j J1 J2); apply Hp; exact J3. }
  exists k. split; [exact K1|]. split; [rewrite <- Hi; exact K2|]. split; [intros k' Hk' H'; apply (K3 k' Hk'), Hs, H'|intros H; apply Hs, K4, H].
Qed.
Lemma single_l1_run (pose : riso) epsilon rate n ls : ls <> [] ->
  run (fun p => [unit_sums (deltas p ls)]) (fun p => iso_mul (se3_isometry T (weiszfeld_step rate (norm (trans p) * epsilon) epsilon (deltas p ls))) p) n pose (single_view_l1 T pose epsilon rate n ls).
Proof.
  intros Hls. unfold single_view_l1. destruct ls as [|l ls]; [congruence|]. eapply run_ext; [| |apply (descend_spec _ _ 1); [intros; reflexivity|lia]]; cbv beta; intros s.
  - unfold single_l1_net. rewrite l1_sum_value. reflexivity.
  - unfold single_l1_net. rewrite l1_delta_value. reflexivity.
Qed.
Lemma single_l2_run (pose : riso) rate n ls : ls <> [] ->
  run (fun p => [plain_sums (deltas p ls)]) (fun p => iso_mul (se3_isometry T (mean_step rate (length ls) (deltas p ls))) p) n pose (single_view_l2 T pose rate n ls).
Proof.
  intros Hls. unfold single_view_l2. destruct ls as [|l ls]; [congruence|]. eapply run_ext; [| |apply (descend_spec _ _ 1); [intros; reflexivity|lia]]; cbv beta; intros s.
  - rewrite se3_sum_total. reflexivity.
  - rewrite l2_delta_value. reflexivity.
Qed.
Lemma gradients_split (poses : riso * riso) ls : gradients_of poses ls = (firsts poses ls, seconds poses ls).
Proof. unfold gradients_of, firsts, seconds. rewrite !map_map. reflexivity. Qed.
Lemma three_l1_run (poses : riso * riso) epsilon rate n ls : ls <> [] -> exists result,
  three_view_l1 T poses epsilon rate n ls = invert result /\
  run (fun p => [unit_sums (firsts p ls); unit_sums (seconds p ls)])
    (fun p => move T p (weiszfeld_step rate (both_lengths p * epsilon) epsilon (firsts p ls), weiszfeld_step rate (both_lengths p * epsilon) epsilon (seconds p ls)))
    n (invert poses) result.
Proof.
  intros Hls. unfold three_view_l1. destruct ls as [|l ls]; [congruence|]. eexists. split; [reflexivity|]. eapply run_ext; [| |apply (descend_spec _ _ 2); [intros; reflexivity|lia]]; cbv beta; intros s; unfold three_l1_nets; rewrite gradients_split; cbv beta iota zeta; cbn [fst snd].
  - rewrite !l1_sum_value. reflexivity.
  - rewrite !l1_delta_value. unfold both_lengths. rnum. rewrite Rplus_0_l. reflexivity.
Qed.
Lemma three_l2_run (poses : riso * riso) rate n ls : ls <> [] -> exists result,
  three_view_l2 T poses rate n ls = invert result /\
  run (fun p => [plain_sums (firsts p ls); plain_sums (seconds p ls)])
    (fun p => move T p (mean_step rate (length ls) (firsts p ls), mean_step rate (length ls) (seconds p ls))) n (invert poses) result.
Proof.
  intros Hls. unfold three_view_l2. destruct ls as [|l ls]; [congruence|]. eexists. split; [reflexivity|]. eapply run_ext; [| |apply (descend_spec _ _ 2); [intros; reflexivity|lia]]; cbv beta; intros s; unfold three_l2_nets; rewrite gradients_split; cbv beta iota zeta; cbn [fst snd].
  - rewrite !se3_sum_total. reflexivity.
  - rewrite !l2_delta_value'. reflexivity.
Qed.
Lemma three_adaptive_run (poses : riso * riso) n ls : ls <> [] ->
  three_view_adaptive T poses n ls = invert (Nat.iter n (fun p => move T p (shortened_step (length ls) (firsts p ls), shortened_step (length ls) (seconds p ls))) (invert poses)).
Proof.
  intros Hls. unfold three_view_adaptive. destruct ls as [|l ls]; [congruence|]. f_equal. induction n as [|n IH]; [reflexivity|]. cbn [Nat.iter nat_rect]. unfold Nat.iter in IH. rewrite IH. unfold adaptive_step at 1. rewrite gradients_split. rewrite !adaptive_value. reflexivity.
Qed.

(** ** Perfect data *)
Lemma vtotal_zero {A} (f : A -> rvec3) l : (forall a, In a l -> f a = vzero) -> vtotal f l = vzero.
Proof. intros H. induction l as [|a l IH]; [reflexivity|]. cbn [vtotal fold_right]. unfold vtotal in IH. rewrite IH, (H a (or_introl eq_refl)) by (intros; apply H; right; assumption). lin. Qed.
Lemma normalize_zero : normalize (vzero : rvec3) = vzero.
Proof. unfold normalize. rewrite vdiv_scale. generalize (/ norm (vzero : rvec3)). lin. Qed.
Lemma steps_zero (gl : list (se3 RNum)) : (forall g, In g gl -> g = se3_id) ->
  (forall rate kt kr, weiszfeld_step rate kt kr gl = se3_id) /\ (forall rate n, mean_step rate n gl = se3_id) /\ forall n, shortened_step n gl = se3_id.
Proof.
  intros H. assert (vtotal (fun g => normalize (se_t g)) gl = vzero) as E1 by (apply vtotal_zero; intros g Hg; rewrite (H g Hg); apply normalize_zero).
  assert (vtotal (fun g => normalize (se_r g)) gl = vzero) as E2 by (apply vtotal_zero; intros g Hg; rewrite (H g Hg); apply normalize_zero).
  assert (vtotal se_t gl = vzero) as E3 by (apply vtotal_zero; intros g Hg; rewrite (H g Hg); reflexivity). assert (vtotal se_r gl = vzero) as E4 by (apply vtotal_zero; intros g Hg; rewrite (H g Hg); reflexivity).
  assert (forall s : R, vscale s (vzero : rvec3) = vzero) as Z by (intros s; lin).
  unfold weiszfeld_step, mean_step, shortened_step, se3_id. rewrite E1, E2, E3, E4. cbv zeta. split; [|split]; intros; rewrite !Z; reflexivity.
Qed.
Lemma still (pose : riso) : iso_mul (se3_isometry T se3_id) pose = pose.
Proof. rewrite isometry_id. apply iso_mul_id_l. Qed.
Lemma single_fixed (pose : riso) epsilon rate n ls : (forall l g, In l ls -> gives pose l g -> g = se3_id) ->
  single_view_l1 T pose epsilon rate n ls = pose /\ single_view_l2 T pose rate n ls = pose.
Proof.
  intros H. destruct ls as [|l ls]; [split; reflexivity|]. set (L := l :: ls) in *. assert (L <> []) as HL by discriminate.
  assert (forall g, In g (deltas pose L) -> g = se3_id) as Hg by (intros g Hg; apply in_deltas in Hg as (l' & Hl & Hgv); apply (H l' g Hl Hgv)). destruct (steps_zero _ Hg) as (Z1 & Z2 & _). split.
  - eapply run_fixed; [|apply (single_l1_run pose epsilon rate n L HL)]. cbv beta. rewrite Z1. apply still.
  - eapply run_fixed; [|apply (single_l2_run pose rate n L HL)]. cbv beta. rewrite Z2. apply still.
Qed.
Lemma three_fixed (poses : riso * riso) epsilon rate n ls : rigid (fst poses) -> rigid (snd poses) -> (forall o, In o ls -> landmark_gradients (invert poses) o = (se3_id, se3_id)) ->
  three_view_l1 T poses epsilon rate n ls = poses /\ three_view_l2 T poses rate n ls = poses /\ three_view_adaptive T poses n ls = poses.
Proof.
  intros R1 R2 H. assert (invert (invert poses) = poses) as Hii. { destruct poses as [p1 p2]. cbn [fst snd] in *. unfold invert. cbn [fst snd]. rewrite !iso_back by assumption. reflexivity. }
  destruct ls as [|l ls]; [repeat split; reflexivity|]. set (L := l :: ls) in *. assert (L <> []) as HL by discriminate.
  assert (forall g, In g (firsts (invert poses) L) -> g = se3_id) as Hf by (intros g Hg; apply in_map_iff in Hg as (o & <- & Ho); rewrite (H o Ho); reflexivity).
  assert (forall g, In g (seconds (invert poses) L) -> g = se3_id) as Hs by (intros g Hg; apply in_map_iff in Hg as (o & <- & Ho); rewrite (H o Ho); reflexivity).
  destruct (steps_zero _ Hf) as (F1 & F2 & F3). destruct (steps_zero _ Hs) as (S1 & S2 & S3).
  assert (forall p, move T p (se3_id, se3_id) = p) as Hmv by (intros [p1 p2]; unfold move; cbn [fst snd]; rewrite !still; reflexivity).
  split; [|split].
  - destruct (three_l1_run poses epsilon rate n L HL) as (r & -> & Hr). apply run_fixed in Hr; [rewrite Hr; exact Hii|]. cbv beta. rewrite F1, S1. apply Hmv.
  - destruct (three_l2_run poses rate n L HL) as (r & -> & Hr). apply run_fixed in Hr; [rewrite Hr; exact Hii|]. cbv beta. rewrite F2, S2. apply Hmv.
  - rewrite (three_adaptive_run poses n L HL). rewrite <- Hii at 2. f_equal. induction n as [|n IH]; [reflexivity|]. unfold Nat.iter in *. cbn [nat_rect]. rewrite IH, F3, S3. apply Hmv.
Qed.
Lemma agrees_gradient (pose : riso) l g : agrees pose l -> gives pose l g -> g = se3_id.
Proof.
  intros [(q & Hq & E & Hn & Hb)|H] (q' & Hp & ->); [|congruence]. rewrite E, (transform_from_point pose q Hq), (point_from_point _ Hn) in Hp. injection Hp as <-. rewrite Hb. apply world_pose_gradient_zero; [apply normalize_unit, Hn|exact Hn|].
  exists (norm (iso_point pose q)). unfold normalize. rewrite vdiv_scale, vscale_scale. rnum. rewrite Rinv_r; [symmetry; apply vscale_one|]. pose proof (norm_pos _ Hn). lra.
Qed.
Lemma single_perfect (pose : riso) epsilon rate n ls : (forall l, In l ls -> agrees pose l) -> single_view_l1 T pose epsilon rate n ls = pose /\ single_view_l2 T pose rate n ls = pose.
Proof. intros H. apply single_fixed. intros l g Hl. apply agrees_gradient, H, Hl. Qed.
Lemma three_agree_gradient (poses : riso * riso) o : rigid (fst poses) -> rigid (snd poses) -> three_agree poses o -> landmark_gradients (invert poses) o = (se3_id, se3_id).
Proof.
  intros R1 R2 (q & [Hq E0] & [H1 E1] & [H2 E2]). destruct o as [[c f] s]. cbn [fst snd] in *. rewrite iso_point_id in Hq, E0. unfold landmark_gradients, invert. cbn [fst snd iso_inv rot trans].
  assert (forall p : riso, rigid p -> iso_point p q <> vzero -> mvec (mtrans (rot p)) (normalize (iso_point p q)) = normalize (vsub q (centre p)) /\ q <> centre p) as Hd.
  { intros p Hp Hn. pose proof (direction_point p q Hp) as Ed. split.
    - rewrite <- Ed. unfold normalize. rewrite !vdiv_scale, mvec_scale. f_equal. f_equal. unfold norm. rewrite (rotation_norm2 _ _ (rotation_mtrans _ Hp)). reflexivity.
    - intros E. apply Hn. rewrite <- (iso_point_inv_r p (iso_point p q) Hp). rewrite (iso_point_inv_l p q Hp). rewrite E. unfold centre. destruct Hp as [Hp Hdet]. unfold iso_point. rewrite mvec_neg, mvec_neg, <- mvec_mmul, (rotation_right (rot p) (conj Hp Hdet)), mvec_id. generalize (trans p). clear. lin. }
  destruct (Hd _ R1 H1) as [D1 N1]. destruct (Hd _ R2 H2) as [D2 N2]. rewrite E1, E2, D1, D2, E0. apply (three_view_perfect q (centre (fst poses)) (centre (snd poses)) Hq N1 N2).
Qed.
Lemma three_perfect (poses : riso * riso) epsilon rate n ls : rigid (fst poses) -> rigid (snd poses) -> (forall o, In o ls -> three_agree poses o) ->
  three_view_l1 T poses epsilon rate n ls = poses /\ three_view_l2 T poses rate n ls = poses /\ three_view_adaptive T poses n ls = poses.
Proof. intros R1 R2 H. apply three_fixed; [assumption..|]. intros o Ho. apply three_agree_gradient; auto. Qed.

(** ** Rigid results *)
Lemma step_rigid (pose : riso) (d : se3 RNum) : rigid pose -> rigid (iso_mul (se3_isometry T d) pose).
Proof. intros Hp. apply (rotation_mmul (rot (se3_isometry T d)) (rot pose)); [apply isometry_rigid|exact Hp]. Qed.
Lemma single_rigid (pose : riso) epsilon rate n ls : rigid pose -> rigid (single_view_l1 T pose epsilon rate n ls) /\ rigid (single_view_l2 T pose rate n ls).
Proof.
  intros Hp. destruct ls as [|l ls]; [split; exact Hp|]. split.
  - eapply (run_invariant _ _ rigid); [| |apply single_l1_run; discriminate]; [cbv beta; intros; apply step_rigid; assumption|exact Hp].
  - eapply (run_invariant _ _ rigid); [| |apply single_l2_run; discriminate]; [cbv beta; intros; apply step_rigid; assumption|exact Hp].
Qed.
Lemma invert_rigid p : rigid2 p -> rigid2 (invert p).
Proof. intros [H1 H2]. split; cbn [invert fst snd]; apply rotation_mtrans; assumption. Qed.
Lemma three_rigid (poses : riso * riso) epsilon rate n ls : rigid2 poses -> rigid2 (three_view_l1 T poses epsilon rate n ls) /\ rigid2 (three_view_l2 T poses rate n ls) /\ rigid2 (three_view_adaptive T poses n ls).
Proof.
  intros Hp. destruct ls as [|l ls]; [split; [|split]; exact Hp|]. assert (forall p d, rigid2 p -> rigid2 (move T p d)) as Hm by (intros p d [A B]; split; cbn [move fst snd]; apply step_rigid; assumption). split; [|split].
  - destruct (three_l1_run poses epsilon rate n (l :: ls)) as (r & -> & Hr); [discriminate|]. apply invert_rigid. eapply (run_invariant _ _ rigid2); [| |exact Hr]; [cbv beta; intros; apply Hm; assumption|apply invert_rigid, Hp].
  - destruct (three_l2_run poses rate n (l :: ls)) as (r & -> & Hr); [discriminate|]. apply invert_rigid. eapply (run_invariant _ _ rigid2); [| |exact Hr]; [cbv beta; intros; apply Hm; assumption|apply invert_rigid, Hp].
  - rewrite three_adaptive_run by discriminate. apply invert_rigid. induction n as [|n IH]; [apply invert_rigid, Hp|]. unfold Nat.iter in *. cbn [nat_rect]. apply Hm, IH.
Qed.

(** ** No iterations *)
Lemma no_iterations (pose : riso) (poses : riso * riso) epsilon rate ls ls' : rigid2 poses ->
  single_view_l1 T pose epsilon rate 0 ls = pose /\ single_view_l2 T pose rate 0 ls = pose /\
  three_view_l1 T poses epsilon rate 0 ls' = poses /\ three_view_l2 T poses rate 0 ls' = poses /\ three_view_adaptive T poses 0 ls' = poses.
Proof.
  intros [R1 R2]. assert (invert (invert poses) = poses) as Hii. { destruct poses as [p1 p2]. cbn [fst snd] in *. unfold invert. cbn [fst snd]. rewrite !iso_back by assumption. reflexivity. }
  destruct ls as [|l ls]; destruct ls' as [|l' ls']; repeat split; try reflexivity; exact Hii.
Qed.
End real.
