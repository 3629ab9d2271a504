(** Proofs about the schedule of the scale space (C26). *)
From Coq Require Import List Arith Lia Bool ZArith Reals Lra Psatz.
From Verif Require Import Num LinSpec LinFacts Outcome OutcomeFacts Gray GraySpec GrayFacts GrayReal GrayProps Diffuse DiffuseSpec DiffuseProps BicubicSpec BicubicFacts Fed FedSpec FedSum Akaze AkazeSpec.
Import ListNotations.
Open Scope R_scope.

Lemma pow2_pos n : (0 < 2 ^ n)%nat.
Proof. apply Nat.neq_0_lt_0, Nat.pow_nonzero. lia. Qed.
Lemma pow2_IZR n : IZR (2 ^ Z.of_nat n) = INR (2 ^ n)%nat.
Proof. rewrite INR_IZR_INZ, Nat2Z.inj_pow. reflexivity. Qed.
Lemma Int_part_div (a b : nat) : (0 < b)%nat -> Int_part (INR a / INR b) = Z.of_nat (a / b).
Proof.
  intros Hb. apply Int_part_floor. unfold floor_of. assert (0 < INR b) by (now apply lt_0_INR). pose proof (Nat.div_mod a b ltac:(lia)) as D. pose proof (Nat.mod_upper_bound a b ltac:(lia)) as M.
  apply (f_equal INR) in D. rewrite plus_INR, mult_INR in D. apply lt_INR in M. pose proof (pos_INR (a mod b)). rewrite <- INR_IZR_INZ.
  set (q := INR (a / b)) in *. assert (E : INR a / INR b = q + INR (a mod b) / INR b) by (rewrite D; field; lra). rewrite E.
  assert (0 <= INR (a mod b) / INR b < 1). { split; [apply Rmult_le_pos; [assumption|apply Rlt_le, Rinv_0_lt_compat; lra]|]. apply (Rmult_lt_reg_r (INR b)); [lra|]. unfold Rdiv. rewrite Rmult_assoc, Rinv_l by lra. lra. }
  lra. Qed.
Lemma level_side_div side o : level_side Rwidths Rmath side o = (side / 2 ^ o)%nat.
Proof.
  unfold level_side, to_usize, ratio_of, of_nat. cbn [m_trunc Rmath mul div one ofZ RNum double Rwidths]. rewrite pow2_IZR, <- INR_IZR_INZ.
  assert (0 < INR (2 ^ o)) by (apply lt_0_INR, pow2_pos). pose proof (pos_INR side). rewrite Rtrunc_nonneg.
  - replace (INR side * (1 / INR (2 ^ o))) with (INR side / INR (2 ^ o)) by (field; lra). rewrite Int_part_div by apply pow2_pos. apply Nat2Z.id.
  - apply Rmult_le_pos; [assumption|]. apply Rlt_le. apply Rdiv_lt_0_compat; lra. Qed.
Lemma halved_div n side : halved n side = (side / 2 ^ n)%nat.
Proof. unfold halved. induction n as [|n IH]; [symmetry; apply Nat.div_1_r|]. change (Nat.iter (S n) (fun s => (s / 2)%nat) side) with (Nat.iter n (fun s => (s / 2)%nat) side / 2)%nat.
  rewrite IH, Nat.div_div by (try lia; apply Nat.pow_nonzero; lia). f_equal. rewrite Nat.pow_succ_r'. lia. Qed.
Lemma div_ge k a b : (0 < b)%nat -> (k <= a / b)%nat <-> (k * b <= a)%nat.
Proof. intros Hb. split; intros H.
  - pose proof (Nat.mul_div_le a b ltac:(lia)). nia.
  - apply Nat.div_le_lower_bound; lia. Qed.

Section schedule.
Variables (fed : R -> outcome (list R)) (o : rsettings) (w h : nat).
Hypotheses (Hn : (0 < num_sublevels o)%nat) (Hb : 0 < base_scale_offset o).
Notation fresh := (new_level Rwidths Rexp2 o).
Notation plan := (flat_map (octave_levels Rwidths Rmath Rexp2 o w h) (seq 0 (max_octave_evolution o))).
Lemma fresh_scale oct sub : esigma (fresh oct sub) = scale_of o oct sub.
Proof. unfold new_level, scale_of, of_nat. cbn [esigma add div mul ofZ RNum double Rwidths]. unfold Rexp2. rewrite <- !INR_IZR_INZ. f_equal. f_equal. ring. Qed.
Lemma fresh_time oct sub : etime (fresh oct sub) = scale_of o oct sub * scale_of o oct sub / 2.
Proof. rewrite <- fresh_scale. change (@eq R (1 / 2 * (esigma (fresh oct sub) * esigma (fresh oct sub))) (esigma (fresh oct sub) * esigma (fresh oct sub) / 2)). apply Rminus_diag_uniq. cbn [double Rwidths carrier RNum]. field. Qed.
Lemma scale_pos oct sub : 0 < scale_of o oct sub.
Proof. unfold scale_of. apply Rmult_lt_0_compat; [exact Hb|]. unfold Rpower. apply exp_pos. Qed.
Lemma scale_lt o1 s1 o2 s2 : INR o1 + INR s1 / INR (num_sublevels o) < INR o2 + INR s2 / INR (num_sublevels o) -> scale_of o o1 s1 < scale_of o o2 s2.
Proof. intros H. unfold scale_of. apply Rmult_lt_compat_l; [exact Hb|]. apply Rpower_lt; [lra|exact H]. Qed.
Lemma scale_lt_sub oct s1 s2 : (s1 < s2)%nat -> scale_of o oct s1 < scale_of o oct s2.
Proof. intros H. apply scale_lt. apply Rplus_lt_compat_l. apply lt_INR in H. assert (0 < INR (num_sublevels o)) by now apply lt_0_INR. apply Rmult_lt_compat_r; [now apply Rinv_0_lt_compat|exact H]. Qed.
Lemma scale_lt_oct o1 o2 s1 s2 : (o1 < o2)%nat -> (s1 < num_sublevels o)%nat -> scale_of o o1 s1 < scale_of o o2 s2.
Proof. intros H H1. apply scale_lt. assert (P : 0 < INR (num_sublevels o)) by now apply lt_0_INR. apply lt_INR in H1. assert (INR o1 + 1 <= INR o2) by (rewrite <- S_INR; apply le_INR; lia).
  assert (INR s1 / INR (num_sublevels o) < 1). { apply (Rmult_lt_reg_r (INR (num_sublevels o))); [lra|]. unfold Rdiv. rewrite Rmult_assoc, Rinv_l by lra. lra. }
  assert (0 <= INR s2 / INR (num_sublevels o)). { apply Rmult_le_pos; [apply pos_INR|]. now apply Rlt_le, Rinv_0_lt_compat. } lra. Qed.
Lemma octave_plan oct e : In e (octave_levels Rwidths Rmath Rexp2 o w h oct) <-> exists sub, e = fresh oct sub /\
  (40 * 2 ^ oct <= w)%nat /\ (40 * 2 ^ oct <= h)%nat /\
  ((80 * 2 ^ oct <= w)%nat /\ (80 * 2 ^ oct <= h)%nat /\ (sub < num_sublevels o)%nat \/ ((w < 80 * 2 ^ oct)%nat \/ (h < 80 * 2 ^ oct)%nat) /\ sub = 0%nat).
Proof.
  unfold octave_levels. cbv zeta. change (@num_sublevels (double Rwidths) o) with (@num_sublevels RNum o). rewrite !level_side_div. pose proof (pow2_pos oct) as HP. pose proof (div_ge 40 w _ HP). pose proof (div_ge 40 h _ HP). pose proof (div_ge 80 w _ HP). pose proof (div_ge 80 h _ HP). revert HP H H0 H1 H2. generalize (2 ^ oct)%nat. intros p. generalize (w / p)%nat (h / p)%nat. intros wo ho HP H H0 H1 H2.
  destruct (Nat.ltb_spec (Nat.min wo ho) 40) as [L|L].
  - split; [intros []|]. intros (sub & _ & A & B & _). lia.
  - rewrite in_map_iff. destruct (Nat.ltb_spec (Nat.min wo ho) 80); split.
    1, 3: intros (sub & <- & Hs); apply in_seq in Hs; exists sub; split; [reflexivity|]; (assert (40 * p <= w)%nat by lia); (assert (40 * p <= h)%nat by lia); destruct (le_lt_dec (80 * p) w), (le_lt_dec (80 * p) h); lia.
    all: intros (sub & -> & A & B & C); exists sub; split; [reflexivity|]; apply in_seq; destruct (le_lt_dec (80 * p) w), (le_lt_dec (80 * p) h); lia. Qed.
Lemma plan_levels e : In e plan <-> exists oct sub, e = fresh oct sub /\ has_level o w h oct sub.
Proof.
  rewrite in_flat_map. unfold has_level. split.
  - intros (oct & Ho & He). apply in_seq in Ho. apply octave_plan in He as (sub & -> & H). exists oct, sub. split; [reflexivity|]. split; [lia|exact H].
  - intros (oct & sub & -> & Ho & H). exists oct. split; [apply in_seq; lia|]. apply octave_plan. exists sub. auto. Qed.
Definition sorted_plan : list rlevel -> Prop := Sorted.StronglySorted (fun a b : rlevel => esigma a < esigma b).
Lemma sorted_app l m : sorted_plan l -> sorted_plan m -> (forall a b : rlevel, In a l -> In b m -> esigma a < esigma b) -> sorted_plan (l ++ m).
Proof. intros Hl Hm H. induction Hl as [|a l Hl IH Ha]; [exact Hm|]. cbn [app]. constructor; [apply IH; intros; apply H; [now right|assumption]|]. apply Forall_app. split; [exact Ha|]. apply Forall_forall. intros b Hbm. apply H; [now left|assumption]. Qed.
Lemma sorted_seq oct s n : sorted_plan (map (fresh oct) (seq s n)).
Proof. revert s. induction n as [|n IH]; intros s; [constructor|]. cbn [seq map]. constructor; [apply IH|]. apply Forall_forall. intros b Hbm. apply in_map_iff in Hbm as (k & <- & Hk). apply in_seq in Hk. rewrite !fresh_scale. apply scale_lt_sub. lia. Qed.
Lemma has_level_sub oct sub : has_level o w h oct sub -> (sub < num_sublevels o)%nat.
Proof. unfold has_level. lia. Qed.
Lemma octave_plan_sub oct e : In e (octave_levels Rwidths Rmath Rexp2 o w h oct) -> exists sub, e = fresh oct sub /\ (sub < num_sublevels o)%nat.
Proof. intros H. apply octave_plan in H as (sub & -> & H). exists sub. split; [reflexivity|lia]. Qed.
Lemma plan_sorted_from a n : sorted_plan (flat_map (octave_levels Rwidths Rmath Rexp2 o w h) (seq a n)).
Proof.
  revert a. induction n as [|n IH]; intros a; [constructor|]. cbn [seq flat_map]. apply sorted_app; [|apply IH|].
  - unfold octave_levels. destruct (_ <? 40)%nat; [constructor|apply sorted_seq].
  - intros x y Hx Hy. apply octave_plan_sub in Hx as (s1 & -> & H1). apply in_flat_map in Hy as (o2 & Ho & Hy). apply in_seq in Ho. apply octave_plan_sub in Hy as (s2 & -> & _). rewrite !fresh_scale. apply scale_lt_oct; [lia|exact H1]. Qed.
Lemma plan_sorted : sorted_plan plan.
Proof. apply plan_sorted_from. Qed.

(** [set_steps] changes nothing but the steps. *)
Definition with_steps (e : rlevel) (s : list R) : rlevel :=
  Level (P := Rwidths) (etime e) (esigma e) (octave e) (sublevel e) s (Lt e) (Lsmooth e) (Lx e) (Ly e) (Lxx e) (Lyy e) (Lxy e) (Lflow e) (Ldet e).
Inductive stepped : rlevel -> list rlevel -> list rlevel -> Prop :=
| stepped_nil p : stepped p [] []
| stepped_cons (p e : rlevel) s l l' : fed (etime e - etime p) = Ok s -> stepped e l l' -> stepped p (e :: l) (with_steps e s :: l').
Lemma set_steps_stepped p l l' : set_steps Rwidths fed p l = Ok l' <-> stepped p l l'.
Proof.
  split.
  - revert p l'. induction l as [|e l IH]; intros p l' H; cbn [set_steps] in H; [injection H as <-; constructor|].
    apply bind_ok in H as (s & Hs & H). apply bind_ok in H as (d & Hd & H). injection H as <-. constructor; [exact Hs|]. apply IH. exact Hd.
  - intros H. induction H as [|p e s l l' Hs H IH]; cbn [set_steps]; [reflexivity|]. cbn [double Rwidths sub] in *. change (@sub RNum) with Rminus. rewrite Hs. cbn [bind]. rewrite IH. reflexivity. Qed.

Definition same_level (e e' : rlevel) : Prop := exists s, e' = with_steps e s.
Lemma stepped_same p l l' : stepped p l l' -> Forall2 same_level l l'.
Proof. intros H. induction H; constructor; [now exists s|assumption]. Qed.
Lemma same_refl l : Forall2 same_level l l.
Proof. induction l as [|e l IH]; constructor; [|exact IH]. exists (tau_steps e). now destruct e. Qed.
Lemma stepped_linked (p p' : rlevel) l l' : etime p' = etime p -> stepped p l l' -> linked fed (p' :: l').
Proof.
  intros E H. revert p' E. induction H as [|p e s l l' Hs H IH]; intros p' E i a b; [destruct i as [|[|]]; discriminate|]. destruct i as [|i]; cbn [nth_error].
  - intros Ea Eb. injection Ea as <-. injection Eb as <-. cbn [tau_steps etime with_steps]. rewrite E. exact Hs.
  - apply (IH (with_steps e s)). reflexivity. Qed.
Lemma allocate_ok l : rallocate fed o w h = Ok l -> Forall2 same_level plan l /\ linked fed l.
Proof.
  unfold rallocate, allocate_evolutions. change (@max_octave_evolution (double Rwidths) o) with (@max_octave_evolution RNum o). destruct plan as [|e rest].
  - intros H. injection H as <-. split; [constructor|]. intros i a b Ha. destruct i; discriminate.
  - intros H. apply bind_ok in H as (rest' & Hr & H). injection H as <-. apply set_steps_stepped in Hr. split; [constructor; [exists (tau_steps e); now destruct e|now apply (stepped_same e)]|]. now apply (stepped_linked e e rest). Qed.
Lemma sorted_same l l' : Forall2 same_level l l' -> sorted_plan l -> sorted_plan l'.
Proof.
  intros H. induction H as [|e e' l l' [s ->] H IH]; intros S; [constructor|]. inversion_clear S as [|? ? S1 S2]. constructor; [now apply IH|]. clear IH S1. induction H as [|f f' l l' [s' ->] H IH]; [constructor|]. inversion_clear S2 as [|? ? A B]. constructor; [exact A|now apply IH]. Qed.
Lemma sorted_increasing l : sorted_plan l -> increasing (fun e : rlevel => esigma e) l.
Proof.
  intros H. induction H as [|e l H IH F]; intros i j a b Hij Ha Hb'; [destruct i; discriminate|]. destruct i as [|i], j as [|j]; try lia; cbn [nth_error] in *.
  - injection Ha as <-. apply nth_error_In in Hb'. rewrite Forall_forall in F. now apply F.
  - apply (IH i j); [lia|assumption|assumption]. Qed.
Lemma same_in l l' e' : Forall2 same_level l l' -> In e' l' -> exists e, In e l /\ same_level e e'.
Proof. intros H. induction H as [|a b l l' S H IH]; intros []; [subst; exists a; split; [now left|exact S]|]. destruct (IH H0) as (e & A & B). exists e. split; [now right|exact B]. Qed.
Lemma same_in' l l' e : Forall2 same_level l l' -> In e l -> exists e', In e' l' /\ same_level e e'.
Proof. intros H. induction H as [|a b l l' S H IH]; intros []; [subst; exists b; split; [now left|exact S]|]. destruct (IH H0) as (e' & A & B). exists e'. split; [now right|exact B]. Qed.
Lemma schedule l : rallocate fed o w h = Ok l ->
  (forall oct sub, has_level o w h oct sub <-> exists e : rlevel, In e l /\ octave e = oct /\ sublevel e = sub) /\
  (forall e : rlevel, In e l -> esigma e = scale_of o (octave e) (sublevel e) /\ etime e = esigma e * esigma e / 2) /\
  increasing (fun e : rlevel => esigma e) l /\ increasing (fun e : rlevel => etime e) l /\ linked fed l.
Proof.
  intros H. apply allocate_ok in H as [S L].
  assert (V : forall e : rlevel, In e l -> esigma e = scale_of o (octave e) (sublevel e) /\ etime e = esigma e * esigma e / 2 /\ has_level o w h (octave e) (sublevel e)).
  { intros e' He. destruct (same_in _ _ _ S He) as (e & He' & s & ->). apply plan_levels in He' as (oct & sub & -> & Hl). cbn [esigma etime octave sublevel with_steps]. rewrite fresh_time, fresh_scale. auto. }
  assert (I : increasing (fun e : rlevel => esigma e) l) by (apply sorted_increasing, (sorted_same plan); [exact S|apply plan_sorted]).
  split; [|split; [|split; [exact I|split; [|exact L]]]].
  - intros oct sub. split.
    + intros Hl. assert (In (fresh oct sub) plan) as Hin by (apply plan_levels; eauto). destruct (same_in' _ _ _ S Hin) as (e' & A & s & ->). eexists. split; [exact A|]. split; reflexivity.
    + intros (e & He & <- & <-). now apply V.
  - intros e He. split; now apply V.
  - intros i j a b Hij Ha Hb'. pose proof (I i j a b Hij Ha Hb') as Lt. apply nth_error_In in Ha, Hb'. destruct (V a Ha) as (E1 & E2 & _), (V b Hb') as (_ & E3 & _). rewrite E2, E3. assert (0 < esigma a) by (rewrite E1; apply scale_pos).
    cbn [double Rwidths carrier RNum] in *. nra. Qed.
End schedule.

(** The time between two levels with exponents at least [1 / n] apart. *)
Lemma time_gap o o1 s1 o2 s2 : (0 < num_sublevels o)%nat -> 0 < base_scale_offset o -> scale_of o o1 s1 < scale_of o o2 s2 ->
  first_gap o <= scale_of o o2 s2 * scale_of o o2 s2 / 2 - scale_of o o1 s1 * scale_of o o1 s1 / 2.
Proof.
  intros Hn Hb H. unfold first_gap, scale_of in *. set (b := base_scale_offset o) in *. set (n := num_sublevels o) in *. assert (0 < INR n) by now apply lt_0_INR.
  apply Rmult_lt_reg_l in H; [|exact Hb]. set (x := INR o1 + INR s1 / INR n) in *. set (y := INR o2 + INR s2 / INR n) in *.
  assert (XY : x < y). { destruct (Rlt_le_dec x y) as [L|L]; [exact L|]. assert (Rpower 2 y <= Rpower 2 x) by (apply Rle_Rpower; lra). lra. }
  assert (D : x + 1 / INR n <= y).
  { assert (X : x = INR (o1 * n + s1) / INR n) by (unfold x; rewrite plus_INR, mult_INR; field; lra). assert (Y : y = INR (o2 * n + s2) / INR n) by (unfold y; rewrite plus_INR, mult_INR; field; lra). rewrite X, Y in *.
    apply Rmult_lt_reg_r in XY; [|now apply Rinv_0_lt_compat]. apply INR_lt in XY. apply Rle_trans with (INR (S (o1 * n + s1)) / INR n); [rewrite S_INR; right; field; lra|]. apply Rmult_le_compat_r; [now apply Rlt_le, Rinv_0_lt_compat|]. apply le_INR. lia. }
  assert (X0 : 0 <= x). { unfold x. assert (0 <= INR s1 / INR n) by (apply Rmult_le_pos; [apply pos_INR|now apply Rlt_le, Rinv_0_lt_compat]). pose proof (pos_INR o1). lra. }
  assert (E : forall z, Rpower 2 z * Rpower 2 z = Rpower 2 (2 * z)) by (intros; rewrite <- Rpower_plus; f_equal; ring).
  assert (P1 : 1 <= Rpower 2 (2 * x)). { rewrite <- (Rpower_O 2) by lra. apply Rle_Rpower; lra. }
  assert (P2 : Rpower 2 (2 * x) * Rpower 2 (2 / INR n) <= Rpower 2 (2 * y)). { rewrite <- Rpower_plus. apply Rle_Rpower; [lra|]. replace (2 / INR n) with (2 * (1 / INR n)) by (field; lra). lra. }
  assert (P3 : 1 <= Rpower 2 (2 / INR n)). { rewrite <- (Rpower_O 2) by lra. apply Rle_Rpower; [lra|]. apply Rlt_le, Rdiv_lt_0_compat; lra. }
  replace (b * Rpower 2 y * (b * Rpower 2 y) / 2) with (b * b / 2 * Rpower 2 (2 * y)) by (rewrite <- E; field). replace (b * Rpower 2 x * (b * Rpower 2 x) / 2) with (b * b / 2 * Rpower 2 (2 * x)) by (rewrite <- E; field).
  assert (0 < b * b / 2) by nra. rewrite <- Rmult_minus_distr_l. apply Rmult_le_compat_l; [lra|]. set (q := Rpower 2 (2 / INR n)) in *. set (u := Rpower 2 (2 * x)) in *. nra. Qed.
(** Enough fuel for every level. *)
Lemma stepped_total checks (p : rlevel) l : (forall a b : rlevel, In a (p :: l) -> In b l -> esigma a < esigma b -> 1 / 5 <= etime b - etime a) -> sorted_plan (p :: l) ->
  exists fuel0, forall fuel, (fuel0 <= fuel)%nat -> exists l', stepped (fed_quarter checks fuel) p l l'.
Proof.
  revert p. induction l as [|e l IH]; intros p G S; [exists 0%nat; intros; exists []; constructor|]. inversion_clear S as [|? ? S1 S2].
  destruct (IH e) as (f1 & F1); [intros a b Ha Hb; apply G; [now right|now right]|exact S1|].
  assert (T : 1 / 5 <= etime e - etime p) by (apply G; [now left|now left|now inversion_clear S2]).
  destruct (fed_process_total checks (etime e - etime p) 1 (1 / 4) true) as (f2 & out & F2); [lra|lia|lra| |].
  { unfold least_step_count, max_cycle_time. intros [A _]. unfold slack in A. replace ((etime e - etime p) / IZR 1) with (etime e - etime p) in A by (apply Rminus_diag_uniq; field). cbn [INR] in A. lra. }
  exists (Nat.max f1 f2). intros fuel Hf. destruct (F1 fuel ltac:(lia)) as (l' & Hl). exists (with_steps e out :: l'). constructor; [|exact Hl]. apply F2. lia. Qed.
Lemma allocate_total checks o w h : (0 < num_sublevels o)%nat -> 0 < base_scale_offset o -> 1 / 5 <= first_gap o ->
  exists fuel0, forall fuel, (fuel0 <= fuel)%nat -> exists l, rallocate (fed_quarter checks fuel) o w h = Ok l.
Proof.
  intros Hn Hb G. unfold rallocate, allocate_evolutions. change (@max_octave_evolution (double Rwidths) o) with (@max_octave_evolution RNum o).
  pose proof (plan_sorted o w h Hn Hb) as S. pose proof (plan_levels o w h Hn) as V. destruct (flat_map _ _) as [|e rest]; [exists 0%nat; intros; now exists []|].
  destruct (stepped_total checks e rest) as (f & F); [|exact S|].
  - intros a b Ha Hb'. apply V in Ha as (o1 & s1 & -> & _). assert (Hb2 : In b (e :: rest)) by now right. apply V in Hb2 as (o2 & s2 & -> & _). rewrite !fresh_scale, !fresh_time. intros Lt. pose proof (time_gap o o1 s1 o2 s2 Hn Hb Lt). lra.
  - exists f. intros fuel Hf. destruct (F fuel Hf) as (l' & Hl). apply set_steps_stepped in Hl. exists (e :: l'). rewrite Hl. reflexivity. Qed.
Lemma default_gap m : 1 / 5 <= first_gap (default_settings m).
Proof.
  unfold first_gap, default_settings. cbn [base_scale_offset num_sublevels]. replace (2 / INR 4) with (/ 2) by (cbn; lra). rewrite Rpower_sqrt by lra.
  assert (7 / 5 <= sqrt 2). { apply Rsqr_incr_0_var; [|apply sqrt_pos]. rewrite Rsqr_sqrt by lra. unfold Rsqr. lra. } nra. Qed.

(** Too small a base scale: one step suffices between two levels, and reordering one step panics. *)
Lemma tiny_plan : map (fun e : rlevel => (octave e, sublevel e)) (flat_map (octave_levels Rwidths Rmath Rexp2 tiny_settings 80 80) (seq 0 2)) = [(0, 0); (1, 0)]%nat.
Proof. unfold octave_levels. cbn [seq flat_map]. rewrite !level_side_div. reflexivity. Qed.
Lemma tiny_base : forall fuel, rallocate (fed_quarter true (S fuel)) tiny_settings 80 80 = Panic /\ rallocate (fed_quarter false fuel) tiny_settings 80 80 = Fuel.
Proof.
  intros fuel. unfold rallocate, allocate_evolutions. cbn [max_octave_evolution tiny_settings].
  assert (P : flat_map (octave_levels Rwidths Rmath Rexp2 tiny_settings 80 80) (seq 0 2) = [new_level Rwidths Rexp2 tiny_settings 0 0; new_level Rwidths Rexp2 tiny_settings 1 0]).
  { unfold octave_levels. cbn [seq flat_map]. rewrite !level_side_div. reflexivity. }
  rewrite P. cbn [set_steps]. rewrite !fresh_time. unfold scale_of. cbn [base_scale_offset tiny_settings num_sublevels]. replace (INR 1 + INR 0 / INR 1) with 1 by (cbn; field). replace (INR 0 + INR 0 / INR 1) with 0 by (cbn; field).
  rewrite Rpower_O, Rpower_1 by lra. cbn [sub double Rwidths RNum]. replace (1 / 3 * 2 * (1 / 3 * 2) / 2 - 1 / 3 * 1 * (1 / 3 * 1) / 2) with (1 / 6) by field.
  unfold fed_quarter. destruct fed_process_one_step as [A B]. rewrite A, B. split; reflexivity. Qed.
