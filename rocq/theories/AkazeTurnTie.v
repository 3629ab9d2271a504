(** Two equally strong maxima near to each other, symmetric about the middle of the image: one is kept. *)
From Coq Require Import List Arith Lia Bool Reals Lra.
From Verif Require Import Num LinSpec Outcome Gray GraySpec GrayFacts Diffuse DiffuseSpec Akaze AkazeSpec AkazeDetect AkazeDemo AkazeTurnSpec.
Import ListNotations.
Open Scope R_scope.

Definition dark : gray RNum := of_fn 100 100 (fun _ _ => 0).
Definition pair : gray RNum := of_fn 100 100 (fun x y => if (((x =? 48) || (x =? 51)) && (y =? 49))%nat%bool then 1 else 0).
Definition pair_level : rlevel := Level (P := Rwidths) 2 2 0 0 [] dark dark dark dark dark dark dark dark pair.
Definition mirror : turn := Turn false true false.
Lemma pair_pixel x y : (x < 100)%nat -> (y < 100)%nat -> pixel pair x y = if (((x =? 48) || (x =? 51)) && (y =? 49))%nat%bool then 1 else 0.
Proof. intros. unfold pair. now rewrite (proj2 (of_fn_image (N := RNum) 100 100 _)). Qed.
Lemma pair_sized : sized 100 100 pair.
Proof. apply (of_fn_sized (N := RNum)). Qed.
Lemma pair_sides : g_width pair = 100%nat /\ g_height pair = 100%nat.
Proof. split; apply pair_sized. Qed.
Lemma pair_mirrored : turned mirror pair pair.
Proof.
  unfold turned. destruct pair_sides as [W H]. rewrite W, H. unfold new_width, new_height, source_x, source_y. cbn [swapped columns_reversed rows_reversed mirror].
  split; [exact pair_sized|]. intros x y Hx Hy. rewrite !pair_pixel by lia.
  replace (100 - 1 - x =? 48)%nat with (x =? 51)%nat by (apply eq_true_iff_eq; rewrite !Nat.eqb_eq; lia). replace (100 - 1 - x =? 51)%nat with (x =? 48)%nat by (apply eq_true_iff_eq; rewrite !Nat.eqb_eq; lia). now rewrite orb_comm.
Qed.
Lemma pair_well : forall e, In e [pair_level] -> well_sized e.
Proof. intros e [<-|[]]. unfold well_sized. cbn [Ldet pair_level]. destruct pair_sides as [W H]. cbn [single Rwidths] in *. rewrite W, H. split; [lia|]. split; [lia|]. exact pair_sized. Qed.
Lemma pair_scale : integer_scale demo_settings pair_level 3.
Proof. unfold integer_scale. cbn [esigma octave pair_level derivative_factor demo_settings default_settings pow INR]. lra. Qed.
Lemma pair_scales : forall e, In e [pair_level] -> exists s, integer_scale demo_settings e s /\ (1 <= s)%nat.
Proof. intros e [<-|[]]. exists 3%nat. split; [apply pair_scale|lia]. Qed.

Lemma column_bounds x : (x = 48 \/ x = 51)%nat -> 48 <= INR x <= 51 /\ (INR x = 48 \/ INR x = 51).
Proof. intros [-> | ->]; [replace (INR 48) with 48 by (rewrite INR_IZR_INZ; reflexivity)|replace (INR 51) with 51 by (rewrite INR_IZR_INZ; reflexivity)]; lra. Qed.
Notation ev x := (0%nat, (pair_level, (x, 49%nat))).
Lemma pair_maximum x y : strict_maximum (detector_threshold demo_settings) pair x y <-> (x = 48 \/ x = 51)%nat /\ y = 49%nat.
Proof.
  unfold strict_maximum. destruct pair_sides as [W H]. cbn [single Rwidths] in *. rewrite W, H. cbn [detector_threshold demo_settings default_settings]. split.
  - intros (B & T & _). rewrite pair_pixel in T by lia. destruct (Nat.eqb_spec x 48), (Nat.eqb_spec x 51), (Nat.eqb_spec y 49); cbn [andb orb] in T; try (split; lia); exfalso; lra.
  - intros [Hx ->]. split; [lia|]. rewrite (pair_pixel x 49) by lia. assert (E : ((x =? 48) || (x =? 51))%nat%bool = true) by (apply orb_true_iff; rewrite !Nat.eqb_eq; exact Hx). rewrite E. cbn [andb Nat.eqb]. split; [lra|].
    intros X Y HX HY NE. rewrite pair_pixel by lia. destruct (Nat.eqb_spec X 48), (Nat.eqb_spec X 51), (Nat.eqb_spec Y 49); cbn [andb orb]; try lra; exfalso; apply NE; f_equal; lia.
Qed.
Lemma pair_clear x : (x = 48 \/ x = 51)%nat -> is_clear demo_settings (ev x) = true.
Proof.
  intros Hx. apply (clear_iff demo_settings [pair_level] pair_scales 0 pair_level x 49 eq_refl). exists 3%nat. split; [exact pair_scale|]. unfold clear_of_border. cbn [Ldet pair_level]. destruct pair_sides as [W H]. cbn [single Rwidths] in *. rewrite W, H.
  replace (INR 100) with 100 by (rewrite INR_IZR_INZ; reflexivity). replace (INR 49) with 49 by (rewrite INR_IZR_INZ; reflexivity). replace (INR 3) with 3 by (rewrite INR_IZR_INZ; reflexivity).
  assert (sqrt 2 <= 1415 / 1000). { apply Rsqr_incr_0_var; [|lra]. rewrite Rsqr_sqrt by lra. unfold Rsqr. lra. } pose proof (sqrt_pos 2).
  pose proof (proj1 (column_bounds x Hx)). lra.
Qed.
Lemma pair_put x x' : (x = 48 \/ x = 51)%nat -> (x' = 48 \/ x' = 51)%nat -> fold_left (put demo_settings) [ev x; ev x'] [] = [keypoint_at demo_settings 0 pair_level x 49].
Proof.
  intros Hx Hx'. cbn [fold_left]. unfold put at 2. cbn [first_near]. rewrite pair_clear by exact Hx. cbn [app place]. unfold put, ev_ratio, ev_level, cand. cbn [fst snd first_near].
  assert (NE : near_cached Rwidths (2 ^ octave pair_level) (candidate Rwidths demo_settings 0 pair_level x' 49) (keypoint_at demo_settings 0 pair_level x 49) = true).
  { apply near_iff. split; [now left|]. unfold corner_distance2. cbn [keypoint_at kp_x kp_y octave pair_level esigma derivative_factor demo_settings default_settings]. unfold centre. cbn [pow].
    pose proof (proj1 (column_bounds x Hx)). pose proof (proj1 (column_bounds x' Hx')). nra. }
  change (single Rwidths) with RNum in *. rewrite NE. clear NE.
  match goal with |- context [ltb ?a ?b] => destruct (Rltb_reflect a b) as [L|L]; [exfalso|reflexivity] end.
  cbn [keypoint_at candidate kp_response Ldet pair_level] in L. cbn [abs_ RNum single Rwidths] in L. rewrite !pair_pixel in L by lia.
  assert (E : ((x =? 48) || (x =? 51))%nat%bool = true) by (apply orb_true_iff; rewrite !Nat.eqb_eq; exact Hx). assert (E' : ((x' =? 48) || (x' =? 51))%nat%bool = true) by (apply orb_true_iff; rewrite !Nat.eqb_eq; exact Hx'). rewrite E, E' in L. cbn [andb Nat.eqb] in L. lra.
Qed.
Lemma pair_events : exists x x', (x = 48 \/ x = 51)%nat /\ (x' = 48 \/ x' = 51)%nat /\ events demo_settings [pair_level] = [ev x; ev x'].
Proof.
  pose proof (events_nodup demo_settings [pair_level] pair_well) as ND.
  assert (I : forall d, In d (events demo_settings [pair_level]) <-> d = ev 48%nat \/ d = ev 51%nat).
  { intros d. rewrite (events_iff demo_settings [pair_level] pair_well d). destruct d as [c [e [x y]]]. unfold good. split.
    - intros [N M]. destruct c as [|[|?]]; try discriminate N. injection N as <-. cbn [Ldet pair_level] in M. apply pair_maximum in M as [[-> | ->] ->]; auto.
    - intros [E|E]; injection E as -> -> -> ->; (split; [reflexivity|]); cbn [Ldet pair_level]; apply pair_maximum; auto. }
  destruct (events demo_settings [pair_level]) as [|a [|b [|c l]]].
  - destruct (proj2 (I (ev 48%nat)) (or_introl eq_refl)).
  - destruct (proj2 (I (ev 48%nat)) (or_introl eq_refl)) as [E1|[]]. destruct (proj2 (I (ev 51%nat)) (or_intror eq_refl)) as [E2|[]]. rewrite E1 in E2. pose proof (f_equal (fun d : nat * (rlevel * (nat * nat)) => fst (snd (snd d))) E2) as Q. cbn [fst snd] in Q. lia.
  - destruct (proj1 (I a) (or_introl eq_refl)) as [-> | ->], (proj1 (I b) (or_intror (or_introl eq_refl))) as [-> | ->]; [exists 48%nat, 48%nat|exists 48%nat, 51%nat|exists 51%nat, 48%nat|exists 51%nat, 51%nat]; auto.
  - exfalso. inversion ND as [|? ? A ND1]; subst. inversion ND1 as [|? ? B ND2]; subst.
    destruct (proj1 (I a) (or_introl eq_refl)) as [-> | ->], (proj1 (I b) (or_intror (or_introl eq_refl))) as [-> | ->], (proj1 (I c) (or_intror (or_intror (or_introl eq_refl)))) as [-> | ->];
      (try (apply A; now left)); (try (apply A; right; now left)); (try (apply B; now left)).
Qed.
Lemma ties_break_symmetry : exists (e : rlevel) (kps : list rkeypoint), sized 100 100 (Ldet e) /\ turned mirror (Ldet e) (Ldet e) /\
  rextrema demo_settings [e] = Ok kps /\ ~ (forall kp, In kp kps -> exists kp', In kp' kps /\ turned_keypoint mirror 100 100 kp kp').
Proof.
  exists pair_level. rewrite (extrema_fold demo_settings [pair_level] pair_well). destruct pair_events as (x & x' & Hx & Hx' & ->). rewrite pair_put by assumption. eexists. split; [exact pair_sized|]. split; [exact pair_mirrored|]. split; [reflexivity|].
  cbn [filter_upper existsb]. intros A. destruct (A _ (or_introl eq_refl)) as (kp' & [<-|[]] & M & _). unfold mirror in M. cbn [swapped columns_reversed keypoint_at kp_x octave pair_level] in M. unfold centre in M. cbn [pow] in M.
  replace (INR 100) with 100 in M by (rewrite INR_IZR_INZ; reflexivity). destruct (column_bounds x Hx) as [_ [E|E]]; rewrite E in M; lra.
Qed.
