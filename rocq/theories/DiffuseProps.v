(** Proofs about the contrast factor. *)
From Coq Require Import List Arith Lia Bool ZArith Reals Lra Psatz SpecFloat.
From Verif Require Import Num LinSpec LinFacts Outcome OutcomeFacts Gray GraySpec GrayFacts GrayReal GrayProps Diffuse DiffuseSpec DiffuseFacts BicubicFacts P3pFacts.
Import ListNotations.
Open Scope R_scope.

(** ** C20: no gradient anywhere *)
Definition no_gradient : gray F32 := of_fn 3 3 (fun _ _ => zero).
Lemma conductivity_nan_refuted (pi : F64) (exp : F64 -> F64) :
  exists k out, contrast_of Fwidths (sf_math 53 1024 pi exp) no_gradient no_gradient (lit 7 10) 300 = Ok k /\
    pm_g2 Fwidths no_gradient no_gradient k = Ok out /\ forallb isnan (g_data out) = true /\ length (g_data out) = 9%nat.
Proof.
  assert (C : (match contrast_of Fwidths (sf_math 53 1024 pi exp) no_gradient no_gradient (lit 7 10) 300 with
     Ok k => match pm_g2 Fwidths no_gradient no_gradient k with Ok out => forallb isnan (g_data out) && (length (g_data out) =? 9)%nat | _ => false end | _ => false end) = true) by (vm_compute; reflexivity).
  destruct (contrast_of _ _ _ _ _ _) as [k| |]; try discriminate. exists k. destruct (pm_g2 _ _ _ k) as [out| |]; try discriminate. exists out.
  apply andb_true_iff in C as [A B]. apply Nat.eqb_eq in B. auto. Qed.

(** ** C21 *)
Notation rcontrast := (contrast_of Rwidths Rmath).
Notation rgrad2 := (gradient2 Rwidths).
Lemma gradient2_sqrt (Lx Ly : gray RNum) p : sqrt (rgrad2 Lx Ly p) = gradient Lx Ly p.
Proof. reflexivity. Qed.
Lemma gradient2_pos (Lx Ly : gray RNum) p : (0 <= rgrad2 Lx Ly p)%R.
Proof. apply Rplus_le_le_0_compat; apply Rle_0_sqr. Qed.
Lemma interior_inner w h : (1 <= w)%nat -> (1 <= h)%nat -> interior w h = Ok (inner w h).
Proof. intros Hw Hh. unfold interior. rewrite (proj2 (Nat.eqb_neq w 0)), (proj2 (Nat.eqb_neq h 0)) by lia. reflexivity. Qed.
Lemma inner_nonempty w h : (3 <= w)%nat -> (3 <= h)%nat -> inner w h <> [].
Proof. intros Hw Hh. unfold inner. destruct w as [|[|[|w]]]; try lia. destruct h as [|[|[|h]]]; try lia. discriminate. Qed.
Lemma float_max_spec (l : list R) (best : R) : let m := @float_max RNum best l in (m = best \/ In m l) /\ best <= m /\ forall x, In x l -> x <= m.
Proof.
  revert best. induction l as [|a l IH]; intros best; cbn [float_max]; [repeat split; [now left|lra|intros ? []]|].
  destruct (IH (if @float_leb RNum best a then a else best)) as (A & B & C). cbv zeta. set (m := @float_max RNum _ l) in *.
  unfold float_leb in *. cbn [isnan leb RNum] in *. destruct (Rleb best a) eqn:E.
  - apply Rleb_true in E. split; [destruct A as [A|A]; [right; left; congruence|right; now right]|]. split; [lra|]. intros x [<-|H]; [lra|auto].
  - assert (~ best <= a) by (intros K; apply Rleb_true in K; congruence). split; [destruct A as [A|A]; [left; assumption|right; now right]|]. split; [lra|]. intros x [<-|H']; [lra|auto]. Qed.
Lemma top_largest (Lx Ly : gray RNum) p rest : inner (g_width Lx) (g_height Lx) = p :: rest ->
  largest_gradient Lx Ly (sqrt (@float_max RNum (rgrad2 Lx Ly p) (map (rgrad2 Lx Ly) rest))).
Proof.
  intros E. unfold largest_gradient. rewrite E. destruct (float_max_spec (map (rgrad2 Lx Ly) rest) (rgrad2 Lx Ly p)) as (A & B & C). set (m := @float_max RNum _ _) in *. split.
  - destruct A as [A|A]; [exists p; split; [now left|]; now rewrite A|]. apply in_map_iff in A as (q & A & Hq). exists q. split; [now right|]. now rewrite <- A.
  - intros q [<-|Hq]; rewrite <- gradient2_sqrt; apply sqrt_le_1_alt; [exact B|]. apply C. apply in_map_iff. eauto. Qed.

(** The bin of a gradient. *)
Section bins.
Variables (Lx Ly : gray RNum) (top : R) (bins : nat).
Hypotheses (Hb : (0 < bins)%nat).
Definition raw_bin (p : nat * nat) : Z := Int_part (INR bins * (gradient Lx Ly p / top)).
Definition bin (p : nat * nat) : nat := Nat.min (bins - 1) (Z.to_nat (raw_bin p)).
Lemma Int_part_nonneg x : 0 <= x -> (0 <= Int_part x)%Z.
Proof. intros H. destruct (base_Int_part x). assert (-1 < Int_part x)%Z by (apply lt_IZR; lra). lia. Qed.
Lemma gradient_pos p : 0 <= gradient Lx Ly p.
Proof. apply sqrt_pos. Qed.
Lemma raw_bin_range p : gradient Lx Ly p <> 0 -> gradient Lx Ly p <= top -> (0 <= raw_bin p <= Z.of_nat bins)%Z.
Proof.
  intros H Ht. pose proof (gradient_pos p) as G. assert (0 < top) by lra. assert (0 < INR bins) by (now apply lt_0_INR).
  assert (Q : 0 <= gradient Lx Ly p / top <= 1). { split; [apply Rmult_le_pos; [exact G|apply Rlt_le, Rinv_0_lt_compat; lra]|]. apply (Rmult_le_reg_r top); [lra|]. unfold Rdiv. rewrite Rmult_assoc, Rinv_l by lra. lra. }
  unfold raw_bin. split; [apply Int_part_nonneg; nra|]. destruct (base_Int_part (INR bins * (gradient Lx Ly p / top))). apply le_IZR. rewrite <- INR_IZR_INZ. nra. Qed.
Lemma bin_lt p : (bin p < bins)%nat.
Proof. unfold bin. lia. Qed.
Lemma bin_below p k : gradient Lx Ly p <> 0 -> gradient Lx Ly p <= top -> (bin p <? k)%nat = Rltb (gradient Lx Ly p * INR bins) (INR k * top) || (bins <=? k)%nat.
Proof.
  intros H Ht. pose proof (raw_bin_range p H Ht) as RB. pose proof (gradient_pos p). assert (0 < top) by lra.
  assert (EQ : Rltb (gradient Lx Ly p * INR bins) (INR k * top) = (Z.ltb (raw_bin p) (Z.of_nat k))).
  { assert (X : INR bins * (gradient Lx Ly p / top) * top = gradient Lx Ly p * INR bins) by (field; lra). unfold raw_bin in *. set (q := INR bins * (gradient Lx Ly p / top)) in *. destruct (base_Int_part q).
    rewrite <- X. unfold Rltb. destruct (Rlt_dec (q * top) (INR k * top)) as [L|L]; symmetry.
    - apply Z.ltb_lt. apply lt_IZR. rewrite <- INR_IZR_INZ. apply Rmult_lt_reg_r in L; lra.
    - apply Z.ltb_ge. apply Rnot_lt_le in L. apply Rmult_le_reg_r in L; [|lra]. assert (Z.of_nat k < Int_part q + 1)%Z by (apply lt_IZR; rewrite plus_IZR, <- INR_IZR_INZ; lra). lia. }
  rewrite EQ. unfold bin. destruct (Z.ltb_spec (raw_bin p) (Z.of_nat k)), (Nat.leb_spec bins k), (Nat.ltb_spec (Nat.min (bins - 1) (Z.to_nat (raw_bin p))) k); cbn [orb]; try reflexivity; lia. Qed.

(** The histogram. *)
Definition edge (p : nat * nat) : bool := negb (Reqb (gradient Lx Ly p) 0).
Definition in_bin (b : nat) (l : list (nat * nat)) : nat := length (filter (fun p => (bin p =? b)%nat) (filter edge l)).
Definition below (k : nat) (l : list (nat * nat)) : nat := length (filter (fun p => (bin p <? k)%nat) (filter edge l)).
Lemma Reqb_false x y : Reqb x y = false <-> x <> y.
Proof. unfold Reqb. destruct (Req_EM_T x y); split; congruence. Qed.
Lemma Reqb_true x y : Reqb x y = true <-> x = y.
Proof. unfold Reqb. destruct (Req_EM_T x y); split; congruence. Qed.
Lemma count_step hist num p : gradient Lx Ly p <= top -> length hist = bins ->
  exists hist', count_gradient Rwidths Rmath bins top Lx Ly (hist, num) p = Ok (hist', if edge p then num + 1 else num) /\ length hist' = bins /\
    forall b, (b < bins)%nat -> nth b hist' 0%nat = if edge p && (bin p =? b)%nat then (nth b hist 0 + 1)%nat else nth b hist 0%nat.
Proof.
  intros Ht Lh. unfold count_gradient. change (@sqrt_ (double Rwidths) (gradient2 Rwidths Lx Ly p)) with (gradient Lx Ly p).
  change (@eqb (double Rwidths) (gradient Lx Ly p) zero) with (Reqb (gradient Lx Ly p) 0). fold (edge p). destruct (edge p) eqn:Ed; [|exists hist; auto].
  unfold edge in Ed. apply negb_true_iff, Reqb_false in Ed. pose proof (raw_bin_range p Ed Ht) as RB.
  change (double Rwidths) with RNum. match goal with |- context [to_usize Rmath ?e] => set (raw := to_usize Rmath e) end.
  assert (ER : raw = Z.to_nat (raw_bin p)).
  { unfold raw, to_usize. cbn [m_trunc m_floor Rmath]. rewrite Rtrunc_IZR. unfold raw_bin. cbn [mul ofZ div RNum double Rwidths]. now rewrite <- INR_IZR_INZ. }
  rewrite ER. assert (B : (if (Z.to_nat (raw_bin p) =? bins)%nat then if (Z.to_nat (raw_bin p) =? 0)%nat then Panic else Ok (Z.to_nat (raw_bin p) - 1)%nat else Ok (Z.to_nat (raw_bin p))) = Ok (bin p)).
  { unfold bin. destruct (Nat.eqb_spec (Z.to_nat (raw_bin p)) bins) as [E|E]; [rewrite (proj2 (Nat.eqb_neq _ 0)) by lia|]; f_equal; lia. }
  rewrite B. cbn [bind]. rewrite (read_nth hist _ 0%nat) by (pose proof (bin_lt p); lia). cbn [bind].
  destruct (write_spec hist (bin p) (nth (bin p) hist 0 + 1)%nat) as (hist' & W & L & P); [pose proof (bin_lt p); lia|]. rewrite W. cbn [bind]. exists hist'. split; [reflexivity|]. split; [lia|].
  intros b Hbb. specialize (P b). cbn [andb]. rewrite Nat.eqb_sym. destruct (Nat.eqb_spec b (bin p)) as [EB|NE]; [rewrite EB in *; now apply nth_error_nth|].
  rewrite (nth_error_nth' hist 0%nat) in P by lia. now apply nth_error_nth. Qed.
Lemma count_all l hist num : (forall p, In p l -> gradient Lx Ly p <= top) -> length hist = bins ->
  exists hist', foldM (count_gradient Rwidths Rmath bins top Lx Ly) l (hist, num) = Ok (hist', num + INR (length (filter edge l))) /\ length hist' = bins /\
    forall b, (b < bins)%nat -> nth b hist' 0%nat = (nth b hist 0 + in_bin b l)%nat.
Proof.
  revert hist num. induction l as [|p l IH]; intros hist num Ht Lh.
  - exists hist. cbn [foldM filter length INR]. rewrite Rplus_0_r. split; [reflexivity|]. split; [exact Lh|]. intros. cbn. lia.
  - destruct (count_step hist num p) as (h1 & E1 & L1 & P1); [apply Ht; now left|exact Lh|].
    destruct (IH h1 (if edge p then num + 1 else num)) as (h2 & E2 & L2 & P2); [intros; apply Ht; now right|exact L1|]. exists h2. cbn [foldM]. rewrite E1. cbn [bind]. split; [etransitivity; [exact E2|]|split; [exact L2|]].
    + f_equal. f_equal. cbn [filter]. destruct (edge p); cbn [length]; [rewrite S_INR; ring|reflexivity].
    + intros b Hbb. rewrite P2, P1 by exact Hbb. unfold in_bin. cbn [filter]. destruct (edge p); cbn [andb filter length]; [|reflexivity]. destruct (bin p =? b)%nat; cbn [length]; lia. Qed.
Lemma below_0 l : below 0 l = 0%nat.
Proof. unfold below. induction (filter edge l) as [|p k IH]; [reflexivity|]. cbn [filter]. exact IH. Qed.
Lemma below_S k l : below (S k) l = (below k l + in_bin k l)%nat.
Proof. unfold below, in_bin. induction (filter edge l) as [|p m IH]; [reflexivity|]. cbn [filter].
  destruct (Nat.ltb_spec (bin p) (S k)), (Nat.ltb_spec (bin p) k), (Nat.eqb_spec (bin p) k); cbn [length]; lia. Qed.
Lemma below_all l k : (bins <= k)%nat -> below k l = length (filter edge l).
Proof. intros H. unfold below. induction (filter edge l) as [|p m IH]; [reflexivity|]. cbn [filter length]. pose proof (bin_lt p). rewrite (proj2 (Nat.ltb_lt (bin p) k)) by lia. cbn [length]. now rewrite IH. Qed.
Lemma scan_spec l threshold rest k n : (length rest + k = bins)%nat -> (forall i, (i < length rest)%nat -> nth i rest 0%nat = in_bin (k + i) l) -> n = below k l ->
  (k = 0 \/ below (k - 1) l < threshold)%nat ->
  exists k', scan_bins threshold rest k n = (k', below k' l) /\ (k' <= bins)%nat /\ (threshold <= below k' l \/ k' = bins)%nat /\ (k' = 0 \/ below (k' - 1) l < threshold)%nat.
Proof.
  revert k n. induction rest as [|c rest IH]; intros k n L P -> B; cbn [scan_bins length] in *.
  - exists k. split; [reflexivity|]. split; [lia|]. split; [right; lia|exact B].
  - destruct (Nat.ltb_spec (below k l) threshold) as [Lt|Ge].
    + apply IH; [lia| | |].
      * intros i Hi. specialize (P (S i) ltac:(lia)). cbn [nth] in P. rewrite P. f_equal. lia.
      * specialize (P 0%nat ltac:(lia)). cbn [nth] in P. rewrite P. rewrite Nat.add_0_r. rewrite Nat.add_1_r. symmetry. apply below_S.
      * right. now replace (k + 1 - 1)%nat with k by lia.
    + exists k. split; [reflexivity|]. split; [lia|]. split; [now left|exact B]. Qed.
End bins.

Lemma Rtrunc_nonneg x : 0 <= x -> Rtrunc x = Int_part x.
Proof. intros H. unfold Rtrunc. now destruct (Rle_dec 0 x). Qed.
Lemma contrast_spec w h (Lx Ly : gray RNum) (percentile : R) (bins : nat) : sized w h Lx -> sized w h Ly -> (3 <= w)%nat -> (3 <= h)%nat -> (0 < bins)%nat -> 0 <= percentile ->
  let wanted := Z.to_nat (Int_part (INR (length (edges Lx Ly)) * percentile)) in
  exists top k, largest_gradient Lx Ly top /\ (k <= bins)%nat /\
    (k = 0%nat \/ (count_below Lx Ly top bins (k - 1) < wanted)%nat) /\
    ((wanted <= count_below Lx Ly top bins k)%nat /\ rcontrast Lx Ly percentile bins = Ok (top * INR k / INR bins) \/
     (count_below Lx Ly top bins k < wanted)%nat /\ k = bins /\ rcontrast Lx Ly percentile bins = Ok (3 / 100)).
Proof.
  intros SX SY Hw Hh Hb Hp. cbv zeta. set (wanted := Z.to_nat _). unfold contrast_of. destruct SX as (W & H & _). cbn [single Rwidths] in *. rewrite W, H, interior_inner by lia. cbn [bind].
  destruct (inner w h) as [|p rest] eqn:EI; [now apply inner_nonempty in EI|].
  set (top := @sqrt_ (double Rwidths) (float_max _ _)). assert (TL : largest_gradient Lx Ly top) by (apply top_largest; rewrite W, H; exact EI).
  assert (TB : forall q, In q (p :: rest) -> gradient Lx Ly q <= top) by (intros q Hq; apply TL; rewrite W, H, EI; exact Hq).
  destruct (count_all Lx Ly top bins Hb (p :: rest) (repeat 0%nat bins) 0 TB (repeat_length _ _)) as (hist & EH & LH & PH).
  change (@zero (double Rwidths)) with 0. change (carrier (double Rwidths)) with R in *. match goal with |- context [bind ?e _] => replace e with (Ok (hist, 0 + INR (length (filter (edge Lx Ly) (p :: rest))))) by (symmetry; exact EH) end. cbn [bind]. rewrite Rplus_0_l.
  assert (ED : edges Lx Ly = filter (edge Lx Ly) (p :: rest)) by (unfold edges; rewrite W, H, EI; reflexivity).
  change (double Rwidths) with RNum in *. match goal with |- context [to_usize Rmath ?e] => set (raw := to_usize Rmath e) end.
  assert (ER : raw = wanted).
  { unfold raw, wanted, to_usize. cbn [m_trunc Rmath mul RNum]. rewrite Rtrunc_nonneg by (apply Rmult_le_pos; [apply pos_INR|exact Hp]). now rewrite ED. }
  rewrite ER. clear raw ER.
  destruct (scan_spec Lx Ly top bins Hb (p :: rest) wanted hist 0 0) as (k & ES & K1 & K2 & K3); [lia| |symmetry; apply below_0|now left|].
  { intros i Hi. rewrite PH by lia. rewrite nth_repeat' by lia. reflexivity. }
  rewrite ES. assert (CB : forall j, count_below Lx Ly top bins j = below Lx Ly top bins j (p :: rest)).
  { intros j. unfold count_below, below. rewrite ED. f_equal. apply filter_ext_in. intros q Hq. apply filter_In in Hq as [Hq Hq']. symmetry. apply bin_below; [exact Hb| |].
    - apply Reqb_false. now apply negb_true_iff in Hq'.
    - apply TB. exact Hq. }
  exists top, k. split; [exact TL|]. split; [exact K1|]. rewrite !CB. split; [exact K3|].
  destruct (Nat.leb_spec wanted (below Lx Ly top bins k (p :: rest))) as [A|A].
  - left. split; [exact A|]. cbn [mul div ofZ double Rwidths RNum]. now rewrite <- !INR_IZR_INZ.
  - right. split; [exact A|]. split; [destruct K2; [lia|assumption]|]. reflexivity. Qed.
Lemma contrast_percentile w h (Lx Ly : gray RNum) (percentile : R) (bins : nat) : sized w h Lx -> sized w h Ly -> (3 <= w)%nat -> (3 <= h)%nat -> (0 < bins)%nat -> 0 <= percentile <= 1 ->
  exists top k, largest_gradient Lx Ly top /\ (k <= bins)%nat /\ rcontrast Lx Ly percentile bins = Ok (top * INR k / INR bins) /\
    let wanted := Z.to_nat (Int_part (INR (length (edges Lx Ly)) * percentile)) in
    (wanted <= count_below Lx Ly top bins k)%nat /\ (k = 0%nat \/ (count_below Lx Ly top bins (k - 1) < wanted)%nat).
Proof.
  intros SX SY Hw Hh Hb Hp. destruct (contrast_spec w h Lx Ly percentile bins SX SY Hw Hh Hb (proj1 Hp)) as (top & k & A & B & C & [[D E]|(D & -> & E)]); exists top.
  - exists k. auto.
  - exfalso. assert (F : count_below Lx Ly top bins bins = length (edges Lx Ly)). { unfold count_below. f_equal. rewrite Nat.leb_refl. clear. induction (edges Lx Ly) as [|q l IH]; [reflexivity|]. cbn [filter]. rewrite orb_true_r. now f_equal. }
    rewrite F in D. set (n := length (edges Lx Ly)) in *. assert (INR n * percentile <= INR n) by (pose proof (pos_INR n); nra).
    destruct (base_Int_part (INR n * percentile)). assert (Int_part (INR n * percentile) <= Z.of_nat n)%Z by (apply le_IZR; rewrite <- INR_IZR_INZ; lra). lia. Qed.
Lemma edges_flat (Lx Ly : gray RNum) : (forall p, In p (inner (g_width Lx) (g_height Lx)) -> gradient Lx Ly p = 0) -> edges Lx Ly = [].
Proof. intros H. unfold edges. induction (inner _ _) as [|p l IH]; [reflexivity|]. cbn [filter]. rewrite H by now left. replace (Reqb 0 0) with true by (symmetry; now apply Reqb_true). cbn [negb]. apply IH. intros; apply H; now right. Qed.
(** A constant image has contrast factor 0. *)
Lemma contrast_flat w h c (g : gray RNum) (percentile scale : R) (bins : nat) : constant_image w h c g -> (3 <= w)%nat -> (3 <= h)%nat -> (0 < bins)%nat -> 0 <= percentile -> 0 < scale ->
  compute_contrast_factor Rwidths Rmath Rmath g percentile scale bins = Ok 0.
Proof.
  intros C Hw Hh Hb Hp Hs. unfold compute_contrast_factor. destruct (blur_constant w h c g scale) as (b & E & Cb); [lia|lia|exact Hs|exact C|]. cbn [narrow Rwidths single]. rewrite E. cbn [bind].
  destruct (scharr_constant w h c b 1 Cb) as (gx & gy & E1 & E2 & CX & CY); [lia|lia|lia|]. change (@simple_scharr_horizontal RNum b) with (@scharr_horizontal RNum b 1). rewrite E1. cbn [bind]. change (@simple_scharr_vertical RNum b) with (@scharr_vertical RNum b 1). rewrite E2. cbn [bind].
  destruct (contrast_spec w h gx gy percentile bins (proj1 CX) (proj1 CY) Hw Hh Hb Hp) as (top & k & A & B & D & F).
  assert (IN : forall p, In p (inner (g_width gx) (g_height gx)) -> (fst p < w)%nat /\ (snd p < h)%nat).
  { destruct CX as [(W & H & _) _]. rewrite W, H. intros p Hp'. unfold inner in Hp'. apply in_flat_map in Hp' as (y & Hy & Hx). apply in_map_iff in Hx as (x & <- & Hx). apply in_seq in Hx, Hy. cbn. lia. }
  assert (G : forall p, In p (inner (g_width gx) (g_height gx)) -> gradient gx gy p = 0).
  { intros p Hp'. destruct (IN p Hp'). unfold gradient. rewrite (proj2 CX), (proj2 CY) by assumption. cbn [carrier RNum]. replace (0 * 0 + 0 * 0) with 0 by ring. apply sqrt_0. }
  rewrite (edges_flat gx gy G) in *. cbn [length INR] in *. rewrite Rmult_0_l in *. replace (Int_part 0) with 0%Z in * by (symmetry; apply (Int_part_IZR 0)). cbn [Z.to_nat] in *.
  assert (k = 0%nat) by (destruct D; [assumption|lia]). subst k. destruct F as [[_ ->]|[F _]]; [|lia]. f_equal. cbn [INR]. field. apply not_0_INR. lia. Qed.
Lemma contrast_small w h (Lx Ly : gray RNum) percentile bins : sized w h Lx -> (1 <= w)%nat -> (1 <= h)%nat -> (w <= 2 \/ h <= 2)%nat -> rcontrast Lx Ly percentile bins = Panic.
Proof. intros (W & H & _) Hw Hh S. unfold contrast_of. cbn [single Rwidths] in *. rewrite W, H, interior_inner by lia. cbn [bind]. unfold inner.
  destruct S as [S|S].
  - replace (w - 2)%nat with 0%nat by lia. cbn [seq map]. assert (E : forall l : list nat, flat_map (fun _ => @nil (nat * nat)) l = []) by (induction l; auto). rewrite E. reflexivity.
  - replace (h - 2)%nat with 0%nat by lia. reflexivity. Qed.

(** The whole estimator. *)
Lemma contrast_factor_spec w h (g : gray RNum) (percentile scale : R) (bins : nat) : sized w h g -> (3 <= w)%nat -> (3 <= h)%nat -> (0 < bins)%nat -> 0 <= percentile <= 1 -> 0 < scale ->
  exists smooth Lx Ly top k, gaussian_blur (N := RNum) Rmath g scale = Ok smooth /\ image_of w h (scharr_x smooth 1) Lx /\ image_of w h (scharr_y smooth 1) Ly /\
    largest_gradient Lx Ly top /\ (k <= bins)%nat /\ compute_contrast_factor Rwidths Rmath Rmath g percentile scale bins = Ok (top * INR k / INR bins) /\
    let wanted := Z.to_nat (Int_part (INR (length (edges Lx Ly)) * percentile)) in
    (wanted <= count_below Lx Ly top bins k)%nat /\ (k = 0%nat \/ (count_below Lx Ly top bins (k - 1) < wanted)%nat).
Proof.
  intros S Hw Hh Hb Hp Hs. unfold compute_contrast_factor. destruct (blur_spec w h g scale S ltac:(lia) ltac:(lia) Hs) as (b & _ & E & [Sb _] & _).
  cbn [narrow Rwidths single]. rewrite E. cbn [bind]. destruct (scharr_image w h b 1 Sb ltac:(lia) ltac:(lia) ltac:(lia)) as (gx & gy & E1 & E2 & CX & CY).
  change (@simple_scharr_horizontal RNum b) with (@scharr_horizontal RNum b 1). rewrite E1. cbn [bind]. change (@simple_scharr_vertical RNum b) with (@scharr_vertical RNum b 1). rewrite E2. cbn [bind].
  destruct (contrast_percentile w h gx gy percentile bins (proj1 CX) (proj1 CY) Hw Hh Hb Hp) as (top & k & A). exists b, gx, gy, top, k. auto. Qed.
