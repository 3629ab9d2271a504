(** Proofs about the construction of the scale space and the detector response. *)
From Coq Require Import List Arith Lia Bool ZArith Reals Lra Psatz.
From Verif Require Import Num LinSpec LinFacts Outcome OutcomeFacts Gray GraySpec GrayFacts GrayReal GrayProps Diffuse DiffuseSpec DiffuseFacts DiffuseProps BicubicSpec BicubicFacts Fed FedSpec FedSum Akaze AkazeSpec AkazeSchedule.
Import ListNotations.
Open Scope R_scope.

(** ** Octaves of the schedule *)
Section schedule.
Variables (fed : R -> outcome (list R)) (o : rsettings) (w h : nat) (l : list rlevel).
Hypotheses (Hn : (0 < num_sublevels o)%nat) (Hb : 0 < base_scale_offset o) (A : rallocate fed o w h = Ok l).
Let S := schedule fed o w h Hn Hb l A.
Lemma has_level_down oct oct' sub : has_level o w h oct sub -> (oct' <= oct)%nat -> has_level o w h oct' 0.
Proof. unfold has_level. intros (H1 & H2 & H3 & _) Hle. assert (2 ^ oct' <= 2 ^ oct)%nat by (apply Nat.pow_le_mono_r; lia). split; [lia|]. split; [lia|]. split; [lia|]. destruct (le_lt_dec (80 * 2 ^ oct') w), (le_lt_dec (80 * 2 ^ oct') h); lia. Qed.
Lemma level_has e : In e l -> has_level o w h (octave e) (sublevel e).
Proof. intros H. apply (proj1 S). eauto. Qed.
Lemma octave_order i j a b : (i < j)%nat -> nth_error l i = Some a -> nth_error l j = Some b -> (octave a <= octave b)%nat.
Proof.
  intros Hij Ha Hb'. destruct S as (_ & V & I & _). pose proof (I i j a b Hij Ha Hb') as Lt. cbn beta in Lt. apply nth_error_In in Ha, Hb'. destruct (V a Ha) as [E1 _], (V b Hb') as [E2 _]. destruct (le_lt_dec (octave a) (octave b)) as [|L]; [assumption|].
  pose proof (scale_lt_oct o Hn Hb (octave b) (octave a) (sublevel b) (sublevel a) L (has_level_sub o w h Hn _ _ (level_has b Hb'))). rewrite <- E1, <- E2 in H. cbn [double Rwidths carrier RNum] in *. lra. Qed.
Lemma sigma_index i j a b : nth_error l i = Some a -> nth_error l j = Some b -> esigma a < esigma b -> (i < j)%nat.
Proof. intros Ha Hb' Lt. destruct S as (_ & _ & I & _). destruct (lt_eq_lt_dec i j) as [[L|E]|L]; [exact L| |]; exfalso.
  - subst. rewrite Ha in Hb'. injection Hb' as ->. cbn [double Rwidths carrier RNum] in *. lra.
  - pose proof (I j i b a L Hb' Ha). cbn [double Rwidths carrier RNum] in *. cbn beta in *. lra. Qed.
Lemma octave_next i a b : nth_error l i = Some a -> nth_error l (Datatypes.S i) = Some b -> (octave b <= octave a + 1)%nat.
Proof.
  intros Ha Hb'. destruct (le_lt_dec (octave b) (octave a + 1)) as [|L]; [assumption|]. exfalso. destruct S as (H1 & V & _). pose proof (nth_error_In _ _ Ha) as Ia. pose proof (nth_error_In _ _ Hb') as Ib.
  destruct (proj1 (H1 (octave a + 1)%nat 0%nat)) as (c & Ic & Oc & Sc); [apply (has_level_down (octave b) _ (sublevel b)); [now apply level_has|lia]|].
  destruct (V a Ia) as [Ea _], (V b Ib) as [Eb _], (V c Ic) as [Ec _]. rewrite Oc, Sc in Ec. apply In_nth_error in Ic as (j & Hj).
  assert (i < j)%nat. { apply (sigma_index i j a c Ha Hj). rewrite Ea, Ec. apply scale_lt_oct; [exact Hn|exact Hb|lia|]. apply (has_level_sub o w h Hn (octave a)). now apply level_has. }
  assert (j < Datatypes.S i)%nat. { apply (sigma_index j (Datatypes.S i) c b Hj Hb'). rewrite Eb, Ec. apply scale_lt_oct; [exact Hn|exact Hb|lia|exact Hn]. } lia. Qed.
Lemma octave_first a rest : l = a :: rest -> octave a = 0%nat.
Proof.
  intros E. assert (Ia : In a l) by (rewrite E; now left). destruct (octave a) as [|k] eqn:O; [reflexivity|]. exfalso. destruct S as (H1 & V & _).
  destruct (proj1 (H1 0%nat 0%nat)) as (c & Ic & Oc & Sc); [apply (has_level_down (octave a) _ (sublevel a)); [now apply level_has|lia]|].
  destruct (V a Ia) as [Ea _], (V c Ic) as [Ec _]. rewrite Oc, Sc in Ec. apply In_nth_error in Ic as (j & Hj).
  assert (j < 0)%nat; [|lia]. apply (sigma_index j 0 c a Hj); [now rewrite E|]. rewrite Ea, Ec. apply scale_lt_oct; [exact Hn|exact Hb|lia|exact Hn]. Qed.
Lemma levels_nonempty : l <> [] <-> (0 < max_octave_evolution o)%nat /\ (40 <= w)%nat /\ (40 <= h)%nat.
Proof.
  destruct S as (H1 & _). split.
  - intros H. destruct l as [|a r] eqn:E; [contradiction|]. assert (has_level o w h 0 0). { apply (has_level_down (octave a) _ (sublevel a)); [|lia]. apply H1. exists a. split; [now left|auto]. } unfold has_level in H0. rewrite Nat.pow_0_r in H0. lia.
  - intros (X & Y & Z) E. assert (has_level o w h 0 0). { unfold has_level. rewrite Nat.pow_0_r. split; [lia|]. split; [lia|]. split; [lia|]. destruct (le_lt_dec 80 w), (le_lt_dec 80 h); lia. } apply H1 in H as (e & He & _). rewrite E in He. destruct He. Qed.
End schedule.

(** ** One level *)
Lemma blur_ok w h (g : gray RNum) r : sized w h g -> (0 < w)%nat -> (0 < h)%nat -> 0 < r -> exists out, gaussian_blur (N := RNum) Rmath g r = Ok out /\ sized w h out.
Proof. intros. destruct (blur_spec w h g r) as (out & k & E & I & _); auto. exists out. split; [exact E|apply I]. Qed.
Lemma steps_ok w h (flow : gray RNum) steps : sized w h flow -> (0 < w)%nat -> (0 < h)%nat -> forall image, sized w h image ->
  exists out, foldM (fun image step => calculate_step (N := RNum) image flow step) steps image = Ok out /\ sized w h out /\ total out = total image.
Proof.
  intros SF Hw Hh. induction steps as [|t steps IH]; intros image SI; cbn [foldM]; [exists image; auto|].
  destruct (step_total w h image flow t SI SF Hw Hh) as (im & E & Sm & T). rewrite E. cbn [bind]. destruct (IH im Sm) as (out & E' & So & T'). exists out. split; [exact E'|]. split; [exact So|]. now rewrite T'. Qed.
Lemma pm_g2_ok w h (lx ly : gray RNum) k : sized w h lx -> sized w h ly -> exists out, pm_g2 Rwidths lx ly k = Ok out /\ sized w h out.
Proof. intros (W1 & H1 & _) (W2 & H2 & _). unfold pm_g2. cbn [single Rwidths] in *. rewrite W1, W2, H1, H2, !Nat.eqb_refl. cbn [andb assert_]. eexists. split; [reflexivity|]. apply of_fn_sized. Qed.
Lemma next_level_ok w h contrast (p e : rlevel) : (0 < w)%nat -> (0 < h)%nat -> (octave p < octave e -> 2 <= w /\ 2 <= h)%nat -> sized w h (Lt p) ->
  exists e' c', next_level Rwidths Rmath contrast p e = Ok (e', c') /\ same_place e e' /\
    let w' := if (octave p <? octave e)%nat then (w / 2)%nat else w in let h' := if (octave p <? octave e)%nat then (h / 2)%nat else h in
    sized w' h' (Lt e') /\ sized w' h' (Lsmooth e') /\
    exists start, (if (octave p <? octave e)%nat then half_size (N := RNum) (Lt p) = Ok start else start = Lt p) /\ sized w' h' start /\ total (Lt e') = total start.
Proof.
  intros Hw Hh H2 S. unfold next_level.
  assert (B : exists start c, (if (octave p <? octave e)%nat then let! half := half_size (N := RNum) (Lt p) in Ok (half, contrast * (3 / 4)) else Ok (Lt p, contrast)) = Ok (start, c) /\
    (if (octave p <? octave e)%nat then half_size (N := RNum) (Lt p) = Ok start else start = Lt p) /\ sized (if (octave p <? octave e)%nat then (w / 2)%nat else w) (if (octave p <? octave e)%nat then (h / 2)%nat else h) start).
  { destruct (Nat.ltb_spec (octave p) (octave e)) as [L|L]; [|exists (Lt p), contrast; auto]. destruct (half_size_image w h (Lt p) S) as (hf & E & I); [lia|lia|]. cbn [single Rwidths] in *. rewrite E. exists hf, (contrast * (3 / 4)). split; [reflexivity|]. split; [reflexivity|apply I]. }
  destruct B as (start & c & E & K & Ss). cbv zeta. match goal with |- context [bind ?x _] => replace x with (@Ok (gray RNum * R) (start, c)) by (symmetry; exact E) end. cbn [bind]. clear E.
  set (w' := if (octave p <? octave e)%nat then (w / 2)%nat else w) in *. set (h' := if (octave p <? octave e)%nat then (h / 2)%nat else h) in *.
  assert (Hw' : (0 < w')%nat). { unfold w'. destruct (Nat.ltb_spec (octave p) (octave e)); [|exact Hw]. pose proof (Nat.div_le_mono 2 w 2). change (2 / 2)%nat with 1%nat in *. lia. }
  assert (Hh' : (0 < h')%nat). { unfold h'. destruct (Nat.ltb_spec (octave p) (octave e)); [|exact Hh]. pose proof (Nat.div_le_mono 2 h 2). change (2 / 2)%nat with 1%nat in *. lia. }
  destruct (blur_ok w' h' start 1 Ss Hw' Hh') as (sm & E & Sm); [lra|]. cbn [single Rwidths] in *. change (@one RNum) with 1. rewrite E. cbn [bind]. clear E.
  destruct (scharr_image w' h' sm 1 Sm Hw' Hh' ltac:(lia)) as (lx & ly & E1 & E2 & [S1 _] & [S2 _]). change (@simple_scharr_horizontal RNum sm) with (@scharr_horizontal RNum sm 1). rewrite E1. cbn [bind].
  change (@simple_scharr_vertical RNum sm) with (@scharr_vertical RNum sm 1). rewrite E2. cbn [bind].
  destruct (pm_g2_ok w' h' lx ly c S1 S2) as (fl & E3 & S3). rewrite E3. cbn [bind].
  destruct (steps_ok w' h' fl (tau_steps e) S3 Hw' Hh' start Ss) as (out & E4 & S4 & T4).
  match goal with |- context [bind ?x _] => replace x with (@Ok (gray RNum) out) by (symmetry; exact E4) end. cbn [bind]. eexists _, _. split; [reflexivity|]. cbn [etime esigma octave sublevel tau_steps Lt Lsmooth].
  split; [repeat split|]. split; [exact S4|]. split; [exact Sm|]. exists start. auto. Qed.

(** ** All levels *)
Definition chained (l : list rlevel) : Prop :=
  forall i a b, nth_error l i = Some a -> nth_error l (S i) = Some b -> (octave a <= octave b <= octave a + 1)%nat.
Lemma halved_S k n : (halved k n / 2)%nat = halved (S k) n.
Proof. reflexivity. Qed.
Lemma next_levels_ok w h rest : forall contrast (p : rlevel), chained (p :: rest) -> (forall e, In e (p :: rest) -> 40 * 2 ^ octave e <= w /\ 40 * 2 ^ octave e <= h)%nat -> octave_sized w h (octave p) (Lt p) ->
  exists rest', next_levels Rwidths Rmath contrast p rest = Ok rest' /\ Forall2 same_place rest rest' /\ (forall e, In e rest' -> built w h e) /\
    forall i a b, nth_error (p :: rest') i = Some a -> nth_error (p :: rest') (S i) = Some b -> keeps_brightness a b.
Proof.
  induction rest as [|e rest IH]; intros contrast p C B Sp; cbn [next_levels].
  - exists []. split; [reflexivity|]. split; [constructor|]. split; [intros ? []|]. intros [|i] a b; [discriminate|]. intros Ha. destruct i; discriminate.
  - pose proof (C 0%nat p e eq_refl eq_refl) as O. assert (Be := B e ltac:(right; now left)). assert (Bp := B p ltac:(now left)). unfold octave_sized in Sp. pose proof (div_ge 40 w _ (pow2_pos (octave p))) as D1. pose proof (div_ge 40 h _ (pow2_pos (octave p))) as D2.
    destruct (next_level_ok (halved (octave p) w) (halved (octave p) h) contrast p e) as (e' & c' & E & P & S1 & S2 & start & K & S3 & T); [rewrite halved_div; lia|rewrite halved_div; lia|rewrite !halved_div; lia|exact Sp|].
    rewrite E. cbn [bind]. assert (Oe : octave e' = octave e) by apply P.
    assert (Q : built w h e').
    { unfold built, octave_sized. rewrite Oe. destruct (Nat.ltb_spec (octave p) (octave e)) as [L|L].
      - replace (octave e) with (S (octave p)) by lia. rewrite <- !halved_S. auto.
      - replace (octave e) with (octave p) by lia. auto. }
    destruct (IH c' e') as (rest' & Er & F & Br & K').
    + intros [|i] a b Ha Hb; [cbn [nth_error] in Ha; injection Ha as <-; rewrite Oe; apply (C 1%nat e b eq_refl Hb)|]. apply (C (S (S i)) a b Ha Hb).
    + intros x [<-|Hx]; [rewrite Oe; apply B; right; now left|]. apply B. right. now right.
    + apply Q.
    + rewrite Er. cbn [bind]. exists (e' :: rest'). split; [reflexivity|]. split; [constructor; assumption|]. split; [intros x [<-|Hx]; [exact Q|now apply Br]|].
      intros [|i] a b Ha Hb; [|apply (K' i a b Ha Hb)]. cbn [nth_error] in Ha, Hb. injection Ha as <-. injection Hb as <-. unfold keeps_brightness. rewrite Oe. destruct (Nat.ltb_spec (octave p) (octave e)) as [L|L].
      * right. split; [lia|]. exists start. auto.
      * left. split; [lia|]. rewrite T. now rewrite K. Qed.
Lemma space_ok o w h image l : 0 < base_scale_offset o -> 0 <= contrast_percentile o <= 1 -> (0 < contrast_factor_num_bins o)%nat -> sized w h image ->
  l <> [] -> (forall e rest, l = e :: rest -> octave e = 0%nat) -> chained l -> (forall e, In e l -> 40 * 2 ^ octave e <= w /\ 40 * 2 ^ octave e <= h)%nat ->
  exists l', rspace o l image = Ok l' /\ Forall2 same_place l l' /\ (forall e, In e l' -> built w h e) /\
    (exists e rest, l' = e :: rest /\ gaussian_blur (N := RNum) Rmath image (base_scale_offset o) = Ok (Lt e)) /\
    forall i a b, nth_error l' i = Some a -> nth_error l' (S i) = Some b -> keeps_brightness a b.
Proof.
  intros Hb Hp Hn S NE F C B. destruct l as [|e rest]; [contradiction|]. pose proof (F e rest eq_refl) as O. destruct (B e) as [Bw Bh]; [now left|]. rewrite O, Nat.pow_0_r in Bw, Bh.
  unfold rspace, create_scale_space. destruct (blur_ok w h image (base_scale_offset o) S) as (lt & E & St); [lia|lia|exact Hb|]. cbn [single double narrow Rwidths] in *. rewrite E. cbn [bind].
  destruct (contrast_factor_spec w h image (contrast_percentile o) 1 (contrast_factor_num_bins o)) as (sm & lx & ly & top & k & _ & _ & _ & _ & _ & EC & _); [exact S|lia|lia|exact Hn|exact Hp|lra|].
  match goal with |- context [bind ?x _] => match x with compute_contrast_factor _ _ _ _ _ _ _ => replace x with (Ok (top * INR k / INR (contrast_factor_num_bins o))) by (symmetry; exact EC) end end. cbn [bind].
  set (first := Level (P := Rwidths) _ _ _ _ _ _ _ _ _ _ _ _ _ _). destruct (next_levels_ok w h rest (top * INR k / INR (contrast_factor_num_bins o)) first) as (rest' & Er & P & Br & K).
  - intros [|i] a b Ha Hb'; [cbn [nth_error] in Ha; injection Ha as <-; apply (C 0%nat e b eq_refl Hb')|]. apply (C (Datatypes.S i) a b Ha Hb').
  - intros x [<-|Hx]; [apply (B e); now left|]. apply B. now right.
  - unfold octave_sized. cbn [octave Lt first]. rewrite O. exact St.
  - match goal with |- context [bind ?x _] => replace x with (Ok rest') by (symmetry; exact Er) end. cbn [bind]. exists (first :: rest'). split; [reflexivity|]. split; [constructor; [repeat split|exact P]|]. split.
    + intros x [<-|Hx]; [|now apply Br]. unfold built, octave_sized. cbn [octave Lt Lsmooth first]. rewrite O. split; exact St.
    + split; [exists first, rest'; split; reflexivity|exact K]. Qed.

(** ** The response *)
Lemma ratio_pow k : @ratio_of RNum k = 2 ^ k.
Proof. unfold ratio_of. cbn [ofZ RNum]. change 2%Z with (Z.of_nat 2). rewrite <- Nat2Z.inj_pow, <- INR_IZR_INZ, pow_INR. reflexivity. Qed.
Lemma Rround_spec x : 0 <= x -> IZR (Rround x) - 1 / 2 <= x < IZR (Rround x) + 1 / 2.
Proof. intros H. unfold Rround. destruct (Rle_dec 0 x); [|contradiction]. pose proof (floor_Int_part (x + 1 / 2)) as F. unfold floor_of in F. lra. Qed.
Lemma Rround_nonneg x : 0 <= x -> (0 <= Rround x)%Z.
Proof. intros H. pose proof (Rround_spec x H) as S. assert (L : IZR (-1) < IZR (Rround x)) by lra. apply lt_IZR in L. lia. Qed.
Lemma round_nat x n : 0 <= x -> INR n - 1 / 2 <= x < INR n + 1 / 2 -> Rround x = Z.of_nat n.
Proof. intros H0 H. pose proof (Rround_spec x H0) as S. rewrite INR_IZR_INZ in H. assert (A : IZR (Rround x) < IZR (Z.of_nat n + 1)) by (rewrite plus_IZR; lra). assert (B : IZR (Z.of_nat n) < IZR (Rround x + 1)) by (rewrite plus_IZR; lra). apply lt_IZR in A, B. lia. Qed.
Lemma response_ok o w h (e : rlevel) : sized w h (Lsmooth e) -> (0 < w)%nat -> (0 < h)%nat -> 1 / 2 <= esigma e * derivative_factor o / 2 ^ octave e ->
  exists e' s, level_response Rwidths Rmath o e = Ok e' /\ same_place e e' /\ Lt e' = Lt e /\ Lsmooth e' = Lsmooth e /\ (1 <= s)%nat /\ integer_scale o e s /\ hessian_response w h s e'.
Proof.
  intros S Hw Hh Hs. set (s := Z.to_nat (Rround (esigma e * derivative_factor o / 2 ^ octave e))).
  assert (D : derivative_sigma Rwidths Rmath o e = INR s).
  { unfold derivative_sigma. cbn [m_round Rmath]. change (double Rwidths) with RNum. rewrite ratio_pow. cbn [mul div RNum]. unfold s. rewrite INR_IZR_INZ, Z2Nat.id; [reflexivity|]. apply Rround_nonneg. lra. }
  assert (I : integer_scale o e s). { unfold integer_scale, s. rewrite INR_IZR_INZ, Z2Nat.id by (apply Rround_nonneg; lra). apply Rround_spec. lra. }
  assert (P : (1 <= s)%nat). { unfold integer_scale in I. destruct s as [|s']; [|lia]. exfalso. cbn [INR] in I. lra. }
  unfold level_response. rewrite D. cbv zeta. change (double Rwidths) with RNum. replace (to_usize Rmath (INR s)) with s.
  2:{ unfold to_usize. cbn [m_trunc Rmath]. rewrite INR_IZR_INZ, Rtrunc_IZR, Nat2Z.id. reflexivity. }
  destruct (scharr_image w h (Lsmooth e) s S Hw Hh P) as (lx & ly & E1 & E2 & I1 & I2). cbv zeta. cbn [single double Rwidths] in *. rewrite E1. cbn [bind]. rewrite E2. cbn [bind].
  destruct (scharr_image w h lx s (proj1 I1) Hw Hh P) as (lxx & lxy & E3 & E4 & I3 & I4). rewrite E3. cbn [bind].
  destruct (scharr_image w h ly s (proj1 I2) Hw Hh P) as (lyx & lyy & E5 & E6 & I5 & I6). rewrite E6. cbn [bind]. rewrite E4. cbn [bind].
  destruct (proj1 I3) as (W3 & H3 & _), (proj1 I4) as (W4 & H4 & _), (proj1 I6) as (W6 & H6 & _). cbn [single Rwidths] in *. rewrite W3, W4, W6, H3, H4, H6, !Nat.eqb_refl. cbn [andb assert_].
  eexists _, s. split; [reflexivity|]. split; [repeat split|]. split; [reflexivity|]. split; [reflexivity|]. split; [exact P|]. split; [exact I|].
  unfold hessian_response. cbn [Lsmooth Lx Ly Lxx Lyy Lxy Ldet]. do 5 (split; [assumption|]). split; [apply of_fn_sized|]. intros x y Hx Hy. rewrite (proj2 (of_fn_image (N := RNum) w h _)) by assumption. cbn [narrow Rwidths mul sub RNum double single]. rring. Qed.
Lemma responses_ok o w h l : (forall e : rlevel, In e l -> built w h e /\ (0 < halved (octave e) w)%nat /\ (0 < halved (octave e) h)%nat /\ 1 / 2 <= esigma e * derivative_factor o / 2 ^ octave e) ->
  exists l', rresponse o l = Ok l' /\ Forall2 (fun e e' => same_place e e' /\ Lt e' = Lt e /\ Lsmooth e' = Lsmooth e /\
    exists s, (1 <= s)%nat /\ integer_scale o e s /\ hessian_response (halved (octave e) w) (halved (octave e) h) s e') l l'.
Proof.
  intros H. unfold rresponse, detector_response. induction l as [|e l IH]; cbn [mapM]; [exists []; split; [reflexivity|constructor]|].
  destruct (H e) as ((B1 & B2) & Hw & Hh & Hs); [now left|]. destruct (response_ok o _ _ e B2 Hw Hh Hs) as (e' & s & E & P & T1 & T2 & S1 & S2 & S3). rewrite E. cbn [bind].
  destruct IH as (l' & E' & F); [intros; apply H; now right|]. rewrite E'. cbn [bind]. exists (e' :: l'). split; [reflexivity|]. constructor; [|exact F]. split; [exact P|]. split; [exact T1|]. split; [exact T2|]. eauto. Qed.
