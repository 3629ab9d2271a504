(** Turned images: proofs for the scale space and the responses. *)
From Coq Require Import List Arith Lia Bool ZArith NArith Reals Lra Psatz.
From Verif Require Import Num LinSpec LinFacts Outcome OutcomeFacts Gray GraySpec GrayFacts GrayReal GrayProps Diffuse DiffuseSpec DiffuseFacts DiffuseProps Akaze AkazeSpec AkazeSchedule AkazeSpace AkazeWhole AkazeTone AkazeTurnSpec AkazeTurn.
Import ListNotations.
Open Scope R_scope.

Section space.
Variables (t : turn) (o : rsettings).
Notation M := (max_octave_evolution o).
(** ** The scale space *)
Definition side_ok (b : bool) (oct side : nat) : Prop := b = true -> Nat.divide (2 ^ (M - 1 - oct)) side.
Definition sides_ok (oct w h : nat) : Prop := side_ok (columns_reversed t) oct w /\ side_ok (rows_reversed t) oct h.
Definition lvt (e e' : rlevel) : Prop :=
  same_place e e' /\ exists w h, (0 < w)%nat /\ (0 < h)%nat /\ sides_ok (octave e) w h /\ mv t 1 w h (Lt e) (Lt e') /\ mv t 1 w h (Lsmooth e) (Lsmooth e').
Lemma side_even b oct oct' side : (oct < oct')%nat -> (oct' < M)%nat -> side_ok b oct side -> b = true -> Nat.even side = true.
Proof.
  intros L1 L2 S B. destruct (S B) as (k & ->). apply Nat.even_spec. exists (k * 2 ^ (M - 1 - oct - 1))%nat. replace (M - 1 - oct)%nat with (Datatypes.S (M - 1 - oct - 1)) by lia. rewrite Nat.pow_succ_r'. replace (Datatypes.S (M - 1 - oct - 1) - 1)%nat with (M - 1 - oct - 1)%nat by lia. lia. Qed.
Lemma side_half b oct oct' side : (oct < oct')%nat -> (oct' < M)%nat -> side_ok b oct side -> side_ok b oct' (side / 2)%nat.
Proof.
  intros L1 L2 S B. destruct (S B) as (k & ->). exists (k * 2 ^ (oct' - oct - 1))%nat. replace (M - 1 - oct)%nat with (Datatypes.S ((oct' - oct - 1) + (M - 1 - oct'))) by lia. rewrite Nat.pow_succ_r', Nat.pow_add_r.
  rewrite <- (Nat.div_mul (k * 2 ^ (oct' - oct - 1) * 2 ^ (M - 1 - oct')) 2) by lia. f_equal. lia. Qed.
Lemma turn_next (k : R) p p' e : (octave p <= octave e)%nat -> (octave e < M)%nat -> lvt p p' ->
  orel (fun r r' => lvt (fst r) (fst r') /\ octave (fst r) = octave e /\ snd r' = snd r) (next_level Rwidths Rmath k p e) (next_level Rwidths Rmath k p' e).
Proof.
  intros LO LM ((_ & _ & EO & _) & w & h & Hw & Hh & (SC & SR) & IT & _). unfold next_level. cbn [single double Rwidths] in *. rewrite EO.
  apply (orel_bind (fun r r' : gray RNum * R => (exists w h, (0 < w)%nat /\ (0 < h)%nat /\ sides_ok (octave e) w h /\ mv t 1 w h (fst r) (fst r')) /\ snd r' = snd r)).
  - destruct (Nat.ltb_spec (octave p) (octave e)) as [L|L].
    + apply (orel_bind (fun o o' => (2 <= w)%nat /\ (2 <= h)%nat /\ mv t 1 (w / 2) (h / 2) o o')).
      { apply (mv_half t w h Hw Hh); [exact IT|now apply (side_even _ _ _ _ L LM)|now apply (side_even _ _ _ _ L LM)]. }
      intros x x' _ _ (L1 & L2 & I). cbn [orel fst snd].
      split; [exists (w / 2)%nat, (h / 2)%nat; split; [apply Nat.div_str_pos; lia|]; split; [apply Nat.div_str_pos; lia|]; split; [|exact I]|reflexivity].
      split; now apply (side_half _ (octave p)).
    + cbn [orel fst snd]. split; [|reflexivity]. exists w, h. replace (octave e) with (octave p) by lia. split; [exact Hw|]. split; [exact Hh|]. split; [split; assumption|exact IT].
  - clear w h Hw Hh IT SC SR. intros (lt, q) (lt', q') _ _ ((w & h & Hw & Hh & SO & IT) & EQ). cbn [fst snd] in *. subst q'.
    apply (orel_bind (mv t 1 w h)); [now apply mv_blur|]. intros sm sm' _ _ IS.
    destruct (mv_scharr t w h Hw Hh 1 sm sm' 1 IS ltac:(lia)) as (gx & gy & gx' & gy' & E1 & E2 & E3 & E4 & D & _).
    change (simple_scharr_horizontal sm) with (@scharr_horizontal RNum sm 1). change (simple_scharr_vertical sm) with (@scharr_vertical RNum sm 1). change (simple_scharr_horizontal sm') with (@scharr_horizontal RNum sm' 1). change (simple_scharr_vertical sm') with (@scharr_vertical RNum sm' 1).
    rewrite E1, E2, E3, E4. cbn [bind].
    apply (orel_bind (mv t 1 w h)); [now apply mv_flow|]. intros fl fl' _ _ IF.
    apply (orel_bind (mv t 1 w h)).
    + apply (orel_foldM _ eq); [apply forall2_refl| |exact IT]. intros s s' x x' _ IS' <-. now apply mv_step.
    + intros lt1 lt1' _ _ IT1. cbn [orel fst snd octave]. split; [|auto]. split; [repeat split|]. exists w, h. cbn [Lt Lsmooth octave]. auto. Qed.
Lemma turn_levels rest : forall (k : R) p p', chained (p :: rest) -> (forall e, In e rest -> (octave e < M)%nat) -> lvt p p' -> orel (Forall2 lvt) (next_levels Rwidths Rmath k p rest) (next_levels Rwidths Rmath k p' rest).
Proof.
  induction rest as [|e rest IH]; intros k p p' C B L; cbn [next_levels]; [constructor|].
  apply (orel_bind (fun r r' : rlevel * R => lvt (fst r) (fst r') /\ octave (fst r) = octave e /\ snd r' = snd r)).
  - apply turn_next; [apply (C 0%nat p e eq_refl eq_refl)|apply B; now left|exact L].
  - intros (e1, q) (e1', q') _ _ (L1 & O1 & EQ). cbn [fst snd] in *. subst q'.
    apply (orel_bind (Forall2 lvt)).
    + apply IH; [|intros x Hx; apply B; now right|exact L1]. intros [|i] a b Ha Hb; [cbn [nth_error] in Ha; injection Ha as <-; rewrite O1; apply (C 1%nat e b eq_refl Hb)|]. apply (C (S (S i)) a b Ha Hb).
    + intros. cbn. now constructor. Qed.
Lemma turn_space l w h g g' : mv t 1 w h g g' -> (3 <= w)%nat -> (3 <= h)%nat -> (0 < contrast_factor_num_bins o)%nat -> 0 <= contrast_percentile o <= 1 ->
  sides_ok 0 w h -> (forall e rest, l = e :: rest -> octave e = 0%nat) -> chained l -> (forall e, In e l -> (octave e < M)%nat) ->
  orel (Forall2 lvt) (rspace o l g) (rspace o l g').
Proof.
  intros I Hw Hh Hb Hp SO F C B. unfold rspace, create_scale_space. destruct l as [|e rest]; [exact Logic.I|]. pose proof (F e rest eq_refl) as O.
  apply (orel_bind (mv t 1 w h)); [apply mv_blur; [lia|lia|exact I]|]. intros lt lt' _ _ IT.
  apply (orel_bind (@eq R)); [apply (mv_contrast t w h ltac:(lia) ltac:(lia)); assumption|]. intros k k' _ _ <-.
  assert (LF : forall x, lvt (Level (P := Rwidths) (etime e) (esigma e) (octave e) (sublevel e) (tau_steps e) lt lt (Lx e) (Ly e) (Lxx e) (Lyy e) (Lxy e) (Lflow e) x) (Level (P := Rwidths) (etime e) (esigma e) (octave e) (sublevel e) (tau_steps e) lt' lt' (Lx e) (Ly e) (Lxx e) (Lyy e) (Lxy e) (Lflow e) x)).
  { intros x. split; [repeat split|]. exists w, h. cbn [Lt Lsmooth octave]. rewrite O. split; [lia|]. split; [lia|]. auto. }
  apply (orel_bind (Forall2 lvt)).
  - apply turn_levels; [|intros x Hx; apply B; now right|apply LF]. intros [|i] a b Ha Hb'; [cbn [nth_error] in Ha; injection Ha as <-; apply (C 0%nat e b eq_refl Hb')|]. apply (C (S i) a b Ha Hb').
  - intros r r' _ _ FF. cbn. constructor; [apply LF|exact FF]. Qed.
End space.

(** ** The response *)
(** The derivatives for any coordinates. *)
Definition zscharr_x (g : gray RNum) (s : nat) (X Y : Z) : R :=
  scharr_gain s * (3 * across g s X (Y - Z.of_nat s) + 10 * across g s X Y + 3 * across g s X (Y + Z.of_nat s)).
Definition zscharr_y (g : gray RNum) (s : nat) (X Y : Z) : R :=
  scharr_gain s * (3 * down g s (X - Z.of_nat s) Y + 10 * down g s X Y + 3 * down g s (X + Z.of_nat s) Y).
Lemma clamped_in n X : (0 <= X < Z.of_nat n)%Z -> Z.of_nat (clamped n X) = X.
Proof. unfold clamped. lia. Qed.
Lemma extended_scharr_x w h g gx s X Y : image_of w h (scharr_x g s) gx -> (0 <= X < Z.of_nat w)%Z -> (0 <= Y < Z.of_nat h)%Z -> extended gx X Y = zscharr_x g s X Y.
Proof. intros I HX HY. assert (0 < w)%nat by lia. assert (0 < h)%nat by lia. rewrite (extended_of w h _ gx X Y I) by assumption. unfold scharr_x. rewrite !clamped_in by assumption. reflexivity. Qed.
Lemma extended_scharr_y w h g gy s X Y : image_of w h (scharr_y g s) gy -> (0 <= X < Z.of_nat w)%Z -> (0 <= Y < Z.of_nat h)%Z -> extended gy X Y = zscharr_y g s X Y.
Proof. intros I HX HY. assert (0 < w)%nat by lia. assert (0 < h)%nat by lia. rewrite (extended_of w h _ gy X Y I) by assumption. unfold scharr_y. rewrite !clamped_in by assumption. reflexivity. Qed.
Lemma mixed_inside w h g gx gy s x y : image_of w h (scharr_x g s) gx -> image_of w h (scharr_y g s) gy -> (s <= x)%nat -> (x + s < w)%nat -> (s <= y)%nat -> (y + s < h)%nat ->
  scharr_x gy s x y = scharr_y gx s x y.
Proof.
  intros IX IY X1 X2 Y1 Y2. unfold scharr_x, scharr_y, across, down. rewrite !(extended_scharr_x w h g gx s _ _ IX) by lia. rewrite !(extended_scharr_y w h g gy s _ _ IY) by lia.
  unfold zscharr_x, zscharr_y, across, down. rewrite !Z.sub_add, !Z.add_simpl_r. ring. Qed.
Lemma turn_response_level t (o : rsettings) e e' : lvt t o e e' -> 1 / 2 <= esigma e * derivative_factor o / 2 ^ octave e ->
  exists e1 e1', level_response Rwidths Rmath o e = Ok e1 /\ level_response Rwidths Rmath o e' = Ok e1' /\ turned_response t o e1 e1'.
Proof.
  intros ((E1 & E2 & E3 & E4 & E5) & w & h & Hw & Hh & _ & IT & IS) Hs.
  assert (V0 : 0 <= esigma e * derivative_factor o / 2 ^ octave e) by lra.
  destruct (response_ok o w h e (proj1 IS) Hw Hh Hs) as (e1 & s & R1 & P1 & T1 & M1 & S1 & I1 & (HX & HY & HXX & HYY & HXY & HD)).
  destruct (response_ok o _ _ e' (proj1 (proj2 IS)) (new_w t w h Hw Hh) (new_h t w h Hw Hh) ltac:(rewrite E2, E3; exact Hs)) as (e1' & s' & R2 & P2 & T2 & M2 & S2 & I2 & (HX' & HY' & HXX' & HYY' & HXY' & HD')).
  assert (ES : s' = s). { unfold integer_scale in I1, I2. rewrite E2, E3 in I2. pose proof (round_nat _ s V0 I1). pose proof (round_nat _ s' V0 I2). lia. } subst s'.
  exists e1, e1'. split; [exact R1|]. split; [exact R2|].
  destruct P1 as (Q1 & Q2 & Q3 & Q4 & Q5), P2 as (Q1' & Q2' & Q3' & Q4' & Q5').
  assert (TT : forall g g' : gray RNum, mv t 1 w h g g' -> turned t g g').
  { intros g g' ((W & H & _) & S & P). unfold turned. rewrite W, H. split; [exact S|]. intros x y Hx Hy. rewrite P by assumption. rring. }
  split.
  { split; [repeat split; etransitivity; eauto; etransitivity; eauto|]. rewrite T1, T2, M1, M2. split; now apply TT. }
  intros s0 I0.
  assert (s0 = s). { unfold integer_scale in I0, I1. rewrite Q2, Q3 in I0. pose proof (round_nat _ s V0 I1). pose proof (round_nat _ s0 V0 I0). lia. } subst s0.
  rewrite M1 in HX, HY. rewrite M2 in HX', HY'.
  destruct HD as (SD & PD). destruct HD' as (SD' & PD'). pose proof SD as (WD & HDD & _). pose proof SD' as (WD' & HDD' & _). cbn [single double Rwidths] in *.
  unfold turned_inside. rewrite WD, HDD, WD', HDD'. split; [exact SD'|]. intros x y X1 X2 Y1 Y2.
  assert (Hx : (x < new_width t w h)%nat) by lia. assert (Hy : (y < new_height t w h)%nat) by lia. pose proof (sx_lt t w h Hw Hh x y Hx Hy) as Hu. pose proof (sy_lt t w h Hw Hh x y Hx Hy) as Hv.
  rewrite (PD' x y Hx Hy), (PD _ _ Hu Hv). f_equal.
  rewrite (proj2 HXX' x y Hx Hy), (proj2 HYY' x y Hx Hy), (proj2 HXY' x y Hx Hy). rewrite (proj2 HXX _ _ Hu Hv), (proj2 HYY _ _ Hu Hv), (proj2 HXY _ _ Hu Hv).
  destruct (mv_derivatives t w h Hw Hh 1 _ _ s _ _ _ _ IS HX HY HX' HY') as [DX DY].
  rewrite (mv_scharr_x t w h Hw Hh _ _ _ s x y DX Hx Hy), (mv_scharr_y t w h Hw Hh _ _ _ s x y DX Hx Hy), (mv_scharr_y t w h Hw Hh _ _ _ s x y DY Hx Hy).
  destruct (swapped t) eqn:SW.
  - rewrite <- (mixed_inside w h _ (Lx e1) (Ly e1) s (source_x t w x y) (source_y t h x y) HX HY).
    + destruct (rows_reversed t), (columns_reversed t); unfold sgn; rring.
    + unfold source_x, new_width, new_height in *. rewrite SW in *. destruct (columns_reversed t); lia.
    + unfold source_x, new_width, new_height in *. rewrite SW in *. destruct (columns_reversed t); lia.
    + unfold source_y, new_width, new_height in *. rewrite SW in *. destruct (rows_reversed t); lia.
    + unfold source_y, new_width, new_height in *. rewrite SW in *. destruct (rows_reversed t); lia.
  - destruct (rows_reversed t), (columns_reversed t); unfold sgn; rring. Qed.
Lemma turn_responses t (o : rsettings) l l' : Forall2 (lvt t o) l l' -> (forall e, In e l -> 1 / 2 <= esigma e * derivative_factor o / 2 ^ octave e) ->
  orel (Forall2 (turned_response t o)) (rresponse o l) (rresponse o l').
Proof.
  intros F K. apply (orel_mapM (lvt t o)); [exact F|]. intros x x' Hx Q. destruct (turn_response_level t o x x' Q (K x Hx)) as (e1 & e1' & -> & -> & P). exact P. Qed.
