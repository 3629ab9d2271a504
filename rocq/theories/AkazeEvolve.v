(** Every level of the scale space is the diffusion of the one before it. *)
From Coq Require Import List Arith Lia Bool ZArith Reals Lra Psatz.
From Verif Require Import Num LinSpec LinFacts Outcome OutcomeFacts Gray GraySpec GrayFacts GrayReal GrayProps Diffuse DiffuseSpec DiffuseFacts DiffuseProps BicubicSpec BicubicFacts Fed FedSpec FedSum FedDiffuse Akaze AkazeSpec AkazeSchedule AkazeSpace AkazeWhole AkazeDemo.
Import ListNotations.
Open Scope R_scope.

Lemma steps_diffuse w h (flow : gray RNum) steps : sized w h flow -> (0 < w)%nat -> (0 < h)%nat -> forall image out, sized w h image ->
  foldM (fun image step => calculate_step (N := RNum) image flow step) steps image = Ok out -> diffuses flow steps image out.
Proof.
  intros SF Hw Hh. induction steps as [|t steps IH]; intros image out SI E; cbn [foldM] in E; [injection E as <-; constructor|].
  destruct (step_image w h image flow t SI SF Hw Hh) as (mid & E1 & I). rewrite E1 in E. cbn [bind] in E. destruct I as [Sm P]. apply (diffuses_step flow t steps image mid out).
  - destruct SI as (-> & -> & _). now split.
  - now apply IH. Qed.

Lemma next_level_evolves w h contrast (p e e' : rlevel) c' : (0 < w)%nat -> (0 < h)%nat -> (octave p <= octave e <= octave p + 1)%nat -> (octave p < octave e -> 2 <= w /\ 2 <= h)%nat -> sized w h (Lt p) ->
  next_level Rwidths Rmath contrast p e = Ok (e', c') -> c' = contrast * (if (octave p <? octave e)%nat then 3 / 4 else 1) /\
  exists start, sized (if (octave p <? octave e)%nat then (w / 2)%nat else w) (if (octave p <? octave e)%nat then (h / 2)%nat else h) start /\ evolves c' p e' start.
Proof.
  intros Hw Hh O H2 S. unfold next_level.
  assert (B : exists start c, (if (octave p <? octave e)%nat then let! half := half_size (N := RNum) (Lt p) in Ok (half, contrast * (3 / 4)) else Ok (Lt p, contrast)) = Ok (start, c) /\
    c = contrast * (if (octave p <? octave e)%nat then 3 / 4 else 1) /\
    (octave e = octave p /\ start = Lt p \/
     octave e = Datatypes.S (octave p) /\ image_of (g_width (Lt p) / 2) (g_height (Lt p) / 2) (half_value (g_width (Lt p)) (g_height (Lt p)) (pixel (Lt p))) start) /\
    sized (if (octave p <? octave e)%nat then (w / 2)%nat else w) (if (octave p <? octave e)%nat then (h / 2)%nat else h) start).
  { destruct (Nat.ltb_spec (octave p) (octave e)) as [L|L].
    - destruct (half_size_image w h (Lt p) S) as (hf & E & I); [lia|lia|]. cbn [single Rwidths] in *. rewrite E. exists hf, (contrast * (3 / 4)). split; [reflexivity|]. split; [reflexivity|]. split; [|apply I].
      right. split; [lia|]. destruct S as (-> & -> & _). exact I.
    - exists (Lt p), contrast. split; [reflexivity|]. split; [rring|]. split; [|exact S]. left. split; [lia|reflexivity]. }
  destruct B as (start & c & E & Ec & K & Ss). cbv zeta. match goal with |- context [bind ?x _] => replace x with (@Ok (gray RNum * R) (start, c)) by (symmetry; exact E) end. cbn [bind]. clear E.
  set (w' := if (octave p <? octave e)%nat then (w / 2)%nat else w) in *. set (h' := if (octave p <? octave e)%nat then (h / 2)%nat else h) in *.
  assert (Hw' : (0 < w')%nat). { unfold w'. destruct (Nat.ltb_spec (octave p) (octave e)); [|exact Hw]. pose proof (Nat.div_le_mono 2 w 2). change (2 / 2)%nat with 1%nat in *. lia. }
  assert (Hh' : (0 < h')%nat). { unfold h'. destruct (Nat.ltb_spec (octave p) (octave e)); [|exact Hh]. pose proof (Nat.div_le_mono 2 h 2). change (2 / 2)%nat with 1%nat in *. lia. }
  destruct (blur_ok w' h' start 1 Ss Hw' Hh') as (sm & E & Sm); [lra|]. cbn [single Rwidths] in *. change (@one RNum) with 1. rewrite E. cbn [bind].
  destruct (scharr_image w' h' sm 1 Sm Hw' Hh' ltac:(lia)) as (lx & ly & E1 & E2 & I1 & I2). change (@simple_scharr_horizontal RNum sm) with (@scharr_horizontal RNum sm 1). rewrite E1. cbn [bind].
  change (@simple_scharr_vertical RNum sm) with (@scharr_vertical RNum sm 1). rewrite E2. cbn [bind].
  destruct (pm_g2_ok w' h' lx ly c (proj1 I1) (proj1 I2)) as (fl & E3 & S3). rewrite E3. cbn [bind].
  destruct (steps_ok w' h' fl (tau_steps e) S3 Hw' Hh' start Ss) as (out & E4 & S4 & T4).
  match goal with |- context [bind ?x _] => replace x with (@Ok (gray RNum) out) by (symmetry; exact E4) end. cbn [bind]. intros EQ. injection EQ as <- <-.
  split; [exact Ec|]. exists start. split; [exact Ss|]. unfold evolves. cbn [octave Lt Lsmooth Lx Ly Lflow tau_steps]. split; [exact K|]. split; [exact E|]. pose proof Ss as (-> & -> & _). split; [exact I1|]. split; [exact I2|]. split.
  - intros Hc. destruct (pm_g2_image w' h' lx ly c (proj1 I1) (proj1 I2) Hc) as (fl' & E3' & I3). assert (fl' = fl) by (cbn [single Rwidths] in *; congruence). subst. exact I3.
  - apply (steps_diffuse w' h' fl (tau_steps e) S3 Hw' Hh' start out Ss E4). Qed.

Lemma next_levels_evolve w h rest : forall contrast k0 (p : rlevel) rest', chained (p :: rest) -> (forall e, In e (p :: rest) -> 40 * 2 ^ octave e <= w /\ 40 * 2 ^ octave e <= h)%nat -> octave_sized w h (octave p) (Lt p) ->
  contrast = k0 * (3 / 4) ^ octave p -> next_levels Rwidths Rmath contrast p rest = Ok rest' ->
  forall i a b, nth_error (p :: rest') i = Some a -> nth_error (p :: rest') (S i) = Some b -> exists start, octave_sized w h (octave b) start /\ evolves (k0 * (3 / 4) ^ octave b) a b start.
Proof.
  induction rest as [|e rest IH]; intros contrast k0 p rest' C B Sp Ek E; cbn [next_levels] in E.
  - injection E as <-. intros [|i] a b; [discriminate|]. intros Ha. destruct i; discriminate.
  - pose proof (C 0%nat p e eq_refl eq_refl) as O. assert (Be := B e ltac:(right; now left)). assert (Bp := B p ltac:(now left)). pose proof (div_ge 40 w _ (pow2_pos (octave p))) as D1. pose proof (div_ge 40 h _ (pow2_pos (octave p))) as D2.
    destruct (next_level_ok (halved (octave p) w) (halved (octave p) h) contrast p e) as (e' & c' & E1 & P & S1 & S2 & _); [rewrite halved_div; lia|rewrite halved_div; lia|rewrite !halved_div; lia|exact Sp|].
    destruct (next_level_evolves (halved (octave p) w) (halved (octave p) h) contrast p e e' c') as (Ec & start & Ss & Ev); [rewrite halved_div; lia|rewrite halved_div; lia|lia|rewrite !halved_div; lia|exact Sp|exact E1|].
    rewrite E1 in E. cbn [bind] in E. apply bind_ok in E as (done & Er & E). injection E as <-. assert (Oe : octave e' = octave e) by apply P.
    assert (Ek' : c' = k0 * (3 / 4) ^ octave e').
    { rewrite Ec, Ek, Oe. destruct (Nat.ltb_spec (octave p) (octave e)) as [L|L]; [replace (octave e) with (S (octave p)) by lia|replace (octave e) with (octave p) by lia]; cbn [pow]; cbn [double Rwidths carrier RNum]; rring. }
    assert (Q : forall g, sized (if (octave p <? octave e)%nat then (halved (octave p) w / 2)%nat else halved (octave p) w) (if (octave p <? octave e)%nat then (halved (octave p) h / 2)%nat else halved (octave p) h) g -> octave_sized w h (octave e') g).
    { intros g. unfold octave_sized. rewrite Oe. destruct (Nat.ltb_spec (octave p) (octave e)) as [L|L].
      - replace (octave e) with (S (octave p)) by lia. rewrite <- !halved_S. auto.
      - replace (octave e) with (octave p) by lia. auto. }
    intros [|i] a b Ha Hb.
    + cbn [nth_error] in Ha, Hb. injection Ha as <-. injection Hb as <-. exists start. split; [now apply Q|]. rewrite <- Ek'. exact Ev.
    + apply (IH c' k0 e' done) with (i := i); auto.
      * intros [|j] x y Hx Hy; [cbn [nth_error] in Hx; injection Hx as <-; rewrite Oe; apply (C 1%nat e y eq_refl Hy)|]. apply (C (S (S j)) x y Hx Hy).
      * intros x [<-|Hx]; [rewrite Oe; apply B; right; now left|]. apply B. right. now right. Qed.

Lemma space_evolves o w h image l l' k0 : 0 < base_scale_offset o -> sized w h image -> l <> [] -> (forall e rest, l = e :: rest -> octave e = 0%nat) -> chained l -> (forall e, In e l -> 40 * 2 ^ octave e <= w /\ 40 * 2 ^ octave e <= h)%nat ->
  rspace o l image = Ok l' -> compute_contrast_factor Rwidths Rmath Rmath image (contrast_percentile o) 1 (contrast_factor_num_bins o) = Ok k0 ->
  forall i a b, nth_error l' i = Some a -> nth_error l' (S i) = Some b -> exists start, octave_sized w h (octave b) start /\ evolves (k0 * (3 / 4) ^ octave b) a b start.
Proof.
  intros Hb S NE F C B E EC. destruct l as [|e rest]; [contradiction|]. pose proof (F e rest eq_refl) as O. destruct (B e) as [Bw Bh]; [now left|]. rewrite O, Nat.pow_0_r in Bw, Bh.
  unfold rspace, create_scale_space in E. destruct (blur_ok w h image (base_scale_offset o) S) as (lt & EB & St); [lia|lia|exact Hb|]. cbn [single double narrow Rwidths] in *. rewrite EB in E. cbn [bind] in E.
  apply bind_ok in E as (k & EK & E). assert (k = k0) by (change (@one RNum) with 1 in EK; congruence). subst k. apply bind_ok in E as (rest' & Er & E). injection E as <-.
  match type of Er with next_levels _ _ _ ?x _ = _ => set (first := x) in * end.
  apply (next_levels_evolve w h rest k0 k0 first rest'); [| | | |exact Er].
  - intros [|i] a b Ha Hb'; [cbn [nth_error] in Ha; injection Ha as <-; apply (C 0%nat e b eq_refl Hb')|]. apply (C (Datatypes.S i) a b Ha Hb').
  - intros x [<-|Hx]; [apply (B e); now left|]. apply B. now right.
  - unfold octave_sized. cbn [octave Lt first]. rewrite O. exact St.
  - cbn [octave first]. rewrite O. cbn [pow]. rring. Qed.

Section levels.
Variables (o : rsettings) (w h : nat) (image : gray RNum) (fed : R -> outcome (list R)) (l l1 : list rlevel) (k0 : R).
Hypotheses (U : usable o) (Hw : (40 <= w)%nat) (Hh : (40 <= h)%nat) (SI : sized w h image) (AL : rallocate fed o w h = Ok l) (E1 : rspace o l image = Ok l1)
  (EC : compute_contrast_factor Rwidths Rmath Rmath image (contrast_percentile o) 1 (contrast_factor_num_bins o) = Ok k0).
Lemma levels_evolve i a b : nth_error l1 i = Some a -> nth_error l1 (S i) = Some b -> exists start, octave_sized w h (octave b) start /\ evolves (k0 * (3 / 4) ^ octave b) a b start.
Proof.
  destruct (schedule_ready o w h fed l U Hw Hh AL) as (N & F & C & B & _). apply (space_evolves o w h image l l1 k0); auto. apply U. Qed.
End levels.

(** ** Contrast *)
Lemma flow_within k a b start : k <> 0 -> evolves k a b start -> within 0 1 (Lflow b).
Proof.
  intros Hk (_ & _ & _ & _ & F & _). destruct (F Hk) as [(W & H & _) P]. intros x y Hx Hy. rewrite W in Hx. rewrite H in Hy. cbn [single Rwidths] in *. rewrite P by assumption.
  pose proof (conductivity_range k (pixel (Lx b) x y) (pixel (Ly b) x y) Hk). cbn [carrier RNum single Rwidths] in *. lra. Qed.
Lemma diffuses_fold w h (flow : gray RNum) steps : sized w h flow -> (0 < w)%nat -> (0 < h)%nat -> forall image out, sized w h image -> diffuses flow steps image out ->
  foldM (fun image step => calculate_step (N := RNum) image flow step) steps image = Ok out.
Proof.
  intros SF Hw Hh. induction steps as [|t steps IH]; intros image out SI D; inversion D as [|? ? ? mid ? I D']; subst; [reflexivity|].
  cbn [foldM]. destruct (step_image w h image flow t SI SF Hw Hh) as (mid' & -> & I'). cbn [bind]. destruct SI as (W & H & L). rewrite W, H in I.
  assert (mid' = mid); [|subst; apply IH; [apply I|assumption]]. destruct I as [S1 P1], I' as [S2 P2]. apply (image_ext w h); auto. intros. now rewrite P1, P2. Qed.
Lemma level_contracts checks fuel k a b start w h : k <> 0 -> evolves k a b start -> sized w h start -> (0 < w)%nat -> (0 < h)%nat -> etime a < etime b ->
  fed_quarter checks fuel (etime b - etime a) = Ok (tau_steps b) -> etime b - etime a <= max_cycle_time (1 / 4) (INR (length (tau_steps b))) ->
  forall v, spread v (Lt b) <= spread v start.
Proof.
  intros Hk Ev Ss Hw Hh Ht F L. pose proof (flow_within k a b start Hk Ev) as Wf. destruct Ev as (_ & _ & _ & _ & Fl & D). destruct (Fl Hk) as [Sf _]. destruct Ss as (W & H & Ln). rewrite W, H in Sf.
  destruct (fed_cycle_contracts checks fuel (etime b - etime a) 1 (1 / 4) true (tau_steps b) w h start (Lflow b)) as (out & E & _ & _ & C); auto.
  - cbn [double Rwidths carrier RNum] in *. lra.
  - lia.
  - lra.
  - replace ((etime b - etime a) / IZR 1) with (etime b - etime a) by (cbn [double Rwidths carrier RNum]; field). exact L.
  - now split.
  - rewrite (diffuses_fold w h (Lflow b) (tau_steps b) Sf Hw Hh start (Lt b)) in E; [|now split|exact D]. injection E as <-. exact C. Qed.

(** ** The gaps of the default schedule *)
Lemma level_after fed o w h l : (0 < num_sublevels o)%nat -> 0 < base_scale_offset o -> rallocate fed o w h = Ok l -> forall i a b, nth_error l i = Some a -> nth_error l (S i) = Some b ->
  (octave b = octave a /\ sublevel b = S (sublevel a)) \/ (octave b = S (octave a) /\ sublevel b = 0%nat /\ S (sublevel a) = num_sublevels o).
Proof.
  intros Hn Hb A i a b Ha Hb'. pose proof (octave_order fed o w h l Hn Hb A i (S i) a b ltac:(lia) Ha Hb') as O1. pose proof (octave_next fed o w h l Hn Hb A i a b Ha Hb') as O2.
  pose proof (nth_error_In _ _ Ha) as Ia. pose proof (nth_error_In _ _ Hb') as Ib. pose proof (level_has fed o w h l Hn Hb A a Ia) as La. pose proof (level_has fed o w h l Hn Hb A b Ib) as Lb.
  destruct (schedule fed o w h Hn Hb l A) as (H1 & V & I & _). destruct (V a Ia) as [Ea _], (V b Ib) as [Eb _]. pose proof (I i (S i) a b ltac:(lia) Ha Hb') as Lt. cbn beta in Lt.
  assert (Between : forall oct sub, has_level o w h oct sub -> scale_of o (octave a) (sublevel a) < scale_of o oct sub -> scale_of o oct sub < scale_of o (octave b) (sublevel b) -> False).
  { intros oct sub Hl X Y. apply H1 in Hl as (c & Ic & Oc & Sc). destruct (V c Ic) as [Ec _]. rewrite Oc, Sc in Ec. apply In_nth_error in Ic as (j & Hj).
    pose proof (sigma_index fed o w h l Hn Hb A i j a c Ha Hj ltac:(now rewrite Ea, Ec)). pose proof (sigma_index fed o w h l Hn Hb A j (S i) c b Hj Hb' ltac:(now rewrite Eb, Ec)). lia. }
  pose proof (has_level_sub o w h Hn _ _ La) as Sa. pose proof (has_level_sub o w h Hn _ _ Lb) as Sb. destruct (Nat.eq_dec (octave a) (octave b)) as [Eo|No].
  - left. split; [auto|]. assert (sublevel a < sublevel b)%nat. { destruct (lt_eq_lt_dec (sublevel a) (sublevel b)) as [[L|L]|L]; [exact L| |]; exfalso; rewrite Ea, Eb, Eo in Lt; [rewrite L in Lt; revert Lt; apply Rlt_irrefl|]. pose proof (scale_lt_sub o Hn Hb (octave b) _ _ L). cbn [double Rwidths carrier RNum] in *. lra. }
    destruct (Nat.eq_dec (sublevel b) (S (sublevel a))) as [|N]; [assumption|]. exfalso. apply (Between (octave a) (S (sublevel a))).
    + rewrite <- Eo in Lb. unfold has_level in *. lia.
    + apply scale_lt_sub; auto.
    + rewrite <- Eo. apply scale_lt_sub; auto. lia.
  - right. assert (Eo : octave b = S (octave a)) by lia. split; [exact Eo|]. split.
    + destruct (sublevel b) as [|s] eqn:E; [reflexivity|]. exfalso. apply (Between (octave b) 0%nat).
      * apply (has_level_down o w h Hn (octave b) (octave b) (S s) Lb). lia.
      * apply scale_lt_oct; auto. lia.
      * apply scale_lt_sub; auto. lia.
    + destruct (Nat.eq_dec (S (sublevel a)) (num_sublevels o)) as [|N]; [assumption|]. exfalso. apply (Between (octave a) (S (sublevel a))).
      * unfold has_level in *. rewrite Eo in Lb. rewrite Nat.pow_succ_r' in Lb. lia.
      * apply scale_lt_sub; auto.
      * apply scale_lt_oct; auto; lia. Qed.

Lemma enough_steps t n N : 0 < t -> least_step_count (1 / 4) t n -> (1 <= N)%nat -> (INR N - 1 + slack) * (INR N + slack) < 12 * t <= INR N * (INR N + 1) -> t <= max_cycle_time (1 / 4) (INR n).
Proof.
  intros Ht [L M] H1 [A B]. assert (N <= n)%nat. { destruct (le_lt_dec N n) as [|X]; [assumption|]. exfalso. assert (INR n + 1 <= INR N) by (rewrite <- S_INR; apply le_INR; lia). pose proof (pos_INR n). unfold max_cycle_time, slack in *. nra. }
  apply le_INR in H. unfold max_cycle_time. assert (1 <= INR N) by (change 1 with (INR 1); now apply le_INR). nra. Qed.
Lemma default_time m oct sub : scale_of (default_settings m) oct sub * scale_of (default_settings m) oct sub / 2 = 128 / 100 * 4 ^ oct * Rpower 2 (INR sub / 2).
Proof.
  unfold scale_of. cbn [base_scale_offset num_sublevels default_settings]. replace (16 / 10 * Rpower 2 (INR oct + INR sub / INR 4) * (16 / 10 * Rpower 2 (INR oct + INR sub / INR 4)) / 2) with (128 / 100 * (Rpower 2 (INR oct + INR sub / INR 4) * Rpower 2 (INR oct + INR sub / INR 4))) by field.
  rewrite <- Rpower_plus. replace (INR oct + INR sub / INR 4 + (INR oct + INR sub / INR 4)) with (INR (2 * oct) + INR sub / 2) by (rewrite mult_INR; cbn [INR]; lra). rewrite Rpower_plus, Rpower_pow by lra. rewrite pow_mult. replace (2 ^ 2) with 4 by ring. ring. Qed.
Lemma half_powers : Rpower 2 (INR 0 / 2) = 1 /\ Rpower 2 (INR 1 / 2) = sqrt 2 /\ Rpower 2 (INR 2 / 2) = 2 /\ Rpower 2 (INR 3 / 2) = 2 * sqrt 2.
Proof.
  cbn [INR]. replace (0 / 2) with 0 by lra. replace (1 / 2) with (/ 2) by lra. replace ((1 + 1) / 2) with 1 by lra. replace ((1 + 1 + 1) / 2) with (1 + / 2) by lra. rewrite Rpower_O, Rpower_plus, Rpower_1, Rpower_sqrt by lra. auto. Qed.
Lemma sqrt2_bounds : 14142 / 10000 < sqrt 2 < 14143 / 10000.
Proof. split; [apply Rsqr_incrst_0|apply Rsqr_incrst_0]; rewrite ?Rsqr_sqrt by lra; unfold Rsqr; try lra; apply sqrt_pos. Qed.
Lemma default_gap_covered checks fuel m w h l : rallocate (fed_quarter checks fuel) (default_settings m) w h = Ok l -> forall i a b, nth_error l i = Some a -> nth_error l (S i) = Some b ->
  etime a < etime b /\ etime b - etime a <= max_cycle_time (1 / 4) (INR (length (tau_steps b))).
Proof.
  intros A i a b Ha Hb. assert (Hn : (0 < num_sublevels (default_settings m))%nat) by (cbn; lia). assert (Hp : 0 < base_scale_offset (default_settings m)) by (cbn; lra).
  destruct (schedule _ _ w h Hn Hp l A) as (_ & V & _ & T & K). pose proof (T i (S i) a b ltac:(lia) Ha Hb) as Lt. cbn beta in Lt. split; [exact Lt|]. pose proof (K i a b Ha Hb) as F. unfold fed_quarter in F.
  apply fed_process_ok in F as (F & _); [|cbn [double Rwidths carrier RNum] in *; lra|lia|lra]. replace ((etime b - etime a) / 1) with (etime b - etime a) in F by (cbn [double Rwidths carrier RNum]; field).
  pose proof (level_after _ _ w h l Hn Hp A i a b Ha Hb) as Nx. apply nth_error_In in Ha, Hb. pose proof (level_has _ _ w h l Hn Hp A a Ha) as (La & _). pose proof (level_has _ _ w h l Hn Hp A b Hb) as (Lb & _). 
  assert (Lsa : (sublevel a < num_sublevels (default_settings m))%nat) by (apply (has_level_sub _ w h Hn (octave a)); now apply (level_has _ _ w h l Hn Hp A)). assert (Lsb : (sublevel b < num_sublevels (default_settings m))%nat) by (apply (has_level_sub _ w h Hn (octave b)); now apply (level_has _ _ w h l Hn Hp A)).
  cbn [max_octave_evolution num_sublevels default_settings] in *.
  destruct (V a Ha) as [E1 E2], (V b Hb) as [E3 E4]. rewrite E1, default_time in E2. rewrite E3, default_time in E4. destruct half_powers as (P0 & P1 & P2 & P3). pose proof sqrt2_bounds as Q.
  set (t := etime b - etime a) in *. assert (Ht : 0 < t) by (unfold t; cbn [double Rwidths carrier RNum] in *; lra). assert (Et : t = etime b - etime a) by reflexivity. clearbody t. rewrite E2, E4 in Et. clear E1 E2 E3 E4 Lt T V K A.
  assert (Go : forall N : nat, (1 <= N)%nat -> (INR N - 1 + slack) * (INR N + slack) < 12 * t <= INR N * (INR N + 1) -> t <= max_cycle_time (1 / 4) (INR (length (tau_steps b)))) by (intros N H1 H2; now apply (enough_steps t _ N)). clear F.
  destruct (octave a) as [|[|[|[|?]]]]; try lia; destruct (sublevel a) as [|[|[|[|?]]]]; try lia; destruct Nx as [[Ob Sb]|(Ob & Sb & ?)]; try lia; rewrite Ob, Sb in Et; rewrite ?P0, ?P1, ?P2, ?P3 in Et; cbn [pow] in Et;
  first [apply (Go 3%nat); [lia|]; unfold slack; cbn [INR]; lra|apply (Go 4%nat); [lia|]; unfold slack; cbn [INR]; lra|apply (Go 5%nat); [lia|]; unfold slack; cbn [INR]; lra|apply (Go 6%nat); [lia|]; unfold slack; cbn [INR]; lra
        |apply (Go 7%nat); [lia|]; unfold slack; cbn [INR]; lra|apply (Go 8%nat); [lia|]; unfold slack; cbn [INR]; lra|apply (Go 10%nat); [lia|]; unfold slack; cbn [INR]; lra|apply (Go 12%nat); [lia|]; unfold slack; cbn [INR]; lra
        |apply (Go 14%nat); [lia|]; unfold slack; cbn [INR]; lra|apply (Go 17%nat); [lia|]; unfold slack; cbn [INR]; lra|apply (Go 20%nat); [lia|]; unfold slack; cbn [INR]; lra|apply (Go 24%nat); [lia|]; unfold slack; cbn [INR]; lra
        |apply (Go 29%nat); [lia|]; unfold slack; cbn [INR]; lra]. Qed.

(** ** Halving *)
Definition half1 (n : nat) (f : nat -> R) (x : nat) : R := if Nat.odd n && (x =? n / 2 - 1)%nat then f (n - 1)%nat else (f (2 * x)%nat + f (2 * x + 1)%nat) / 2.
Lemma half_value_twice w h p x y : half_value w h p x y = half1 h (fun Y => half1 w (fun X => p X Y) x) y.
Proof. unfold half_value, half1. destruct (Nat.odd w && (x =? w / 2 - 1)%nat), (Nat.odd h && (y =? h / 2 - 1)%nat); try reflexivity. field. Qed.
Lemma rsum_nonneg n f : (forall i, (i < n)%nat -> 0 <= f i) -> 0 <= rsum n f.
Proof. intros H. rewrite <- (rsum_zero n (fun _ => 0)) by auto. now apply rsum_le. Qed.
Lemma mean_square (a b v : R) : ((a + b) / 2 - v) * ((a + b) / 2 - v) <= (a - v) * (a - v) + (b - v) * (b - v).
Proof. pose proof (Rle_0_sqr ((a - v) - (b - v))) as P. pose proof (Rle_0_sqr (a - v)) as Q. pose proof (Rle_0_sqr (b - v)) as S. unfold Rsqr in *. nra. Qed.
Lemma half1_spread n f v : (2 <= n)%nat -> rsum (n / 2) (fun x => (half1 n f x - v) * (half1 n f x - v)) <= rsum n (fun x => (f x - v) * (f x - v)).
Proof.
  intros Hn. assert (Pair : forall m, rsum m (fun x => ((f (2 * x)%nat + f (2 * x + 1)%nat) / 2 - v) * ((f (2 * x)%nat + f (2 * x + 1)%nat) / 2 - v)) <= rsum (2 * m) (fun x => (f x - v) * (f x - v))).
  { intros m. rewrite <- rsum_pairs. apply rsum_le. intros x _. apply mean_square. }
  pose proof (Nat.div_mod n 2 ltac:(lia)) as D. pose proof (Nat.mod_upper_bound n 2 ltac:(lia)) as M. destruct (Nat.odd n) eqn:O.
  - apply Nat.odd_spec in O as (m & E). assert (E2 : (n / 2 = m)%nat) by (rewrite E, Nat.add_comm, Nat.mul_comm, Nat.div_add by lia; reflexivity). destruct m as [|m]; [lia|]. rewrite E2. replace n with (S (2 * m + 2)) by lia. cbn [rsum].
    rewrite rsum_app. cbn [rsum]. assert (A : rsum m (fun x => (half1 (S (2 * m + 2)) f x - v) * (half1 (S (2 * m + 2)) f x - v)) <= rsum (2 * m) (fun x => (f x - v) * (f x - v))).
    { eapply Rle_trans; [|apply Pair]. apply Req_le, rsum_ext. intros x Hx. unfold half1. replace (S (2 * m + 2) / 2)%nat with (S m) by (rewrite <- E2; f_equal; lia). replace (x =? S m - 1)%nat with false by (symmetry; apply Nat.eqb_neq; lia). now rewrite andb_false_r. }
    assert (B : half1 (S (2 * m + 2)) f m = f (2 * m + 2)%nat).
    { unfold half1. replace (S (2 * m + 2) / 2)%nat with (S m) by (rewrite <- E2; f_equal; lia). replace (Nat.odd (S (2 * m + 2))) with true by (symmetry; apply Nat.odd_spec; exists (S m); lia). replace (m =? S m - 1)%nat with true by (symmetry; apply Nat.eqb_eq; lia). cbn [andb]. f_equal. lia. }
    rewrite B. pose proof (Rle_0_sqr (f (2 * m + 0)%nat - v)) as P1. pose proof (Rle_0_sqr (f (2 * m + 1)%nat - v)) as P2. unfold Rsqr in *. lra.
  - assert (E : (n = 2 * (n / 2))%nat). { destruct (Nat.eq_dec (n mod 2) 0); [lia|]. exfalso. assert (Nat.odd n = true); [|congruence]. apply Nat.odd_spec. exists (n / 2)%nat. lia. }
    replace (rsum n (fun x => (f x - v) * (f x - v))) with (rsum (2 * (n / 2)) (fun x => (f x - v) * (f x - v))) by now rewrite <- E. eapply Rle_trans; [|apply Pair]. apply Req_le, rsum_ext. intros x Hx. unfold half1. now rewrite O. Qed.
Lemma half_spread w h (g out : gray RNum) v : sized w h g -> (2 <= w)%nat -> (2 <= h)%nat -> image_of (w / 2) (h / 2) (half_value w h (pixel g)) out -> spread v out <= spread v g.
Proof.
  intros (W & H & _) Hw Hh [(W' & H' & _) P]. unfold spread. rewrite W, H, W', H'.
  rewrite (rsum_ext (h / 2) _ (fun y => rsum (w / 2) (fun x => (half1 h (fun Y => half1 w (fun X => pixel g X Y) x) y - v) * (half1 h (fun Y => half1 w (fun X => pixel g X Y) x) y - v)))).
  2: { intros y Hy. apply rsum_ext. intros x Hx. cbn beta. rewrite P by assumption. now rewrite half_value_twice. }
  rewrite rsum_swap. eapply Rle_trans; [apply rsum_le; intros x Hx; apply (half1_spread h (fun Y => half1 w (fun X => pixel g X Y) x) v Hh)|].
  rewrite rsum_swap. apply rsum_le. intros y Hy. apply (half1_spread w (fun X => pixel g X y) v Hw). Qed.

(** ** The whole scale space *)
Section contraction.
Variables (m w h : nat) (image : gray RNum) (checks : bool) (fuel : nat) (l l1 : list rlevel) (k0 : R).
Let o := default_settings m.
Hypotheses (Hw : (40 <= w)%nat) (Hh : (40 <= h)%nat) (SI : sized w h image) (AL : rallocate (fed_quarter checks fuel) o w h = Ok l) (E1 : rspace o l image = Ok l1)
  (EC : compute_contrast_factor Rwidths Rmath Rmath image (contrast_percentile o) 1 (contrast_factor_num_bins o) = Ok k0) (K0 : k0 <> 0).
Lemma next_contracts i a b : nth_error l1 i = Some a -> nth_error l1 (S i) = Some b -> forall v, spread v (Lt b) <= spread v (Lt a).
Proof.
  intros Ha Hb v. pose proof (default_usable m : usable o) as U. destruct (levels_evolve o w h image (fed_quarter checks fuel) l l1 k0 U Hw Hh SI AL E1 EC i a b Ha Hb) as (start & Ss & Ev).
  destruct (space_ready o w h image (fed_quarter checks fuel) l U Hw Hh SI AL) as (l2 & E2 & F & Bt & _). assert (l2 = l1) by congruence. subst l2.
  assert (Place : forall j x, nth_error l1 j = Some x -> exists y, nth_error l j = Some y /\ same_place y x).
  { clear -F. revert l1 F. induction l as [|y ys IH]; intros l1 F j x Hx; inversion F as [|? z ? zs P F']; subst; [destruct j; discriminate|]. destruct j as [|j]; cbn [nth_error] in *; [injection Hx as <-; eauto|]. eauto. }
  destruct (Place _ _ Ha) as (a0 & Ha0 & Ta & _ & Oa & _ & _), (Place _ _ Hb) as (b0 & Hb0 & Tb & _ & Ob & _ & Sb).
  destruct (default_gap_covered checks fuel m w h l AL i a0 b0 Ha0 Hb0) as [Lt Cov].
  assert (Bg : forall e, In e l1 -> (40 * 2 ^ octave e <= w /\ 40 * 2 ^ octave e <= h)%nat).
  { intros e He. apply In_nth_error in He as (j & Hj). destruct (Place _ _ Hj) as (e0 & He0 & _ & _ & -> & _). destruct (schedule_ready o w h (fed_quarter checks fuel) l U Hw Hh AL) as (_ & _ & _ & B & _). apply B. now apply nth_error_In in He0. }
  pose proof (Bg a (nth_error_In _ _ Ha)) as Ba. pose proof (Bg b (nth_error_In _ _ Hb)) as Bb. unfold octave_sized in Ss. pose proof (div_ge 40 w _ (pow2_pos (octave b))) as D1. pose proof (div_ge 40 h _ (pow2_pos (octave b))) as D2. pose proof (div_ge 40 w _ (pow2_pos (octave a))) as D3. pose proof (div_ge 40 h _ (pow2_pos (octave a))) as D4.
  eapply Rle_trans; [apply (level_contracts checks fuel (k0 * (3 / 4) ^ octave b) a b start (halved (octave b) w) (halved (octave b) h)); auto|].
  - apply Rmult_integral_contrapositive. split; [exact K0|]. apply pow_nonzero. lra.
  - rewrite halved_div. lia.
  - rewrite halved_div. lia.
  - now rewrite Ta, Tb.
  - rewrite Ta, Tb, Sb. destruct (schedule (fed_quarter checks fuel) o w h ltac:(cbn; lia) ltac:(cbn; lra) l AL) as (_ & _ & _ & _ & K). now apply (K i).
  - now rewrite Ta, Tb, Sb.
  - destruct Ev as ([[_ ->]|[_ I]] & _); [apply Rle_refl|]. destruct (Bt a (nth_error_In _ _ Ha)) as [Sa _]. unfold octave_sized in Sa. pose proof Sa as (W & H & _). cbn [single Rwidths] in *. rewrite W, H in I.
    apply (half_spread (halved (octave a) w) (halved (octave a) h)); auto; rewrite halved_div; lia. Qed.
Lemma space_contracts i j a b : (i <= j)%nat -> nth_error l1 i = Some a -> nth_error l1 j = Some b -> forall v, spread v (Lt b) <= spread v (Lt a).
Proof.
  intros Hij Ha. revert b. induction Hij as [|j Hij IH]; intros b Hb v; [rewrite Ha in Hb; injection Hb as <-; apply Rle_refl|].
  assert (L : (j < length l1)%nat) by (assert (S j < length l1)%nat by (apply nth_error_Some; congruence); lia). destruct (nth_error l1 j) as [c|] eqn:Ec; [|apply nth_error_None in Ec; lia].
  eapply Rle_trans; [apply (next_contracts j c b Ec Hb)|]. now apply IH. Qed.
End contraction.

(** ** An image with a contrast factor *)
Definition slope : gray RNum := of_fn 60 60 (fun x _ => INR x).
Lemma slope_image : image_of 60 60 (fun x _ => INR x) slope.
Proof. exact (of_fn_image (N := RNum) 60 60 (fun x _ => INR x)). Qed.
Lemma clamped_in n z : (0 <= z < Z.of_nat n)%Z -> clamped n z = Z.to_nat z.
Proof. intros H. unfold clamped. f_equal. lia. Qed.
Lemma slope_smooth smooth k x y : image_of 60 60 (correlate k k slope) smooth -> length k = 5%nat -> (forall i, (i < 5)%nat -> 0 < nth i k 0) ->
  (5 <= x <= 50)%nat -> (0 <= y < 60)%Z -> extended smooth (Z.of_nat x - 1) y < extended smooth (Z.of_nat x + 1) y.
Proof.
  intros I L P Hx Hy. rewrite !(extended_of 60 60 _ smooth _ _ I) by lia. rewrite !clamped_in by lia. unfold correlate. rewrite L. apply Rminus_gt_0_lt. rewrite <- rsum_minus. apply rsum_pos; [lia|]. intros j Hj. rewrite <- rsum_minus. apply rsum_pos; [lia|]. intros i Hi.
  rewrite !(extended_of 60 60 _ slope _ _ slope_image) by lia. assert (Hi' : (- 2 <= offset k i <= 2)%Z) by (unfold offset; rewrite L; cbn [Nat.div Nat.divmod fst]; lia). rewrite !(clamped_in 60 (_ + offset k i)) by lia.
  assert (INR (Z.to_nat (Z.of_nat (Z.to_nat (Z.of_nat x + 1)) + offset k i)) - INR (Z.to_nat (Z.of_nat (Z.to_nat (Z.of_nat x - 1)) + offset k i)) = 2). { rewrite <- minus_INR by lia. replace (_ - _)%nat with 2%nat by lia. reflexivity. }
  pose proof (Rmult_lt_0_compat _ _ (P i Hi) (P j Hj)). nra. Qed.
Lemma slope_contrast m : exists k0, compute_contrast_factor Rwidths Rmath Rmath slope (contrast_percentile (default_settings m)) 1 (contrast_factor_num_bins (default_settings m)) = Ok k0 /\ k0 <> 0.
Proof.
  destruct (contrast_factor_spec 60 60 slope (contrast_percentile (default_settings m)) 1 (contrast_factor_num_bins (default_settings m))) as (smooth & lx & ly & top & k & EB & I1 & I2 & [_ Top] & Kb & EC & C); [apply slope_image|lia|lia|cbn; lia|cbn; lra|lra|].
  eexists. split; [exact EC|]. cbv zeta in C. cbn [contrast_percentile contrast_factor_num_bins default_settings] in *.
  assert (G : forall x, (5 <= x <= 50)%nat -> 0 < gradient lx ly (x, 10%nat)).
  { intros x Hx. unfold gradient. cbn [fst snd]. apply sqrt_lt_R0. assert (0 < pixel lx x 10).
    { destruct I1 as [_ P]. rewrite P by lia. unfold scharr_x, scharr_gain, across. cbn [Nat.eqb]. destruct (blur_spec 60 60 slope 1) as (out & kk & EB' & IB & n & _ & Hn & Lk & Wk); [apply slope_image|lia|lia|lra|]. assert (out = smooth) by congruence. subst out.
      assert (n = 2%nat). { destruct Hn as [A B]. assert (INR 2 <= INR n) by (cbn [INR]; lra). assert (INR n < INR 3) by (cbn [INR]; lra). apply INR_le in H. apply INR_lt in H0. lia. } subst n.
      assert (Pk : forall i, (i < 5)%nat -> 0 < nth i kk 0). { intros i Hi. rewrite Wk by lia. unfold gauss_weight. apply Rdiv_lt_0_compat; [apply bell_pos|]. apply rsum_pos; [lia|intros; apply bell_pos]. }
      pose proof (slope_smooth smooth kk x (Z.of_nat 10 - Z.of_nat 1) IB Lk Pk Hx ltac:(lia)) as S1. pose proof (slope_smooth smooth kk x (Z.of_nat 10) IB Lk Pk Hx ltac:(lia)) as S2. pose proof (slope_smooth smooth kk x (Z.of_nat 10 + Z.of_nat 1) IB Lk Pk Hx ltac:(lia)) as S3.
      change (Z.of_nat 1) with 1%Z in *. lra. }
    pose proof (Rle_0_sqr (pixel ly x 10)) as Q. unfold Rsqr in Q. cbn [carrier RNum] in *. nra. }
  assert (Inn : forall x, (5 <= x <= 50)%nat -> In (x, 10%nat) (inner (g_width lx) (g_height lx))).
  { intros x Hx. destruct I1 as [(-> & -> & _) _]. unfold inner. apply in_flat_map. exists 10%nat. split; [apply in_seq; lia|]. apply in_map_iff. exists x. split; [reflexivity|apply in_seq; lia]. }
  assert (Ed : forall x, (5 <= x <= 50)%nat -> In (x, 10%nat) (edges lx ly)).
  { intros x Hx. apply filter_In. split; [now apply Inn|]. specialize (G x Hx). unfold Reqb. destruct (Req_EM_T (gradient lx ly (x, 10%nat)) 0); [lra|reflexivity]. }
  assert (Two : (2 <= length (edges lx ly))%nat).
  { apply (NoDup_incl_length (l := [(10, 10); (11, 10)]%nat)); [repeat constructor; cbn; intuition congruence|]. intros p [<-|[<-|[]]]; apply Ed; lia. }
  assert (One : (1 <= Z.to_nat (Int_part (INR (length (edges lx ly)) * (7 / 10))))%nat).
  { apply le_INR in Two. cbn [INR] in Two. assert (1 <= Int_part (INR (length (edges lx ly)) * (7 / 10)))%Z; [|lia]. pose proof (base_Int_part (INR (length (edges lx ly)) * (7 / 10))) as [_ B]. assert (0 < Int_part (INR (length (edges lx ly)) * (7 / 10)))%Z; [|lia]. apply lt_IZR. lra. }
  assert (Kp : (1 <= k)%nat).
  { destruct k as [|k]; [|lia]. exfalso. destruct C as [C _]. unfold count_below in C. replace (300 <=? 0)%nat with false in C by reflexivity.
    match type of C with (_ <= length ?f)%nat => assert (Z : f = []); [apply incl_l_nil|rewrite Z in C; cbn [length] in C; lia] end. intros p Hp. exfalso. apply filter_In in Hp as [_ Hp]. rewrite orb_false_r in Hp. unfold Rltb in Hp. destruct (Rlt_dec (gradient lx ly p * INR 300) (INR 0 * top)) as [X|]; [|discriminate].
    assert (0 <= gradient lx ly p) by apply sqrt_pos. pose proof (pos_INR 300). change (INR 0) with 0 in X. nra. }
  pose proof (Top _ (Inn 10%nat ltac:(lia))) as T. pose proof (G 10%nat ltac:(lia)) as T0. apply le_INR in Kp. change (INR 1) with 1 in Kp. assert (0 < INR 300) by (apply lt_0_INR; lia). apply Rgt_not_eq. apply Rdiv_lt_0_compat; [nra|assumption]. Qed.

(** ** A single step is not enough *)
Lemma one_step_spreads : exists (Lt Lflow out : gray RNum) s, sized 2 1 Lt /\ sized 2 1 Lflow /\ within 0 1 Lflow /\ 0 < s /\ calculate_step (N := RNum) Lt Lflow s = Ok out /\ total Lt = 0 /\ spread 0 Lt < spread 0 out.
Proof.
  set (a := of_fn (N := RNum) 2 1 (fun x _ => if (x =? 0)%nat then 1 else - (1))). set (c := of_fn (N := RNum) 2 1 (fun _ _ => 1)). pose proof (of_fn_image (N := RNum) 2 1 (fun x _ => if (x =? 0)%nat then 1 else - (1))) as [Sa Pa]. pose proof (of_fn_image (N := RNum) 2 1 (fun _ _ => 1)) as [Sc Pc]. fold a in Sa, Pa. fold c in Sc, Pc.
  destruct (step_image 2 1 a c 2 Sa Sc ltac:(lia) ltac:(lia)) as (out & E & (Wo & Ho & Lo) & Po). exists a, c, out, 2. split; [exact Sa|]. split; [exact Sc|]. destruct Sa as (Wa & Ha & _), Sc as (Wc & Hc & _). split; [intros x y Hx Hy; rewrite Pc by lia; cbn; lra|]. split; [lra|]. split; [exact E|].
  unfold total, spread. rewrite Wa, Ha, Wo, Ho. cbn [rsum]. rewrite !Po, !Pa by lia. unfold diffused, neighbours. rewrite Wa, Ha. cbn [Nat.add Nat.ltb Nat.leb Nat.sub app rsum_list]. rewrite !Pa, !Pc by lia. cbn [Nat.eqb]. split; rnum; lra. Qed.
