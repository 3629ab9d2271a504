(** Turned images: the whole scale space, the maxima of the response, and sides of odd length. *)
From Coq Require Import List Arith Lia Bool ZArith NArith Reals Lra Psatz.
From Verif Require Import Num LinSpec LinFacts Outcome OutcomeFacts Gray GraySpec GrayFacts GrayReal GrayProps Diffuse DiffuseSpec DiffuseFacts DiffuseProps Akaze AkazeSpec AkazeSchedule AkazeSpace AkazeWhole AkazeDemo AkazeTone AkazeTurnSpec AkazeTurn AkazeTurnSpace.
Import ListNotations.
Open Scope R_scope.

(** ** The schedule does not tell width from height *)
Lemma allocate_swap fed (o : rsettings) w h : rallocate fed o h w = rallocate fed o w h.
Proof.
  assert (E : flat_map (octave_levels Rwidths Rmath Rexp2 o h w) (seq 0 (max_octave_evolution o)) = flat_map (octave_levels Rwidths Rmath Rexp2 o w h) (seq 0 (max_octave_evolution o))).
  { apply flat_map_ext. intros k. unfold octave_levels. now rewrite Nat.min_comm. }
  unfold rallocate, allocate_evolutions. match goal with |- match ?x with _ => _ end = match ?y with _ => _ end => replace x with y by (symmetry; exact E) end. reflexivity. Qed.
Lemma allocate_turn fed (o : rsettings) t w h : rallocate fed o (new_width t w h) (new_height t w h) = rallocate fed o w h.
Proof. unfold new_width, new_height. destruct (swapped t); [apply allocate_swap|reflexivity]. Qed.

Section whole.
Variables (fed : R -> outcome (list R)) (o : rsettings) (t : turn) (w h : nat) (g g' : gray RNum).
Hypotheses (U : usable o) (SI : sized w h g) (T : turned t g g').
Hypotheses (EC : columns_reversed t = true -> halves_evenly o w) (ER : rows_reversed t = true -> halves_evenly o h).
Lemma turned_mv : mv t 1 w h g g'.
Proof. destruct SI as (W & H & D). unfold turned in T. rewrite W, H in T. split; [exact SI|]. destruct T as [S P]. split; [exact S|]. intros x y Hx Hy. rewrite P by assumption. rring. Qed.
Lemma whole_space : (40 <= w)%nat -> (40 <= h)%nat -> forall l, rallocate fed o w h = Ok l -> orel (Forall2 (lvt t o)) (rspace o l g) (rspace o l g').
Proof.
  intros Hw Hh l AL. destruct (schedule_ready o w h fed l U Hw Hh AL) as (S1 & S2 & S3 & S4 & S5). pose proof U as (Hn & Ho & Hb & Hp & Hbins & Hd & _).
  apply (turn_space t o l w h); try assumption; [apply turned_mv|lia|lia| |].
  - split; intros B; [destruct (EC B) as (k & E)|destruct (ER B) as (k & E)]; exists k; rewrite Nat.sub_0_r; exact E.
  - intros e He. apply (level_has fed o w h l Hn Hb AL e He). Qed.
Lemma space_both l : rallocate fed o w h = Ok l -> space_of fed o g = rspace o l g /\ space_of fed o g' = rspace o l g'.
Proof.
  intros AL. destruct SI as (W & H & D). unfold turned in T. rewrite W, H in T. destruct T as [(W' & H' & _) _]. unfold space_of. rewrite W, H, W', H', allocate_turn, AL. split; reflexivity. Qed.
Lemma small_levels l : rallocate fed o w h = Ok l -> ~ ((40 <= w)%nat /\ (40 <= h)%nat) -> l = [].
Proof.
  intros AL N. pose proof U as (Hn & Ho & Hb & _). destruct l as [|e r]; [reflexivity|]. exfalso. apply N. apply (levels_nonempty fed o w h (e :: r) Hn Hb AL). discriminate. Qed.
Lemma space_failed : (forall l, rallocate fed o w h <> Ok l) -> space_of fed o g = space_of fed o g' /\ forall l, space_of fed o g <> Ok l.
Proof.
  intros N. destruct SI as (W & H & D). unfold turned in T. rewrite W, H in T. destruct T as [(W' & H' & _) _]. unfold space_of. rewrite W, H, W', H', allocate_turn. destruct (rallocate fed o w h) as [l| |]; [exfalso; now apply (N l)|split; [reflexivity|discriminate]..]. Qed.
Lemma lvt_turned e e' : lvt t o e e' -> turned_level t e e'.
Proof.
  assert (TT : forall w h (g g' : gray RNum), mv t 1 w h g g' -> turned t g g').
  { intros a b i i' ((W & H & _) & S & P). unfold turned. rewrite W, H. split; [exact S|]. intros x y Hx Hy. rewrite P by assumption. rring. }
  intros (P & a & b & _ & _ & _ & I1 & I2). split; [exact P|]. split; eapply TT; eassumption. Qed.
Lemma forall2_weaken {X Y} (R S : X -> Y -> Prop) l l' : (forall x y, R x y -> S x y) -> Forall2 R l l' -> Forall2 S l l'.
Proof. induction 2; constructor; auto. Qed.
Lemma space_turned : alike (Forall2 (turned_level t)) (space_of fed o g) (space_of fed o g').
Proof.
  destruct (rallocate fed o w h) as [l| |] eqn:AL.
  - destruct (space_both l AL) as [-> ->]. destruct (le_lt_dec 40 w) as [Hw|Hw]; [destruct (le_lt_dec 40 h) as [Hh|Hh]|].
    + pose proof (whole_space Hw Hh l AL) as Q. destruct (rspace o l g), (rspace o l g'); cbn in Q |- *; auto. apply (forall2_weaken (lvt t o)); [apply lvt_turned|exact Q].
    + rewrite (small_levels l AL) by lia. exact Logic.I.
    + rewrite (small_levels l AL) by lia. exact Logic.I.
  - destruct space_failed as [E N]; [intros l; rewrite AL; discriminate|]. rewrite <- E. destruct (space_of fed o g) as [l| |]; [exfalso; now apply (N l)|exact Logic.I..].
  - destruct space_failed as [E N]; [intros l; rewrite AL; discriminate|]. rewrite <- E. destruct (space_of fed o g) as [l| |]; [exfalso; now apply (N l)|exact Logic.I..]. Qed.
Lemma responses_turned : alike (Forall2 (turned_response t o)) (responses_of fed o g) (responses_of fed o g').
Proof.
  unfold responses_of. destruct (rallocate fed o w h) as [l| |] eqn:AL.
  - destruct (space_both l AL) as [-> ->]. destruct (le_lt_dec 40 w) as [Hw|Hw]; [destruct (le_lt_dec 40 h) as [Hh|Hh]|].
    + pose proof (whole_space Hw Hh l AL) as Q. destruct (space_ready o w h g fed l U Hw Hh SI AL) as (l1 & E1 & F1 & _). destruct (schedule_ready o w h fed l U Hw Hh AL) as (_ & _ & _ & _ & S5). rewrite E1 in Q |- *.
      destruct (rspace o l g') as [l1'| |]; [|destruct Q..]. cbn [bind orel] in Q |- *.
      assert (K : orel (Forall2 (turned_response t o)) (rresponse o l1) (rresponse o l1')).
      { apply turn_responses; [exact Q|]. intros e He. destruct (forall2_in _ _ _ F1 e He) as (e0 & I0 & (_ & ES & EO & _)). rewrite ES, EO. now apply S5. }
      exact K.
    + rewrite (small_levels l AL) by lia. exact Logic.I.
    + rewrite (small_levels l AL) by lia. exact Logic.I.
  - destruct space_failed as [E N]; [intros l; rewrite AL; discriminate|]. rewrite <- E. destruct (space_of fed o g) as [l| |]; [exfalso; now apply (N l)|exact Logic.I..].
  - destruct space_failed as [E N]; [intros l; rewrite AL; discriminate|]. rewrite <- E. destruct (space_of fed o g) as [l| |]; [exfalso; now apply (N l)|exact Logic.I..]. Qed.
(** The levels of the responses, in terms of the sides of the image. *)
Lemma responses_sized l2 : responses_of fed o g = Ok l2 -> forall e, In e l2 -> sized (halved (octave e) w) (halved (octave e) h) (Ldet e) /\ (octave e < max_octave_evolution o)%nat /\ 1 / 2 <= esigma e * derivative_factor o / 2 ^ octave e.
Proof.
  intros R e He. unfold responses_of in R. destruct (rallocate fed o w h) as [l| |] eqn:AL.
  2,3: destruct space_failed as [_ N]; [intros l; rewrite AL; discriminate|]; destruct (space_of fed o g) as [l| |]; [exfalso; now apply (N l)|discriminate R..].
  destruct (space_both l AL) as [E _]. rewrite E in R. destruct (rspace o l g) as [l1| |] eqn:E1; [|discriminate R..]. cbn [bind] in R.
  assert (B : (40 <= w)%nat /\ (40 <= h)%nat). { destruct (le_lt_dec 40 w) as [Hw|Hw]; [destruct (le_lt_dec 40 h) as [Hh|Hh]; [auto|]|]; (exfalso; rewrite (small_levels l AL) in E1 by lia; discriminate E1). }
  destruct B as [Hw Hh]. destruct (levels_ready o w h g fed l U Hw Hh SI AL l1 l2 E1 R e He) as ((_ & _ & _ & _ & D) & _ & _ & SC). split; [exact D|]. split; [|exact SC].
  destruct (space_ready o w h g fed l U Hw Hh SI AL) as (l1' & E1' & F1 & _). rewrite E1 in E1'. injection E1' as <-. destruct (response_ready o w h g fed l U Hw Hh SI AL l1 E1) as (l2' & E2 & F2). rewrite R in E2. injection E2 as <-.
  destruct (forall2_in _ _ _ F2 e He) as (e1 & I1 & ((_ & _ & PO & _) & _)). destruct (forall2_in _ _ _ F1 e1 I1) as (e0 & I0 & (_ & _ & QO & _)). rewrite PO, QO. pose proof U as (Hn & Ho & Hb & _). apply (level_has fed o w h l Hn Hb AL e0 I0). Qed.
(** ** The maxima *)
Lemma not_half (n : nat) (z : Z) : 10 * sqrt 2 * INR n <> IZR z - 1 / 2.
Proof.
  intros E. assert (Q : IZR (800 * (Z.of_nat n * Z.of_nat n)) = IZR ((2 * z - 1) * (2 * z - 1))).
  { rewrite !mult_IZR, minus_IZR, mult_IZR, <- !INR_IZR_INZ. pose proof (sqrt_sqrt 2 ltac:(lra)) as S2. replace (2 * IZR z - 1) with (2 * (10 * sqrt 2 * INR n)) by lra. transitivity (400 * (sqrt 2 * sqrt 2) * (INR n * INR n)); [rewrite S2; ring|ring]. }
  apply eq_IZR in Q. assert (K : Z.odd (800 * (Z.of_nat n * Z.of_nat n)) = Z.odd ((2 * z - 1) * (2 * z - 1))) by now rewrite Q. rewrite !Z.odd_mul, Z.odd_sub, Z.odd_mul in K. cbn in K. discriminate K. Qed.
Lemma border_low (n x : nat) : 10 * sqrt 2 * INR n + 1 / 2 <= INR x -> 10 * sqrt 2 * INR n + 1 / 2 < INR x.
Proof. intros H. pose proof (not_half n (Z.of_nat x)) as N. rewrite <- INR_IZR_INZ in N. lra. Qed.
Lemma border_high (n x W : nat) : INR x < INR W - 3 / 2 - 10 * sqrt 2 * INR n <-> INR x <= INR W - 3 / 2 - 10 * sqrt 2 * INR n.
Proof. pose proof (not_half n (Z.of_nat W - 1 - Z.of_nat x)) as N. rewrite !minus_IZR, <- !INR_IZR_INZ in N. lra. Qed.
Lemma border_mirror (n x W : nat) : (x < W)%nat -> 10 * sqrt 2 * INR n + 1 / 2 <= INR (W - 1 - x) < INR W - 3 / 2 - 10 * sqrt 2 * INR n <-> 10 * sqrt 2 * INR n + 1 / 2 <= INR x < INR W - 3 / 2 - 10 * sqrt 2 * INR n.
Proof.
  intros L. rewrite !minus_INR by lia. change (INR 1) with 1. split; intros [A B].
  - split; [lra|]. apply border_high. lra.
  - apply border_low in A. lra. Qed.
Lemma border_inside (n x W : nat) : 10 * sqrt 2 * INR n + 1 / 2 <= INR x < INR W - 3 / 2 - 10 * sqrt 2 * INR n -> (n + 1 <= x /\ x + 1 + n < W)%nat.
Proof.
  intros [A B]. assert (S2 : 1 < sqrt 2) by (rewrite <- sqrt_1; apply sqrt_lt_1; lra). pose proof (pos_INR n) as P. assert (Q : 10 * INR n <= 10 * sqrt 2 * INR n) by nra.
  split.
  - apply INR_le. rewrite plus_INR. change (INR 1) with 1. destruct n as [|n]; [|rewrite S_INR in *; pose proof (pos_INR n); nra]. cbn [INR] in *. assert (L : INR 0 < INR x) by (cbn [INR]; lra). apply INR_lt in L. apply (le_INR 1) in L. cbn [INR] in L. lra.
  - apply INR_lt. rewrite !plus_INR. change (INR 1) with 1. destruct n as [|n]; [cbn [INR] in *; lra|]. rewrite S_INR in *. pose proof (pos_INR n). nra. Qed.
Lemma strict_turn th W H (d d' : gray RNum) m x y : sized W H d -> turned_inside t m d d' -> (m + 1 <= x)%nat -> (x + 1 + m < new_width t W H)%nat -> (m + 1 <= y)%nat -> (y + 1 + m < new_height t W H)%nat ->
  strict_maximum th d' x y <-> strict_maximum th d (source_x t W x y) (source_y t H x y).
Proof.
  intros (WD & HD & _) [(WD' & HD' & _) P] X1 X2 Y1 Y2. rewrite WD, HD in *. rewrite WD', HD' in P. unfold strict_maximum. rewrite WD, HD, WD', HD'. rewrite <- (P x y) by lia. split.
  - intros (_ & TH & NB). split; [unfold source_x, source_y, new_width, new_height in *; destruct (swapped t), (columns_reversed t), (rows_reversed t); lia|]. split; [exact TH|]. intros X Y BX BY NE.
    set (u := if columns_reversed t then (W - 1 - X)%nat else X). set (v := if rows_reversed t then (H - 1 - Y)%nat else Y). set (x' := if swapped t then v else u). set (y' := if swapped t then u else v).
    assert (K : (x - 1 <= x' <= x + 1)%nat /\ (y - 1 <= y' <= y + 1)%nat /\ source_x t W x' y' = X /\ source_y t H x' y' = Y).
    { clear P TH NB NE WD HD WD' HD'. unfold x', y', u, v, source_x, source_y, new_width, new_height in *. clear x' y' u v. destruct (swapped t), (columns_reversed t), (rows_reversed t); (split; [split; lia|split; [split; lia|split; lia]]). }
    destruct K as (K1 & K2 & K3 & K4). rewrite <- K3, <- K4 at 1. rewrite <- (P x' y') by lia. apply NB; [exact K1|exact K2|]. intros E. apply NE. injection E as E1 E2. rewrite <- K3, <- K4, E1, E2. reflexivity.
  - intros (_ & TH & NB). split; [lia|]. split; [exact TH|]. intros X Y BX BY NE. rewrite (P X Y) by lia. apply NB.
    + unfold source_x, new_width, new_height in *. destruct (swapped t), (columns_reversed t); lia.
    + unfold source_y, new_width, new_height in *. destruct (swapped t), (rows_reversed t); lia.
    + intros E. apply NE. injection E as E1 E2. clear P TH NB NE WD HD WD' HD'. unfold source_x, source_y, new_width, new_height in *. destruct (swapped t), (columns_reversed t), (rows_reversed t); f_equal; lia. Qed.
Lemma clear_turn n W H (d d' : gray RNum) x y : sized W H d -> sized (new_width t W H) (new_height t W H) d' -> (x < new_width t W H)%nat -> (y < new_height t W H)%nat ->
  clear_of_border (10 * sqrt 2 * INR n) d' x y <-> clear_of_border (10 * sqrt 2 * INR n) d (source_x t W x y) (source_y t H x y).
Proof.
  intros (WD & HD & _) (WD' & HD' & _) Hx Hy. unfold clear_of_border. rewrite WD, HD, WD', HD'. unfold source_x, source_y, new_width, new_height in *.
  destruct (swapped t), (columns_reversed t), (rows_reversed t); rewrite ?border_mirror by assumption; tauto. Qed.
Lemma maximum_turn l l' class e e' W H x y : nth_error l class = Some e -> nth_error l' class = Some e' -> turned_response t o e e' -> sized W H (Ldet e) -> (x < g_width (Ldet e'))%nat -> (y < g_height (Ldet e'))%nat ->
  0 <= esigma e * derivative_factor o / 2 ^ octave e ->
  (maximum_of o l' class e' x y <-> maximum_of o l class e (source_x t W x y) (source_y t H x y)) /\
  (maximum_of o l' class e' x y -> pixel (Ldet e') x y = pixel (Ldet e) (source_x t W x y) (source_y t H x y)).
Proof.
  intros N N' (((_ & ES & EO & _) & _) & TR) SD Hx Hy V0. unfold maximum_of. rewrite N, N'.
  assert (IS : forall n, integer_scale o e' n <-> integer_scale o e n) by (intros n; unfold integer_scale; rewrite ES, EO; reflexivity).
  assert (Main : forall n, integer_scale o e n -> clear_of_border (10 * sqrt 2 * INR n) (Ldet e') x y ->
    (strict_maximum (detector_threshold o) (Ldet e') x y <-> strict_maximum (detector_threshold o) (Ldet e) (source_x t W x y) (source_y t H x y)) /\ pixel (Ldet e') x y = pixel (Ldet e) (source_x t W x y) (source_y t H x y)).
  { intros n In CB. pose proof (TR n In) as TI. pose proof TI as [SD' P]. pose proof SD as (WD & HD & _). cbn [single Rwidths] in *. rewrite WD, HD in SD', P. pose proof SD' as (WD' & HD' & _).
    destruct CB as [C1 C2]. rewrite WD' in C1. rewrite HD' in C2. apply border_inside in C1, C2. split.
    - apply (strict_turn _ W H _ _ (if swapped t then n else 0%nat)); auto; destruct (swapped t); lia.
    - apply P; rewrite ?WD', ?HD'; destruct (swapped t); lia. }
  assert (CC : forall n, integer_scale o e n -> (clear_of_border (10 * sqrt 2 * INR n) (Ldet e') x y <-> clear_of_border (10 * sqrt 2 * INR n) (Ldet e) (source_x t W x y) (source_y t H x y))).
  { intros n In. pose proof (TR n In) as [SD' _]. pose proof SD as (WD & HD & _). cbn [single Rwidths] in *. rewrite WD, HD in SD'. pose proof SD' as (WD' & HD' & _). apply clear_turn; [exact SD|exact SD'|now rewrite <- WD'|now rewrite <- HD']. }
  split; [split|].
  - intros (_ & SM & n & In & CB). apply IS in In. split; [reflexivity|]. split; [now apply (Main n In CB)|]. exists n. split; [exact In|]. now apply CC.
  - intros (_ & SM & n & In & CB). apply CC in CB; [|exact In]. split; [reflexivity|]. split; [now apply (Main n In CB)|]. exists n. split; [now apply IS|exact CB].
  - intros (_ & SM & n & In & CB). apply IS in In. now apply (Main n In CB). Qed.
(** The centres of pixels. *)
Lemma centre_mirror oct side x : halves_evenly o side -> (oct < max_octave_evolution o)%nat -> (x < halved oct side)%nat -> centre oct (halved oct side - 1 - x) = INR side - 1 - centre oct x.
Proof.
  intros (k & E) L Hx. rewrite halved_div in *. assert (ED : (side / 2 ^ oct * 2 ^ oct)%nat = side).
  { rewrite E. replace (max_octave_evolution o - 1)%nat with ((max_octave_evolution o - 1 - oct) + oct)%nat by lia. rewrite Nat.pow_add_r, Nat.mul_assoc, Nat.div_mul by (apply Nat.pow_nonzero; lia). reflexivity. }
  unfold centre. rewrite !minus_INR by lia. change (INR 1) with 1. assert (EI : INR side = INR (side / 2 ^ oct) * 2 ^ oct) by (rewrite <- ED at 1; rewrite mult_INR, pow_INR; reflexivity). rewrite EI. change (carrier RNum) with R. set (N := INR (side / 2 ^ oct)). set (P := 2 ^ oct). lra. Qed.
Lemma maxima_turned l l' : responses_of fed o g = Ok l -> responses_of fed o g' = Ok l' ->
  forall class e e' x y, nth_error l class = Some e -> nth_error l' class = Some e' -> (x < g_width (Ldet e'))%nat -> (y < g_height (Ldet e'))%nat ->
  let X := source_x t (g_width (Ldet e)) x y in let Y := source_y t (g_height (Ldet e)) x y in
  (maximum_of o l' class e' x y <-> maximum_of o l class e X Y) /\
  (maximum_of o l' class e' x y -> turned_keypoint t w h (keypoint_at o class e X Y) (keypoint_at o class e' x y)).
Proof.
  intros R R' class e e' x y N N' Hx Hy. cbv zeta.
  assert (TR : turned_response t o e e').
  { pose proof responses_turned as Q. rewrite R, R' in Q. cbn [alike] in Q. revert l' R' class N N' Q. clear R. induction l as [|a l IH]; intros l' R' class N N' Q; inversion Q as [|? b ? l0 H1 H2]; subst; [destruct class; discriminate N|].
    destruct class as [|class]; cbn [nth_error] in N, N'; [injection N as <-; injection N' as <-; exact H1|]. clear R'. 
    assert (G : forall (l l0 : list rlevel) class, nth_error l class = Some e -> nth_error l0 class = Some e' -> Forall2 (turned_response t o) l l0 -> turned_response t o e e').
    { clear. induction l as [|a l IH]; intros l0 class N N' Q; inversion Q; subst; [destruct class; discriminate N|]. destruct class; cbn [nth_error] in N, N'; [injection N as <-; injection N' as <-; assumption|]. now apply (IH l' class). }
    exact (G l l0 class N N' H2). }
  destruct (responses_sized l R e (nth_error_In _ _ N)) as (SD & OM & V). set (W := halved (octave e) w) in *. set (H := halved (octave e) h) in *. pose proof SD as (WD & HD & _). cbn [single Rwidths] in *. rewrite WD, HD.
  destruct (maximum_turn l l' class e e' W H x y N N' TR SD Hx Hy ltac:(lra)) as [M1 M2]. split; [exact M1|]. intros MX. pose proof (M2 MX) as EP.
  destruct TR as (((_ & ES & EO & _) & _) & TR).
  assert (BX : (x < new_width t W H)%nat /\ (y < new_height t W H)%nat).
  { destruct MX as (_ & _ & n & In & _). assert (In' : integer_scale o e n) by (unfold integer_scale in *; now rewrite ES, EO in In). destruct (TR n In') as [(A1 & A2 & _) _]. cbn [single Rwidths] in *. rewrite WD, HD in A1, A2. rewrite <- A1, <- A2. auto. }
  destruct BX as [BX BY]. unfold turned_keypoint, keypoint_at. cbn [kp_x kp_y kp_response kp_size kp_octave kp_class]. rewrite EO, ES, EP. split; [|split; [|auto]].
  - unfold source_x, new_width, new_height in *. destruct (swapped t), (columns_reversed t); try reflexivity; (apply centre_mirror; [now apply EC|exact OM|assumption]).
  - unfold source_y, new_width, new_height in *. destruct (swapped t), (rows_reversed t); try reflexivity; (apply centre_mirror; [now apply ER|exact OM|assumption]). Qed.
End whole.

(** ** Sides of odd length *)
Definition narrow_image (a b c : R) : gray RNum := of_fn (N := RNum) 3 2 (fun x _ => match x with 0%nat => a | 1%nat => b | _ => c end).
Lemma odd_side : exists g g' out out' : gray RNum, sized 3 2 g /\ turned (Turn false true false) g g' /\ half_size (N := RNum) g = Ok out /\ half_size (N := RNum) g' = Ok out' /\ ~ turned (Turn false true false) out out'.
Proof.
  exists (narrow_image 0 0 1), (narrow_image 1 0 0). assert (S : forall a b c, sized 3 2 (narrow_image a b c)) by (intros; apply of_fn_sized).
  assert (P : forall a b c x y, (x < 3)%nat -> (y < 2)%nat -> pixel (narrow_image a b c) x y = match x with 0%nat => a | 1%nat => b | _ => c end) by (intros; now apply (pixel_of_fn (N := RNum))).
  destruct (half_size_image 3 2 _ (S 0 0 1) ltac:(lia) ltac:(lia)) as (out & E & (W & H & D) & Q). destruct (half_size_image 3 2 _ (S 1 0 0) ltac:(lia) ltac:(lia)) as (out' & E' & (W' & H' & D') & Q'). exists out, out'.
  split; [apply S|]. split.
  - split; [apply S|]. intros x y Hx Hy. change (new_width _ _ _) with 3%nat in Hx. change (new_height _ _ _) with 2%nat in Hy. rewrite P by assumption. unfold source_x, source_y. cbn [swapped columns_reversed rows_reversed]. change (g_width (narrow_image 0 0 1)) with 3%nat. rewrite P by lia. destruct x as [|[|[|x]]]; try reflexivity; lia.
  - split; [exact E|]. split; [exact E'|]. intros [_ T]. change (3 / 2)%nat with 1%nat in *. change (2 / 2)%nat with 1%nat in *. specialize (T 0%nat 0%nat). unfold new_width, new_height, source_x, source_y in T. cbn [swapped columns_reversed rows_reversed] in T. rewrite W, H in T. specialize (T ltac:(lia) ltac:(lia)). cbn [Nat.sub] in T.
    rewrite Q in T by lia. rewrite Q' in T by lia. unfold half_value in T. cbn [Nat.odd Nat.even negb andb Nat.div Nat.divmod fst snd Nat.sub Nat.eqb Nat.mul Nat.add] in T. rewrite !P in T by lia. cbn in T. lra. Qed.

(** ** An example *)
Definition slope : gray RNum := of_fn (N := RNum) 64 48 (fun x y => 2 * INR x + INR y).
Definition turn_image (t : turn) (g : gray RNum) : gray RNum :=
  of_fn (N := RNum) (new_width t (g_width g) (g_height g)) (new_height t (g_width g) (g_height g)) (fun x y => pixel g (source_x t (g_width g) x y) (source_y t (g_height g) x y)).
Lemma turn_image_turned t g : turned t g (turn_image t g).
Proof. split; [apply of_fn_sized|]. intros x y Hx Hy. unfold turn_image. now rewrite (pixel_of_fn (N := RNum)) by assumption. Qed.
Lemma slope_turns : forall t : turn, usable (default_settings 7) /\ sized 64 48 slope /\ turned t slope (turn_image t slope) /\
  halves_evenly (default_settings 7) 64 /\ halves_evenly (default_settings 7) 48 /\
  pixel slope 0 0 <> pixel slope 63 0 /\ pixel slope 0 0 <> pixel slope 0 47 /\ pixel slope 1 0 <> pixel slope 0 1 /\
  exists l l', responses_of (fun s => Ok [s]) (default_settings 7) slope = Ok l /\ responses_of (fun s => Ok [s]) (default_settings 7) (turn_image t slope) = Ok l' /\ l <> [] /\
    Forall2 (turned_response t (default_settings 7)) l l'.
Proof.
  intros t. assert (S : sized 64 48 slope) by apply of_fn_sized. assert (H1 : halves_evenly (default_settings 7) 64) by now exists 8%nat. assert (H2 : halves_evenly (default_settings 7) 48) by now exists 6%nat.
  assert (P : forall x y, (x < 64)%nat -> (y < 48)%nat -> pixel slope x y = 2 * INR x + INR y) by (intros; now apply (pixel_of_fn (N := RNum))).
  split; [exact (default_usable 7)|]. split; [exact S|]. split; [apply turn_image_turned|]. split; [exact H1|]. split; [exact H2|].
  assert (N : forall x y x' y', (2 * Z.of_nat x + Z.of_nat y <> 2 * Z.of_nat x' + Z.of_nat y')%Z -> (2 * INR x + INR y <> 2 * INR x' + INR y')%R).
  { intros x y x' y' NE C. apply NE. apply eq_IZR. rewrite !plus_IZR, !mult_IZR, <- !INR_IZR_INZ. exact C. }
  split; [rewrite !P by lia; apply N; lia|]. split; [rewrite !P by lia; apply N; lia|]. split; [rewrite !P by lia; apply N; lia|].
  destruct (allocate_some (fun t => Ok [t]) (default_settings 7) 64 48) as (l & AL); [eauto|].
  destruct (space_ready (default_settings 7) 64 48 slope (fun t => Ok [t]) l (default_usable 7) ltac:(lia) ltac:(lia) S AL) as (l1 & E1 & _ & _ & (e1 & r1 & L1 & _) & _).
  destruct (response_ready (default_settings 7) 64 48 slope (fun t => Ok [t]) l (default_usable 7) ltac:(lia) ltac:(lia) S AL l1 E1) as (l2 & E2 & F2).
  pose proof (responses_turned (fun t => Ok [t]) (default_settings 7) t 64 48 slope (turn_image t slope) (default_usable 7) S (turn_image_turned t slope) (fun _ => H1) (fun _ => H2)) as Q.
  assert (R : responses_of (fun s => Ok [s]) (default_settings 7) slope = Ok l2).
  { unfold responses_of. rewrite (proj1 (space_both (fun t => Ok [t]) (default_settings 7) t 64 48 slope (turn_image t slope) S (turn_image_turned t slope) l AL)), E1. exact E2. }
  exists l2. rewrite R in Q. destruct (responses_of (fun t => Ok [t]) (default_settings 7) (turn_image t slope)) as [l2'| |]; [|destruct Q..]. exists l2'. split; [exact R|]. split; [reflexivity|]. split; [|exact Q].
  intros ->. rewrite L1 in F2. inversion F2. Qed.
