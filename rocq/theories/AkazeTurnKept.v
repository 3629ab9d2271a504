(** If no maximum rivals another one, the kept keypoints are turned as well. *)
From Coq Require Import List Arith Lia Bool Reals Lra.
From Verif Require Import Num LinSpec Outcome Gray GraySpec GrayFacts Diffuse DiffuseSpec Akaze AkazeSpec AkazeDetect AkazeDemo AkazeTurnSpec AkazeTurnProps AkazeTurnTie.
Import ListNotations.
Open Scope R_scope.

Lemma forall2_nth {X Y} (R : X -> Y -> Prop) l l' : Forall2 R l l' -> forall n,
  (forall x, nth_error l n = Some x -> exists y, nth_error l' n = Some y /\ R x y) /\ (forall y, nth_error l' n = Some y -> exists x, nth_error l n = Some x /\ R x y).
Proof.
  induction 1 as [|a b l l' H F IH]; intros n; [destruct n; split; discriminate|]. destruct n as [|n]; cbn [nth_error]; [|apply IH].
  split; intros ? E; injection E as <-; eauto.
Qed.
Lemma source_onto t W H X Y : (X < W)%nat -> (Y < H)%nat -> exists x y, (x < new_width t W H)%nat /\ (y < new_height t W H)%nat /\ source_x t W x y = X /\ source_y t H x y = Y.
Proof.
  intros HX HY. set (u := if columns_reversed t then (W - 1 - X)%nat else X). set (v := if rows_reversed t then (H - 1 - Y)%nat else Y).
  exists (if swapped t then v else u), (if swapped t then u else v). unfold source_x, source_y, new_width, new_height. subst u v. destruct (swapped t), (columns_reversed t), (rows_reversed t); lia.
Qed.
Lemma source_inj t W H x y x' y' : (x < new_width t W H)%nat -> (y < new_height t W H)%nat -> (x' < new_width t W H)%nat -> (y' < new_height t W H)%nat ->
  source_x t W x y = source_x t W x' y' -> source_y t H x y = source_y t H x' y' -> x = x' /\ y = y'.
Proof. unfold source_x, source_y, new_width, new_height. destruct (swapped t), (columns_reversed t), (rows_reversed t); lia. Qed.

Section kept.
Variables (o : rsettings) (t : turn) (w h : nat) (l l' : list rlevel).
Hypotheses (EC : columns_reversed t = true -> halves_evenly o w) (ER : rows_reversed t = true -> halves_evenly o h).
Hypothesis T : Forall2 (turned_response t o) l l'.
Hypothesis S : forall e, In e l -> well_sized e /\ octave_sized w h (octave e) (Ldet e) /\ (octave e < max_octave_evolution o)%nat /\ exists s, integer_scale o e s /\ (1 <= s)%nat.
Lemma first_ready : (forall e, In e l -> well_sized e) /\ (forall e, In e l -> exists s, integer_scale o e s /\ (1 <= s)%nat).
Proof. split; intros e He; apply S in He; apply He. Qed.
Lemma turned_sides e e' : In e l -> turned_response t o e e' -> esigma e' = esigma e /\ octave e' = octave e /\
  sized (new_width t (g_width (Ldet e)) (g_height (Ldet e))) (new_height t (g_width (Ldet e)) (g_height (Ldet e))) (Ldet e').
Proof. intros He (((_ & ES & EO & _) & _) & TR). destruct (S e He) as (_ & _ & _ & s & Is & _). split; [exact ES|]. split; [exact EO|]. exact (proj1 (TR s Is)). Qed.
Lemma second_in e' : In e' l' -> exists e, In e l /\ turned_response t o e e'.
Proof. intros He. apply In_nth_error in He as [n Hn]. destruct (proj2 (forall2_nth _ _ _ T n) e' Hn) as (e & He & R). exists e. split; [now apply nth_error_In in He|exact R]. Qed.
Lemma second_ready : (forall e, In e l' -> well_sized e) /\ (forall e, In e l' -> exists s, integer_scale o e s /\ (1 <= s)%nat).
Proof.
  split; intros e' He'; destruct (second_in e' He') as (e & He & R); destruct (turned_sides e e' He R) as (ES & EO & SD).
  - destruct (S e He) as ((W2 & H2 & _) & _). unfold well_sized. destruct SD as (W & H & D). cbn [single Rwidths] in *. rewrite W, H. unfold new_width, new_height in *. destruct (swapped t); (split; [lia|]; split; [lia|]; split; [exact W|]; split; [exact H|exact D]).
  - destruct (S e He) as (_ & _ & _ & s & Is & Hs). exists s. split; [|exact Hs]. unfold integer_scale in *. now rewrite ES, EO.
Qed.
Lemma levels_maxima class e e' x y : nth_error l class = Some e -> nth_error l' class = Some e' -> (x < g_width (Ldet e'))%nat -> (y < g_height (Ldet e'))%nat ->
  let X := source_x t (g_width (Ldet e)) x y in let Y := source_y t (g_height (Ldet e)) x y in
  (maximum_of o l' class e' x y <-> maximum_of o l class e X Y) /\
  (maximum_of o l' class e' x y -> turned_keypoint t w h (keypoint_at o class e X Y) (keypoint_at o class e' x y)).
Proof.
  intros N N' Hx Hy. cbv zeta. assert (TR : turned_response t o e e'). { destruct (proj1 (forall2_nth _ _ _ T class) e N) as (e2 & N2 & R). rewrite N' in N2. injection N2 as <-. exact R. }
  destruct (S e (nth_error_In _ _ N)) as (_ & SD & OM & s & Is & _). unfold octave_sized in SD. pose proof SD as (WD & HD & _). set (W := halved (octave e) w) in *. set (H := halved (octave e) h) in *. cbn [single Rwidths] in *. rewrite WD, HD.
  destruct (turned_sides e e' (nth_error_In _ _ N) TR) as (ES & EO & SD'). cbn [single Rwidths] in *. rewrite WD, HD in SD'. pose proof SD' as (A1 & A2 & _).
  assert (V : 0 <= esigma e * derivative_factor o / 2 ^ octave e). { destruct (S e (nth_error_In _ _ N)) as (_ & _ & _ & n & [In _] & Hn). apply le_INR in Hn. cbn [INR] in Hn. lra. }
  destruct (maximum_turn o t w h EC ER l l' class e e' W H x y N N' TR SD Hx Hy V) as [M1 M2]. split; [exact M1|]. intros MX. pose proof (M2 MX) as EP. clear M1 M2.
  assert (BX : (x < new_width t W H)%nat /\ (y < new_height t W H)%nat) by (rewrite <- A1, <- A2; auto). destruct BX as [BX BY].
  unfold turned_keypoint, keypoint_at. cbn [kp_x kp_y kp_response kp_size kp_octave kp_class]. rewrite EO, ES, EP. split; [|split; [|auto]].
  - unfold source_x, new_width, new_height in *. destruct (swapped t), (columns_reversed t); try reflexivity; (apply (centre_mirror o); [now apply EC|exact OM|assumption]).
  - unfold source_y, new_width, new_height in *. destruct (swapped t), (rows_reversed t); try reflexivity; (apply (centre_mirror o); [now apply ER|exact OM|assumption]).
Qed.
Lemma keypoints_turned kps kps' : apart o l -> apart o l' -> rextrema o l = Ok kps -> rextrema o l' = Ok kps' ->
  (forall kp', In kp' kps' -> exists kp, In kp kps /\ turned_keypoint t w h kp kp') /\ (forall kp, In kp kps -> exists kp', In kp' kps' /\ turned_keypoint t w h kp kp').
Proof.
  intros A A' E E'. destruct first_ready as [W1 S1], second_ready as [W2 S2]. split.
  - intros kp' I'. destruct (proj2 (extrema_sound o l' W2 S2 kps' E') kp' I') as (c & e' & x & y & M & ->). pose proof M as (N' & ((B1 & B2 & B3 & B4) & _) & _).
    destruct (proj2 (forall2_nth _ _ _ T c) e' N') as (e & N & R). destruct (levels_maxima c e e' x y N N' ltac:(refine (Nat.lt_trans _ _ _ _ B2); lia) ltac:(refine (Nat.lt_trans _ _ _ _ B4); lia)) as [Q1 Q2]. eexists. split; [|exact (Q2 M)].
    apply Q1 in M. apply (extrema_complete o l W1 S1 kps c e _ _ E M). intros c2 e2 x2 y2 M2 NE. exact (A _ _ _ _ _ _ _ _ M M2 NE).
  - intros kp I. destruct (proj2 (extrema_sound o l W1 S1 kps E) kp I) as (c & e & X & Y & M & ->). pose proof M as (N & ((B1 & B2 & B3 & B4) & _) & _).
    destruct (proj1 (forall2_nth _ _ _ T c) e N) as (e' & N' & R). destruct (turned_sides e e' (nth_error_In _ _ N) R) as (_ & _ & (Ew & Eh & _)).
    destruct (source_onto t (g_width (Ldet e)) (g_height (Ldet e)) X Y ltac:(refine (Nat.lt_trans _ _ _ _ B2); lia) ltac:(refine (Nat.lt_trans _ _ _ _ B4); lia)) as (x & y & Hx & Hy & SX & SY). cbn [single Rwidths] in *. rewrite <- Ew in Hx. rewrite <- Eh in Hy.
    destruct (levels_maxima c e e' x y N N' Hx Hy) as [Q1 Q2]. cbn [single Rwidths] in *. rewrite SX, SY in Q1, Q2. assert (M' := proj2 Q1 M). eexists. split; [|exact (Q2 M')].
    apply (extrema_complete o l' W2 S2 kps' c e' _ _ E' M'). intros c2 e2 x2 y2 M2 NE. exact (A' _ _ _ _ _ _ _ _ M' M2 NE).
Qed.
End kept.

(** ** An example: one maximum, beside the axis *)
Definition one_spot (c : nat) : gray RNum := of_fn 64 64 (fun x y => if ((x =? c) && (y =? 31))%nat%bool then 1 else 0).
Definition night : gray RNum := of_fn 64 64 (fun _ _ => 0).
Definition spot_at (c : nat) : rlevel := Level (P := Rwidths) (128 / 100) (16 / 10) 0 0 [] night night night night night night night night (one_spot c).
Lemma one_pixel c x y : (x < 64)%nat -> (y < 64)%nat -> pixel (one_spot c) x y = if ((x =? c) && (y =? 31))%nat%bool then 1 else 0.
Proof. intros. unfold one_spot. now rewrite (proj2 (of_fn_image (N := RNum) 64 64 _)). Qed.
Lemma one_sized c : sized 64 64 (one_spot c).
Proof. apply (of_fn_sized (N := RNum)). Qed.
Lemma night_turned : turned mirror night night.
Proof.
  assert (Q : sized 64 64 night) by apply (of_fn_sized (N := RNum)). assert (P : forall x y, (x < 64)%nat -> (y < 64)%nat -> pixel night x y = 0). { intros. unfold night. now rewrite (proj2 (of_fn_image (N := RNum) 64 64 _)). }
  destruct Q as (W & H & D). unfold turned. rewrite W, H. split; [split; [exact W|split; [exact H|exact D]]|]. unfold new_width, new_height, source_x, source_y. cbn [swapped columns_reversed rows_reversed mirror]. intros x y Hx Hy. rewrite !P by lia. reflexivity.
Qed.
Lemma spot_turned : turned_response mirror demo_settings (spot_at 31) (spot_at 32).
Proof.
  assert (P : same_place (spot_at 31) (spot_at 32)) by (unfold same_place; cbn [etime esigma octave sublevel tau_steps spot_at]; auto 10).
  assert (L : turned_level mirror (spot_at 31) (spot_at 32)). { split; [exact P|]. cbn [Lt Lsmooth spot_at]. split; exact night_turned. }
  split; [exact L|]. clear P L. intros s _. unfold turned_inside. cbn [Ldet spot_at swapped mirror]. destruct (one_sized 31) as (W & H & _), (one_sized 32) as (W' & H' & D'). cbn [single Rwidths] in *. rewrite W, H.
  split; [exact (one_sized 32)|]. rewrite W', H'. unfold source_x, source_y. cbn [swapped columns_reversed rows_reversed mirror]. intros x y _ Hx _ Hy. rewrite !one_pixel by lia.
  replace (64 - 1 - x =? 31)%nat with (x =? 32)%nat by (apply eq_true_iff_eq; rewrite !Nat.eqb_eq; lia). reflexivity.
Qed.
Lemma one_ready c : well_sized (spot_at c) /\ octave_sized 64 64 (octave (spot_at c)) (Ldet (spot_at c)) /\ (octave (spot_at c) < max_octave_evolution demo_settings)%nat /\ exists s, integer_scale demo_settings (spot_at c) s /\ (1 <= s)%nat.
Proof.
  split; [|split; [exact (one_sized c)|split; [cbn; lia|]]].
  - unfold well_sized. cbn [Ldet spot_at]. destruct (one_sized c) as (W & H & _). cbn [single Rwidths] in *. rewrite W, H. split; [lia|]. split; [lia|]. exact (one_sized c).
  - exists 2%nat. split; [|lia]. unfold integer_scale. cbn [esigma octave spot_at derivative_factor demo_settings default_settings pow INR]. lra.
Qed.
Lemma one_maximum c k e x y : maximum_of demo_settings [spot_at c] k e x y -> k = 0%nat /\ e = spot_at c /\ x = c /\ y = 31%nat.
Proof.
  intros (N & (B & T & _) & _). destruct k as [|[|?]]; try discriminate. injection N as <-. destruct (one_sized c) as (W & H & _). cbn [Ldet spot_at single Rwidths] in *. rewrite W, H in B. rewrite one_pixel in T by lia. cbn [detector_threshold demo_settings default_settings] in T.
  destruct (Nat.eqb_spec x c) as [E1|E1], (Nat.eqb_spec y 31) as [E2|E2]; cbn [andb] in T; [auto| | |]; exfalso; lra.
Qed.
Lemma one_apart c : apart demo_settings [spot_at c].
Proof. intros k e x y k' e' x' y' M M' NE. exfalso. apply NE. apply one_maximum in M as (-> & _ & -> & ->). apply one_maximum in M' as (-> & _ & -> & ->). reflexivity. Qed.
Lemma one_clear c : (c = 31 \/ c = 32)%nat -> maximum_of demo_settings [spot_at c] 0 (spot_at c) c 31.
Proof.
  intros Hc. split; [reflexivity|]. destruct (one_sized c) as (W & H & _). split.
  - unfold strict_maximum. cbn [Ldet spot_at single Rwidths] in *. rewrite W, H. rewrite (one_pixel c c 31) by lia. rewrite Nat.eqb_refl. cbn [Nat.eqb andb detector_threshold demo_settings default_settings]. split; [lia|]. split; [lra|].
    intros X Y HX HY NE. rewrite one_pixel by lia. destruct (Nat.eqb_spec X c), (Nat.eqb_spec Y 31); cbn [andb]; try lra. subst. exfalso. now apply NE.
  - exists 2%nat. split; [unfold integer_scale; cbn [esigma octave spot_at derivative_factor demo_settings default_settings pow INR]; lra|]. unfold clear_of_border. cbn [Ldet spot_at single Rwidths] in *. rewrite W, H.
    replace (INR 64) with 64 by (rewrite INR_IZR_INZ; reflexivity). replace (INR 31) with 31 by (rewrite INR_IZR_INZ; reflexivity). replace (INR 2) with 2 by (rewrite INR_IZR_INZ; reflexivity).
    assert (31 <= INR c <= 32). { destruct Hc as [-> | ->]; [replace (INR 31) with 31 by (rewrite INR_IZR_INZ; reflexivity)|replace (INR 32) with 32 by (rewrite INR_IZR_INZ; reflexivity)]; lra. }
    assert (sqrt 2 <= 1415 / 1000). { apply Rsqr_incr_0_var; [|lra]. rewrite Rsqr_sqrt by lra. unfold Rsqr. lra. } pose proof (sqrt_pos 2). lra.
Qed.
Lemma one_found c : (c = 31 \/ c = 32)%nat -> exists kps, rextrema demo_settings [spot_at c] = Ok kps /\ kps <> [].
Proof.
  intros Hc. assert (WS : forall e, In e [spot_at c] -> well_sized e) by (intros e [<-|[]]; apply one_ready). assert (SC : forall e, In e [spot_at c] -> exists s, integer_scale demo_settings e s /\ (1 <= s)%nat) by (intros e [<-|[]]; apply one_ready).
  eexists. split; [apply (extrema_fold demo_settings [spot_at c] WS)|]. intros E. pose proof (extrema_fold demo_settings [spot_at c] WS) as F. rewrite E in F. exact (proj1 (extrema_none demo_settings [spot_at c] WS SC) F _ _ _ _ (one_clear c Hc)).
Qed.
Lemma kept_example : halves_evenly demo_settings 64 /\ Forall2 (turned_response mirror demo_settings) [spot_at 31] [spot_at 32] /\
  (forall e, In e [spot_at 31] -> well_sized e /\ octave_sized 64 64 (octave e) (Ldet e) /\ (octave e < max_octave_evolution demo_settings)%nat /\ exists s, integer_scale demo_settings e s /\ (1 <= s)%nat) /\
  apart demo_settings [spot_at 31] /\ apart demo_settings [spot_at 32] /\
  (exists kps, rextrema demo_settings [spot_at 31] = Ok kps /\ kps <> []) /\ exists kps', rextrema demo_settings [spot_at 32] = Ok kps' /\ kps' <> [].
Proof.
  split; [exists 8%nat; reflexivity|]. split; [constructor; [exact spot_turned|constructor]|]. split; [intros e [<-|[]]; apply one_ready|]. split; [apply one_apart|]. split; [apply one_apart|]. split; apply one_found; auto.
Qed.
