(** Proofs about extrema detection. *)
From Coq Require Import List Arith Lia Bool ZArith Reals Lra Psatz.
From Verif Require Import Num LinSpec LinFacts Outcome OutcomeFacts Gray GraySpec GrayFacts GrayReal GrayProps Diffuse DiffuseSpec DiffuseFacts DiffuseProps BicubicSpec BicubicFacts P3pFacts Akaze AkazeSpec AkazeSchedule AkazeSpace.
Import ListNotations.
Open Scope R_scope.

(** ** One pixel *)
Lemma read_nth {A} (l : list A) i d : (i < length l)%nat -> read l i = Ok (nth i l d).
Proof. intros H. unfold read. now rewrite (nth_error_nth' l d H). Qed.
Lemma Rltb_reflect a b : reflect (a < b) (@ltb RNum a b).
Proof. cbn [ltb RNum]. unfold Rltb. destruct (Rlt_dec a b); constructor; assumption. Qed.
Lemma Rleb_reflect a b : reflect (a <= b) (@leb RNum a b).
Proof. cbn [leb RNum]. unfold Rleb. destruct (Rle_dec a b); constructor; assumption. Qed.
Section pixel.
Variables (o : rsettings) (g : gray RNum).
Let w := g_width g.
Let h := g_height g.
Hypotheses (Hw : (2 <= w)%nat) (Hh : (2 <= h)%nat) (S : sized w h g).
Definition scanned : list nat := seq (w + 1) (length (g_data g) - w - 1 - (w + 1)).
Lemma data_length : length (g_data g) = (w * h)%nat.
Proof. destruct S as (_ & _ & L). exact L. Qed.
Lemma scanned_iff i : In i scanned <-> (w + 1 <= i /\ i + w + 1 < w * h)%nat.
Proof. unfold scanned. rewrite in_seq, data_length. nia. Qed.
Definition maximum_b (i : nat) : bool := match is_maximum Rwidths o g i with Ok b => b | _ => false end.
Lemma pixel_index i : (i < w * h)%nat -> nth i (g_data g) 0 = pixel g (i mod w) (i / w) /\ (i mod w < w)%nat /\ (i / w < h)%nat.
Proof. intros H. assert (i mod w < w)%nat by (apply Nat.mod_upper_bound; lia). assert (i / w < h)%nat by (apply Nat.div_lt_upper_bound; lia). split; [|auto]. unfold pixel. fold w. f_equal. pose proof (Nat.div_mod i w ltac:(lia)). nia. Qed.
Lemma maximum_spec i : In i scanned -> is_maximum Rwidths o g i = Ok (maximum_b i) /\ (maximum_b i = true <-> strict_maximum (detector_threshold o) g (i mod w) (i / w)).
Proof.
  intros I. apply scanned_iff in I. unfold maximum_b. unfold is_maximum. cbv zeta. fold w. cbn [single Rwidths].
  rewrite !(read_nth (A := RNum) _ _ (0 : RNum)) by (rewrite data_length; lia). cbn [bind]. split; [reflexivity|].
  set (x := (i mod w)%nat). set (y := (i / w)%nat). assert (Ei : i = (y * w + x)%nat) by (unfold x, y; pose proof (Nat.div_mod i w ltac:(lia)); nia).
  assert (Bx : (x < w)%nat) by (apply Nat.mod_upper_bound; lia).
  assert (By : (1 <= y)%nat) by (unfold y; apply Nat.div_le_lower_bound; lia). assert (By' : (y + 1 < h)%nat) by nia.
  assert (P : forall X Y, nth (Y * w + X) (g_data g) 0 = pixel g X Y) by reflexivity.
  assert (Q : forall k, nth k (g_data g) 0 = nth k (g_data g) 0) by reflexivity.
  unfold strict_maximum. fold w h. rewrite !andb_true_iff, !negb_true_iff, !Nat.eqb_neq. cbn [narrow Rwidths].
  rewrite <- !(reflect_iff _ _ (Rltb_reflect _ _)). split.
  - intros [[[[[[[[[[[X0 X1] T] A1] A2] A3] A4] A5] A6] A7] A8] _] || intros [[[[[[[[[[X0 X1] T] A1] A2] A3] A4] A5] A6] A7] A8]. split; [lia|].
    replace (i - (w + 1))%nat with ((y - 1) * w + (x - 1))%nat in A1 by nia. replace (i - w)%nat with ((y - 1) * w + x)%nat in A2 by nia. replace (i - w + 1)%nat with ((y - 1) * w + (x + 1))%nat in A3 by nia.
    replace (i - 1)%nat with (y * w + (x - 1))%nat in A4 by nia. replace (i + 1)%nat with (y * w + (x + 1))%nat in A5 by nia. replace (i + w - 1)%nat with ((y + 1) * w + (x - 1))%nat in A6 by nia.
    replace (i + w)%nat with ((y + 1) * w + x)%nat in A7 by nia. replace (i + w + 1)%nat with ((y + 1) * w + (x + 1))%nat in A8 by nia. rewrite Ei in *. rewrite !P in *.
    split; [exact T|]. intros X Y HX HY NE.
    assert (CX : X = (x - 1)%nat \/ X = x \/ X = (x + 1)%nat) by lia. assert (CY : Y = (y - 1)%nat \/ Y = y \/ Y = (y + 1)%nat) by lia.
    destruct CX as [EX|[EX|EX]], CY as [EY|[EY|EY]]; rewrite EX, EY; try assumption. exfalso. apply NE. now rewrite EX, EY.
  - intros (B & T & M). 
    assert (N : forall X Y, (x - 1 <= X <= x + 1)%nat -> (y - 1 <= Y <= y + 1)%nat -> (X <> x \/ Y <> y) -> nth (Y * w + X) (g_data g) 0 < nth i (g_data g) 0).
    { intros X Y HX HY NE. rewrite Ei, !P. apply M; [assumption|assumption|]. intros E. injection E. lia. }
    repeat split; try lia.
    + rewrite Ei, P. exact T.
    + replace (i - (w + 1))%nat with ((y - 1) * w + (x - 1))%nat by nia. apply N; lia.
    + replace (i - w)%nat with ((y - 1) * w + x)%nat by nia. apply N; lia.
    + replace (i - w + 1)%nat with ((y - 1) * w + (x + 1))%nat by nia. apply N; lia.
    + replace (i - 1)%nat with (y * w + (x - 1))%nat by nia. apply N; lia.
    + replace (i + 1)%nat with (y * w + (x + 1))%nat by nia. apply N; lia.
    + replace (i + w - 1)%nat with ((y + 1) * w + (x - 1))%nat by nia. apply N; lia.
    + replace (i + w)%nat with ((y + 1) * w + x)%nat by nia. apply N; lia.
    + replace (i + w + 1)%nat with ((y + 1) * w + (x + 1))%nat by nia. apply N; lia. Qed.
Lemma maximum_scanned t x y : strict_maximum t g x y -> In (y * w + x)%nat scanned /\ ((y * w + x) mod w = x)%nat /\ ((y * w + x) / w = y)%nat.
Proof. intros ((B1 & B2 & B3 & B4) & _). fold w in B2. fold h in B4. split; [apply scanned_iff; nia|]. split; [rewrite Nat.add_comm, Nat.mod_add by lia; apply Nat.mod_small; lia|]. rewrite Nat.add_comm, Nat.div_add by lia. rewrite Nat.div_small; lia. Qed.
End pixel.

(** ** The border test *)
Lemma round_half x : (1 <= Rround x)%Z <-> 1 / 2 <= x.
Proof.
  destruct (Rle_dec 0 x) as [H|H].
  - pose proof (Rround_spec x H) as S. split; intros K.
    + apply IZR_le in K. lra.
    + assert (L : IZR 0 < IZR (Rround x)) by lra. apply lt_IZR in L. lia.
  - split; [|lra]. intros K. exfalso. unfold Rround in K. destruct (Rle_dec 0 x); [contradiction|]. pose proof (floor_Int_part (- x + 1 / 2)) as F. unfold floor_of in F. assert (L : IZR (-1) < IZR (Int_part (- x + 1 / 2))) by lra. apply lt_IZR in L. lia. Qed.
Lemma round_below x z : 0 <= x -> (Rround x <= z)%Z <-> x < IZR z + 1 / 2.
Proof. intros H. pose proof (Rround_spec x H) as S. split; intros K; [apply IZR_le in K; lra|]. assert (L : IZR (Rround x) < IZR (z + 1)) by (rewrite plus_IZR; lra). apply lt_IZR in L. lia. Qed.
Lemma scale_unique o e s s' : integer_scale o e s -> integer_scale o e s' -> s = s'.
Proof. unfold integer_scale. intros H H'. rewrite !INR_IZR_INZ in *. assert (A : IZR (Z.of_nat s) < IZR (Z.of_nat s' + 1)) by (rewrite plus_IZR; lra). assert (B : IZR (Z.of_nat s') < IZR (Z.of_nat s + 1)) by (rewrite plus_IZR; lra). apply lt_IZR in A, B. lia. Qed.
Section level.
Variables (o : rsettings) (class : nat) (e : rlevel) (s : nat).
Hypotheses (WS : well_sized e) (IS : integer_scale o e s) (S0 : (1 <= s)%nat).
Lemma level_sigma_int : level_sigma Rwidths Rmath o e = INR s.
Proof.
  unfold level_sigma, level_size. cbn [m_round Rmath narrow Rwidths]. change (single Rwidths) with RNum. change (double Rwidths) with RNum. rewrite ratio_pow. cbn [mul div RNum]. rewrite (round_nat _ s); [now rewrite <- INR_IZR_INZ| |exact IS]. unfold integer_scale in IS. assert (1 <= INR s) by (change 1 with (INR 1); apply le_INR; exact S0). lra. Qed.
Lemma out_iff x y : is_out Rwidths Rmath o e (candidate Rwidths o class e x y) = false <-> clear_of_border (10 * sqrt 2 * INR s) (Ldet e) x y.
Proof.
  unfold is_out. cbv zeta. rewrite level_sigma_int. unfold candidate, smax. cbn [kp_x kp_y m_round Rmath]. change (single Rwidths) with RNum. set (reach := (10 * sqrt 2 * INR s)).
  replace (ofZ 10 * sqrt_ (ofZ 2) * INR s)%num with (reach : carrier RNum) by reflexivity.
  assert (R0 : 0 <= reach). { unfold reach. apply Rmult_le_pos; [|apply pos_INR]. pose proof (sqrt_pos 2). lra. }
  assert (K : forall n side, (@ltb RNum (@sub RNum (IZR (Rround (@sub RNum (@of_nat RNum n) reach))) one) zero = false /\ @leb RNum (@of_nat RNum side) (@add RNum (IZR (Rround (@add RNum (@of_nat RNum n) reach))) one) = false) <-> reach + 1 / 2 <= INR n < INR side - 3 / 2 - reach).
  { intros n side. unfold of_nat. cbn [sub add zero one ofZ RNum]. rewrite <- !INR_IZR_INZ.
    destruct (Rltb_reflect (IZR (Rround (INR n - reach)) - 1) 0) as [A|A], (Rleb_reflect (INR side) (IZR (Rround (INR n + reach)) + 1)) as [B|B].
    all: pose proof (round_half (INR n - reach)) as RH; pose proof (round_below (INR n + reach) (Z.of_nat side - 2) ltac:(pose proof (pos_INR n); lra)) as RB; rewrite minus_IZR, <- INR_IZR_INZ in RB.
    1, 2: split; [intros [? ?]; discriminate|]; intros [H _]; exfalso; assert (C : (1 <= Rround (INR n - reach))%Z) by (apply RH; lra); apply IZR_le in C; lra.
    1: split; [intros [? ?]; discriminate|]; intros [_ H]; exfalso; assert (C : (Rround (INR n + reach) <= Z.of_nat side - 2)%Z) by (apply RB; lra); apply IZR_le in C; rewrite minus_IZR, <- INR_IZR_INZ in C; lra.
    split; [intros _|auto]. split.
    - assert (1 / 2 <= INR n - reach); [|lra]. apply RH. assert (L : IZR 0 < IZR (Rround (INR n - reach))) by lra. apply lt_IZR in L. lia.
    - assert (INR n + reach < INR side - 2 + 1 / 2); [|lra]. apply RB. assert (L : IZR (Rround (INR n + reach)) < IZR (Z.of_nat side - 1)) by (rewrite minus_IZR, <- INR_IZR_INZ; lra). apply lt_IZR in L. lia. }
  unfold clear_of_border. rewrite <- (K x (g_width (Ldet e))), <- (K y (g_height (Ldet e))). rewrite !orb_false_iff. tauto. Qed.
Lemma placed_at x y : let kp := candidate Rwidths o class e x y in
  KeyPoint (F := RNum) (to_image Rwidths (ratio_of (octave e)) (kp_x kp)) (to_image Rwidths (ratio_of (octave e)) (kp_y kp)) (kp_response kp) (kp_size kp) (kp_octave kp) (kp_class kp) (kp_angle kp) = keypoint_at o class e x y.
Proof.
  cbv zeta. unfold candidate, keypoint_at, to_image, level_size, centre. cbn [kp_x kp_y kp_response kp_size kp_octave kp_class kp_angle narrow Rwidths]. change (single Rwidths) with RNum. change (double Rwidths) with RNum. rewrite ratio_pow. unfold of_nat, lit. cbn [ofZ add mul sub div one zero RNum abs_]. rewrite <- !INR_IZR_INZ. f_equal; lra. Qed.
End level.

(** ** The scan as a fold over maxima *)
Notation event := (nat * (rlevel * (nat * nat)))%type.
Section fold.
Variables (o : rsettings) (levels : list rlevel).
Hypotheses (WS : forall e, In e levels -> well_sized e) (SC : forall e, In e levels -> exists s, integer_scale o e s /\ (1 <= s)%nat).
Definition place (ev : event) : rkeypoint := let '(class, (e, (x, y))) := ev in keypoint_at o class e x y.
Definition cand (ev : event) : rkeypoint := let '(class, (e, (x, y))) := ev in candidate Rwidths o class e x y.
Definition ev_level (ev : event) : rlevel := fst (snd ev).
Definition ev_ratio (ev : event) : R := 2 ^ octave (ev_level ev).
Definition is_clear (ev : event) : bool := negb (is_out Rwidths Rmath o (ev_level ev) (cand ev)).
Definition put (cache : list rkeypoint) (ev : event) : list rkeypoint :=
  match first_near Rwidths (ev_ratio ev) (cand ev) 0 cache with
  | None => if is_clear ev then cache ++ [place ev] else cache
  | Some (k, prev) => if @ltb RNum (kp_response prev) (kp_response (cand ev)) then (if is_clear ev then firstn k cache ++ place ev :: skipn (S k) cache else cache) else cache
  end.
Definition level_events (p : nat * rlevel) : list event :=
  map (fun i => (fst p, (snd p, (i mod g_width (Ldet (snd p)), i / g_width (Ldet (snd p))))))%nat (filter (maximum_b o (Ldet (snd p))) (scanned (Ldet (snd p)))).
Definition events : list event := flat_map level_events (combine (seq 0 (length levels)) levels).
Lemma first_near_spec ratio kp cache : forall k0,
  match first_near Rwidths ratio kp k0 cache with
  | None => forall p, In p cache -> near_cached Rwidths ratio kp p = false
  | Some (k, prev) => exists j, k = (k0 + j)%nat /\ nth_error cache j = Some prev /\ near_cached Rwidths ratio kp prev = true
  end.
Proof.
  induction cache as [|p cache IH]; intros k0; cbn [first_near]; [intros ? []|]. destruct (near_cached Rwidths ratio kp p) eqn:E; [exists 0%nat; rewrite Nat.add_0_r; auto|].
  specialize (IH (k0 + 1)%nat). destruct (first_near Rwidths ratio kp (k0 + 1) cache) as [[k prev]|].
  - destruct IH as (j & -> & N & T). exists (S j). split; [lia|]. auto.
  - intros q [<-|H]; auto. Qed.
Lemma consider_put cache class e x y : consider Rwidths Rmath o e cache (candidate Rwidths o class e x y) = Ok (put cache (class, (e, (x, y)))).
Proof.
  unfold consider. cbv zeta. pose proof (placed_at o class e x y) as PA. cbv zeta in PA. change (single Rwidths) with RNum in *. rewrite PA. clear PA. unfold put, is_clear, ev_ratio, ev_level, place, cand. cbn [fst snd]. change (single Rwidths) with RNum. rewrite ratio_pow. set (kp := candidate Rwidths o class e x y).
  pose proof (first_near_spec (2 ^ octave e) kp cache 0) as F. destruct (first_near Rwidths (2 ^ octave e) kp 0 cache) as [[k prev]|]; [|destruct (is_out Rwidths Rmath o e kp); reflexivity].
  destruct F as (j & -> & N & _). cbn [Nat.add]. change (single Rwidths) with RNum in *. match goal with |- context [ltb ?a ?b] => destruct (ltb a b) end; [|reflexivity]. destruct (is_out Rwidths Rmath o e kp); [reflexivity|]. cbn [negb].
  unfold write. assert (L : (j < length cache)%nat) by (apply nth_error_Some; congruence). apply Nat.ltb_lt in L. now rewrite L. Qed.
Lemma scan_level_events class e cache : well_sized e -> scan_level Rwidths Rmath o cache (class, e) = Ok (fold_left put (level_events (class, e)) cache).
Proof.
  intros (W2 & H2 & S). unfold scan_level. cbv zeta. assert (L : length (g_data (Ldet e)) = (g_width (Ldet e) * g_height (Ldet e))%nat) by apply S.
  match goal with |- context [(?a <? ?b)%nat] => replace (a <? b)%nat with false by (symmetry; apply Nat.ltb_ge; change (length (g_data (Ldet e)) >= g_width (Ldet e) + 1)%nat; rewrite L; nia) end.
  unfold level_events. cbn [fst snd].
  assert (K : forall l cache, (forall i, In i l -> In i (scanned (Ldet e))) -> foldM (scan_pixel Rwidths Rmath o class e) l cache = Ok (fold_left put (map (fun i => (class, (e, (i mod g_width (Ldet e), i / g_width (Ldet e)))))%nat (filter (maximum_b o (Ldet e)) l)) cache)).
  { clear cache. induction l as [|i l IH]; intros cache I; cbn [foldM filter map]; [reflexivity|]. unfold scan_pixel at 1. destruct (maximum_spec o (Ldet e) W2 H2 S i) as [E _]; [apply I; now left|].
    match goal with |- context [bind (bind ?x _) _] => replace x with (Ok (maximum_b o (Ldet e) i)) by (symmetry; exact E) end. cbn [bind]. destruct (maximum_b o (Ldet e) i); cbn [map fold_left].
    - change (single Rwidths) with RNum. rewrite consider_put. cbn [bind]. apply IH. intros; apply I. now right.
    - cbn [bind]. apply IH. intros; apply I. now right. }
  apply K. auto. Qed.
Lemma scan_all l : forall cache, (forall p, In p l -> well_sized (snd p)) -> foldM (scan_level Rwidths Rmath o) l cache = Ok (fold_left put (flat_map level_events l) cache).
Proof.
  induction l as [|[c e] l IH]; intros cache H; cbn [foldM flat_map fold_left]; [reflexivity|]. rewrite scan_level_events by (apply (H (c, e)); now left). cbn [bind]. rewrite IH by (intros; apply H; now right). now rewrite fold_left_app. Qed.
Lemma combine_seq_in (c : nat) (e : rlevel) l : forall k, In (c, e) (combine (seq k (length l)) l) <-> (k <= c)%nat /\ nth_error l (c - k) = Some e.
Proof.
  induction l as [|a l IH]; intros k; cbn [length seq combine In].
  - split; [intros []|]. intros [_ H]. destruct (c - k)%nat; discriminate.
  - rewrite IH. split.
    + intros [E|[L H]]; [injection E as <- <-; rewrite Nat.sub_diag; auto|]. split; [lia|]. replace (c - k)%nat with (S (c - S k)) by lia. exact H.
    + intros [L H]. destruct (Nat.eq_dec c k) as [->|NE]; [left; rewrite Nat.sub_diag in H; cbn in H; congruence|]. right. split; [lia|]. replace (c - k)%nat with (S (c - S k)) in H by lia. exact H. Qed.
Lemma extrema_fold : rextrema o levels = Ok (filter_upper Rwidths (fold_left put events [])).
Proof.
  unfold rextrema, find_extrema. rewrite scan_all; [reflexivity|]. intros [c e] H. apply combine_seq_in in H as [_ H]. apply nth_error_In in H. now apply WS. Qed.
Definition good (ev : event) : Prop := let '(class, (e, (x, y))) := ev in nth_error levels class = Some e /\ strict_maximum (detector_threshold o) (Ldet e) x y.
Lemma events_iff ev : In ev events <-> good ev.
Proof.
  unfold events. rewrite in_flat_map. destruct ev as [c [e [x y]]]. cbn [good]. split.
  - intros ([c' e'] & H & K). apply combine_seq_in in H as [_ H]. rewrite Nat.sub_0_r in H. unfold level_events in K. cbn [fst snd] in K. apply in_map_iff in K as (i & E & F). apply filter_In in F as [I M]. injection E as <- <- <- <-. split; [exact H|].
    destruct (WS e' (nth_error_In _ _ H)) as (W2 & H2 & S). now apply (maximum_spec o (Ldet e') W2 H2 S i I).
  - intros [H M]. exists (c, e). split; [apply combine_seq_in; rewrite Nat.sub_0_r; split; [lia|exact H]|]. destruct (WS e (nth_error_In _ _ H)) as (W2 & H2 & S). destruct (maximum_scanned (Ldet e) W2 H2 S _ x y M) as (I & Ex & Ey).
    unfold level_events. cbn [fst snd]. cbn [single Rwidths] in *. apply in_map_iff. exists (y * g_width (Ldet e) + x)%nat. cbn [single Rwidths]. rewrite Ex, Ey. split; [reflexivity|]. apply filter_In. split; [exact I|]. apply (maximum_spec o (Ldet e) W2 H2 S); [exact I|]. now rewrite Ex, Ey. Qed.
Lemma level_nodup c e : well_sized e -> NoDup (level_events (c, e)).
Proof.
  intros (W2 & _). unfold level_events. cbn [fst snd]. assert (N : NoDup (filter (maximum_b o (Ldet e)) (scanned (Ldet e)))) by (apply NoDup_filter; unfold scanned; apply seq_NoDup).
  induction N as [|i l NI N IH]; cbn [map]; constructor; [|exact IH]. intros H. apply in_map_iff in H as (j & E & I). injection E as E1 E2. apply NI. replace i with j; [exact I|].
  pose proof (Nat.div_mod i (g_width (Ldet e)) ltac:(lia)). pose proof (Nat.div_mod j (g_width (Ldet e)) ltac:(lia)). cbn [single Rwidths] in *. congruence. Qed.
Lemma nodup_app {A} (a b : list A) : NoDup a -> NoDup b -> (forall x, In x a -> ~ In x b) -> NoDup (a ++ b).
Proof. intros Na Nb D. induction Na as [|x a NI Na IH]; cbn [app]; [exact Nb|]. constructor; [|apply IH; intros; apply D; now right]. intros H. apply in_app_or in H as [H|H]; [now apply NI|]. apply (D x); [now left|exact H]. Qed.
Lemma events_nodup : NoDup events.
Proof.
  unfold events. assert (A : forall l k, (forall e, In e l -> well_sized e) -> NoDup (flat_map level_events (combine (seq k (length l)) l))); [|apply A; exact WS].
  induction l as [|e l IH]; intros k H; cbn [length seq combine flat_map]; [constructor|]. apply nodup_app; [apply level_nodup, H; now left|apply IH; intros; apply H; now right|].
  intros [c q] I1 I2. apply in_flat_map in I2 as ([c' e'] & J & I2). apply combine_seq_in in J as [J _]. unfold level_events in I1, I2. cbn [fst snd] in *. apply in_map_iff in I1 as (? & E1 & _), I2 as (? & E2 & _). injection E1 as E1 _. injection E2 as E2 _. lia. Qed.
Lemma clear_iff class e x y : nth_error levels class = Some e -> (is_clear (class, (e, (x, y))) = true <-> exists s, integer_scale o e s /\ clear_of_border (10 * sqrt 2 * INR s) (Ldet e) x y).
Proof.
  intros H. unfold is_clear, ev_level, cand. cbn [fst snd]. apply nth_error_In in H. destruct (SC e H) as (s & IS & S0). rewrite negb_true_iff, (out_iff o class e s IS S0). split; [eauto|]. intros (s' & IS' & C). now rewrite (scale_unique o e s s' IS IS'). Qed.
Lemma place_inj a b : good a -> good b -> place a = place b -> a = b.
Proof.
  destruct a as [c [e [x y]]], b as [c' [e' [x' y']]]. cbn [good place]. intros [H _] [H' _]. unfold keypoint_at, centre. intros E. injection E as E1 E2 _ _ _ E3. subst c'. rewrite H in H'. injection H' as <-.
  assert (P : 0 < 2 ^ octave e) by (apply pow_lt; lra). assert (x = x') by (apply INR_eq; nra). assert (y = y') by (apply INR_eq; nra). congruence. Qed.

(** ** What the fold keeps *)
Definition sound (past : list event) (cache : list rkeypoint) : Prop :=
  NoDup cache /\ forall kp, In kp cache -> exists ev, In ev past /\ is_clear ev = true /\ kp = place ev.
Lemma in_replaced {A} (l : list A) k v x : In x (firstn k l ++ v :: skipn (S k) l) -> x = v \/ In x l.
Proof. intros H. apply in_app_or in H as [H|[H|H]]; [right; rewrite <- (firstn_skipn k l); apply in_or_app; now left|now left|]. right. rewrite <- (firstn_skipn (S k) l). apply in_or_app. now right. Qed.
Lemma replaced_keeps {A} (l : list A) k v old x : nth_error l k = Some old -> x <> old -> In x l -> In x (firstn k l ++ v :: skipn (S k) l).
Proof.
  revert l. induction k as [|k IH]; intros [|a l] H NE I; try discriminate; cbn [nth_error firstn skipn app] in *.
  - injection H as ->. destruct I as [->|I]; [contradiction|]. now right.
  - destruct I as [->|I]; [now left|]. right. now apply IH. Qed.
Lemma replaced_nodup {A} (l : list A) k v : NoDup l -> ~ In v l -> NoDup (firstn k l ++ v :: skipn (S k) l).
Proof.
  revert l. induction k as [|k IH]; intros l N NI; destruct l as [|a l]; cbn [firstn skipn app].
  - constructor; [intros []|constructor].
  - inversion N; subst. constructor; [|assumption]. intros H; apply NI; now right.
  - constructor; [intros []|constructor].
  - inversion N as [|? ? N1 N2]; subst. constructor; [|apply IH; [exact N2|intros H; apply NI; now right]]. intros H. apply in_replaced in H as [->|H]; [apply NI; now left|contradiction]. Qed.
Lemma put_sound past cache ev : (forall d, In d past -> good d) -> good ev -> ~ In ev past -> sound past cache -> sound (past ++ [ev]) (put cache ev).
Proof.
  intros G Ge NI [N S]. assert (K : ~ In (place ev) cache). { intros H. destruct (S _ H) as (d & Id & _ & E). apply NI. apply place_inj in E; [now subst|exact Ge|now apply G]. }
  assert (S' : sound (past ++ [ev]) cache). { split; [exact N|]. intros kp H. destruct (S kp H) as (d & Id & C & E). exists d. split; [apply in_or_app; now left|auto]. }
  assert (L : In ev (past ++ [ev])) by (apply in_or_app; right; now left).
  unfold put. pose proof (first_near_spec (ev_ratio ev) (cand ev) cache 0) as F. destruct (first_near Rwidths (ev_ratio ev) (cand ev) 0 cache) as [[k prev]|].
  - destruct (@ltb RNum _ _); [|exact S']. destruct (is_clear ev) eqn:C; [|exact S']. split; [now apply replaced_nodup|]. intros kp H. apply in_replaced in H as [->|H]; [exists ev; auto|]. now apply S'.
  - destruct (is_clear ev) eqn:C; [|exact S']. split; [apply nodup_app; [exact N|constructor; [intros []|constructor]|intros x Hx [<-|[]]; contradiction]|]. intros kp H. apply in_app_or in H as [H|[<-|[]]]; [now apply S'|]. exists ev. auto. Qed.
Lemma fold_sound rest : forall past cache, (forall d, In d (past ++ rest) -> good d) -> NoDup (past ++ rest) -> sound past cache -> sound (past ++ rest) (fold_left put rest cache).
Proof.
  induction rest as [|ev rest IH]; intros past cache G N S; cbn [fold_left]; [now rewrite app_nil_r|]. change (ev :: rest) with ([ev] ++ rest) in *. rewrite app_assoc in *. apply IH; [exact G|exact N|]. apply put_sound; [| | |exact S].
  - intros d H. apply G. rewrite <- app_assoc. apply in_or_app. now left.
  - apply G. rewrite <- app_assoc. apply in_or_app. right. now left.
  - rewrite <- app_assoc in N. apply NoDup_remove_2 in N. intros H. apply N. apply in_or_app. now left. Qed.
Lemma filter_upper_in kp l : In kp (filter_upper Rwidths l) -> In kp l.
Proof. induction l as [|a l IH]; cbn [filter_upper]; [auto|]. destruct (existsb (suppressed Rwidths a) l); [intros H; right; auto|]. intros [->|H]; [now left|right; auto]. Qed.
Lemma filter_upper_nodup l : NoDup l -> NoDup (filter_upper Rwidths l).
Proof. induction 1 as [|a l NI N IH]; cbn [filter_upper]; [constructor|]. destruct (existsb _ l); [exact IH|]. constructor; [|exact IH]. intros H. now apply filter_upper_in in H. Qed.
Lemma filter_upper_keeps kp l : In kp l -> (forall q, In q l -> suppressed Rwidths kp q = false) -> In kp (filter_upper Rwidths l).
Proof.
  induction l as [|a l IH]; intros H S; cbn [filter_upper]; [exact H|]. destruct H as [->|H].
  - replace (existsb (suppressed Rwidths kp) l) with false; [now left|]. symmetry. apply not_true_is_false. intros E. apply existsb_exists in E as (q & Hq & E). rewrite S in E; [discriminate|now right].
  - destruct (existsb _ l); [|right]; apply IH; auto; intros; apply S; now right. Qed.
Lemma filter_upper_nonempty l : l <> [] -> filter_upper Rwidths l <> [].
Proof. induction l as [|a l IH]; [contradiction|]. intros _. cbn [filter_upper]. destruct l as [|b l]; [discriminate|]. destruct (existsb _ (b :: l)); [apply IH; discriminate|discriminate]. Qed.
Lemma cache_sound : sound events (fold_left put events []).
Proof. apply (fold_sound events [] []); cbn [app]; [intros d; apply events_iff|apply events_nodup|]. split; [constructor|intros ? []]. Qed.
Lemma extrema_sound kps : rextrema o levels = Ok kps -> NoDup kps /\ forall kp, In kp kps -> exists class e x y, maximum_of o levels class e x y /\ kp = keypoint_at o class e x y.
Proof.
  rewrite extrema_fold. intros E. injection E as <-. destruct cache_sound as [N S]. split; [now apply filter_upper_nodup|]. intros kp H. apply filter_upper_in in H. destruct (S kp H) as ([c [e [x y]]] & I & C & ->). apply events_iff in I as [I M]. exists c, e, x, y. split; [|reflexivity]. split; [exact I|]. split; [exact M|]. now apply clear_iff in C. Qed.
Lemma put_length cache ev : (length cache <= length (put cache ev))%nat.
Proof.
  unfold put. pose proof (first_near_spec (ev_ratio ev) (cand ev) cache 0) as F. destruct (first_near Rwidths (ev_ratio ev) (cand ev) 0 cache) as [[k prev]|].
  - destruct F as (j & -> & Nj & _). destruct (@ltb RNum _ _); [|lia]. destruct (is_clear ev); [|lia]. cbn [Nat.add]. rewrite app_length, firstn_length. cbn [length]. rewrite skipn_length. lia.
  - destruct (is_clear ev); [|lia]. rewrite app_length. lia. Qed.
Lemma fold_length rest : forall cache, (length cache <= length (fold_left put rest cache))%nat.
Proof. induction rest as [|ev rest IH]; intros cache; cbn [fold_left]; [lia|]. pose proof (put_length cache ev). pose proof (IH (put cache ev)). lia. Qed.
Lemma put_clear_nonempty cache ev : is_clear ev = true -> put cache ev <> [].
Proof.
  intros C. destruct cache as [|a cache].
  - unfold put. cbn [first_near]. rewrite C. discriminate.
  - intros E. pose proof (put_length (a :: cache) ev) as L. rewrite E in L. cbn in L. lia. Qed.
Lemma extrema_none : rextrema o levels = Ok [] <-> forall class e x y, ~ maximum_of o levels class e x y.
Proof.
  rewrite extrema_fold. split.
  - intros E c e x y (H & M & C). injection E as E. assert (I : In (c, (e, (x, y))) events) by (apply events_iff; split; assumption). apply (filter_upper_nonempty (fold_left put events [])); [|exact E].
    apply in_split in I as (l1 & l2 & ->). rewrite fold_left_app. cbn [fold_left]. set (c1 := fold_left put l1 []). assert (N : put c1 (c, (e, (x, y))) <> []) by (apply put_clear_nonempty; now apply clear_iff).
    pose proof (fold_length l2 (put c1 (c, (e, (x, y))))) as L. intros Z. rewrite Z in L. destruct (put c1 (c, (e, (x, y)))); [contradiction|cbn in L; lia].
  - intros H. f_equal. destruct (filter_upper Rwidths (fold_left put events [])) as [|kp l] eqn:E; [reflexivity|]. destruct (extrema_sound (kp :: l)) as [_ S]; [now rewrite extrema_fold, E|]. destruct (S kp) as (c & e & x & y & M & _); [now left|]. now apply H in M. Qed.

(** ** Maxima without rivals are reported *)
Lemma squares (a b z : R) : a * a + b * b <= z * z <-> a ^ 2 + b ^ 2 <= z ^ 2.
Proof. split; lra. Qed.
Lemma near_iff class e x y p : near_cached Rwidths (2 ^ octave e) (candidate Rwidths o class e x y) p = true <->
  (class = kp_class p \/ class = S (kp_class p)) /\ corner_distance2 e x y p <= (esigma e * derivative_factor o) ^ 2.
Proof.
  unfold near_cached. cbv zeta. unfold candidate, level_size. cbn [kp_x kp_y kp_class kp_size narrow Rwidths]. unfold corner_distance2, of_nat. cbn [single double Rwidths ofZ mul sub add RNum]. rewrite <- !INR_IZR_INZ.
  rewrite andb_true_iff, orb_true_iff, andb_true_iff, negb_true_iff, !Nat.eqb_eq, Nat.eqb_neq. rewrite <- (reflect_iff _ _ (Rleb_reflect _ _)).
  assert (C : (class = kp_class p \/ class <> 0 /\ class - 1 = kp_class p)%nat <-> (class = kp_class p \/ class = S (kp_class p))%nat) by lia. rewrite C.
  apply and_iff_compat_l. apply (squares (INR x * 2 ^ octave e - kp_x p) (INR y * 2 ^ octave e - kp_y p) (esigma e * derivative_factor o)). Qed.
Lemma suppressed_iff (a b : rkeypoint) : suppressed Rwidths a b = true <-> kp_class b = S (kp_class a) /\ distance2 a b <= kp_size a ^ 2 /\ kp_response a <= kp_response b.
Proof.
  unfold suppressed. cbv zeta. unfold distance2. cbn [single Rwidths mul sub add RNum]. rewrite !andb_true_iff, Nat.eqb_eq. rewrite <- !(reflect_iff _ _ (Rleb_reflect _ _)).
  assert (C : (kp_class a + 1 = kp_class b)%nat <-> kp_class b = S (kp_class a)) by lia. rewrite C.
  apply and_iff_compat_l. apply and_iff_compat_r. apply (squares (kp_x a - kp_x b) (kp_y a - kp_y b) (kp_size a)). Qed.
Lemma extrema_complete kps class e x y : rextrema o levels = Ok kps -> maximum_of o levels class e x y ->
  (forall class' e' x' y', maximum_of o levels class' e' x' y' -> (class', (x', y')) <> (class, (x, y)) -> ~ rivals o class e x y class' e' x' y') -> In (keypoint_at o class e x y) kps.
Proof.
  rewrite extrema_fold. intros Ek (H & M & C) Alone. injection Ek as <-. set (c := (class, (e, (x, y)))). change (keypoint_at o class e x y) with (place c).
  assert (Gc : good c) by (split; assumption). assert (Cc : is_clear c = true) by (now apply clear_iff).
  assert (NR : forall d, good d -> is_clear d = true -> d <> c -> let '(dc, (ed, (dx, dy))) := d in ~ rivals o class e x y dc ed dx dy).
  { intros [dc [ed [dx dy]]] [Hd Md] Cd NE. apply Alone; [split; [exact Hd|]; split; [exact Md|]; now apply clear_iff in Cd|]. intros E. injection E as -> -> ->. apply NE. unfold c. congruence. }
  assert (Ic : In c events) by (now apply events_iff). apply in_split in Ic as (l1 & l2 & El). pose proof events_nodup as ND. rewrite El in ND.
  assert (G : forall d, In d (l1 ++ c :: l2) -> good d) by (rewrite <- El; intros d; apply events_iff).
  (* adding c *)
  assert (A1 : In (place c) (put (fold_left put l1 []) c)).
  { set (cache := fold_left put l1 []). assert (S : sound l1 cache). { apply (fold_sound l1 [] []); cbn [app]; [intros d Hd; apply G, in_or_app; now left|clear - ND; induction l1 as [|a l IH]; [constructor|]; inversion ND; subst; constructor; [intros I; apply H1, in_or_app; now left|now apply IH]|]. split; [constructor|intros ? []]. }
    unfold put. pose proof (first_near_spec (ev_ratio c) (cand c) cache 0) as F. destruct (first_near Rwidths (ev_ratio c) (cand c) 0 cache) as [[k prev]|].
    - destruct F as (j & -> & Nj & Near). cbn [Nat.add]. pose proof (nth_error_In _ _ Nj) as Ip. destruct S as [_ S]. destruct (S prev Ip) as (d & Id & Cd & Ed).
      assert (NE : d <> c). { intros ->. apply NoDup_remove_2 in ND. apply ND, in_or_app. now left. }
      assert (Gd : good d) by (apply G, in_or_app; now left). specialize (NR d Gd Cd NE). destruct d as [dc [ed [dx dy]]]. cbn [place] in Ed. subst prev.
      match goal with |- context [@ltb ?n ?a ?b] => destruct (Rltb_reflect a b : reflect (a < b) (@ltb n a b)) as [L|L] end.
      + rewrite Cc. apply in_or_app. right. now left.
      + exfalso. apply NR. split; [apply Rnot_lt_le in L; exact L|]. left. apply (near_iff class e x y) in Near. exact Near.
    - rewrite Cc. apply in_or_app. right. now left. }
  (* later ones *)
  assert (A2 : forall l, (forall d, In d l -> good d /\ d <> c) -> forall cache, In (place c) cache -> In (place c) (fold_left put l cache)).
  { induction l as [|d l IH]; intros Hl cache I; cbn [fold_left]; [exact I|]. apply IH; [intros; apply Hl; now right|]. destruct (Hl d) as [Gd NE]; [now left|]. specialize (NR d Gd).
    unfold put. pose proof (first_near_spec (ev_ratio d) (cand d) cache 0) as F. destruct (first_near Rwidths (ev_ratio d) (cand d) 0 cache) as [[k prev]|].
    - destruct F as (j & -> & Nj & Near). cbn [Nat.add]. match goal with |- context [@ltb ?n ?a ?b] => destruct (Rltb_reflect a b : reflect (a < b) (@ltb n a b)) as [L|L] end; [|exact I]. destruct (is_clear d) eqn:Cd; [|exact I]. specialize (NR eq_refl NE).
      apply (replaced_keeps cache j _ prev); [exact Nj| |exact I]. intros <-. destruct d as [dc [ed [dx dy]]]. apply NR. split; [apply Rlt_le; exact L|]. right. left. apply (near_iff dc ed dx dy) in Near. exact Near.
    - destruct (is_clear d); [apply in_or_app; now left|exact I]. }
  rewrite El, fold_left_app. cbn [fold_left]. assert (A3 := A2 l2 ltac:(intros d Hd; split; [apply G, in_or_app; right; now right|]; intros ->; apply NoDup_remove_2 in ND; apply ND, in_or_app; now right) _ A1).
  apply filter_upper_keeps; [exact A3|]. intros q Hq. pose proof cache_sound as [_ S]. rewrite El, fold_left_app in S. cbn [fold_left] in S. destruct (S q Hq) as (d & Id & Cd & ->).
  apply not_true_is_false. intros E. apply suppressed_iff in E as (E1 & E2 & E3). assert (NE : d <> c). { intros ->. cbn [place c kp_class keypoint_at] in E1. lia. }
  specialize (NR d (G d Id) Cd NE). destruct d as [dc [ed [dx dy]]]. apply NR. split; [exact E3|]. right. right. split; [exact E1|exact E2]. Qed.
End fold.
