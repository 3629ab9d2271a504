(** Proofs about the binary descriptor. *)
From Coq Require Import List Arith Lia Bool ZArith NArith.
From Verif Require Import Num Outcome OutcomeFacts Gray GraySpec Diffuse Akaze AkazeBits.
Import ListNotations.

(** ** Slices *)
Lemma read_at {X} (l : list X) i d : (i < length l)%nat -> read l i = Ok (nth i l d).
Proof. intros H. unfold read. now rewrite (nth_error_nth' l d H). Qed.
Lemma write_at {X} (l : list X) i v : (i < length l)%nat -> exists l', write l i v = Ok l' /\ length l' = length l /\ forall j d, (j < length l)%nat -> nth j l' d = if (j =? i)%nat then v else nth j l d.
Proof.
  intros H. unfold write. apply Nat.ltb_lt in H as B. rewrite B. eexists. split; [reflexivity|]. split.
  - rewrite app_length, firstn_length. cbn [length]. rewrite skipn_length. lia.
  - intros j d Hj. destruct (Nat.eqb_spec j i) as [->|NE].
    + rewrite app_nth2; rewrite firstn_length; [|lia]. replace (i - Nat.min i (length l))%nat with 0%nat by lia. reflexivity.
    + destruct (le_lt_dec i j) as [L|L].
      * rewrite app_nth2; rewrite firstn_length; [|lia]. replace (j - Nat.min i (length l))%nat with (S (j - S i)) by lia. cbn [nth]. rewrite <- (firstn_skipn (S i) l) at 2. rewrite app_nth2; rewrite firstn_length; [|lia]. f_equal. lia.
      * rewrite app_nth1 by (rewrite firstn_length; lia). rewrite <- (firstn_skipn i l) at 2. now rewrite app_nth1 by (rewrite firstn_length; lia). Qed.

(** ** Bits *)
Lemma small_byte a : (forall m, (8 <= m)%N -> N.testbit a m = false) -> (a < 256)%N.
Proof. intros H. assert (E : a = N.modulo a (2 ^ 8)). { apply N.bits_inj. intros m. destruct (N.lt_ge_cases m 8) as [L|L]; [now rewrite N.mod_pow2_bits_low|]. rewrite N.mod_pow2_bits_high by exact L. now apply H. } rewrite E. apply N.mod_upper_bound. discriminate. Qed.
Lemma byte_small a m : (a < 256)%N -> (8 <= m)%N -> N.testbit a m = false.
Proof. intros H L. replace a with (N.modulo a (2 ^ 8)) by (apply N.mod_small; exact H). now apply N.mod_pow2_bits_high. Qed.
Lemma set_bit old (res : bool) n m : N.testbit (N.lor old (N.shiftl (if res then 1 else 0) n)) m = (N.testbit old m || ((m =? n)%N && res))%bool.
Proof.
  rewrite N.lor_spec. f_equal. destruct res; [|rewrite N.shiftl_0_l, N.bits_0; now rewrite andb_false_r]. rewrite andb_true_r. destruct (N.eqb_spec m n) as [->|NE].
  - rewrite N.shiftl_spec_high' by apply N.le_refl. now rewrite N.sub_diag.
  - destruct (N.lt_ge_cases m n) as [L|L]; [now apply N.shiftl_spec_low|]. rewrite N.shiftl_spec_high' by exact L. apply N.bits_above_log2. change (N.log2 1) with 0%N. lia. Qed.

Section describe.
Variables (P : widths) (M32 : math (single P)) (A : angles (single P)) (o : settings (double P)).
Notation f32 := (single P).
Lemma compare_encodes (values : list f32) bytes bits a b : encodes bytes bits -> (length bits < 512)%nat -> (a < length values)%nat -> (b < length values)%nat ->
  exists bytes', compare_pair P values (bytes, length bits) (a, b) = Ok (bytes', (length bits + 1)%nat) /\ encodes bytes' (bits ++ [ltb (nth b values zero) (nth a values zero)]).
Proof.
  intros (L & S & B) Hl Ha Hb. unfold compare_pair. cbn [fst snd]. rewrite (read_at values a zero Ha), (read_at values b zero Hb). cbn [bind]. set (res := ltb (nth b values zero) (nth a values zero)).
  assert (I : (length bits / 8 < length bytes)%nat) by (rewrite L; apply Nat.div_lt_upper_bound; lia). rewrite (read_at bytes _ 0%N I). cbn [bind]. set (n := length bits) in *.
  destruct (write_at bytes (n / 8) (N.lor (nth (n / 8) bytes 0%N) (N.shiftl (if res then 1 else 0) (N.of_nat (n mod 8)))) I) as (bytes' & E & L' & W). rewrite E. cbn [bind]. exists bytes'. split; [reflexivity|].
  assert (M8 : (n mod 8 < 8)%nat) by (apply Nat.mod_upper_bound; lia).
  split; [now rewrite L'|]. split.
  - intros x Hx. apply In_nth with (d := 0%N) in Hx as (j & Hj & <-). rewrite L' in Hj. rewrite W by exact Hj. destruct (Nat.eqb_spec j (n / 8)) as [->|NE]; [|apply S, nth_In; exact Hj].
    apply small_byte. intros m Hm. rewrite set_bit, (byte_small _ m) by (try exact Hm; apply S, nth_In; exact I). cbn [orb]. destruct (N.eqb_spec m (N.of_nat (n mod 8))) as [->|NE]; [lia|reflexivity].
  - intros k Hk. unfold bit. rewrite W by (rewrite L; apply Nat.div_lt_upper_bound; lia). pose proof (Nat.div_mod k 8 ltac:(lia)) as DK. pose proof (Nat.div_mod n 8 ltac:(lia)) as DN. assert (K8 : (k mod 8 < 8)%nat) by (apply Nat.mod_upper_bound; lia). pose proof (B k Hk) as Bk. unfold bit in Bk.
    destruct (Nat.eqb_spec (k / 8) (n / 8)) as [E8|NE8].
    + rewrite <- E8, set_bit, Bk. destruct (N.eqb_spec (N.of_nat (k mod 8)) (N.of_nat (n mod 8))) as [EM|NM].
      * assert (k = n) by lia. subst k. rewrite (nth_overflow bits) by (unfold n; lia). rewrite app_nth2 by (unfold n; lia). fold n. rewrite Nat.sub_diag. reflexivity.
      * assert (k <> n) by (intros ->; now apply NM). rewrite andb_false_l, orb_false_r. destruct (le_lt_dec n k) as [G|G]; [rewrite !nth_overflow; [reflexivity| |]; rewrite ?app_length; cbn [length]; fold n; lia|]. now rewrite app_nth1.
    + rewrite Bk. assert (k <> n) by (intros ->; now apply NE8). destruct (le_lt_dec n k) as [G|G]; [rewrite !nth_overflow; [reflexivity| |]; rewrite ?app_length; cbn [length]; fold n; lia|]. now rewrite app_nth1. Qed.
Lemma compare_all (values : list f32) l : forall bytes bits, encodes bytes bits -> (length bits + length l <= 512)%nat -> (forall a b, In (a, b) l -> (a < length values)%nat /\ (b < length values)%nat) ->
  exists bytes', foldM (compare_pair P values) l (bytes, length bits) = Ok (bytes', (length bits + length l)%nat) /\ encodes bytes' (bits ++ map (fun '(a, b) => ltb (nth b values zero) (nth a values zero)) l).
Proof.
  induction l as [|[a b] l IH]; intros bytes bits E L I; cbn [foldM map length].
  - exists bytes. rewrite app_nil_r, Nat.add_0_r. auto.
  - cbn [length] in L. destruct (I a b) as [Ia Ib]; [now left|]. destruct (compare_encodes values bytes bits a b E ltac:(lia) Ia Ib) as (b1 & E1 & S1). rewrite E1. cbn [bind].
    destruct (IH b1 (bits ++ [ltb (nth b values zero) (nth a values zero)])) as (b2 & E2 & S2); [exact S1|rewrite app_length; cbn [length]; lia|intros; apply I; now right|].
    rewrite app_length in E2. cbn [length] in E2. rewrite E2. exists b2. split; [do 2 f_equal; lia|]. now rewrite <- app_assoc in S2. Qed.
Lemma pairs_order channels lvl : (channels <= 3)%nat -> (lvl <= 2)%nat ->
  pairs channels ((lvl + 2) * (lvl + 2)) = map (fun p => (channels * fst (snd p) + fst p, channels * snd (snd p) + fst p)%nat) (comparisons channels ((lvl + 2) * (lvl + 2))).
Proof. intros H1 H2. destruct channels as [|[|[|[|?]]]]; [| | | |lia]; (destruct lvl as [|[|[|?]]]; [| | |lia]; vm_compute; reflexivity). Qed.
Lemma comparisons_in channels count c i j : In (c, (i, j)) (comparisons channels count) <-> (c < channels)%nat /\ (i < j)%nat /\ (j < count)%nat.
Proof. unfold comparisons. rewrite filter_In, !in_prod_iff, !in_seq. cbn [fst snd]. rewrite Nat.ltb_lt. lia. Qed.

(** ** Means *)
Variables (e : level P) (q : pattern P).
Hypothesis S : sized (g_width (Lt e)) (g_height (Lt e)) (Lt e) /\ sized (g_width (Lt e)) (g_height (Lt e)) (Lx e) /\ sized (g_width (Lt e)) (g_height (Lt e)) (Ly e).
Hypothesis CH : (descriptor_channels o <= 3)%nat.
Notation ch := (descriptor_channels o).
Lemma get_at (g : gray f32) w h p : sized w h g -> (0 <= fst p < Z.of_nat w)%Z -> (0 <= snd p < Z.of_nat h)%Z -> get g (Z.to_nat (fst p)) (Z.to_nat (snd p)) = Ok (at_ P g p).
Proof.
  clear CH S. intros (W & H & L) Hx Hy. unfold get. rewrite W, H. replace (Z.to_nat (fst p) <? w)%nat with true by (symmetry; apply Nat.ltb_lt; lia). replace (Z.to_nat (snd p) <? h)%nat with true by (symmetry; apply Nat.ltb_lt; lia). cbn [andb].
  rewrite (read_at _ _ zero); [unfold at_, pixel; now rewrite W|]. rewrite L. assert (Z.to_nat (fst p) < w)%nat by lia. assert (Z.to_nat (snd p) < h)%nat by lia. nia. Qed.
Definition inside_b (p : Z * Z) : bool := ((Z.leb 0 (fst p) && Z.ltb (fst p) (Z.of_nat (g_width (Lt e)))) && (Z.leb 0 (snd p) && Z.ltb (snd p) (Z.of_nat (g_height (Lt e)))))%bool.
Lemma inside_iff p : inside_b p = true <-> in_image P (Lt e) p.
Proof. unfold inside_b, in_image. rewrite !andb_true_iff, !Z.leb_le, !Z.ltb_lt. reflexivity. Qed.
Definition grow (s : f32 * f32 * f32) (kl : Z * Z) : f32 * f32 * f32 :=
  let '(di, dx, dy) := s in
  (add di (reading P M32 o e q 0 kl), (if (1 <? ch)%nat then add dx (reading P M32 o e q 1 kl) else dx), (if (2 <? ch)%nat then add dy (reading P M32 o e q 2 kl) else dy)).
Lemma add_sample_spec s kl : add_sample P M32 o e (p_x q) (p_y q) (p_cos q) (p_sin q) (p_scale q) (Some s) kl = Ok (if inside_b (under P M32 q (fst kl) (snd kl)) then Some (grow s kl) else None).
Proof.
  destruct s as [[di dx] dy]. unfold add_sample. set (p := under P M32 q (fst kl) (snd kl)).
  match goal with |- (if ?b then _ else _) = _ => change b with (inside_b p) end. destruct (inside_b p) eqn:I; [|reflexivity]. apply inside_iff in I as [I1 I2]. destruct S as (S1 & S2 & S3).
  change (m_trunc M32 (m_round M32 (add (p_x q) (add (mul (mul (opp (ofZ (snd kl))) (p_sin q)) (p_scale q)) (mul (mul (ofZ (fst kl)) (p_cos q)) (p_scale q)))))) with (fst p).
  change (m_trunc M32 (m_round M32 (add (p_y q) (add (mul (mul (ofZ (snd kl)) (p_cos q)) (p_scale q)) (mul (mul (ofZ (fst kl)) (p_sin q)) (p_scale q)))))) with (snd p).
  rewrite (get_at (Lt e) _ _ p S1 I1 I2). cbn [bind]. unfold grow, reading. fold p.
  destruct ch as [|[|[|[|?]]]]; [| | | |lia]; cbn [Nat.ltb Nat.leb Nat.eqb]; [reflexivity|reflexivity| |]; rewrite (get_at (Lx e) _ _ p S2 I1 I2); cbn [bind]; rewrite (get_at (Ly e) _ _ p S3 I1 I2); cbn [bind]; reflexivity. Qed.
Definition all_inside (l : list (Z * Z)) : bool := forallb (fun kl => inside_b (under P M32 q (fst kl) (snd kl))) l.
Lemma none_stays l : foldM (add_sample P M32 o e (p_x q) (p_y q) (p_cos q) (p_sin q) (p_scale q)) l None = Ok None.
Proof. induction l; cbn [foldM add_sample bind]; auto. Qed.
Lemma add_samples l : forall s, foldM (add_sample P M32 o e (p_x q) (p_y q) (p_cos q) (p_sin q) (p_scale q)) l (Some s) = Ok (if all_inside l then Some (fold_left grow l s) else None).
Proof.
  induction l as [|kl l IH]; intros s; cbn [foldM fold_left all_inside forallb]; [reflexivity|]. rewrite add_sample_spec. cbn [bind]. destruct (inside_b (under P M32 q (fst kl) (snd kl))); cbn [andb]; [apply IH|apply none_stays]. Qed.
Lemma grow_sums l : forall di dx dy, fold_left grow l (di, dx, dy) =
  (fold_left add (map (reading P M32 o e q 0) l) di, (if (1 <? ch)%nat then fold_left add (map (reading P M32 o e q 1) l) dx else dx), (if (2 <? ch)%nat then fold_left add (map (reading P M32 o e q 2) l) dy else dy)).
Proof. induction l as [|kl l IH]; intros di dx dy; cbn [fold_left map grow]; [now destruct (1 <? ch)%nat, (2 <? ch)%nat|]. rewrite IH. now destruct (1 <? ch)%nat, (2 <? ch)%nat. Qed.
Lemma fill_cell_spec n values pos ij : (length values = 48)%nat -> (pos + Nat.max ch 1 <= 48)%nat ->
  exists values', fill_cell P M32 o e (p_x q) (p_y q) (p_cos q) (p_sin q) (p_scale q) n (Some (values, pos)) ij = Ok (if all_inside (cell n ij) then Some (values', (pos + ch)%nat) else None) /\
    length values' = 48%nat /\ (forall k, (k < pos)%nat -> nth k values' zero = nth k values zero) /\ forall c, (c < ch)%nat -> nth (pos + c) values' zero = mean P M32 o e q n c ij.
Proof.
  intros L Hp. unfold fill_cell. change (list_prod (run (fst ij) n) (run (snd ij) n)) with (cell n ij). rewrite add_samples. cbn [bind].
  destruct (all_inside (cell n ij)).
  2:{ exists (map (fun k => if (k <? pos)%nat then nth k values zero else mean P M32 o e q n (k - pos) ij) (seq 0 48)). split; [reflexivity|]. split; [now rewrite map_length, seq_length|].
      assert (NT : forall k f, (k < 48)%nat -> nth k (map f (seq 0 48)) (zero : f32) = f k). { intros k f Hk. rewrite (nth_indep _ zero (f 0%nat)) by (rewrite map_length, seq_length; exact Hk). rewrite map_nth, seq_nth by exact Hk. reflexivity. }
      split; intros k Hk; rewrite NT by lia; [apply Nat.ltb_lt in Hk; now rewrite Hk|]. replace (pos + k <? pos)%nat with false by (symmetry; apply Nat.ltb_ge; lia). f_equal. lia. }
  rewrite grow_sums. unfold of_nat. 
  destruct (write_at values pos (div (fold_left add (map (reading P M32 o e q 0) (cell n ij)) zero) (ofZ (Z.of_nat (length (cell n ij))))) ltac:(lia)) as (v1 & E1 & L1 & W1). rewrite E1. cbn [bind].
  destruct ch as [|[|[|[|?]]]] eqn:EC; [| | | |lia]; cbn [Nat.ltb Nat.leb bind].
  - exists v1. split; [reflexivity|]. split; [now rewrite L1|]. split; [|intros; lia]. intros k Hk. rewrite W1 by lia. replace (k =? pos)%nat with false by (symmetry; apply Nat.eqb_neq; lia). reflexivity.
  - exists v1. split; [reflexivity|]. split; [now rewrite L1|]. split.
    + intros k Hk. rewrite W1 by lia. replace (k =? pos)%nat with false by (symmetry; apply Nat.eqb_neq; lia). reflexivity.
    + intros c Hc. replace c with 0%nat by lia. rewrite Nat.add_0_r, W1, Nat.eqb_refl by lia. reflexivity.
  - destruct (write_at v1 (pos + 1) (div (fold_left add (map (reading P M32 o e q 1) (cell n ij)) zero) (ofZ (Z.of_nat (length (cell n ij))))) ltac:(lia)) as (v2 & E2 & L2 & W2). rewrite E2. cbn [bind].
    exists v2. split; [reflexivity|]. split; [lia|]. split.
    + intros k Hk. rewrite W2, W1 by lia. replace (k =? pos)%nat with false by (symmetry; apply Nat.eqb_neq; lia). replace (k =? pos + 1)%nat with false by (symmetry; apply Nat.eqb_neq; lia). reflexivity.
    + intros c Hc. destruct c as [|[|?]]; [| |lia].
      * rewrite Nat.add_0_r, W2, W1, Nat.eqb_refl by lia. replace (pos =? pos + 1)%nat with false by (symmetry; apply Nat.eqb_neq; lia). reflexivity.
      * rewrite W2, Nat.eqb_refl by lia. reflexivity.
  - destruct (write_at v1 (pos + 1) (div (fold_left add (map (reading P M32 o e q 1) (cell n ij)) zero) (ofZ (Z.of_nat (length (cell n ij))))) ltac:(lia)) as (v2 & E2 & L2 & W2). rewrite E2. cbn [bind].
    destruct (write_at v2 (pos + 2) (div (fold_left add (map (reading P M32 o e q 2) (cell n ij)) zero) (ofZ (Z.of_nat (length (cell n ij))))) ltac:(lia)) as (v3 & E3 & L3 & W3). rewrite E3. cbn [bind].
    exists v3. split; [reflexivity|]. split; [lia|]. split.
    + intros k Hk. rewrite W3, W2, W1 by lia. replace (k =? pos)%nat with false by (symmetry; apply Nat.eqb_neq; lia). replace (k =? pos + 1)%nat with false by (symmetry; apply Nat.eqb_neq; lia). replace (k =? pos + 2)%nat with false by (symmetry; apply Nat.eqb_neq; lia). reflexivity.
    + intros c Hc. destruct c as [|[|[|?]]]; [| | |lia].
      * rewrite Nat.add_0_r, W3, W2, W1, Nat.eqb_refl by lia. replace (pos =? pos + 1)%nat with false by (symmetry; apply Nat.eqb_neq; lia). replace (pos =? pos + 2)%nat with false by (symmetry; apply Nat.eqb_neq; lia). reflexivity.
      * rewrite W3, W2, Nat.eqb_refl by lia. replace (pos + 1 =? pos + 2)%nat with false by (symmetry; apply Nat.eqb_neq; lia). reflexivity.
      * rewrite W3, Nat.eqb_refl by lia. reflexivity. Qed.
Notation fill := (fill_cell P M32 o e (p_x q) (p_y q) (p_cos q) (p_sin q) (p_scale q)).
Lemma fill_none n l : foldM (fill n) l None = Ok None.
Proof. induction l; cbn [foldM fill_cell bind]; auto. Qed.
Lemma fill_cells n l : forall values k, length values = 48%nat -> (k + length l <= 16)%nat ->
  exists values', foldM (fill n) l (Some (values, (ch * k)%nat)) = Ok (if forallb (fun ij => all_inside (cell n ij)) l then Some (values', (ch * (k + length l))%nat) else None) /\
    length values' = 48%nat /\ (forall j, (j < ch * k)%nat -> nth j values' zero = nth j values zero) /\ forall i c, (i < length l)%nat -> (c < ch)%nat -> nth (ch * (k + i) + c) values' zero = mean P M32 o e q n c (nth i l (0, 0)%Z).
Proof.
  induction l as [|ij l IH]; intros values k L K; cbn [foldM forallb length].
  - exists values. rewrite Nat.add_0_r. split; [reflexivity|]. split; [exact L|]. split; [auto|]. intros; lia.
  - cbn [length] in K. destruct (fill_cell_spec n values (ch * k) ij L) as (v1 & E1 & L1 & U1 & M1); [nia|]. rewrite E1. cbn [bind]. replace (ch * k + ch)%nat with (ch * (k + 1))%nat by lia. destruct (IH v1 (k + 1)%nat L1 ltac:(lia)) as (v2 & E2 & L2 & U2 & M2).
    exists v2. split; [|split; [exact L2|]; split].
    + destruct (all_inside (cell n ij)); cbn [andb]; [|apply fill_none]. rewrite E2. replace (k + 1 + length l)%nat with (k + Datatypes.S (length l))%nat by lia. reflexivity.
    + intros j Hj. rewrite U2 by nia. apply U1. exact Hj.
    + intros [|i] c Hi Hc; cbn [nth].
      * rewrite Nat.add_0_r, U2 by nia. apply M1. exact Hc.
      * replace (k + Datatypes.S i)%nat with (k + 1 + i)%nat by lia. apply M2; [lia|exact Hc]. Qed.
Lemma grid_corners n : grid (descriptor_pattern_size o) n = corners P o n.
Proof. unfold grid, corners, steps. now rewrite map_map. Qed.
Definition grid_inside (n : nat) : bool := forallb (fun ij => all_inside (cell n ij)) (cells P o n).
Lemma grid_inside_iff n : grid_inside n = true <-> pattern_inside P M32 o e q n.
Proof.
  unfold grid_inside, pattern_inside, all_inside. rewrite forallb_forall. split.
  - intros H ij kl I1 I2. specialize (H ij I1). rewrite forallb_forall in H. apply inside_iff. now apply H.
  - intros H ij I1. apply forallb_forall. intros kl I2. apply inside_iff. now apply (H ij). Qed.
Variables (levels : list (level P)) (class : nat).
Hypothesis HE : nth_error levels class = Some e.
Lemma fill_values_spec n lvl values : (0 < n)%nat -> (0 < descriptor_pattern_size o)%nat -> (lvl <= 2)%nat -> (length (corners P o n) <= lvl + 2)%nat -> length values = 48%nat ->
  exists values', fill_values P M32 o levels class (p_x q) (p_y q) (p_cos q) (p_sin q) (p_scale q) values n = Ok (if grid_inside n then Some values' else None) /\ length values' = 48%nat /\
    forall i c, (i < length (cells P o n))%nat -> (c < ch)%nat -> nth (ch * i + c) values' zero = mean P M32 o e q n c (nth i (cells P o n) (0, 0)%Z).
Proof.
  intros N0 P0 Hl LC L. unfold fill_values. replace (n =? 0)%nat with false by (symmetry; apply Nat.eqb_neq; lia). cbn [negb assert_]. rewrite grid_corners.
  assert (LL : length (cells P o n) = (length (corners P o n) * length (corners P o n))%nat) by apply prod_length.
  destruct (fill_cells n (cells P o n) values 0 L) as (v & E & L' & _ & M); [rewrite LL; nia|]. rewrite Nat.mul_0_r in E. exists v. split; [|split; [exact L'|exact M]].
  destruct (corners P o n) as [|z zs] eqn:EC.
  - exfalso. unfold corners in EC. apply map_eq_nil in EC. assert (K : length (seq 0 ((2 * descriptor_pattern_size o + n - 1) / n)) = 0%nat) by now rewrite EC. rewrite seq_length in K. assert (1 <= (2 * descriptor_pattern_size o + n - 1) / n)%nat by (apply Nat.div_le_lower_bound; lia). lia.
  - unfold read. rewrite HE. cbn [unwrap bind]. rewrite <- EC. fold (cells P o n). rewrite E. cbn [bind]. unfold grid_inside. now destruct (forallb (fun ij => all_inside (cell n ij)) (cells P o n)). Qed.
Lemma comparisons_bound lvl : (lvl <= 2)%nat -> forall a b, In (a, b) (pairs ch ((lvl + 2) * (lvl + 2))) -> (a < 48)%nat /\ (b < 48)%nat.
Proof. intros Hl a b H. rewrite pairs_order in H by assumption. apply in_map_iff in H as ([c [i j]] & E & I). injection E as <- <-. apply comparisons_in in I. cbn [fst snd]. nia. Qed.
Lemma level_spec lvl values bytes bits : (lvl <= 2)%nat -> (0 < sample_size P M32 o lvl)%nat -> (0 < descriptor_pattern_size o)%nat -> (length (corners P o (sample_size P M32 o lvl)) <= lvl + 2)%nat -> length values = 48%nat ->
  encodes bytes bits -> (length bits + length (comparisons ch ((lvl + 2) * (lvl + 2))) <= 512)%nat ->
  exists values' bytes' more, descriptor_level P M32 o levels class (p_x q) (p_y q) (p_cos q) (p_sin q) (p_scale q) (Some (values, (bytes, length bits))) lvl =
      Ok (if grid_inside (sample_size P M32 o lvl) then Some (values', (bytes', length (bits ++ more))) else None) /\
    length values' = 48%nat /\ encodes bytes' (bits ++ more) /\ length more = length (comparisons ch ((lvl + 2) * (lvl + 2))) /\
    (length (corners P o (sample_size P M32 o lvl)) = (lvl + 2)%nat -> more = grid_bits P M32 o e q (sample_size P M32 o lvl) ((lvl + 2) * (lvl + 2))).
Proof.
  intros Hl N0 P0 LC L EN LB. set (n := sample_size P M32 o lvl) in *. unfold descriptor_level. fold n.
  destruct (fill_values_spec n lvl values N0 P0 Hl LC L) as (v & E & Lv & M). rewrite E. cbn [bind].
  assert (LP : length (pairs ch ((lvl + 2) * (lvl + 2))) = length (comparisons ch ((lvl + 2) * (lvl + 2)))) by (rewrite pairs_order by assumption; apply map_length).
  destruct (compare_all v (pairs ch ((lvl + 2) * (lvl + 2))) bytes bits EN) as (bytes' & EB & EN'); [lia|rewrite Lv; now apply comparisons_bound|].
  eexists v, bytes', _. split; [|split; [exact Lv|split; [exact EN'|]]].
  - destruct (grid_inside n); [|reflexivity]. unfold binary_comparisons. rewrite EB. cbn [bind]. now rewrite app_length, map_length.
  - split; [now rewrite map_length|]. intros LE. rewrite pairs_order, map_map by assumption. unfold grid_bits. apply map_ext_in. intros [c [i j]] I. apply comparisons_in in I as (Hc & Hi & Hj). cbn [fst snd].
    assert (LL : length (cells P o n) = ((lvl + 2) * (lvl + 2))%nat) by (unfold cells; now rewrite prod_length, LE).
    rewrite !M by (try exact Hc; lia). reflexivity. Qed.
End describe.
Lemma comparisons_length channels : (channels <= 3)%nat -> length (comparisons channels ((0 + 2) * (0 + 2))) = (6 * channels)%nat /\ length (comparisons channels ((1 + 2) * (1 + 2))) = (36 * channels)%nat /\ length (comparisons channels ((2 + 2) * (2 + 2))) = (120 * channels)%nat.
Proof. intros H. destruct channels as [|[|[|[|?]]]]; [| | | |lia]; vm_compute; auto. Qed.
Lemma descriptor_spec (P : widths) (M32 : math (single P)) (A : angles (single P)) (o : settings (double P)) levels (kp : keypoint (single P)) e :
  nth_error levels (kp_class kp) = Some e -> sized (g_width (Lt e)) (g_height (Lt e)) (Lt e) /\ sized (g_width (Lt e)) (g_height (Lt e)) (Lx e) /\ sized (g_width (Lt e)) (g_height (Lt e)) (Ly e) ->
  (descriptor_channels o <= 3)%nat -> (0 < descriptor_pattern_size o)%nat -> (forall lvl, (lvl <= 2)%nat -> (0 < sample_size P M32 o lvl)%nat /\ (length (corners P o (sample_size P M32 o lvl)) <= lvl + 2)%nat) ->
  let ratio := ratio_of (kp_octave kp) in
  let q := Pattern (P := P) (div (kp_x kp) ratio) (div (kp_y kp) ratio) (a_cos A (kp_angle kp)) (a_sin A (kp_angle kp)) (m_round M32 (div (mul (lit 1 2) (kp_size kp)) ratio)) in
  exists r, mldb_descriptor P M32 A o levels kp = Ok r /\
    (r <> None <-> forall lvl, (lvl <= 2)%nat -> pattern_inside P M32 o e q (sample_size P M32 o lvl)) /\
    forall bytes, r = Some bytes -> exists bits, encodes bytes bits /\ length bits = (162 * descriptor_channels o)%nat /\
      ((forall lvl, (lvl <= 2)%nat -> length (corners P o (sample_size P M32 o lvl)) = (lvl + 2)%nat) ->
        bits = flat_map (fun lvl => grid_bits P M32 o e q (sample_size P M32 o lvl) ((lvl + 2) * (lvl + 2))) [0; 1; 2]%nat).
Proof.
  intros HE S CH P0 SZ ratio q. destruct (comparisons_length _ CH) as (C0 & C1 & C2). unfold mldb_descriptor. fold ratio. cbn [foldM].
  change (div (kp_x kp) ratio) with (p_x q). change (div (kp_y kp) ratio) with (p_y q). change (a_cos A (kp_angle kp)) with (p_cos q). change (a_sin A (kp_angle kp)) with (p_sin q). change (m_round M32 (div (mul (lit 1 2) (kp_size kp)) ratio)) with (p_scale q).
  assert (EN0 : encodes (repeat 0%N 64) []).
  { split; [apply repeat_length|]. split; [intros x Hx; apply repeat_spec in Hx; subst; lia|]. intros b Hb. unfold bit. assert (b / 8 < 64)%nat by (apply Nat.div_lt_upper_bound; lia). rewrite nth_repeat. now rewrite N.bits_0, (nth_overflow []) by (cbn; lia). }
  destruct (SZ 0%nat ltac:(lia)) as [N0 K0]. destruct (SZ 1%nat ltac:(lia)) as [N1 K1]. destruct (SZ 2%nat ltac:(lia)) as [N2 K2].
  destruct (level_spec P M32 o e q S CH levels (kp_class kp) HE 0 (repeat zero 48) (repeat 0%N 64) [] ltac:(lia) N0 P0 K0 (repeat_length _ _) EN0) as (v0 & b0 & m0 & E0 & L0 & EN1 & LM0 & Q0); [rewrite C0; cbn [length]; lia|].
  cbn [length app] in *. rewrite E0. cbn [bind].
  destruct (level_spec P M32 o e q S CH levels (kp_class kp) HE 1 v0 b0 m0 ltac:(lia) N1 P0 K1 L0 EN1) as (v1 & b1 & m1 & E1 & L1 & EN2 & LM1 & Q1); [rewrite LM0, C0, C1; lia|].
  destruct (level_spec P M32 o e q S CH levels (kp_class kp) HE 2 v1 b1 (m0 ++ m1) ltac:(lia) N2 P0 K2 L1 EN2) as (v2 & b2 & m2 & E2 & L2 & EN3 & LM2 & Q2); [rewrite app_length, LM0, LM1, C0, C1, C2; lia|].
  exists (if grid_inside P M32 o e q (sample_size P M32 o 0) && (grid_inside P M32 o e q (sample_size P M32 o 1) && grid_inside P M32 o e q (sample_size P M32 o 2)) then Some b2 else None). split; [|split].
  - destruct (grid_inside P M32 o e q (sample_size P M32 o 0)); cbn [andb]; [|reflexivity]. rewrite E1. cbn [bind]. destruct (grid_inside P M32 o e q (sample_size P M32 o 1)); cbn [andb]; [|reflexivity]. rewrite E2. cbn [bind]. now destruct (grid_inside P M32 o e q (sample_size P M32 o 2)).
  - assert (G : forall lvl, grid_inside P M32 o e q (sample_size P M32 o lvl) = true <-> pattern_inside P M32 o e q (sample_size P M32 o lvl)) by (intros; apply grid_inside_iff).
    split.
    + intros H. destruct (grid_inside P M32 o e q (sample_size P M32 o 0)) eqn:G0; cbn [andb] in H; [|congruence]. destruct (grid_inside P M32 o e q (sample_size P M32 o 1)) eqn:G1; cbn [andb] in H; [|congruence]. destruct (grid_inside P M32 o e q (sample_size P M32 o 2)) eqn:G2; [|congruence].
      intros lvl Hl. destruct lvl as [|[|[|?]]]; [| | |lia]; now apply G.
    + intros H. rewrite !(proj2 (G _)) by (apply H; lia). discriminate.
  - intros bytes Eb. assert (b2 = bytes) as <- by (destruct (_ && _)%bool in Eb; congruence). exists ((m0 ++ m1) ++ m2). split; [exact EN3|]. split; [rewrite !app_length, LM0, LM1, LM2, C0, C1, C2; lia|].
    intros H. cbn [flat_map]. rewrite app_nil_r, <- app_assoc, Q0, Q1, Q2 by (apply H; lia). reflexivity. Qed.
