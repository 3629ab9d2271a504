(** Proofs about slices, buffers and the filters of akaze/src/image.rs, for every number type. *)
From Coq Require Import List Arith Lia Bool.
From Verif Require Import Num Outcome OutcomeFacts Gray GraySpec.
Import ListNotations.
Open Scope nat_scope.

(** ** Slices *)
Section slices.
Context {A : Type}.
Implicit Types l b : list A.
Lemma nth_piece l start n i d : i < n -> nth i (piece l start n) d = nth (start + i) l d.
Proof. intros H. unfold piece. rewrite <- (firstn_skipn start l) at 2.
  destruct (Nat.le_gt_cases (length l) start) as [L|L].
  - rewrite skipn_all2 by lia. rewrite firstn_nil, app_nil_r, firstn_all2 by lia. rewrite nth_overflow, nth_overflow; [reflexivity|lia|cbn; lia].
  - rewrite (app_nth2 (firstn start l)) by (rewrite firstn_length; lia). rewrite firstn_length, Nat.min_l by lia.
    replace (start + i - start) with i by lia. set (m := skipn start l). clearbody m. clear L.
    revert i H m. induction n as [|n IH]; intros i H m; [lia|]. destruct m as [|a m]; [destruct i; reflexivity|]. destruct i as [|i]; [reflexivity|]. cbn. apply IH. lia. Qed.
Lemma length_piece l start n : start + n <= length l -> length (piece l start n) = n.
Proof. intros H. unfold piece. rewrite firstn_length, skipn_length. lia. Qed.
Lemma list_eq_nth l b (d : A) : length l = length b -> (forall i, i < length l -> nth i l d = nth i b d) -> l = b.
Proof. intros H. now apply nth_ext. Qed.
Lemma nth_repeat' (a d : A) n i : i < n -> nth i (repeat a n) d = a.
Proof. revert i. induction n; intros i H; [lia|]. destruct i; cbn; [reflexivity|]. apply IHn. lia. Qed.
Lemma nth_map_seq {B} (f : nat -> B) s n i d : i < n -> nth i (map f (seq s n)) d = f (s + i).
Proof. intros H. rewrite nth_indep with (d' := f 0) by (rewrite map_length, seq_length; lia). rewrite map_nth, seq_nth by lia. reflexivity. Qed.
Lemma chunks_exact_length n l : length (chunks_exact n l) = length l / n.
Proof. unfold chunks_exact. now rewrite map_length, seq_length. Qed.
Lemma chunks_length n l : length (chunks n l) = (length l + n - 1) / n.
Proof. unfold chunks. now rewrite map_length, seq_length. Qed.
Lemma windows_length n l : length (windows n l) = length l + 1 - n.
Proof. unfold windows. now rewrite map_length, seq_length. Qed.
Lemma chunks_multiple n m l : 0 < n -> length l = m * n -> chunks n l = map (fun i => piece l (i * n) n) (seq 0 m).
Proof. intros H L. unfold chunks. rewrite L. f_equal. f_equal. replace (m * n + n - 1) with (m * n + (n - 1)) by lia.
  rewrite Nat.div_add_l by lia. rewrite Nat.div_small by lia. lia. Qed.
Lemma chunks_exact_multiple n m l : 0 < n -> length l = m * n -> chunks_exact n l = map (fun i => piece l (i * n) n) (seq 0 m).
Proof. intros H L. unfold chunks_exact. now rewrite L, Nat.div_mul by lia. Qed.

Lemma nth_error_cut b i v : i < length b -> forall j,
  nth_error (firstn i b ++ v :: skipn (S i) b) j = if j =? i then Some v else nth_error b j.
Proof. revert b. induction i as [|i IH]; intros b H j; destruct b as [|a b]; cbn in H; try lia.
  - destruct j; reflexivity.
  - destruct j as [|j]; [reflexivity|]. change (nth_error (firstn i b ++ v :: skipn (S i) b) j = if j =? i then Some v else nth_error b j). apply IH. lia. Qed.
Lemma write_spec b i v : i < length b -> exists b', write b i v = Ok b' /\ length b' = length b /\
  forall j, nth_error b' j = if j =? i then Some v else nth_error b j.
Proof. intros H. unfold write. replace (i <? length b) with true by (symmetry; now apply Nat.ltb_lt). eexists. split; [reflexivity|]. split.
  - rewrite app_length. cbn [length]. rewrite firstn_length, skipn_length. lia.
  - now apply nth_error_cut. Qed.
Lemma write_outside b i v : length b <= i -> write b i v = Panic.
Proof. intros H. unfold write. now replace (i <? length b) with false by (symmetry; now apply Nat.ltb_ge). Qed.
Lemma read_nth b i d : i < length b -> read b i = Ok (nth i b d).
Proof. intros H. unfold read. now rewrite nth_error_nth' with (d := d). Qed.

(** ** Filling a buffer *)
Variables (L : nat) (E : nat -> A).
Definition agrees b i : Prop := nth_error b i = Some (E i).
Definition fills (S : nat -> Prop) (m : list A -> outcome (list A)) : Prop :=
  forall b, length b = L -> exists b', m b = Ok b' /\ length b' = L /\ (forall i, agrees b i -> agrees b' i) /\ (forall i, S i -> agrees b' i).
Lemma fills_write i v : i < L -> v = E i -> fills (eq i) (fun b => write b i v).
Proof. intros H -> b Hb. destruct (write_spec b i (E i)) as (b' & W & Len & Nth); [lia|]. exists b'. split; [exact W|]. split; [lia|]. unfold agrees. split.
  - intros j Hj. rewrite Nth. destruct (Nat.eqb_spec j i); congruence.
  - intros j <-. now rewrite Nth, Nat.eqb_refl. Qed.
Lemma fills_bind S1 S2 m1 m2 : fills S1 m1 -> fills S2 m2 -> fills (fun i => S1 i \/ S2 i) (fun b => bind (m1 b) m2).
Proof. intros H1 H2 b Hb. destruct (H1 b Hb) as (b1 & E1 & L1 & P1 & Q1). destruct (H2 b1 L1) as (b2 & E2 & L2 & P2 & Q2).
  exists b2. rewrite E1. cbn [bind]. split; [exact E2|]. split; [exact L2|]. split; [auto|]. intros i [H|H]; auto. Qed.
Lemma fills_foldM {X} (S : X -> nat -> Prop) (f : list A -> X -> outcome (list A)) xs :
  (forall x, In x xs -> fills (S x) (fun b => f b x)) -> fills (fun i => exists x, In x xs /\ S x i) (foldM f xs).
Proof. induction xs as [|x xs IH]; intros H b Hb.
  - exists b. repeat split; auto. intros i (x & [] & _).
  - destruct (H x (or_introl eq_refl) b Hb) as (b1 & E1 & L1 & P1 & Q1). destruct (IH (fun y Hy => H y (or_intror Hy)) b1 L1) as (b2 & E2 & L2 & P2 & Q2).
    exists b2. cbn [foldM]. rewrite E1. cbn [bind]. split; [exact E2|]. split; [exact L2|]. split; [auto|].
    intros i (y & [<-|Hy] & Hi); [auto|]. apply Q2. eauto. Qed.
Lemma fills_weaken (S S' : nat -> Prop) m : (forall i, S' i -> S i) -> fills S m -> fills S' m.
Proof. intros H F b Hb. destruct (F b Hb) as (b' & A1 & A2 & A3 & A4). exists b'. repeat split; auto. Qed.
Lemma fills_ext S m m' : (forall b, m b = m' b) -> fills S m -> fills S m'.
Proof. intros H F b Hb. rewrite <- H. now apply F. Qed.
End slices.

Lemma combine_map {X Y} (f : X -> Y) l : combine l (map f l) = map (fun x => (x, f x)) l.
Proof. induction l as [|a l IH]; cbn [combine map]; [reflexivity|]. now rewrite IH. Qed.

Lemma firstn_seq m n s : m <= n -> firstn m (seq s n) = seq s m.
Proof. revert m s. induction n as [|n IH]; intros m s H; destruct m; cbn [firstn seq]; try reflexivity; try lia. f_equal. apply IH. lia. Qed.

(** ** Images *)
Section image.
Context {N : Num}.
Implicit Type g : gray N.
Lemma nth_flat_map_rows {B} (f : nat -> nat -> B) w h x y d : x < w -> y < h ->
  nth (y * w + x) (flat_map (fun y => map (fun x => f x y) (seq 0 w)) (seq 0 h)) d = f x y.
Proof.
  intros Hx. enough (forall s, y < h -> nth (y * w + x) (flat_map (fun y => map (fun x => f x y) (seq 0 w)) (seq s h)) d = f x (s + y)) as K by (intros; now rewrite K).
  revert y. induction h as [|h IH]; intros y s Hy; [lia|]. cbn [seq flat_map].
  destruct y as [|y].
  - cbn [Nat.mul Nat.add]. rewrite app_nth1 by (rewrite map_length, seq_length; lia). rewrite nth_map_seq by lia. now rewrite Nat.add_0_r.
  - rewrite app_nth2 by (rewrite map_length, seq_length; cbn; lia). rewrite map_length, seq_length.
    replace (S y * w + x - w) with (y * w + x) by (cbn; lia). rewrite IH by lia. f_equal. lia.
Qed.
Lemma of_fn_sized w h (f : nat -> nat -> N) : sized w h (of_fn w h f).
Proof. unfold sized, of_fn. cbn. repeat split. rewrite flat_map_concat_map, <- (Nat.mul_comm h). enough (forall s, length (concat (map (fun y => map (fun x => f x y) (seq 0 w)) (seq s h))) = h * w) by auto.
  induction h as [|h IH]; intros s; [reflexivity|]. cbn [seq map concat]. rewrite app_length, IH, map_length, seq_length. reflexivity. Qed.
Lemma pixel_of_fn w h (f : nat -> nat -> N) x y : x < w -> y < h -> pixel (of_fn w h f) x y = f x y.
Proof. intros Hx Hy. unfold pixel, of_fn. cbn [g_width g_data]. now apply nth_flat_map_rows. Qed.
Lemma of_fn_image w h (f : nat -> nat -> N) : image_of w h f (of_fn w h f).
Proof. split; [apply of_fn_sized|]. intros. now apply pixel_of_fn. Qed.
Lemma index_inside w h x y : x < w -> y < h -> y * w + x < w * h.
Proof. intros. nia. Qed.
Lemma get_ok w h g x y : sized w h g -> x < w -> y < h -> get g x y = Ok (pixel g x y).
Proof. intros (W & H & D) Hx Hy. unfold get. rewrite W, H. replace (x <? w) with true by (symmetry; now apply Nat.ltb_lt). replace (y <? h) with true by (symmetry; now apply Nat.ltb_lt).
  cbn [andb]. rewrite read_nth with (d := zero) by (rewrite D; now apply index_inside). unfold pixel. now rewrite W. Qed.
Lemma get_outside g x y : g_width g <= x \/ g_height g <= y -> get g x y = Panic.
Proof. intros H. unfold get. destruct (Nat.ltb_spec x (g_width g)), (Nat.ltb_spec y (g_height g)); try reflexivity. lia. Qed.
Lemma pixel_data g : pixel g = fun x y => nth (y * g_width g + x) (g_data g) zero.
Proof. reflexivity. Qed.
Lemma image_ext w h g g' : sized w h g -> sized w h g' -> (forall x y, x < w -> y < h -> pixel g x y = pixel g' x y) -> g = g'.
Proof. destruct g as [a b l], g' as [a' b' l']. intros (W & H & D) (W' & H' & D') P. cbn in *. subst. f_equal. apply nth_ext with (d := zero) (d' := zero); [congruence|].
  intros i Hi. assert (Z : w <> 0) by (intros ->; cbn in D; lia). specialize (P (i mod w) (i / w)). unfold pixel in P. cbn in P.
  rewrite (Nat.mul_comm (i / w)), <- Nat.div_mod in P by exact Z. apply P; [now apply Nat.mod_upper_bound|]. apply Nat.div_lt_upper_bound; [exact Z|lia]. Qed.
Lemma image_of_unique w h (f : nat -> nat -> N) g g' : image_of w h f g -> image_of w h f g' -> g = g'.
Proof. intros [S P] [S' P']. apply (image_ext w h); auto. intros. rewrite P, P'; auto. Qed.

(** ** The padded line *)
Lemma simd_size_eq (kernel : list N) : simd_size kernel = length kernel + 3.
Proof. unfold simd_size. rewrite Nat.mul_comm. apply Nat.div_mul. lia. Qed.
Lemma simd_extra_eq (kernel : list N) : simd_extra kernel = 3.
Proof. unfold simd_extra. rewrite simd_size_eq. lia. Qed.
Lemma odd_half (k : nat) : k mod 2 = 1 -> k = 2 * (k / 2) + 1.
Proof. intros H. rewrite (Nat.div_mod k 2) at 1 by lia. lia. Qed.

Definition padded (kernel line : list N) : list N :=
  repeat (nth 0 line zero) (length kernel / 2) ++ line ++ repeat (nth (length line - 1) line zero) (length kernel / 2) ++ repeat zero (simd_extra kernel).
Lemma padded_length kernel line : length (padded kernel line) = length line + 2 * (length kernel / 2) + 3.
Proof. unfold padded. rewrite !app_length, !repeat_length, simd_extra_eq. lia. Qed.
Definition filtered (kernel line : list N) (i : nat) : N := apply_kernel kernel (piece (padded kernel line) i (simd_size kernel)).
Lemma windows_padded kernel line : length kernel mod 2 = 1 ->
  windows (simd_size kernel) (padded kernel line) = map (fun i => piece (padded kernel line) i (simd_size kernel)) (seq 0 (length line)).
Proof. intros H. unfold windows. f_equal. f_equal. rewrite padded_length, simd_size_eq. pose proof (odd_half _ H). lia. Qed.
Lemma filter_row_spec kernel row : length kernel mod 2 = 1 -> row <> [] ->
  filter_row kernel row = Ok (map (filtered kernel row) (seq 0 (length row))).
Proof. intros H R. unfold filter_row. destruct row as [|a row]; [congruence|]. set (l := a :: row) in *.
  assert (0 < length l) by (cbn; lia). rewrite !(read_nth l _ zero) by lia. cbn [bind]. fold (padded kernel l). rewrite windows_padded by exact H. rewrite map_map.
  f_equal. rewrite firstn_app. rewrite firstn_all2 by (rewrite map_length, seq_length; lia). rewrite map_length, seq_length, Nat.sub_diag. cbn [firstn]. now rewrite app_nil_r. Qed.

Definition row_of g (y : nat) : list N := map (fun x => pixel g x y) (seq 0 (g_width g)).
Definition column_of g (x : nat) : list N := map (fun y => pixel g x y) (seq 0 (g_height g)).
Lemma mapM_map {X Y} (f : X -> outcome Y) (r : X -> Y) l : (forall x, In x l -> f x = Ok (r x)) -> mapM f l = Ok (map r l).
Proof. induction l as [|x l IH]; intros H; [reflexivity|]. cbn [mapM map]. rewrite (H x) by now left. cbn [bind]. rewrite IH by (intros; apply H; now right). reflexivity. Qed.
Lemma rows_of_data w h g : 0 < w -> sized w h g -> chunks_exact w (g_data g) = map (row_of g) (seq 0 h).
Proof. intros Hw (W & H & D). rewrite (chunks_exact_multiple w h) by lia. apply map_ext_in. intros y Hy. apply in_seq in Hy.
  apply list_eq_nth with (d := zero).
  - unfold row_of. rewrite map_length, seq_length, W. apply length_piece. nia.
  - intros x. rewrite length_piece by nia. intros Hx. rewrite nth_piece by lia. unfold row_of. rewrite nth_map_seq by lia. unfold pixel. now rewrite W. Qed.
Lemma horizontal_filter_image w h g kernel : length kernel mod 2 = 1 -> 0 < w -> sized w h g ->
  exists g', horizontal_filter g kernel = Ok g' /\ image_of w h (fun x y => filtered kernel (row_of g y) x) g'.
Proof.
  intros K Hw S. exists (of_fn w h (fun x y => filtered kernel (row_of g y) x)). split; [|apply of_fn_image].
  unfold horizontal_filter. destruct S as (W & H & D). rewrite W, H, K. replace (w =? 0) with false by (symmetry; apply Nat.eqb_neq; lia). cbn [Nat.eqb assert_ negb].
  rewrite (rows_of_data w h) by (auto; repeat split; auto).
  rewrite firstn_all2 by (rewrite map_length, seq_length; lia).
  rewrite (mapM_map _ (fun row => map (filtered kernel row) (seq 0 (length row)))).
  2:{ intros row Hr. apply in_map_iff in Hr as (y & <- & _). apply filter_row_spec; [exact K|]. unfold row_of. rewrite W. destruct w; [lia|]. discriminate. }
  cbn [bind]. rewrite map_map.
  replace (map (fun y => map (filtered kernel (row_of g y)) (seq 0 (length (row_of g y)))) (seq 0 h))
    with (map (fun y => map (fun x => filtered kernel (row_of g y) x) (seq 0 w)) (seq 0 h)).
  2:{ apply map_ext. intros y. unfold row_of. now rewrite map_length, seq_length, W. }
  rewrite <- flat_map_concat_map. destruct (of_fn_sized w h (fun x y => filtered kernel (row_of g y) x)) as (_ & _ & Len). unfold of_fn in Len. cbn [g_data] in Len.
  rewrite Len, Nat.sub_diag. cbn [repeat]. rewrite app_nil_r. unfold from_raw. rewrite Len. rewrite Nat.leb_refl. reflexivity.
Qed.

(** ** The vertical filter *)
Section vertical.
Variables (w h : nat) (g : gray N) (kernel : list N).
Hypotheses (S : sized w h g) (K : length kernel mod 2 = 1) (Hh : 0 < h).
Let sh := scratch_height h kernel.
Let half := length kernel / 2.
Let SW := proj1 S. Let SH := proj1 (proj2 S). Let SD := proj2 (proj2 S).
Definition tile_value (x_s i : nat) : N := nth (i mod sh) (padded kernel (column_of g (x_s + i / sh))) zero.
Lemma sh_eq : sh = h + 2 * half + 3.
Proof. unfold sh, scratch_height, half. rewrite simd_extra_eq. lia. Qed.
Lemma sh_length x : length (padded kernel (column_of g x)) = sh.
Proof. rewrite padded_length, sh_eq. unfold column_of. rewrite map_length, seq_length, SH. reflexivity. Qed.
Lemma split_index c r : r < sh -> (c * sh + r) / sh = c /\ (c * sh + r) mod sh = r.
Proof. intros H. assert (sh <> 0) by lia. split.
  - rewrite Nat.div_add_l by assumption. rewrite Nat.div_small by assumption. lia.
  - rewrite Nat.add_comm, Nat.mod_add by assumption. now apply Nat.mod_small. Qed.
Lemma tile_value_eq x_s c r : r < sh -> tile_value x_s (c * sh + r) = nth r (padded kernel (column_of g (x_s + c))) zero.
Proof. intros H. unfold tile_value. destruct (split_index c r H) as [-> ->]. reflexivity. Qed.
Lemma column_length x : length (column_of g x) = h.
Proof. unfold column_of. now rewrite map_length, seq_length. Qed.
Lemma column_nth x y : y < h -> nth y (column_of g x) zero = pixel g x y.
Proof. intros H. unfold column_of. rewrite nth_map_seq by lia. reflexivity. Qed.
Lemma padded_before x r : r < half -> nth r (padded kernel (column_of g x)) zero = pixel g x 0.
Proof. intros H. unfold padded. rewrite app_nth1 by (rewrite repeat_length; exact H). rewrite nth_repeat' by exact H. now apply column_nth. Qed.
Lemma padded_inside x y : y < h -> nth (half + y) (padded kernel (column_of g x)) zero = pixel g x y.
Proof. intros H. unfold padded. rewrite app_nth2 by (rewrite repeat_length; unfold half; lia). rewrite repeat_length. replace (half + y - length kernel / 2) with y by (unfold half; lia).
  rewrite app_nth1 by (rewrite column_length; lia). now apply column_nth. Qed.
Lemma padded_after x r : r < half -> nth (half + h + r) (padded kernel (column_of g x)) zero = pixel g x (h - 1).
Proof. intros H. unfold padded. rewrite app_nth2 by (rewrite repeat_length; unfold half; lia). rewrite repeat_length. rewrite app_nth2 by (rewrite column_length; unfold half; lia). rewrite column_length.
  replace (half + h + r - length kernel / 2 - h) with r by (unfold half; lia). rewrite app_nth1 by (rewrite repeat_length; exact H). rewrite nth_repeat' by exact H. apply column_nth. lia. Qed.
Lemma padded_extra x r : r < 3 -> nth (half + h + half + r) (padded kernel (column_of g x)) zero = zero.
Proof. intros H. unfold padded. rewrite app_nth2 by (rewrite repeat_length; unfold half; lia). rewrite repeat_length. rewrite app_nth2 by (rewrite column_length; unfold half; lia). rewrite column_length.
  rewrite app_nth2 by (rewrite repeat_length; unfold half; lia). rewrite repeat_length, simd_extra_eq. apply nth_repeat'. unfold half. lia. Qed.

Notation tile_fills x_s := (fills (scratch_width * sh) (tile_value x_s)).
Lemma fills_seq {A} (L : nat) (E : nat -> A) a n (f : list A -> nat -> outcome (list A)) :
  (forall i, i < n -> fills L E (eq (a + i)) (fun b => f b i)) -> fills L E (fun j => a <= j < a + n) (foldM f (seq 0 n)).
Proof. intros H. eapply fills_weaken; [|apply fills_foldM with (S := fun i => eq (a + i)); intros i Hi; apply in_seq in Hi; apply H; lia].
  intros j Hj. exists (j - a). split; [apply in_seq; lia|lia]. Qed.
Lemma pixel_read x y : x < w -> y < h -> read (g_data g) (y * w + x) = Ok (pixel g x y).
Proof. intros Hx Hy. rewrite read_nth with (d := zero) by (rewrite SD; now apply index_inside). unfold pixel. now rewrite SW. Qed.
Lemma column_bound x_s x r : x_s <= x -> x < x_s + scratch_width -> r < sh -> (x - x_s) * sh + r < scratch_width * sh.
Proof. intros. nia. Qed.
Lemma pad_column_fills x_s x : x_s <= x -> x < x_s + scratch_width -> x < w ->
  tile_fills x_s (fun i => exists r, i = (x - x_s) * sh + r /\ (r < half \/ half + h <= r < sh)) (fun b => pad_column w h (g_data g) kernel x_s b x).
Proof.
  intros Hx Hx' Hw. unfold pad_column. fold sh half. rewrite (proj2 (Nat.eqb_neq h 0)) by lia.
  set (start := (x - x_s) * sh).
  assert (V : forall r, r < sh -> tile_value x_s (start + r) = nth r (padded kernel (column_of g x)) zero).
  { intros r Hr. unfold start. rewrite tile_value_eq by exact Hr. now replace (x_s + (x - x_s)) with x by lia. }
  assert (B : forall r, r < sh -> start + r < scratch_width * sh) by (intros; now apply column_bound).
  rewrite simd_extra_eq.
  eapply fills_weaken; [|apply fills_bind with (S1 := fun j => start + 0 <= j < start + 0 + half)
     (S2 := fun j => (start + half + h <= j < start + half + h + half) \/ start + half + h + half <= j < start + half + h + half + 3)].
  - intros i (r & -> & Hr). rewrite sh_eq in Hr. lia.
  - apply (fills_ext _ _ _ (foldM (fun s i => let! v := read (g_data g) x in write s (start + i) v) (seq 0 half))); [reflexivity|].
    assert (R0 : read (g_data g) x = Ok (pixel g x 0)) by (rewrite <- pixel_read by lia; reflexivity).
    apply fills_seq. intros i Hi. eapply (fills_ext _ _ _ (fun b => write b (start + i) (pixel g x 0))); [intros b; rewrite R0; reflexivity|].
    eapply fills_weaken; [|apply fills_write with (i := start + i)]; [intros j <-; lia|apply B; rewrite sh_eq; lia|]. rewrite V by (rewrite sh_eq; lia). now rewrite padded_before.
  - apply fills_bind.
    + apply fills_seq. intros i Hi. apply (fills_ext _ _ _ (fun b => write b (start + half + h + i) (pixel g x (h - 1)))); [intros b; rewrite pixel_read by lia; reflexivity|].
      replace (start + half + h + i) with (start + (half + h + i)) by lia. apply fills_write; [apply B; rewrite sh_eq; lia|]. rewrite V by (rewrite sh_eq; lia). now rewrite padded_after.
    + apply fills_seq. intros i Hi. replace (start + half + h + half + i) with (start + (half + h + half + i)) by lia. apply fills_write; [apply B; rewrite sh_eq; lia|]. rewrite V by (rewrite sh_eq; lia). now rewrite padded_extra.
Qed.
Lemma fill_row_fills x_s columns y : y < h -> (forall x, In x columns -> x_s <= x < x_s + scratch_width /\ x < w) ->
  tile_fills x_s (fun i => exists x, In x columns /\ (x - x_s) * sh + (half + y) = i) (fun b => fill_row w h (g_data g) kernel x_s columns b y).
Proof.
  intros Hy C. unfold fill_row. fold sh half. apply fills_foldM. intros x Hx. destruct (C x Hx) as [Hx' Hw].
  apply (fills_ext _ _ _ (fun b => write b ((x - x_s) * sh + y + half) (pixel g x y))); [intros b; rewrite pixel_read by lia; reflexivity|].
  replace ((x - x_s) * sh + y + half) with ((x - x_s) * sh + (half + y)) by lia.
  assert (half + y < sh) by (rewrite sh_eq; lia).
  apply fills_write; [apply column_bound; lia|]. rewrite tile_value_eq by assumption. replace (x_s + (x - x_s)) with x by lia. now rewrite padded_inside.
Qed.
Definition out_value (i : nat) : N := filtered kernel (column_of g (i mod w)) (i / w).
Lemma filter_column_fills x_s dx : x_s + dx < w ->
  fills (w * h) out_value (fun i => exists y, y < h /\ y * w + (x_s + dx) = i) (fun out => filter_column w kernel x_s out dx (padded kernel (column_of g (x_s + dx)))).
Proof.
  intros Hx. unfold filter_column. rewrite windows_padded by exact K. rewrite map_length, seq_length, column_length.
  set (col := column_of g (x_s + dx)).
  assert (EQ : combine (seq 0 h) (map (fun i => piece (padded kernel col) i (simd_size kernel)) (seq 0 h)) = map (fun i => (i, piece (padded kernel col) i (simd_size kernel))) (seq 0 h)).
  { apply combine_map. }
  rewrite EQ.
  eapply fills_weaken; [|apply fills_foldM with (S := fun p i => fst p * w + (x_s + dx) = i)].
  - intros i (y & Hy & <-). exists (y, piece (padded kernel col) y (simd_size kernel)). split; [apply in_map_iff; exists y; split; [reflexivity|apply in_seq; lia]|reflexivity].
  - intros [y win] Hp. apply in_map_iff in Hp as (y' & E & Hy'). injection E as -> <-. apply in_seq in Hy'. cbn [fst].
    apply fills_write; [apply index_inside; lia|]. unfold out_value. assert (w <> 0) by lia.
    rewrite Nat.div_add_l by assumption. rewrite Nat.div_small by lia. rewrite Nat.add_0_r. rewrite Nat.add_comm, Nat.mod_add by assumption. rewrite Nat.mod_small by lia. reflexivity.
Qed.
Lemma filter_tile_spec x_s scratch output : x_s < w -> length scratch = scratch_width * sh -> length output = w * h ->
  exists scratch' output', filter_tile w h (g_data g) kernel (scratch, output) x_s = Ok (scratch', output') /\
    length scratch' = scratch_width * sh /\ length output' = w * h /\ (forall i, agrees out_value output i -> agrees out_value output' i) /\
    forall x y, x_s <= x < x_s + scratch_width -> x < w -> y < h -> agrees out_value output' (y * w + x).
Proof.
  intros Hw Ls Lo. unfold filter_tile. set (cols := Nat.min (x_s + scratch_width) w - x_s).
  assert (Hc : cols <= scratch_width) by (unfold cols; lia). assert (Hcw : x_s + cols <= w) by (unfold cols; lia).
  assert (C : forall x, In x (seq x_s cols) -> x_s <= x < x_s + scratch_width /\ x < w) by (intros x Hx; apply in_seq in Hx; lia).
  destruct (fills_foldM _ _ (fun x i => exists r, i = (x - x_s) * sh + r /\ (r < half \/ half + h <= r < sh)) (pad_column w h (g_data g) kernel x_s) (seq x_s cols)
     (fun x Hx => pad_column_fills x_s x (proj1 (proj1 (C x Hx))) (proj2 (proj1 (C x Hx))) (proj2 (C x Hx))) scratch Ls) as (s1 & E1 & L1 & _ & A1).
  destruct (fills_foldM _ _ (fun y i => exists x, In x (seq x_s cols) /\ (x - x_s) * sh + (half + y) = i) (fill_row w h (g_data g) kernel x_s (seq x_s cols)) (seq 0 h)
     (fun y Hy => fill_row_fills x_s (seq x_s cols) y (proj2 (proj1 (in_seq _ _ _) Hy)) C) s1 L1) as (s2 & E2 & L2 & P2 & A2).
  rewrite E1. cbn [bind]. rewrite E2. cbn [bind].
  assert (A : forall c r, c < cols -> r < sh -> agrees (tile_value x_s) s2 (c * sh + r)).
  { intros c r Hcc Hr. destruct (Nat.lt_ge_cases r half) as [R|R]; [|destruct (Nat.lt_ge_cases r (half + h)) as [R'|R']].
    - apply P2, A1. exists (x_s + c). split; [apply in_seq; lia|]. exists r. replace (x_s + c - x_s) with c by lia. auto.
    - apply A2. exists (r - half). split; [apply in_seq; lia|]. exists (x_s + c). split; [apply in_seq; lia|]. replace (x_s + c - x_s) with c by lia. lia.
    - apply P2, A1. exists (x_s + c). split; [apply in_seq; lia|]. exists r. replace (x_s + c - x_s) with c by lia. auto. }
  assert (CH : firstn cols (chunks sh s2) = map (fun c => padded kernel (column_of g (x_s + c))) (seq 0 cols)).
  { rewrite (chunks_multiple sh scratch_width) by (rewrite ?sh_eq in *; lia). rewrite firstn_map.
    rewrite firstn_seq by exact Hc.
    apply map_ext_in. intros c Hcc. apply in_seq in Hcc. apply list_eq_nth with (d := zero).
    - rewrite sh_length. apply length_piece. rewrite L2. nia.
    - intros r. rewrite length_piece by (rewrite L2; nia). intros Hr. rewrite nth_piece by exact Hr. rewrite <- tile_value_eq by exact Hr. apply nth_error_nth. apply A; lia. }
  fold sh. rewrite CH. rewrite map_length, seq_length.
  assert (EQ : combine (seq 0 cols) (map (fun c => padded kernel (column_of g (x_s + c))) (seq 0 cols)) = map (fun c => (c, padded kernel (column_of g (x_s + c)))) (seq 0 cols)).
  { apply combine_map. }
  rewrite EQ.
  assert (F : fills (w * h) out_value (fun i => exists p, In p (map (fun c => (c, padded kernel (column_of g (x_s + c)))) (seq 0 cols)) /\ exists y, y < h /\ y * w + (x_s + fst p) = i)
      (foldM (fun out '(dx, col) => filter_column w kernel x_s out dx col) (map (fun c => (c, padded kernel (column_of g (x_s + c)))) (seq 0 cols)))).
  { apply fills_foldM. intros [dx col] Hp. apply in_map_iff in Hp as (c & E & Hcc). injection E as -> <-. apply in_seq in Hcc. cbn [fst]. apply filter_column_fills. lia. }
  destruct (F output Lo) as (o & Eo & Loo & Po & Ao). exists s2, o. rewrite Eo. cbn [bind]. split; [reflexivity|]. split; [exact L2|]. split; [exact Loo|]. split; [exact Po|].
  intros x y Hx Hxw Hy. apply Ao. exists (x - x_s, padded kernel (column_of g (x_s + (x - x_s)))). split.
  - apply in_map_iff. exists (x - x_s). split; [reflexivity|]. apply in_seq. unfold cols. lia.
  - exists y. cbn [fst]. split; [exact Hy|]. lia.
Qed.
Lemma filter_tiles_spec xs scratch output : (forall x, In x xs -> x < w) -> length scratch = scratch_width * sh -> length output = w * h ->
  exists scratch' output', foldM (filter_tile w h (g_data g) kernel) xs (scratch, output) = Ok (scratch', output') /\
    length scratch' = scratch_width * sh /\ length output' = w * h /\ (forall i, agrees out_value output i -> agrees out_value output' i) /\
    forall x_s x y, In x_s xs -> x_s <= x < x_s + scratch_width -> x < w -> y < h -> agrees out_value output' (y * w + x).
Proof.
  revert scratch output. induction xs as [|x_s xs IH]; intros scratch output B Ls Lo.
  - exists scratch, output. repeat split; auto. intros ? ? ? [].
  - destruct (filter_tile_spec x_s scratch output) as (s1 & o1 & E1 & Ls1 & Lo1 & P1 & A1); auto; [apply B; now left|].
    destruct (IH s1 o1) as (s2 & o2 & E2 & Ls2 & Lo2 & P2 & A2); auto; [intros; apply B; now right|].
    exists s2, o2. cbn [foldM]. rewrite E1. cbn [bind]. split; [exact E2|]. split; [exact Ls2|]. split; [exact Lo2|]. split; [auto|].
    intros x' x y [<-|H] Hx Hxw Hy; [apply P2, A1; auto|eauto].
Qed.
Lemma vertical_filter_image : exists g', vertical_filter g kernel = Ok g' /\ image_of w h (fun x y => filtered kernel (column_of g x) y) g'.
Proof.
  unfold vertical_filter. rewrite SW, SH, K. cbn [Nat.eqb assert_]. fold sh.
  destruct (filter_tiles_spec (steps w scratch_width) (repeat zero (scratch_width * sh)) (repeat zero (w * h))) as (s & o & E & _ & Lo & _ & A).
  - intros x Hx. unfold steps in Hx. apply in_map_iff in Hx as (i & <- & Hi). apply in_seq in Hi. cbn [Nat.add] in Hi. destruct Hi as [_ Hi].
    pose proof (Nat.div_mod (w + scratch_width - 1) scratch_width). unfold scratch_width in *. lia.
  - apply repeat_length.
  - apply repeat_length.
  - rewrite E. cbn [bind]. unfold from_raw. rewrite Lo, Nat.leb_refl. eexists. split; [reflexivity|]. split; [repeat split; auto|].
    intros x y Hx Hy. unfold pixel. cbn [g_width g_data].
    assert (AG : agrees out_value o (y * w + x)).
    { apply (A (x / scratch_width * scratch_width)).
      - unfold steps. apply in_map_iff. exists (x / scratch_width). split; [reflexivity|]. apply in_seq. split; [lia|]. cbn [Nat.add].
        apply Nat.div_lt_upper_bound; [discriminate|].
        pose proof (Nat.div_mod (w + scratch_width - 1) scratch_width). pose proof (Nat.mod_upper_bound (w + scratch_width - 1) scratch_width). unfold scratch_width in *. lia.
      - pose proof (Nat.div_mod x scratch_width). pose proof (Nat.mod_upper_bound x scratch_width). unfold scratch_width in *. lia.
      - exact Hx.
      - exact Hy. }
    rewrite (nth_error_nth _ _ _ AG). unfold out_value. assert (w <> 0) by lia.
    rewrite Nat.div_add_l by assumption. rewrite (Nat.div_small x) by lia. rewrite Nat.add_0_r. rewrite Nat.add_comm, Nat.mod_add by assumption. rewrite Nat.mod_small by lia. reflexivity.
Qed.
End vertical.
End image.
