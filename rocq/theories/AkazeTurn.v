(** Turned images: proofs for images. *)
From Coq Require Import List Arith Lia Bool ZArith NArith Reals Lra Psatz Permutation.
From Verif Require Import Num LinSpec LinFacts Outcome OutcomeFacts Gray GraySpec GrayFacts GrayReal GrayProps Diffuse DiffuseSpec DiffuseFacts DiffuseProps Akaze AkazeSpec AkazeEvolve AkazeTone AkazeTurnSpec.
Import ListNotations.
Open Scope R_scope.

Definition sgn (b : bool) : R := if b then -1 else 1.
Definition zsg (b : bool) (z : Z) : Z := if b then (- z)%Z else z.
Lemma sgn_sq b : sgn b * sgn b = 1.
Proof. destruct b; unfold sgn; ring. Qed.

(** Weighted sums over a square window with a symmetric row of weights. *)
Definition window (k : list R) (f : Z -> Z -> R) : R :=
  rsum (length k) (fun j => rsum (length k) (fun i => nth i k 0 * nth j k 0 * f (offset k i) (offset k j))).
Lemma window_ext k f f' : (forall a b, f a b = f' a b) -> window k f = window k f'.
Proof. intros E. apply rsum_ext. intros j _. apply rsum_ext. intros i _. now rewrite E. Qed.
Lemma window_scal k (s : R) f : window k (fun a b => s * f a b) = s * window k f.
Proof.
  unfold window. rewrite <- rsum_scal. apply rsum_ext. intros j _. rewrite <- rsum_scal. apply rsum_ext. intros i _. ring. Qed.
Lemma window_swap k f : window k (fun a b => f b a) = window k f.
Proof. unfold window. rewrite rsum_swap. apply rsum_ext. intros j _. apply rsum_ext. intros i _. ring. Qed.
Lemma window_left k f : (length k mod 2 = 1)%nat -> palindrome k -> window k (fun a b => f (- a)%Z b) = window k f.
Proof.
  intros O P. unfold window. apply rsum_ext. intros j _. rewrite <- (rsum_rev (length k)). apply rsum_ext. intros i Hi. rewrite (P i Hi). f_equal. f_equal.
  unfold offset. pose proof (odd_half _ O). lia. Qed.
Lemma window_up k f : (length k mod 2 = 1)%nat -> palindrome k -> window k (fun a b => f a (- b)%Z) = window k f.
Proof. intros O P. rewrite <- (window_swap k (fun a b => f a (- b)%Z)). rewrite (window_left k (fun a b => f b a) O P). apply window_swap. Qed.
Lemma window_turn k (t : turn) f : (length k mod 2 = 1)%nat -> palindrome k ->
  window k (fun a b => f (zsg (columns_reversed t) (if swapped t then b else a)) (zsg (rows_reversed t) (if swapped t then a else b))) = window k f.
Proof.
  intros O P. destruct t as [[] cr rr]; cbn [swapped columns_reversed rows_reversed].
  1: rewrite (window_swap k (fun a b => f (zsg cr a) (zsg rr b))).
  all: destruct cr, rr; cbn [zsg]; rewrite ?(window_left k (fun a b => f a (- b)%Z) O P), ?(window_left k f O P), ?(window_up k f O P); reflexivity. Qed.

(** Halving along one side. *)
Lemma half1_ext n f f' x : (x < n / 2)%nat -> (forall i, (i < n)%nat -> f i = f' i) -> half1 n f x = half1 n f' x.
Proof. intros Hx E. pose proof (half_index n x Hx). unfold half1. destruct (Nat.odd n && _); rewrite !E by lia; reflexivity. Qed.
Lemma half1_scal n (s : R) f x : half1 n (fun i => s * f i) x = s * half1 n f x.
Proof. unfold half1. destruct (Nat.odd n && _); [reflexivity|field]. Qed.
Lemma half1_swap n m f x y : half1 n (fun i => half1 m (fun j => f i j) y) x = half1 m (fun j => half1 n (fun i => f i j) x) y.
Proof. unfold half1. destruct (Nat.odd n && _), (Nat.odd m && _); try reflexivity; field. Qed.
Lemma half1_rev n f x : Nat.even n = true -> (x < n / 2)%nat -> half1 n (fun i => f (n - 1 - i)%nat) x = half1 n f (n / 2 - 1 - x)%nat.
Proof.
  intros E Hx. apply Nat.even_spec in E as (m & ->). rewrite (Nat.mul_comm 2 m), Nat.div_mul in * by lia. unfold half1. replace (Nat.odd (m * 2)) with false by (symmetry; rewrite <- Nat.negb_even; apply negb_false_iff, Nat.even_spec; exists m; lia). cbn [andb].
  replace (m * 2 - 1 - (2 * x + 1))%nat with (2 * (m - 1 - x))%nat by lia. replace (m * 2 - 1 - 2 * x)%nat with (2 * (m - 1 - x) + 1)%nat by lia. field. Qed.

(** The turned image, up to a factor. *)
Definition mv (t : turn) (s : R) (w h : nat) (g g' : gray RNum) : Prop :=
  sized w h g /\ image_of (N := RNum) (new_width t w h) (new_height t w h) (fun x y => s * pixel g (source_x t w x y) (source_y t h x y)) g'.
Section images.
Variables (t : turn) (w h : nat).
Hypotheses (Hw : (0 < w)%nat) (Hh : (0 < h)%nat).
Notation w' := (new_width t w h).
Notation h' := (new_height t w h).
Notation sx := (source_x t w).
Notation sy := (source_y t h).
Lemma new_w : (0 < w')%nat.
Proof. unfold new_width. destruct (swapped t); assumption. Qed.
Lemma new_h : (0 < h')%nat.
Proof. unfold new_height. destruct (swapped t); assumption. Qed.
Lemma sx_lt x y : (x < w')%nat -> (y < h')%nat -> (sx x y < w)%nat.
Proof. unfold new_width, new_height, source_x. destruct (swapped t), (columns_reversed t); lia. Qed.
Lemma sy_lt x y : (x < w')%nat -> (y < h')%nat -> (sy x y < h)%nat.
Proof. unfold new_width, new_height, source_y. destruct (swapped t), (rows_reversed t); lia. Qed.
Definition zx (X Y : Z) : Z := let u := if swapped t then Y else X in if columns_reversed t then (Z.of_nat w - 1 - u)%Z else u.
Definition zy (X Y : Z) : Z := let v := if swapped t then X else Y in if rows_reversed t then (Z.of_nat h - 1 - v)%Z else v.
Lemma zx_of x y : (x < w')%nat -> (y < h')%nat -> zx (Z.of_nat x) (Z.of_nat y) = Z.of_nat (sx x y).
Proof. unfold new_width, new_height, source_x, zx. destruct (swapped t), (columns_reversed t); lia. Qed.
Lemma zy_of x y : (x < w')%nat -> (y < h')%nat -> zy (Z.of_nat x) (Z.of_nat y) = Z.of_nat (sy x y).
Proof. unfold new_width, new_height, source_y, zy. destruct (swapped t), (rows_reversed t); lia. Qed.
Lemma zx_plus X Y a b : zx (X + a) (Y + b) = (zx X Y + zsg (columns_reversed t) (if swapped t then b else a))%Z.
Proof. unfold zx. destruct (swapped t), (columns_reversed t); cbn [zsg]; lia. Qed.
Lemma zy_plus X Y a b : zy (X + a) (Y + b) = (zy X Y + zsg (rows_reversed t) (if swapped t then a else b))%Z.
Proof. unfold zy. destruct (swapped t), (rows_reversed t); cbn [zsg]; lia. Qed.
Lemma mv_extended s g g' X Y : mv t s w h g g' -> extended g' X Y = s * extended g (zx X Y) (zy X Y).
Proof.
  intros [(W & H & D) I]. rewrite (extended_of w' h' _ g' X Y I new_w new_h). unfold extended. rewrite W, H. f_equal. f_equal.
  - unfold source_x, zx, clamped, new_width, new_height. destruct (swapped t), (columns_reversed t); try reflexivity; lia.
  - unfold source_y, zy, clamped, new_width, new_height. destruct (swapped t), (rows_reversed t); try reflexivity; lia. Qed.
Lemma mv_correlate s g g' k x y : (length k mod 2 = 1)%nat -> palindrome k -> mv t s w h g g' -> (x < w')%nat -> (y < h')%nat ->
  correlate k k g' x y = s * correlate k k g (sx x y) (sy x y).
Proof.
  intros O P I Hx Hy. change (correlate k k g' x y) with (window k (fun a b => extended g' (Z.of_nat x + a) (Z.of_nat y + b))).
  change (correlate k k g (sx x y) (sy x y)) with (window k (fun a b => extended g (Z.of_nat (sx x y) + a) (Z.of_nat (sy x y) + b))).
  rewrite <- (window_turn k t (fun a b => extended g (Z.of_nat (sx x y) + a) (Z.of_nat (sy x y) + b)) O P). rewrite <- window_scal. apply window_ext. intros a b. rewrite (mv_extended s g g' _ _ I), zx_plus, zy_plus, zx_of, zy_of by assumption. reflexivity. Qed.
Lemma mv_blur s g g' r : mv t s w h g g' -> orel (mv t s w h) (@gaussian_blur RNum Rmath g r) (@gaussian_blur RNum Rmath g' r).
Proof.
  intros I. destruct (Rle_dec r 0) as [L|L]; [rewrite !blur_nonpositive by exact L; exact Logic.I|].
  destruct (gaussian_blur_correlates w h g r (proj1 I) Hw Hh ltac:(lra)) as (o & E & S & P). destruct (gaussian_blur_correlates w' h' g' r (proj1 (proj2 I)) new_w new_h ltac:(lra)) as (o' & E' & S' & P'). rewrite E, E'. cbn.
  split; [exact S|]. split; [exact S'|]. intros x y Hx Hy. rewrite P' by assumption. rewrite (P _ _ (sx_lt x y Hx Hy) (sy_lt x y Hx Hy)). apply mv_correlate; auto; [|apply gauss_palindrome].
  rewrite map_length, seq_length, Nat.add_comm, Nat.mul_comm, Nat.mod_add by lia. reflexivity. Qed.
Lemma mv_across s g g' d X Y : mv t s w h g g' -> across g' d X Y = s * (if swapped t then sgn (rows_reversed t) * down g d (zx X Y) (zy X Y) else sgn (columns_reversed t) * across g d (zx X Y) (zy X Y)).
Proof.
  intros I. unfold across, down. rewrite !(mv_extended s g g' _ _ I). replace (X - Z.of_nat d)%Z with (X + - Z.of_nat d)%Z by lia. replace Y with (Y + 0)%Z at 1 2 3 4 by lia. rewrite !zx_plus, !zy_plus.
  destruct (swapped t), (rows_reversed t), (columns_reversed t); unfold sgn; cbn [zsg]; rewrite ?Z.opp_involutive, ?Z.add_0_r; cbn [Z.opp]; rewrite ?Z.add_0_r; unfold Z.sub; rewrite ?Z.add_0_r; ring. Qed.
Lemma mv_down s g g' d X Y : mv t s w h g g' -> down g' d X Y = s * (if swapped t then sgn (columns_reversed t) * across g d (zx X Y) (zy X Y) else sgn (rows_reversed t) * down g d (zx X Y) (zy X Y)).
Proof.
  intros I. unfold across, down. rewrite !(mv_extended s g g' _ _ I). replace (Y - Z.of_nat d)%Z with (Y + - Z.of_nat d)%Z by lia. replace X with (X + 0)%Z at 1 2 3 4 by lia. rewrite !zx_plus, !zy_plus.
  destruct (swapped t), (rows_reversed t), (columns_reversed t); unfold sgn; cbn [zsg]; rewrite ?Z.opp_involutive, ?Z.add_0_r; cbn [Z.opp]; rewrite ?Z.add_0_r; unfold Z.sub; rewrite ?Z.add_0_r; ring. Qed.
Lemma zx_v X Y b : zx X (Y + b) = (zx X Y + zsg (columns_reversed t) (if swapped t then b else 0))%Z.
Proof. rewrite <- zx_plus. f_equal. lia. Qed.
Lemma zy_v X Y b : zy X (Y + b) = (zy X Y + zsg (rows_reversed t) (if swapped t then 0 else b))%Z.
Proof. rewrite <- zy_plus. f_equal. lia. Qed.
Lemma zx_h X Y a : zx (X + a) Y = (zx X Y + zsg (columns_reversed t) (if swapped t then 0 else a))%Z.
Proof. rewrite <- zx_plus. f_equal. lia. Qed.
Lemma zy_h X Y a : zy (X + a) Y = (zy X Y + zsg (rows_reversed t) (if swapped t then a else 0))%Z.
Proof. rewrite <- zy_plus. f_equal. lia. Qed.
Lemma mv_scharr_x s g g' d x y : mv t s w h g g' -> (x < w')%nat -> (y < h')%nat ->
  scharr_x g' d x y = if swapped t then s * sgn (rows_reversed t) * scharr_y g d (sx x y) (sy x y) else s * sgn (columns_reversed t) * scharr_x g d (sx x y) (sy x y).
Proof.
  intros I Hx Hy. unfold scharr_x, scharr_y. rewrite !(mv_across s g g' _ _ _ I). unfold Z.sub. rewrite !zx_v, !zy_v, !zx_of, !zy_of by assumption.
  destruct (swapped t), (rows_reversed t), (columns_reversed t); unfold sgn; cbn [zsg]; rewrite ?Z.opp_involutive; cbn [Z.opp]; rewrite ?Z.add_0_r; ring. Qed.
Lemma mv_scharr_y s g g' d x y : mv t s w h g g' -> (x < w')%nat -> (y < h')%nat ->
  scharr_y g' d x y = if swapped t then s * sgn (columns_reversed t) * scharr_x g d (sx x y) (sy x y) else s * sgn (rows_reversed t) * scharr_y g d (sx x y) (sy x y).
Proof.
  intros I Hx Hy. unfold scharr_x, scharr_y. rewrite !(mv_down s g g' _ _ _ I). unfold Z.sub. rewrite !zx_h, !zy_h, !zx_of, !zy_of by assumption.
  destruct (swapped t), (rows_reversed t), (columns_reversed t); unfold sgn; cbn [zsg]; rewrite ?Z.opp_involutive; cbn [Z.opp]; rewrite ?Z.add_0_r; ring. Qed.
(** The derivatives across and down of an image and of its turned image. *)
Definition derivatives (s : R) (gx gy gx' gy' : gray RNum) : Prop :=
  mv t (s * (if swapped t then sgn (rows_reversed t) else sgn (columns_reversed t))) w h (if swapped t then gy else gx) gx' /\
  mv t (s * (if swapped t then sgn (columns_reversed t) else sgn (rows_reversed t))) w h (if swapped t then gx else gy) gy'.
Lemma mv_derivatives s g g' d gx gy gx' gy' : mv t s w h g g' -> image_of w h (scharr_x g d) gx -> image_of w h (scharr_y g d) gy -> image_of w' h' (scharr_x g' d) gx' -> image_of w' h' (scharr_y g' d) gy' ->
  derivatives s gx gy gx' gy'.
Proof.
  intros I (S1 & P1) (S2 & P2) (S1' & P1') (S2' & P2'). split.
  - split; [destruct (swapped t); assumption|]. split; [exact S1'|]. intros x y Hx Hy. rewrite P1' by assumption. rewrite (mv_scharr_x s g g' d x y I Hx Hy). pose proof (sx_lt x y Hx Hy). pose proof (sy_lt x y Hx Hy).
    destruct (swapped t); [rewrite P2 by assumption|rewrite P1 by assumption]; reflexivity.
  - split; [destruct (swapped t); assumption|]. split; [exact S2'|]. intros x y Hx Hy. rewrite P2' by assumption. rewrite (mv_scharr_y s g g' d x y I Hx Hy). pose proof (sx_lt x y Hx Hy). pose proof (sy_lt x y Hx Hy).
    destruct (swapped t); [rewrite P1 by assumption|rewrite P2 by assumption]; reflexivity. Qed.
Lemma mv_scharr s g g' d : mv t s w h g g' -> d <> 0%nat ->
  exists gx gy gx' gy', @scharr_horizontal RNum g d = Ok gx /\ @scharr_vertical RNum g d = Ok gy /\ @scharr_horizontal RNum g' d = Ok gx' /\ @scharr_vertical RNum g' d = Ok gy' /\ derivatives s gx gy gx' gy'
    /\ sized w h gx /\ sized w h gy.
Proof.
  intros I NZ. destruct (scharr_image w h g d (proj1 I) Hw Hh ltac:(lia)) as (gx & gy & E1 & E2 & (S1 & P1) & S2 & P2).
  destruct (scharr_image w' h' g' d (proj1 (proj2 I)) new_w new_h ltac:(lia)) as (gx' & gy' & E1' & E2' & (S1' & P1') & S2' & P2'). exists gx, gy, gx', gy'.
  split; [exact E1|]. split; [exact E2|]. split; [exact E1'|]. split; [exact E2'|]. split; [|auto]. apply (mv_derivatives s g g' d); auto; split; assumption. Qed.
Lemma mv_half s g g' : mv t s w h g g' -> (columns_reversed t = true -> Nat.even w = true) -> (rows_reversed t = true -> Nat.even h = true) ->
  orel (fun o o' => (2 <= w)%nat /\ (2 <= h)%nat /\ mv t s (w / 2) (h / 2) o o') (@half_size RNum g) (@half_size RNum g').
Proof.
  intros I Ec Er.
  assert (Small : (w < 2 \/ h < 2)%nat -> @half_size RNum g = Panic /\ @half_size RNum g' = Panic).
  { intros Q. split; [apply (half_size_small w h); [apply I|lia]|]. apply (half_size_small w' h'); [apply I|]. unfold new_width, new_height. destruct (swapped t); lia. }
  destruct (le_lt_dec 2 w) as [Lw|Lw]; [|destruct (Small (or_introl Lw)) as [-> ->]; exact Logic.I].
  destruct (le_lt_dec 2 h) as [Lh|Lh]; [|destruct (Small (or_intror Lh)) as [-> ->]; exact Logic.I]. clear Small.
  assert (Lw' : (2 <= w')%nat) by (unfold new_width; destruct (swapped t); assumption). assert (Lh' : (2 <= h')%nat) by (unfold new_height; destruct (swapped t); assumption).
  destruct (half_size_image w h g (proj1 I) Lw Lh) as (o & E & S & P). destruct (half_size_image w' h' g' (proj1 (proj2 I)) Lw' Lh') as (o' & E' & S' & P'). rewrite E, E'. cbn [orel].
  assert (EW : new_width t (w / 2) (h / 2) = (w' / 2)%nat) by (unfold new_width; destruct (swapped t); reflexivity). assert (EH : new_height t (w / 2) (h / 2) = (h' / 2)%nat) by (unfold new_height; destruct (swapped t); reflexivity).
  split; [exact Lw|]. split; [exact Lh|]. split; [exact S|]. unfold image_of. rewrite EW, EH. split; [exact S'|]. intros x y Hx Hy. rewrite P' by assumption.
  assert (Bx : (source_x t (w / 2) x y < w / 2)%nat) by (unfold source_x; revert Hx Hy; unfold new_width, new_height; destruct (swapped t), (columns_reversed t); lia).
  assert (By : (source_y t (h / 2) x y < h / 2)%nat) by (unfold source_y; revert Hx Hy; unfold new_width, new_height; destruct (swapped t), (rows_reversed t); lia).
  rewrite (P _ _ Bx By). destruct I as (_ & _ & Q). rewrite !half_value_twice.
  rewrite (half1_ext h' _ (fun Y => s * half1 w' (fun X => pixel g (sx X Y) (sy X Y)) x) y Hy) by (intros i Hi; rewrite <- half1_scal; apply half1_ext; [exact Hx|]; intros j Hj; now apply Q).
  rewrite half1_scal. f_equal. clear Q. unfold source_x, source_y, new_width, new_height in *.
  destruct (swapped t); [rewrite half1_swap|]; destruct (columns_reversed t), (rows_reversed t); try reflexivity;
    rewrite <- ?half1_rev by auto; try (apply half1_ext; [assumption|]; intros i Hi; rewrite <- ?half1_rev by auto; reflexivity). Qed.
Lemma derivatives_at s gx gy gx' gy' x y : derivatives s gx gy gx' gy' -> (x < w')%nat -> (y < h')%nat ->
  pixel gx' x y * pixel gx' x y + pixel gy' x y * pixel gy' x y = s * s * (pixel gx (sx x y) (sy x y) * pixel gx (sx x y) (sy x y) + pixel gy (sx x y) (sy x y) * pixel gy (sx x y) (sy x y)) :> R.
Proof.
  intros [(_ & _ & PX) (_ & _ & PY)] Hx Hy. rewrite (PX x y Hx Hy), (PY x y Hx Hy). destruct (swapped t), (rows_reversed t), (columns_reversed t); unfold sgn; cbn [carrier RNum]; rring. Qed.
Lemma derivatives_sized s gx gy gx' gy' : derivatives s gx gy gx' gy' -> sized w h gx /\ sized w h gy /\ sized w' h' gx' /\ sized w' h' gy'.
Proof. intros [(A & B & _) (C & D & _)]. destruct (swapped t); auto. Qed.
Lemma mv_flow Lx Lx' Ly Ly' k : derivatives 1 Lx Ly Lx' Ly' -> orel (mv t 1 w h) (pm_g2 Rwidths Lx Ly k) (pm_g2 Rwidths Lx' Ly' k).
Proof.
  intros D. destruct (derivatives_sized _ _ _ _ _ D) as ((A1 & A2 & _) & (B1 & B2 & _) & (A1' & A2' & _) & (B1' & B2' & _)). unfold pm_g2. cbn [single Rwidths] in *.
  rewrite A1, A2, B1, B2, A1', A2', B1', B2', !Nat.eqb_refl. cbn [andb assert_ orel]. split; [apply of_fn_sized|]. split; [apply of_fn_sized|]. intros x y Hx Hy. rewrite !pixel_of_fn by (try assumption; now (apply sx_lt || apply sy_lt)).
  pose proof (derivatives_at 1 Lx Ly Lx' Ly' x y D Hx Hy) as E. rnum. cbn [narrow Rwidths]. change (carrier RNum) with R in *.
  match goal with |- 1 / (1 + _ * ?A) = 1 * (1 / (1 + _ * ?B)) => replace A with B by (symmetry; etransitivity; [exact E|rring]) end. rring. Qed.
(** The neighbours of a pixel. *)
Definition around (w h : nat) (f : nat -> nat -> R) (x y : nat) : R :=
  (if (x + 1 <? w)%nat then f (x + 1)%nat y else 0) + (if (1 <=? x)%nat then f (x - 1)%nat y else 0) + (if (y + 1 <? h)%nat then f x (y + 1)%nat else 0) + (if (1 <=? y)%nat then f x (y - 1)%nat else 0).
Lemma around_sum a b f x y : rsum_list (fun '(i, j) => f i j) (neighbours a b x y) = around a b f x y.
Proof. unfold neighbours, around. destruct (x + 1 <? a)%nat, (1 <=? x)%nat, (y + 1 <? b)%nat, (1 <=? y)%nat; cbn [rsum_list app]; ring. Qed.
Lemma around_turn f f' x y : (x < w')%nat -> (y < h')%nat -> (forall i j, (i < w')%nat -> (j < h')%nat -> f' i j = f (sx i j) (sy i j)) -> around w' h' f' x y = around w h f (sx x y) (sy x y).
Proof.
  intros Hx Hy K. unfold around.
  assert (K1 : (if (x + 1 <? w')%nat then f' (x + 1)%nat y else 0) = if (x + 1 <? w')%nat then f (sx (x + 1) y) (sy (x + 1) y) else 0) by (destruct (Nat.ltb_spec (x + 1) w'); [apply K; assumption|reflexivity]).
  assert (K2 : (if (1 <=? x)%nat then f' (x - 1)%nat y else 0) = if (1 <=? x)%nat then f (sx (x - 1) y) (sy (x - 1) y) else 0) by (destruct (Nat.leb_spec 1 x); [apply K; [lia|assumption]|reflexivity]).
  assert (K3 : (if (y + 1 <? h')%nat then f' x (y + 1)%nat else 0) = if (y + 1 <? h')%nat then f (sx x (y + 1)) (sy x (y + 1)) else 0) by (destruct (Nat.ltb_spec (y + 1) h'); [apply K; assumption|reflexivity]).
  assert (K4 : (if (1 <=? y)%nat then f' x (y - 1)%nat else 0) = if (1 <=? y)%nat then f (sx x (y - 1)) (sy x (y - 1)) else 0) by (destruct (Nat.leb_spec 1 y); [apply K; [assumption|lia]|reflexivity]).
  rewrite K1, K2, K3, K4. clear K K1 K2 K3 K4. unfold source_x, source_y, new_width, new_height in *.
  assert (R1 : forall n z, (z < n)%nat -> (n - 1 - z + 1 <? n)%nat = (1 <=? z)%nat) by (intros n z L; destruct (Nat.ltb_spec (n - 1 - z + 1) n), (Nat.leb_spec 1 z); try reflexivity; lia).
  assert (R2 : forall n z, (z < n)%nat -> (1 <=? n - 1 - z)%nat = (z + 1 <? n)%nat) by (intros n z L; destruct (Nat.ltb_spec (z + 1) n), (Nat.leb_spec 1 (n - 1 - z)); try reflexivity; lia).
  assert (R3 : forall n z, (n - 1 - (z + 1) = n - 1 - z - 1)%nat) by (intros; lia).
  assert (R4 : forall n z (g : nat -> R), (z < n)%nat -> (if (1 <=? z)%nat then g (n - 1 - (z - 1))%nat else 0) = if (1 <=? z)%nat then g (n - 1 - z + 1)%nat else 0) by (intros n z g L; destruct (Nat.leb_spec 1 z); [f_equal; lia|reflexivity]).
  destruct (swapped t), (columns_reversed t), (rows_reversed t); rewrite ?R1, ?R2, ?R3 by assumption.
  all: rewrite ?(R4 w x (fun z => f z _)) by assumption; rewrite ?(R4 w y (fun z => f z _)) by assumption; rewrite ?(R4 h x (fun z => f _ z)) by assumption; rewrite ?(R4 h y (fun z => f _ z)) by assumption; try ring. Qed.
Lemma mv_step g g' flow flow' s : mv t 1 w h g g' -> mv t 1 w h flow flow' -> orel (mv t 1 w h) (@calculate_step RNum g flow s) (@calculate_step RNum g' flow' s).
Proof.
  intros I F. destruct (step_image w h g flow s (proj1 I) (proj1 F) Hw Hh) as (o & E & S & P). destruct (step_image w' h' g' flow' s (proj1 (proj2 I)) (proj1 (proj2 F)) new_w new_h) as (o' & E' & S' & P').
  rewrite E, E'. cbn [orel]. split; [exact S|]. split; [exact S'|]. intros x y Hx Hy. rewrite P' by assumption. rewrite (P _ _ (sx_lt x y Hx Hy) (sy_lt x y Hx Hy)). destruct I as ((A1 & A2 & _) & (A1' & A2' & _) & Q). destruct F as (_ & _ & QF).
  unfold diffused. rewrite A1, A2, A1', A2'.
  rewrite (around_sum w' h' (fun i j => (pixel flow' x y + pixel flow' i j) / 2 * (pixel g' i j - pixel g' x y))), (around_sum w h (fun i j => (pixel flow (sx x y) (sy x y) + pixel flow i j) / 2 * (pixel g i j - pixel g (sx x y) (sy x y)))).
  rewrite (around_turn (fun i j => (pixel flow (sx x y) (sy x y) + pixel flow i j) / 2 * (pixel g i j - pixel g (sx x y) (sy x y))) _ x y Hx Hy).
  - rewrite (Q x y Hx Hy). cbn [carrier RNum]. rring.
  - intros i j Hi Hj. rewrite (QF x y Hx Hy), (QF i j Hi Hj), (Q i j Hi Hj), (Q x y Hx Hy). cbn [carrier RNum]. rfield. Qed.
(** *** The contrast factor *)
Definition src (p : nat * nat) : nat * nat := (sx (fst p) (snd p), sy (fst p) (snd p)).
Lemma in_inner a b p : In p (inner a b) <-> (1 <= fst p /\ fst p + 1 < a /\ 1 <= snd p /\ snd p + 1 < b)%nat.
Proof.
  unfold inner. rewrite in_flat_map. split.
  - intros (y & Hy & K). apply in_map_iff in K as (x & <- & Hx). apply in_seq in Hx, Hy. cbn. lia.
  - intros K. exists (snd p). split; [apply in_seq; lia|]. apply in_map_iff. exists (fst p). split; [now destruct p|]. apply in_seq. lia. Qed.
Lemma inner_nodup a b : NoDup (inner a b).
Proof.
  unfold inner. generalize (seq_NoDup (b - 2) 1). generalize (seq 1 (b - 2)). induction l as [|y l IH]; intros N; cbn [flat_map]; [constructor|]. apply NoDup_cons_iff in N as [Ny N].
  assert (NA : forall (l1 l2 : list (nat * nat)), NoDup l1 -> NoDup l2 -> (forall p, In p l1 -> ~ In p l2) -> NoDup (l1 ++ l2)).
  { induction l1 as [|p l1 IH1]; intros l2 N1 N2 D; [exact N2|]. apply NoDup_cons_iff in N1 as [Np N1]. cbn. constructor.
    - rewrite in_app_iff. intros [C|C]; [exact (Np C)|exact (D p (or_introl eq_refl) C)].
    - apply IH1; auto. intros q Iq. apply D. now right. }
  apply NA; [|now apply IH|].
  - apply FinFun.Injective_map_NoDup; [intros u v Q; now inversion Q|apply seq_NoDup].
  - intros p Ip Iq. apply in_map_iff in Ip as (x & <- & _). apply in_flat_map in Iq as (z & Iz & Iq). apply in_map_iff in Iq as (x' & Q & _). inversion Q. subst. exact (Ny Iz). Qed.
Lemma inner_length a b : length (inner a b) = ((a - 2) * (b - 2))%nat.
Proof.
  assert (A : forall (l : list nat), length (flat_map (fun y => map (fun x => (x, y)) (seq 1 (a - 2))) l) = ((a - 2) * length l)%nat).
  { induction l as [|y l IH]; cbn [flat_map length]; [lia|]. rewrite app_length, map_length, seq_length, IH. lia. }
  unfold inner. rewrite A, seq_length. reflexivity. Qed.
Lemma inner_turn : Permutation (inner w h) (map src (inner w' h')).
Proof.
  apply NoDup_Permutation_bis; [apply inner_nodup| |].
  - rewrite map_length, !inner_length. unfold new_width, new_height. destruct (swapped t); lia.
  - intros (X, Y) K. apply in_inner in K. cbn [fst snd] in K. apply in_map_iff.
    set (u := if columns_reversed t then (w - 1 - X)%nat else X). set (v := if rows_reversed t then (h - 1 - Y)%nat else Y).
    assert (Bu : (1 <= u /\ u + 1 < w)%nat) by (unfold u; destruct (columns_reversed t); lia). assert (Bv : (1 <= v /\ v + 1 < h)%nat) by (unfold v; destruct (rows_reversed t); lia).
    exists (if swapped t then (v, u) else (u, v)). split.
    + unfold src, source_x, source_y, u, v. destruct (swapped t), (columns_reversed t), (rows_reversed t); cbn [fst snd]; f_equal; lia.
    + apply in_inner. unfold new_width, new_height. destruct (swapped t); cbn [fst snd]; lia. Qed.
Lemma filter_turn (f f' : nat * nat -> bool) : (forall p, In p (inner w' h') -> f' p = f (src p)) -> length (filter f' (inner w' h')) = length (filter f (inner w h)).
Proof.
  intros K. transitivity (length (filter f (map src (inner w' h')))).
  - clear - K. induction (inner w' h') as [|p l IH]; [reflexivity|]. cbn [map filter]. rewrite (K p (or_introl eq_refl)). destruct (f (src p)); cbn [length]; rewrite IH by (intros; apply K; now right); reflexivity.
  - assert (PF : forall l1 l2 : list (nat * nat), Permutation l1 l2 -> length (filter f l1) = length (filter f l2)).
    { induction 1; cbn [filter]; auto; [destruct (f x); cbn [length]; congruence|destruct (f x), (f y); reflexivity|congruence]. }
    symmetry. apply PF, inner_turn. Qed.
Lemma filter_filter {X} (f g : X -> bool) l : filter f (filter g l) = filter (fun p => g p && f p) l.
Proof. induction l as [|p l IH]; cbn [filter]; [reflexivity|]. destruct (g p); cbn [filter andb]; rewrite ?IH; reflexivity. Qed.
Lemma mv_contrast_of Lx Lx' Ly Ly' percentile bins : derivatives 1 Lx Ly Lx' Ly' -> (3 <= w)%nat -> (3 <= h)%nat -> (0 < bins)%nat -> 0 <= percentile <= 1 ->
  orel (@eq R) (contrast_of Rwidths Rmath Lx Ly percentile bins) (contrast_of Rwidths Rmath Lx' Ly' percentile bins).
Proof.
  intros D H3 H3' Hb Hp. destruct (derivatives_sized _ _ _ _ _ D) as (S1 & S2 & S1' & S2').
  destruct (DiffuseProps.contrast_percentile w h Lx Ly percentile bins S1 S2 H3 H3' Hb Hp) as (top & k & T & K & E & L1 & L2).
  destruct (DiffuseProps.contrast_percentile w' h' Lx' Ly' percentile bins S1' S2' ltac:(unfold new_width; destruct (swapped t); assumption) ltac:(unfold new_height; destruct (swapped t); assumption) Hb Hp) as (top' & k' & T' & K' & E' & L1' & L2').
  destruct S1 as (W & H & _). destruct S1' as (W' & H' & _).
  assert (G : forall p, In p (inner w' h') -> gradient Lx' Ly' p = gradient Lx Ly (src p)).
  { intros p Ip. unfold gradient. f_equal. apply in_inner in Ip. etransitivity; [apply (derivatives_at 1 Lx Ly Lx' Ly' _ _ D); lia|]. cbn [src fst snd]. rring. }
  assert (ET : top' = top).
  { destruct T as [(p & Ip & Ep) M], T' as [(p' & Ip' & Ep') M']. rewrite W, H in *. rewrite W', H' in *. apply Rle_antisym.
    - rewrite <- Ep', G by exact Ip'. apply M. apply (Permutation_in _ (Permutation_sym inner_turn)). now apply in_map.
    - rewrite <- Ep. apply (Permutation_in _ inner_turn) in Ip. apply in_map_iff in Ip as (q & <- & Iq). rewrite <- G by exact Iq. now apply M'. }
  assert (T0 : 0 <= top) by (destruct T as [(p & _ & <-) _]; apply sqrt_pos).
  assert (EE : length (edges Lx' Ly') = length (edges Lx Ly)).
  { unfold edges. rewrite W, H, W', H'. apply filter_turn. intros p Ip. now rewrite G by exact Ip. }
  assert (EC : forall j, count_below Lx' Ly' top' bins j = count_below Lx Ly top bins j).
  { intros j. unfold count_below, edges. rewrite W, H, W', H', !filter_filter, ET. apply filter_turn. intros p Ip. now rewrite G by exact Ip. }
  cbv zeta in L1, L2, L1', L2'. rewrite EE, EC in *. set (wanted := Z.to_nat _) in *.
  assert (EK : k' = k).
  { destruct (Nat.lt_trichotomy k k') as [Q|[Q|Q]]; [|now symmetry|]; exfalso.
    - destruct L2' as [L2'|L2']; [lia|]. pose proof (count_below_mono w h Hw Hh Lx Ly top bins k (k' - 1) T0 ltac:(lia)). lia.
    - destruct L2 as [L2|L2]; [lia|]. pose proof (count_below_mono w h Hw Hh Lx Ly top bins k' (k - 1) T0 ltac:(lia)). lia. }
  rewrite E, E'. cbn [orel]. now rewrite EK, ET. Qed.
Lemma mv_contrast g g' percentile bins : mv t 1 w h g g' -> (3 <= w)%nat -> (3 <= h)%nat -> (0 < bins)%nat -> 0 <= percentile <= 1 ->
  orel (@eq R) (compute_contrast_factor Rwidths Rmath Rmath g percentile 1 bins) (compute_contrast_factor Rwidths Rmath Rmath g' percentile 1 bins).
Proof.
  intros I H3 H3' Hb Hp. unfold compute_contrast_factor. apply (orel_bind (mv t 1 w h)); [now apply mv_blur|]. intros b b' _ _ Ib.
  destruct (mv_scharr 1 b b' 1 Ib ltac:(lia)) as (gx & gy & gx' & gy' & E1 & E2 & E3 & E4 & D & _). cbn [single double Rwidths] in *.
  change (simple_scharr_horizontal b) with (@scharr_horizontal RNum b 1). change (simple_scharr_vertical b) with (@scharr_vertical RNum b 1). change (simple_scharr_horizontal b') with (@scharr_horizontal RNum b' 1). change (simple_scharr_vertical b') with (@scharr_vertical RNum b' 1).
  rewrite E1, E2, E3, E4. cbn [bind]. now apply mv_contrast_of. Qed.
End images.
