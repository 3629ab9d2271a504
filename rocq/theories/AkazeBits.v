(** Specification of the binary descriptor, for any arithmetic. *)
From Coq Require Import List Arith ZArith NArith Bool.
From Verif Require Import Num Outcome Gray Diffuse Akaze.
Import ListNotations.
Open Scope num_scope.

Section spec.
Variables (P : widths) (M32 : math (single P)) (o : settings (double P)).
Notation f32 := (single P).
(** The placed pattern: position, cosine, sine, scale. *)
Record pattern : Type := Pattern { p_x : f32; p_y : f32; p_cos : f32; p_sin : f32; p_scale : f32 }.
(** The pixel under the pattern point (k, l). *)
Definition under (q : pattern) (k l : Z) : Z * Z :=
  (m_trunc M32 (m_round M32 (p_x q + (- ofZ l * p_sin q * p_scale q + ofZ k * p_cos q * p_scale q))),
   m_trunc M32 (m_round M32 (p_y q + (ofZ l * p_cos q * p_scale q + ofZ k * p_sin q * p_scale q)))).
Definition in_image (g : gray f32) (p : Z * Z) : Prop := (0 <= fst p < Z.of_nat (g_width g))%Z /\ (0 <= snd p < Z.of_nat (g_height g))%Z.
Definition at_ (g : gray f32) (p : Z * Z) : f32 := pixel g (Z.to_nat (fst p)) (Z.to_nat (snd p)).
(** What channel [c] reads there: brightness, then the gradient's length, or its two rotated parts. *)
Definition reading (e : level P) (q : pattern) (c : nat) (kl : Z * Z) : f32 :=
  let p := under q (fst kl) (snd kl) in
  let rx := at_ (Lx e) p in let ry := at_ (Ly e) p in
  match c with
  | O => at_ (Lt e) p
  | S O => if (descriptor_channels o =? 2)%nat then sqrt_ (rx * rx + ry * ry) else - rx * p_sin q + ry * p_cos q
  | _ => rx * p_cos q + ry * p_sin q
  end.
(** The points of a cell of side [n] at (i, j), row by row, and the mean reading. *)
Definition cell (n : nat) (ij : Z * Z) : list (Z * Z) := list_prod (map (fun k => fst ij + Z.of_nat k)%Z (seq 0 n)) (map (fun k => snd ij + Z.of_nat k)%Z (seq 0 n)).
Definition mean (e : level P) (q : pattern) (n c : nat) (ij : Z * Z) : f32 := fold_left add (map (reading e q c) (cell n ij)) zero / ofZ (Z.of_nat (length (cell n ij))).
(** The cells of side [n] of the pattern. *)
Definition corners (n : nat) : list Z := map (fun k => Z.of_nat (k * n) - Z.of_nat (descriptor_pattern_size o))%Z (seq 0 ((2 * descriptor_pattern_size o + n - 1) / n)).
Definition cells (n : nat) : list (Z * Z) := list_prod (corners n) (corners n).
Definition pattern_inside (e : level P) (q : pattern) (n : nat) : Prop := forall ij kl, In ij (cells n) -> In kl (cell n ij) -> in_image (Lt e) (under q (fst kl) (snd kl)).
(** All comparisons of two of [count] cells: for each channel, pairs i < j in order. *)
Definition comparisons (channels count : nat) : list (nat * (nat * nat)) :=
  filter (fun p => (fst (snd p) <? snd (snd p))%nat) (list_prod (seq 0 channels) (list_prod (seq 0 count) (seq 0 count))).
(** The bits of one grid with [count] cells of side [n]. *)
Definition grid_bits (e : level P) (q : pattern) (n count : nat) : list bool :=
  map (fun '(c, (i, j)) => mean e q n c (nth j (cells n) (0, 0)%Z) <? mean e q n c (nth i (cells n) (0, 0)%Z)) (comparisons (descriptor_channels o) count).
(** Bit [b] of a byte string. *)
Definition bit (bytes : list N) (b : nat) : bool := N.testbit (nth (b / 8) bytes 0%N) (N.of_nat (b mod 8)).
Definition encodes (bytes : list N) (bits : list bool) : Prop :=
  length bytes = 64%nat /\ (forall x, In x bytes -> (x < 256)%N) /\ forall b, (b < 512)%nat -> bit bytes b = nth b bits false.
End spec.
Arguments Pattern {_} _ _ _ _ _.
Arguments p_x {_} _.
Arguments p_y {_} _.
Arguments p_cos {_} _.
Arguments p_sin {_} _.
Arguments p_scale {_} _.
