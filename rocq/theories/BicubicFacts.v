(** Proofs about bicubic.rs and export.rs over the reals. *)
From Coq Require Import Reals ZArith List Lia Lra Psatz Bool.
From Verif Require Import Num Lin LinSpec LinFacts Core CoreSpec CoreFacts Bicubic BicubicSpec.
Import ListNotations.
Open Scope R_scope.

Lemma Int_part_floor (x : R) (z : Z) : floor_of x z -> Int_part x = z.
Proof. intros H. unfold floor_of, Int_part in *. rewrite <- (tech_up x (z + 1)); [lia| |]; rewrite plus_IZR; lra. Qed.
Lemma floor_Int_part (x : R) : floor_of x (Int_part x).
Proof. unfold floor_of. destruct (base_Int_part x). lra. Qed.
Lemma Int_part_IZR (z : Z) : Int_part (IZR z) = z.
Proof. apply Int_part_floor. unfold floor_of. lra. Qed.
Lemma floor_unique (x : R) (a b : Z) : floor_of x a -> floor_of x b -> a = b.
Proof. intros A B. rewrite <- (Int_part_floor _ _ A). now apply Int_part_floor. Qed.

Section real.
Context {C : Type} (to_float : C -> R) (clamp : R -> C).
Notation blend := (@blend_cubic RNum C to_float clamp).
Notation interpolate := (@interpolate_bicubic RNum Rcasts C to_float clamp).

Lemma ltb_Z (a b : Z) : Rltb (IZR a) (IZR b) = Z.ltb a b.
Proof. unfold Rltb. destruct (Rlt_dec _ _) as [H|H]; [apply lt_IZR in H|]; symmetry; [apply Z.ltb_lt; lia|].
  apply Z.ltb_ge. apply Rnot_lt_le in H. apply le_IZR in H. lia. Qed.
Lemma leb_Z (a b : Z) : Rleb (IZR a) (IZR b) = Z.leb a b.
Proof. unfold Rleb. destruct (Rle_dec _ _) as [H|H]; [apply le_IZR in H|]; symmetry; [apply Z.leb_le; lia|].
  apply Z.leb_gt. apply Rnot_le_lt in H. apply lt_IZR in H. lia. Qed.
Lemma get_inside (im : image C) x y : (0 <= x < i_width im)%Z -> (0 <= y < i_height im)%Z -> unsafe_get im x y = Some (i_pixel im x y).
Proof. intros A B. unfold unsafe_get.
  replace (0 <=? x)%Z with true by (symmetry; apply Z.leb_le; lia). replace (x <? i_width im)%Z with true by (symmetry; apply Z.ltb_lt; lia).
  replace (0 <=? y)%Z with true by (symmetry; apply Z.leb_le; lia). now replace (y <? i_height im)%Z with true by (symmetry; apply Z.ltb_lt; lia). Qed.
Lemma row_inside (im : image C) left row (w : R) : (0 <= left)%Z -> (left + 3 < i_width im)%Z -> (0 <= row < i_height im)%Z ->
  @blend_row RNum C to_float clamp im left row w =
    Some (blend (i_pixel im left row) (i_pixel im (left + 1) row) (i_pixel im (left + 2) row) (i_pixel im (left + 3) row) w).
Proof. intros A B D. unfold blend_row. now rewrite !get_inside by lia. Qed.

Lemma interpolate_value (im : image C) (x y : R) (z r : Z) (default : C) : u32_image im -> floor_of x z -> floor_of y r ->
  window_accepted z (i_width im) -> window_accepted r (i_height im) ->
  interpolate im x y default = Colour (window_value (to_float : C -> RNum) clamp im z r (x - IZR z) (y - IZR r)).
Proof.
  intros [U V] Fx Fy Wx Wy. unfold window_accepted in *. unfold interpolate_bicubic. cbn [c_floor Rcasts c_to_u32 c_of_u32].
  rewrite (Int_part_floor _ _ Fx), (Int_part_floor _ _ Fy).
  cbn [zero one add sub ltb leb ofZ RNum carrier].
  replace (IZR z - 1) with (IZR (z - 1)) by (rewrite minus_IZR; reflexivity).
  replace (IZR r - 1) with (IZR (r - 1)) by (rewrite minus_IZR; reflexivity).
  rewrite <- !plus_IZR.
  rewrite !leb_Z, !ltb_Z, !Int_part_IZR.
  replace (z - 1 <? 0)%Z with false by (symmetry; apply Z.ltb_ge; lia). replace (r - 1 <? 0)%Z with false by (symmetry; apply Z.ltb_ge; lia).
  replace (i_width im <=? z - 1 + 4)%Z with false by (symmetry; apply Z.leb_gt; lia).
  replace (i_height im <=? r - 1 + 4)%Z with false by (symmetry; apply Z.leb_gt; lia). cbn [orb].
  unfold saturate, u32_max in *. rewrite !Z.min_r, !Z.max_r by lia.
  replace (Z.to_nat (r - 1 + 4 - (r - 1))) with 4%nat by lia.
  replace (z - 1 + 1)%Z with z by lia. replace (r - 1 + 1)%Z with r by lia.
  cbn [blend_rows]. rewrite !row_inside by lia.
  replace (Z.to_nat (r - 1 - (r - 1))) with 0%nat by lia.
  replace (r - 1 + 1)%Z with r by lia.
  replace (Z.to_nat (r - (r - 1))) with 1%nat by lia. replace (Z.to_nat (r + 1 - (r - 1))) with 2%nat by lia.
  replace (Z.to_nat (r + 1 + 1 - (r - 1))) with 3%nat by lia. cbn [Nat.ltb Nat.leb firstn skipn app].
  unfold window_value, row_value. replace (z - 1 + 1)%Z with z by lia. replace (z - 1 + 2)%Z with (z + 1)%Z by lia.
  replace (z - 1 + 3)%Z with (z + 2)%Z by lia. replace (r + 1 + 1)%Z with (r + 2)%Z by lia. reflexivity.
Qed.
Lemma interpolate_default (im : image C) (x y : R) (z r : Z) (default : C) : floor_of x z -> floor_of y r ->
  ~ (window_accepted z (i_width im) /\ window_accepted r (i_height im)) -> interpolate im x y default = Colour default.
Proof.
  intros Fx Fy W. unfold window_accepted in *. unfold interpolate_bicubic. cbn [c_floor Rcasts c_to_u32 c_of_u32].
  rewrite (Int_part_floor _ _ Fx), (Int_part_floor _ _ Fy).
  cbn [zero one add sub ltb leb ofZ RNum carrier].
  replace (IZR z - 1) with (IZR (z - 1)) by (rewrite minus_IZR; reflexivity).
  replace (IZR r - 1) with (IZR (r - 1)) by (rewrite minus_IZR; reflexivity).
  rewrite <- !plus_IZR. rewrite !leb_Z, !ltb_Z.
  destruct (Z.ltb_spec (z - 1) 0); [reflexivity|]. destruct (Z.leb_spec (i_width im) (z - 1 + 4)); [reflexivity|].
  destruct (Z.ltb_spec (r - 1) 0); [reflexivity|]. destruct (Z.leb_spec (i_height im) (r - 1 + 4)); [reflexivity|].
  exfalso. apply W. lia.
Qed.
Lemma window_dec z n : {window_accepted z n} + {~ window_accepted z n}.
Proof. unfold window_accepted. destruct (Z_le_dec 0 (z - 1)), (Z_lt_dec (z + 3) n); (left; lia) || (right; lia). Qed.
Lemma interpolate_total (im : image C) (x y : R) (default : C) : u32_image im -> exists c, interpolate im x y default = Colour c.
Proof.
  intros U. pose proof (floor_Int_part x) as Fx. pose proof (floor_Int_part y) as Fy.
  destruct (window_dec (Int_part x) (i_width im)) as [A|A]; [destruct (window_dec (Int_part y) (i_height im)) as [B|B]|].
  - eexists. eapply interpolate_value; eauto.
  - eexists. apply (interpolate_default _ _ _ _ _ _ Fx Fy). tauto.
  - eexists. apply (interpolate_default _ _ _ _ _ _ Fx Fy). tauto.
Qed.

Lemma blend_value (a b c d : C) (t : R) : blend a b c d t = clamp (let p0 := to_float a in let p1 := to_float b in let p2 := to_float c in let p3 := to_float d in
  p1 + t * ((p2 - p0) / 2) + t ^ 2 * (p0 - 5 / 2 * p1 + 2 * p2 - p3 / 2) + t ^ 3 * (3 / 2 * (p1 - p2) + (p3 - p0) / 2)).
Proof. unfold blend_cubic. f_equal. cbv zeta. unfold half, lit. rnum_eq. field. Qed.
Lemma blend_zero (a b c d : C) : blend a b c d 0 = clamp (to_float b).
Proof. rewrite blend_value. cbv zeta. f_equal. ring. Qed.
Lemma blend_constant (a : C) (t : R) : blend a a a a t = clamp (to_float a).
Proof. rewrite blend_value. cbv zeta. f_equal. field. Qed.

Lemma interpolate_pixel (im : image C) (i j : Z) default : u32_image im -> exact_channels to_float clamp im ->
  window_accepted i (i_width im) -> window_accepted j (i_height im) -> interpolate im (IZR i) (IZR j) default = Colour (i_pixel im i j).
Proof.
  intros U E A B. rewrite (interpolate_value im _ _ i j) by (try assumption; unfold floor_of; lra).
  replace (IZR i - IZR i) with 0 by ring. replace (IZR j - IZR j) with 0 by ring. unfold window_accepted in *. unfold window_value, row_value. rewrite !blend_zero. now rewrite !E by lia.
Qed.
Lemma interpolate_constant (im : image C) (x y : R) k default : u32_image im -> exact_channels to_float clamp im ->
  (forall i j, (0 <= i < i_width im)%Z -> (0 <= j < i_height im)%Z -> i_pixel im i j = k) ->
  interpolate im x y default = Colour k \/ interpolate im x y default = Colour default.
Proof.
  intros U E A. pose proof (floor_Int_part x) as Fx. pose proof (floor_Int_part y) as Fy.
  destruct (window_dec (Int_part x) (i_width im)) as [W|W]; [destruct (window_dec (Int_part y) (i_height im)) as [V|V]|].
  - left. erewrite interpolate_value by eassumption. unfold window_accepted in *. unfold window_value, row_value.
    pose proof (E 0%Z 0%Z ltac:(lia) ltac:(lia)) as K. rewrite A in K by lia. rewrite !A by lia. now rewrite !blend_constant, !K.
  - right. apply (interpolate_default _ _ _ _ _ _ Fx Fy). tauto.
  - right. apply (interpolate_default _ _ _ _ _ _ Fx Fy). tauto.
Qed.
End real.

(** ** Channels which are real numbers *)
Notation rblend := (@blend_cubic RNum R (fun v => v) (fun v => v)).
Lemma rblend_value (p0 p1 p2 p3 t : R) : rblend p0 p1 p2 p3 t =
  p1 + t * ((p2 - p0) / 2) + t ^ 2 * (p0 - 5 / 2 * p1 + 2 * p2 - p3 / 2) + t ^ 3 * (3 / 2 * (p1 - p2) + (p3 - p0) / 2).
Proof. exact (blend_value (fun v => v) (fun v => v) p0 p1 p2 p3 t). Qed.
Lemma rblend_catmull_rom p0 p1 p2 p3 : catmull_rom p0 p1 p2 p3 (rblend p0 p1 p2 p3).
Proof.
  exists p1, ((p2 - p0) / 2), (p0 - 5 / 2 * p1 + 2 * p2 - p3 / 2), (3 / 2 * (p1 - p2) + (p3 - p0) / 2).
  split; [intros t; rewrite rblend_value; unfold cubic; ring|]. rewrite !rblend_value. unfold cubic_slope. repeat split; field.
Qed.
Lemma catmull_rom_unique p0 p1 p2 p3 f g : catmull_rom p0 p1 p2 p3 f -> catmull_rom p0 p1 p2 p3 g -> forall t, f t = g t.
Proof.
  intros (a & b & c & d & F & F0 & F1 & S0 & S1) (a' & b' & c' & d' & G & G0 & G1 & T0 & T1) t.
  rewrite F, G. rewrite F in F0, F1. rewrite G in G0, G1. unfold cubic, cubic_slope in *.
  assert (a = a') by nra. assert (b = b') by nra. assert (c + d = c' + d') by nra. assert (2 * c + 3 * d = 2 * c' + 3 * d') by nra.
  assert (c = c') by lra. assert (d = d') by lra. now subst.
Qed.
Lemma interpolate_affine (im : image R) (x y a b c : R) z r default : u32_image im -> floor_of x z -> floor_of y r ->
  window_accepted z (i_width im) -> window_accepted r (i_height im) ->
  (forall i j, (0 <= i < i_width im)%Z -> (0 <= j < i_height im)%Z -> i_pixel im i j = a + b * IZR i + c * IZR j) ->
  @interpolate_bicubic RNum Rcasts R (fun v => v) (fun v => v) im x y default = Colour (a + b * x + c * y).
Proof.
  intros U Fx Fy A B P. erewrite interpolate_value by eassumption. f_equal. unfold window_accepted in *.
  unfold window_value, row_value. rewrite !P by lia. rewrite !rblend_value.
  rewrite !minus_IZR, !plus_IZR. field.
Qed.

(** ** Eight-bit channels *)
Lemma u8_clamp_value (v : R) : u8 (@u8_clamp RNum Rcasts v) /\
  (0 <= v <= 255 -> v - 1 < IZR (@u8_clamp RNum Rcasts v) <= v) /\ (v < 0 -> @u8_clamp RNum Rcasts v = 0%Z) /\ (255 < v -> @u8_clamp RNum Rcasts v = 255%Z).
Proof.
  unfold u8_clamp. cbn [ltb zero ofZ RNum Rcasts c_to_u32 carrier].
  unfold Rltb. destruct (Rlt_dec v 255) as [H|H].
  - destruct (Rlt_dec 0 v) as [P|P].
    + destruct (floor_Int_part v) as [A B].
      assert (0 <= Int_part v)%Z. { apply Z.lt_succ_r, lt_IZR. rewrite succ_IZR. lra. }
      assert (Int_part v < 255)%Z by (apply lt_IZR; lra).
      unfold saturate, u32_max. rewrite Z.min_r, Z.max_r by lia. unfold u8. repeat split; try lia; lra.
    + unfold u8. repeat split; try lia; lra.
  - unfold u8. repeat split; try lia; lra.
Qed.
Lemma u8_clamp_exact (c : Z) : u8 c -> @u8_clamp RNum Rcasts (@u8_to_float RNum c) = c.
Proof.
  intros [A B]. unfold u8_to_float. cbn [ofZ RNum].
  destruct (u8_clamp_value (IZR c)) as (_ & E & _). apply IZR_le in A, B. destruct (E (conj A B)) as [P Q].
  apply le_IZR in Q. assert (c - 1 < @u8_clamp RNum Rcasts (IZR c))%Z by (apply lt_IZR; rewrite minus_IZR; lra). lia.
Qed.
Notation u8_interpolate := (@interpolate_bicubic RNum Rcasts Z u8_to_float (u8_clamp Rcasts)).
Lemma u8_channels (im : image Z) : (forall i j, (0 <= i < i_width im)%Z -> (0 <= j < i_height im)%Z -> u8 (i_pixel im i j)) ->
  exact_channels (@u8_to_float RNum) (@u8_clamp RNum Rcasts) im.
Proof. intros H i j A B. apply u8_clamp_exact. now apply H. Qed.
Lemma u8_blend_affine (p0 p1 p2 p3 : Z) (t s d : R) : u8 p1 -> u8 p2 -> 0 <= t < 1 ->
  IZR p0 = s - d -> IZR p1 = s -> IZR p2 = s + d -> IZR p3 = s + 2 * d ->
  let v := s + t * d in let c := @blend_cubic RNum Z u8_to_float (u8_clamp Rcasts) p0 p1 p2 p3 t in
  0 <= v <= 255 /\ u8 c /\ v - 1 < IZR c <= v.
Proof.
  intros [A1 A2] [B1 B2] T E0 E1 E2 E3 v c. apply IZR_le in A1, A2, B1, B2.
  assert (V : 0 <= v <= 255) by (subst v; split; nra). split; [exact V|].
  unfold c. rewrite blend_value. cbv zeta. unfold u8_to_float. cbn [ofZ RNum]. rewrite E0, E1, E2, E3.
  match goal with |- context [u8_clamp Rcasts ?q] => replace q with v by (subst v; field) end.
  destruct (u8_clamp_value v) as (U & F & _). split; [exact U|]. now apply F.
Qed.
Lemma blend_error (v t d0 d1 d2 d3 : R) : 0 <= t < 1 -> 0 <= d0 < 1 -> 0 <= d1 < 1 -> 0 <= d2 < 1 -> 0 <= d3 < 1 ->
  v - 9 / 8 < v + t * (1 - t) * (1 - t) / 2 * d0 - (1 - 5 / 2 * t ^ 2 + 3 / 2 * t ^ 3) * d1 - (t / 2 + 2 * t ^ 2 - 3 / 2 * t ^ 3) * d2 + t * t * (1 - t) / 2 * d3 <= v + 1 / 8.
Proof.
  intros T D0 D1 D2 D3.
  assert (W0 : 0 <= t * (1 - t) * (1 - t) / 2) by (apply Rmult_le_pos; [|lra]; apply Rmult_le_pos; [|lra]; nra).
  assert (W3 : 0 <= t * t * (1 - t) / 2) by (apply Rmult_le_pos; [|lra]; apply Rmult_le_pos; [|lra]; nra).
  assert (W1 : 0 <= 1 - 5 / 2 * t ^ 2 + 3 / 2 * t ^ 3).
  { replace (1 - 5 / 2 * t ^ 2 + 3 / 2 * t ^ 3) with ((1 - t) * (1 + t - 3 / 2 * t ^ 2)) by field. apply Rmult_le_pos; [lra|]. clear - T. nra. }
  assert (W2 : 0 <= t / 2 + 2 * t ^ 2 - 3 / 2 * t ^ 3).
  { replace (t / 2 + 2 * t ^ 2 - 3 / 2 * t ^ 3) with (t * (1 / 2 + 2 * t - 3 / 2 * t ^ 2)) by field. apply Rmult_le_pos; [lra|]. clear - T. nra. }
  assert (S : (1 - 5 / 2 * t ^ 2 + 3 / 2 * t ^ 3) + (t / 2 + 2 * t ^ 2 - 3 / 2 * t ^ 3) = 1 + t * (1 - t) / 2) by field.
  assert (S' : t * (1 - t) * (1 - t) / 2 + t * t * (1 - t) / 2 = t * (1 - t) / 2) by field.
  assert (K : 0 <= t * (1 - t) / 2 <= 1 / 8). { clear - T. pose proof (Rle_0_sqr (t - 1 / 2)). unfold Rsqr in *. nra. }
  set (w0 := t * (1 - t) * (1 - t) / 2) in *. set (w1 := 1 - 5 / 2 * t ^ 2 + 3 / 2 * t ^ 3) in *.
  set (w2 := t / 2 + 2 * t ^ 2 - 3 / 2 * t ^ 3) in *. set (w3 := t * t * (1 - t) / 2) in *. set (k := t * (1 - t) / 2) in *.
  clearbody w0 w1 w2 w3 k. clear T.
  assert (0 <= w0 * d0 <= w0) by (split; nra). assert (0 <= w3 * d3 <= w3) by (split; nra).
  assert (0 <= w1 * d1) by nra. assert (0 <= w2 * d2) by nra.
  assert (w1 * d1 + w2 * d2 < w1 + w2).
  { assert (w1 * d1 <= w1) by nra. assert (w2 * d2 <= w2) by nra.
    destruct (Rlt_dec 0 w1); [assert (w1 * d1 < w1) by nra; lra|]. assert (0 < w2) by lra. assert (w2 * d2 < w2) by nra. lra. }
  lra.
Qed.
Lemma u8_affine_error (im : image Z) (x y a b c : R) z r default : u32_image im -> floor_of x z -> floor_of y r ->
  window_accepted z (i_width im) -> window_accepted r (i_height im) ->
  (forall i j, (0 <= i < i_width im)%Z -> (0 <= j < i_height im)%Z -> u8 (i_pixel im i j) /\ IZR (i_pixel im i j) = a + b * IZR i + c * IZR j) ->
  exists k, u8_interpolate im x y default = Colour k /\ u8 k /\ a + b * x + c * y - 17 / 8 < IZR k <= a + b * x + c * y + 1 / 8.
Proof.
  intros U Fx Fy A B P. unfold window_accepted in *. eexists. split; [eapply interpolate_value; eassumption|].
  unfold window_value.
  assert (Row : forall q, (r - 1 <= q <= r + 2)%Z -> let v := a + b * x + c * IZR q in
    let k := row_value u8_to_float (u8_clamp Rcasts) im z q (x - IZR z) in 0 <= v <= 255 /\ u8 k /\ v - 1 < IZR k <= v).
  { intros q Hq v k.
    destruct (u8_blend_affine (i_pixel im (z - 1) q) (i_pixel im z q) (i_pixel im (z + 1) q) (i_pixel im (z + 2) q) (x - IZR z) (a + b * IZR z + c * IZR q) b) as (V & W & X);
      [apply P; lia | apply P; lia | unfold floor_of in *; lra | | | | |];
      try (match goal with |- IZR (i_pixel _ ?i ?j) = _ => rewrite (proj2 (P i j ltac:(lia) ltac:(lia))) end; rewrite ?minus_IZR, ?plus_IZR; ring).
    replace v with (a + b * IZR z + c * IZR q + (x - IZR z) * b) by (subst v; ring). exact (conj V (conj W X)). }
  pose proof (Row (r - 1)%Z ltac:(lia)) as R0. pose proof (Row r ltac:(lia)) as R1.
  pose proof (Row (r + 1)%Z ltac:(lia)) as R2. pose proof (Row (r + 2)%Z ltac:(lia)) as R3. cbv zeta in *.
  revert R0 R1 R2 R3.
  generalize (row_value u8_to_float (u8_clamp Rcasts) im z (r - 1) (x - IZR z)) (row_value u8_to_float (u8_clamp Rcasts) im z r (x - IZR z))
    (row_value u8_to_float (u8_clamp Rcasts) im z (r + 1) (x - IZR z)) (row_value u8_to_float (u8_clamp Rcasts) im z (r + 2) (x - IZR z)).
  intros k0 k1 k2 k3 R0 R1 R2 R3. rewrite !minus_IZR, !plus_IZR in *.
  rewrite blend_value. cbv zeta. unfold u8_to_float. cbn [ofZ RNum].
  assert (T : 0 <= y - IZR r < 1) by (unfold floor_of in *; lra).
  set (t := y - IZR r) in *. set (v := a + b * x + c * y). set (q := _ + _ : R).
  set (d0 := a + b * x + c * (IZR r - 1) - IZR k0). set (d1 := a + b * x + c * IZR r - IZR k1).
  set (d2 := a + b * x + c * (IZR r + 1) - IZR k2). set (d3 := a + b * x + c * (IZR r + 2) - IZR k3).
  assert (D0 : 0 <= d0 < 1) by (subst d0; lra). assert (D1 : 0 <= d1 < 1) by (subst d1; lra).
  assert (D2 : 0 <= d2 < 1) by (subst d2; lra). assert (D3 : 0 <= d3 < 1) by (subst d3; lra).
  assert (Q : q = v + t * (1 - t) * (1 - t) / 2 * d0 - (1 - 5 / 2 * t ^ 2 + 3 / 2 * t ^ 3) * d1 - (t / 2 + 2 * t ^ 2 - 3 / 2 * t ^ 3) * d2 + t * t * (1 - t) / 2 * d3).
  { unfold q, d0, d1, d2, d3, v. replace y with (t + IZR r) by (unfold t; ring). field. }
  assert (V : 0 <= v <= 255).
  { assert (v = (a + b * x + c * IZR r) * (1 - t) + (a + b * x + c * (IZR r + 1)) * t) as -> by (unfold v; replace y with (t + IZR r) by (unfold t; ring); ring).
    split; nra. }
  assert (Bounds : v - 9 / 8 < q <= v + 1 / 8) by (rewrite Q; apply blend_error; assumption).
  destruct Bounds as [Lo Hi].
  clearbody q v. destruct (u8_clamp_value q) as (U8 & In & Lt & Gt). split; [exact U8|].
  destruct (Rlt_dec q 0) as [Hq|Hq]; [rewrite (Lt Hq); cbn; lra|]. destruct (Rlt_dec 255 q) as [Hq'|Hq']; [rewrite (Gt Hq'); cbn; lra|].
  destruct (In ltac:(lra)). lra.
Qed.
