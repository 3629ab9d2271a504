(** bicubic.rs in 32-bit floats. *)
From Coq Require Import Reals ZArith List SpecFloat Lia Lra Psatz Bool.
From Flocq Require Import Core BinarySingleNaN.
From Flocq Require Import Sterbenz.
From Verif Require Import Num Lin Bicubic BicubicSpec BicubicFacts FloatFacts.
Import ListNotations.
Open Scope R_scope.

Notation f32_is := (represents 24 128) (only parsing).
Notation rnd32 := (rnd 24 128) (only parsing).

Lemma pow_pos_bpow p : IZR (Z.pow_pos 2 p) = bpow radix2 (Z.pos p).
Proof. reflexivity. Qed.
Lemma floor_Z_spec x : sf_isfin x = true -> floor_of (SF2R radix2 x) (sf_floor_Z x).
Proof.
  destruct x as [s|s| |s m e]; try discriminate; intros _; [unfold floor_of; cbn; lra|].
  unfold sf_floor_Z, SF2R, F2R. cbn [Fnum Fexp]. unfold cond_Zopp.
  set (v := if s then Z.neg m else Z.pos m). replace (if s then (- Z.pos m)%Z else Z.pos m) with v by (subst v; now destruct s).
  clearbody v. destruct e as [|p|p].
  - unfold floor_of. cbn. lra.
  - unfold floor_of. rewrite mult_IZR. change (bpow radix2 (Z.pos p)) with (IZR (Z.pow_pos 2 p)). lra.
  - assert (P : (0 < Z.pow_pos 2 p)%Z) by (change (Z.pow_pos 2 p) with (2 ^ Z.pos p)%Z; apply Z.pow_pos_nonneg; lia).
    change (bpow radix2 (Z.neg p)) with (/ IZR (Z.pow_pos 2 p)).
    set (q := Z.pow_pos 2 p) in *. clearbody q.
    assert (Q : 0 < IZR q) by (now apply IZR_lt).
    pose proof (Z.div_mod v q ltac:(lia)) as D. pose proof (Z.mod_pos_bound v q P) as M.
    assert (E : IZR v = IZR q * IZR (v / q) + IZR (v mod q)) by (rewrite <- mult_IZR, <- plus_IZR; now f_equal).
    destruct M as [M1 M2]. apply IZR_le in M1. apply IZR_lt in M2.
    unfold floor_of. rewrite E. replace ((IZR q * IZR (v / q) + IZR (v mod q)) * / IZR q) with (IZR (v / q) + IZR (v mod q) / IZR q) by (field; lra).
    assert (0 <= IZR (v mod q) / IZR q) by (apply Rmult_le_pos; [lra|]; apply Rlt_le, Rinv_0_lt_compat; lra).
    assert (IZR (v mod q) / IZR q < 1) by (apply (Rmult_lt_reg_r (IZR q)); [lra|]; unfold Rdiv; rewrite Rmult_assoc, Rinv_l by lra; lra).
    lra.
Qed.
Lemma floor_value x a : f32_is x a -> floor_of a (sf_floor_Z x).
Proof. intros H. rewrite <- (represents_value H). apply floor_Z_spec. now apply (represents_valid H). Qed.
Lemma mantissa_bound m e : bounded 24 128 m e = true -> (Z.pos m < 2 ^ 24)%Z.
Proof.
  unfold bounded, canonical_mantissa. intros H. apply andb_true_iff in H as [H _]. apply Zeq_bool_eq in H.
  unfold SpecFloat.fexp, SpecFloat.emin in H. rewrite Digits.Zpos_digits2_pos in H.
  assert (D : (Digits.Zdigits radix2 (Z.pos m) <= 24)%Z) by lia.
  pose proof (Digits.Zpower_gt_Zdigits radix2 24 (Z.pos m) D). cbn in *. lia.
Qed.
Lemma floor_represents x a : f32_is x a -> f32_is (c_floor F32casts x) (IZR (sf_floor_Z x)).
Proof.
  intros H. cbn [c_floor F32casts]. pose proof (floor_value _ _ H) as F.
  assert (Integral : forall z, a = IZR z -> f32_is x (IZR (sf_floor_Z x))).
  { intros z E. replace (IZR (sf_floor_Z x)) with a; [exact H|]. rewrite E. f_equal. apply (floor_unique a); [|exact F]. unfold floor_of. lra. }
  destruct H as ([s|s| |s m e Be] & <- & Fin & V); try discriminate; cbn [B2SF] in *.
  - cbn in V. now apply (Integral 0%Z).
  - destruct e as [|p|p].
    + apply (Integral (cond_Zopp s (Z.pos m))). rewrite <- V. unfold B2R, F2R. cbn. ring.
    + apply (Integral (cond_Zopp s (Z.pos m) * Z.pow_pos 2 p)%Z). rewrite <- V. unfold B2R, F2R. cbn [Fnum Fexp]. now rewrite mult_IZR.
    + apply represents_int; try exact _. unfold sf_floor_Z. pose proof (mantissa_bound m _ Be) as M.
      assert (P : (2 <= Z.pow_pos 2 p)%Z). { change (Z.pow_pos 2 p) with (2 ^ Z.pos p)%Z. change 2%Z with (2 ^ 1)%Z at 1. apply Z.pow_le_mono_r; lia. }
      set (q := Z.pow_pos 2 p) in *. clearbody q. destruct s.
      * pose proof (Z.div_lt_upper_bound (Z.neg m) q 1 ltac:(lia) ltac:(lia)).
        pose proof (Z.div_le_lower_bound (Z.neg m) q (- Z.pos m) ltac:(lia) ltac:(nia)). lia.
      * pose proof (Z.div_pos (Z.pos m) q ltac:(lia) ltac:(lia)). pose proof (Z.div_le_upper_bound (Z.pos m) q (Z.pos m) ltac:(lia) ltac:(nia)). lia.
Qed.
Lemma to_u32_value x a : f32_is x a -> c_to_u32 F32casts x = saturate u32_max (sf_floor_Z x).
Proof. intros ([s|s| |s m e Be] & <- & Fin & V); try discriminate; reflexivity. Qed.

Section float.
Context {C : Type} (to_float : C -> F32) (clamp : F32 -> C).
Notation interpolate := (@interpolate_bicubic F32 F32casts C to_float clamp).

Lemma f32_row_inside (im : image C) left row (w : F32) : (0 <= left)%Z -> (left + 3 < i_width im)%Z -> (0 <= row < i_height im)%Z ->
  exists c, @blend_row F32 C to_float clamp im left row w = Some c.
Proof. intros A B D. unfold blend_row. rewrite !get_inside by lia. eauto. Qed.
Lemma f32_rows_inside (im : image C) left top w : (0 <= left)%Z -> (left + 3 < i_width im)%Z -> (0 <= top)%Z ->
  forall n row col, (top <= row)%Z -> (row + Z.of_nat n <= i_height im)%Z ->
  @blend_rows F32 C to_float clamp im left top row w n col <> None.
Proof.
  intros A B T. induction n as [|n IH]; intros row col R H; [discriminate|]. cbn [blend_rows].
  destruct (f32_row_inside im left row w A B ltac:(lia)) as [c ->]. destruct (Nat.ltb _ 4); [|discriminate]. apply IH; lia.
Qed.

(** One axis: the test and what it gives. *)
Definition axis_rejects (n : Z) (x : F32) : bool :=
  ltb (sub (c_floor F32casts x) one) zero || leb (c_of_u32 F32casts n) (add (sub (c_floor F32casts x) one) (ofZ 4)).
Lemma u32_represents n : (0 <= n <= u32_max)%Z -> f32_is (sf_ofZ 24 128 n) (rnd32 (IZR n)).
Proof.
  intros H. apply represents_ofZ; try exact _. rewrite Rabs_pos_eq by (rewrite <- (rnd_0 24 128); apply rnd_le; try exact _; now apply IZR_le).
  apply Rle_lt_trans with (rnd32 (bpow radix2 32)).
  - apply rnd_le; try exact _. rewrite <- (IZR_Zpower radix2 32) by lia. apply IZR_le. unfold u32_max in H. cbn. lia.
  - unfold rnd. rewrite round_generic; try exact _; [apply bpow_lt; lia|]. apply generic_format_bpow. cbn. lia.
Qed.
Lemma one_represents : f32_is (one : F32) (IZR 1).
Proof. apply (@represents_int 24 128 _ _ 1). cbn. lia. Qed.
Lemma four_represents : f32_is (ofZ 4 : F32) (IZR 4).
Proof. apply (@represents_int 24 128 _ _ 4). cbn. lia. Qed.

Lemma axis_finite n x a : (0 <= n <= u32_max)%Z -> f32_is x a -> axis_rejects n x = false ->
  exists l r, f32_is (sub (c_floor F32casts x) one : F32) l /\ f32_is (add (sub (c_floor F32casts x) one) (ofZ 4) : F32) r /\
    l = rnd32 (IZR (sf_floor_Z x) - 1) /\ r = rnd32 (l + 4) /\ 0 <= l /\ l + 4 < IZR n /\ 0 <= r < IZR n.
Proof.
  intros U H A. unfold axis_rejects in A. apply orb_false_iff in A as [A1 A2]. cbn [ltb leb zero F32 ieee c_of_u32 F32casts] in A1, A2.
  pose proof (floor_represents _ _ H) as F.
  destruct (sub_total F one_represents) as [L|L].
  2:{ exfalso. change (SFsub 24 128) with (@sub F32) in L. rewrite L in A1. vm_compute in A1. discriminate. }
  change (SFsub 24 128) with (@sub F32) in L. set (left := sub (c_floor F32casts x) one : F32) in *.
  rewrite (represents_ltb L (represents_zero 24 128 false)) in A1.
  assert (P : 0 <= rnd32 (IZR (sf_floor_Z x) - 1)) by (unfold Rltb in A1; destruct (Rlt_dec _ _); [discriminate|lra]).
  set (l := rnd32 (IZR (sf_floor_Z x) - 1)) in *.
  pose proof (u32_represents n U) as N.
  destruct (add_total L four_represents) as [Rr|Rr].
  2:{ exfalso. change (SFadd 24 128) with (@add F32) in Rr. rewrite Rr in A2. replace (sf_signneg (ofZ 4 : F32)) with false in A2 by (now vm_compute).
      now rewrite (leb_infinity N) in A2. }
  change (SFadd 24 128) with (@add F32) in Rr.
  rewrite (represents_leb N Rr) in A2.
  assert (Q : rnd32 (l + 4) < rnd32 (IZR n)) by (unfold Rleb in A2; destruct (Rle_dec _ _); [discriminate|lra]).
  assert (Mono : forall u v, rnd32 u < rnd32 v -> u < v).
  { intros u v K. apply Rnot_le_lt. intros K'. apply (@rnd_le 24 128 _) in K'. lra. }
  exists l, (rnd32 (l + 4)). repeat split; try assumption.
  - now apply Mono.
  - rewrite <- (rnd_0 24 128). apply rnd_le; try exact _. lra.
  - apply Mono. now rewrite (rnd_exact Rr).
Qed.
Lemma axis_infinite n s : (0 <= n <= u32_max)%Z -> axis_rejects n (S754_infinity s) = true.
Proof.
  intros U. unfold axis_rejects. destruct s; [reflexivity|]. apply orb_true_iff. right.
  replace (add (sub (c_floor F32casts (S754_infinity false : F32)) one) (ofZ 4) : F32) with (S754_infinity false : F32) by (now vm_compute).
  exact (leb_infinity (u32_represents n U)).
Qed.

Lemma interpolate_rejects (im : image C) (x y : F32) default : axis_rejects (i_width im) x || axis_rejects (i_height im) y = true ->
  interpolate im x y default = Colour default.
Proof.
  unfold axis_rejects, interpolate_bicubic. intros H. rewrite <- orb_assoc in H.
  destruct (ltb (sub (c_floor F32casts x) one) zero); [reflexivity|]. destruct (leb (c_of_u32 F32casts (i_width im)) _); [reflexivity|].
  destruct (ltb (sub (c_floor F32casts y) one) zero); [reflexivity|]. destruct (leb (c_of_u32 F32casts (i_height im)) _); [reflexivity|].
  discriminate.
Qed.
Lemma saturate_id z : (0 <= z <= u32_max)%Z -> saturate u32_max z = z.
Proof. unfold saturate. lia. Qed.
Lemma floor_range r n z : floor_of r z -> 0 <= r < IZR n -> (0 <= z < n)%Z.
Proof.
  intros [A B] [D E]. split; [apply Z.lt_succ_r, lt_IZR; rewrite succ_IZR; lra|]. apply lt_IZR. lra.
Qed.
Lemma f32_memory_safe (im : image C) (x y : F32) default : u32_image im -> sf_valid 24 128 x -> sf_valid 24 128 y -> isnan x = false -> isnan y = false ->
  interpolate im x y default <> Outside.
Proof.
  intros [U V] Hx Hy Nx Ny.
  destruct (axis_rejects (i_width im) x) eqn:Ax; [rewrite interpolate_rejects by (now rewrite Ax); discriminate|].
  destruct (axis_rejects (i_height im) y) eqn:Ay; [rewrite interpolate_rejects by (now rewrite Ay, orb_true_r); discriminate|].
  assert (Fin : forall v n, (0 <= n <= u32_max)%Z -> sf_valid 24 128 v -> @isnan F32 v = false -> axis_rejects n v = false -> f32_is v (SF2R radix2 v)).
  { intros v n K1 K2 K3 K4. apply valid_represents; [exact K2|]. destruct v as [s|s| |s m e]; try reflexivity; [|discriminate].
    rewrite (axis_infinite n s K1) in K4. discriminate. }
  destruct (axis_finite _ _ _ U (Fin _ _ U Hx Nx Ax) Ax) as (lx & rx & Lx & Rx & Elx & Erx & Px & Qx & _).
  destruct (axis_finite _ _ _ V (Fin _ _ V Hy Ny Ay) Ay) as (ly & ry & Ly & Ry & Ely & Ery & Py & Qy & Sy).
  unfold interpolate_bicubic. unfold axis_rejects in Ax, Ay. rewrite Ax, <- orb_assoc, Ay. cbn [orb].
  rewrite (to_u32_value _ _ Lx), (to_u32_value _ _ Ly), (to_u32_value _ _ Ry).
  pose proof (floor_range _ (i_width im - 4) _ (floor_value _ _ Lx) ltac:(rewrite minus_IZR; lra)).
  pose proof (floor_range _ (i_height im - 4) _ (floor_value _ _ Ly) ltac:(rewrite minus_IZR; lra)).
  pose proof (floor_range _ (i_height im) _ (floor_value _ _ Ry) Sy). rewrite !saturate_id by lia.
  match goal with |- context [blend_rows ?a ?b im ?l ?t ?r ?w ?n ?c] => pose proof (f32_rows_inside im l t w ltac:(lia) ltac:(lia) ltac:(lia) n r c ltac:(lia)) as Safe end.
  destruct (blend_rows _ _ im _ _ _ _ _ _) as [[col|]|]; [| |exfalso; apply Safe; [lia|reflexivity]]; [|discriminate].
  destruct col as [|c0 [|c1 [|c2 [|c3 [|]]]]]; discriminate.
Qed.

(** Images of at most 2^24 rows and columns: every coordinate of the window is exact. *)
Lemma axis_small n x a z : (0 <= n <= 2 ^ 24)%Z -> f32_is x a -> floor_of a z ->
  (axis_rejects n x = false <-> window_accepted z n).
Proof.
  intros U H F. pose proof (floor_unique _ _ _ F (floor_value _ _ H)) as E. unfold window_accepted. split.
  - intros A. destruct (axis_finite n x a ltac:(unfold u32_max; lia) H A) as (l & r & _ & _ & L & _ & P & Q & _).
    rewrite <- E in L. replace (IZR z - 1) with (IZR (z - 1)) in L by (rewrite minus_IZR; reflexivity).
    assert (1 <= z)%Z.
    { apply Z.nlt_ge. intros K. assert (IZR (z - 1) <= IZR (-1)) as K' by (apply IZR_le; lia). apply (@rnd_le 24 128 _) in K'.
      rewrite (@rnd_int 24 128 _ _ (-1)) in K' by (cbn; lia). cbn in K'. lra. }
    assert (z - 1 < 2 ^ 24)%Z.
    { apply Z.nle_gt. intros K. apply IZR_le, (@rnd_le 24 128 _) in K. rewrite (@rnd_int 24 128 _ _ (2 ^ 24)) in K by (cbn; lia).
      assert (IZR n <= IZR (2 ^ 24)) by (apply IZR_le; lia). lra. }
    rewrite rnd_int in L by lia. split; [lia|]. apply lt_IZR. replace (z + 3)%Z with (z - 1 + 4)%Z by lia. rewrite plus_IZR, <- L. exact Q.
  - intros [A B]. pose proof (floor_represents _ _ H) as G. rewrite <- E in G. unfold axis_rejects. apply orb_false_iff.
    pose proof (sub_int G one_represents ltac:(lia)) as L. pose proof (add_int L four_represents ltac:(lia)) as R.
    pose proof (@represents_int 24 128 _ _ n ltac:(lia)) as W.
    change (SFsub 24 128) with (@sub F32) in *. change (SFadd 24 128) with (@add F32) in *.
    cbn [ltb leb zero F32 ieee c_of_u32 F32casts]. split.
    + etransitivity; [exact (represents_ltb L (represents_zero 24 128 false))|]. change 0 with (IZR 0). rewrite ltb_Z. apply Z.ltb_ge. lia.
    + etransitivity; [exact (represents_leb W R)|]. rewrite leb_Z. apply Z.leb_gt. lia.
Qed.
Lemma weight_exact (x : F32) a z : f32_is x a -> floor_of a z -> (1 <= z < 2 ^ 24)%Z ->
  f32_is (sub x (add (sub (c_floor F32casts x) one) one) : F32) (a - IZR z).
Proof.
  intros H F B. pose proof (floor_unique _ _ _ F (floor_value _ _ H)) as E. pose proof (floor_represents _ _ H) as G. rewrite <- E in G.
  pose proof (sub_int G one_represents ltac:(lia)) as L. pose proof (add_int L one_represents ltac:(lia)) as R.
  replace (z - 1 + 1)%Z with z in R by lia.
  assert (Ex : rnd32 (a - IZR z) = a - IZR z).
  { apply round_generic; try exact _.
    assert (Fa : generic_format radix2 (SpecFloat.fexp 24 128) a) by (destruct H as (b & _ & _ & <-); apply generic_format_B2R).
    assert (Fz : generic_format radix2 (SpecFloat.fexp 24 128) (IZR z)) by (destruct R as (b & _ & _ & <-); apply generic_format_B2R).
    apply (sterbenz radix2 (FLT_exp (SpecFloat.emin 24 128) 24)); try exact _; try assumption.
    destruct F as [F1 F2]. assert (1 <= IZR z) by (apply IZR_le; lia). lra. }
  rewrite <- Ex. apply (represents_sub H R). rewrite Ex. destruct F as [F1 F2].
  rewrite Rabs_pos_eq by lra. apply Rlt_le_trans with (bpow radix2 0); [cbn; lra|]. apply bpow_le. lia.
Qed.
Lemma f32_value (im : image C) (x y : F32) (a b : R) (z r : Z) default : (0 <= i_width im <= 2 ^ 24)%Z -> (0 <= i_height im <= 2 ^ 24)%Z ->
  f32_is x a -> f32_is y b -> floor_of a z -> floor_of b r ->
  (window_accepted z (i_width im) /\ window_accepted r (i_height im) -> exists wx wy, f32_is wx (a - IZR z) /\ f32_is wy (b - IZR r) /\
    interpolate im x y default = Colour (window_value to_float clamp im z r (wx : F32) (wy : F32))) /\
  (~ (window_accepted z (i_width im) /\ window_accepted r (i_height im)) -> interpolate im x y default = Colour default).
Proof.
  intros U V Hx Hy Fx Fy. pose proof (axis_small _ _ _ _ U Hx Fx) as Ax. pose proof (axis_small _ _ _ _ V Hy Fy) as Ay. split.
  - intros [Wx Wy]. pose proof (proj2 Ax Wx) as Rx. pose proof (proj2 Ay Wy) as Ry. unfold window_accepted in Wx, Wy.
    eexists. eexists. split; [apply (weight_exact x a z Hx Fx); lia|]. split; [apply (weight_exact y b r Hy Fy); lia|].
    unfold interpolate_bicubic. unfold axis_rejects in Rx, Ry. rewrite Rx, <- orb_assoc, Ry. cbn [orb].
    pose proof (floor_unique _ _ _ Fx (floor_value _ _ Hx)) as Ex. pose proof (floor_represents _ _ Hx) as Gx. rewrite <- Ex in Gx.
    pose proof (floor_unique _ _ _ Fy (floor_value _ _ Hy)) as Ey. pose proof (floor_represents _ _ Hy) as Gy. rewrite <- Ey in Gy.
    pose proof (sub_int Gx one_represents ltac:(lia)) as Lx. pose proof (sub_int Gy one_represents ltac:(lia)) as Ly.
    pose proof (add_int Ly four_represents ltac:(lia)) as Bo.
    change (SFsub 24 128) with (@sub F32) in *. change (SFadd 24 128) with (@add F32) in *.
    rewrite (to_u32_value _ _ Lx), (to_u32_value _ _ Ly), (to_u32_value _ _ Bo).
    assert (Int : forall v k, f32_is v (IZR k) -> sf_floor_Z v = k).
    { intros v k K. symmetry. apply (floor_unique (IZR k)); [unfold floor_of; lra|]. now apply floor_value. }
    rewrite (Int _ _ Lx), (Int _ _ Ly), (Int _ _ Bo). rewrite !saturate_id by (unfold u32_max; lia).
    replace (Z.to_nat (r - 1 + 4 - (r - 1))) with 4%nat by lia.
    cbn [blend_rows]. unfold blend_row. rewrite !get_inside by lia.
    replace (Z.to_nat (r - 1 - (r - 1))) with 0%nat by lia.
    replace (r - 1 + 1)%Z with r by lia.
    replace (Z.to_nat (r - (r - 1))) with 1%nat by lia. replace (Z.to_nat (r + 1 - (r - 1))) with 2%nat by lia.
    replace (Z.to_nat (r + 1 + 1 - (r - 1))) with 3%nat by lia. cbn [Nat.ltb Nat.leb firstn skipn app].
    unfold window_value, row_value. replace (z - 1 + 1)%Z with z by lia. replace (z - 1 + 2)%Z with (z + 1)%Z by lia.
    replace (z - 1 + 3)%Z with (z + 2)%Z by lia. replace (r + 1 + 1)%Z with (r + 2)%Z by lia. reflexivity.
  - intros W. apply interpolate_rejects. apply orb_true_iff.
    destruct (axis_rejects (i_width im) x) eqn:E1; [now left|]. destruct (axis_rejects (i_height im) y) eqn:E2; [now right|].
    exfalso. apply W. tauto.
Qed.
End float.

(** ** Eight-bit channels in 32-bit floats *)
Lemma f32_half : f32_is (half : F32) (/ 2).
Proof.
  replace (/ 2) with (rnd32 (IZR 1 / IZR 2)).
  - apply represents_div; [apply represents_int; cbn; lia|apply represents_int; cbn; lia|lra|].
    rewrite Rabs_pos_eq. 2:{ rewrite <- (rnd_0 24 128). apply rnd_le. lra. }
    apply Rle_lt_trans with (rnd32 (IZR 1)); [apply rnd_le; lra|]. rewrite rnd_int by (cbn; lia). change 1 with (bpow radix2 0). apply bpow_lt. lia.
  - replace (IZR 1 / IZR 2) with (bpow radix2 (-1)) by (cbn; lra). unfold rnd. rewrite round_generic; try exact _; [cbn; lra|].
    apply generic_format_bpow. cbn. lia.
Qed.
Lemma f32_blend_pixel (p0 p1 p2 p3 : Z) (w : F32) : u8 p0 -> u8 p1 -> u8 p2 -> u8 p3 -> f32_is w 0 ->
  @blend_cubic F32 Z u8_to_float (u8_clamp F32casts) p0 p1 p2 p3 w = p1.
Proof.
  intros H0 H1 H2 H3 W. unfold u8 in *. unfold blend_cubic. cbv zeta. unfold u8_to_float. cbn [ofZ F32 ieee].
  assert (I : forall k, (Z.abs k <= 2 ^ 24)%Z -> f32_is (sf_ofZ 24 128 k) (IZR k)) by (intros; now apply represents_int).
  pose proof (I p0 ltac:(lia)) as P0. pose proof (I p1 ltac:(lia)) as P1. pose proof (I p2 ltac:(lia)) as P2. pose proof (I p3 ltac:(lia)) as P3.
  pose proof (I 2%Z ltac:(lia)) as C2. pose proof (I 3%Z ltac:(lia)) as C3. pose proof (I 4%Z ltac:(lia)) as C4. pose proof (I 5%Z ltac:(lia)) as C5.
  pose proof (sub_int (add_int (mul_int C3 (sub_int P1 P2 ltac:(lia)) ltac:(lia)) P3 ltac:(lia)) P0 ltac:(lia)) as Q3.
  assert (Zero : forall v k, f32_is v k -> f32_is (SFmul 24 128 w v) 0).
  { intros v k K. replace 0 with (rnd32 (0 * k)) by (rewrite Rmult_0_l; apply rnd_0). apply (represents_mul W K).
    rewrite Rmult_0_l, rnd_0, Rabs_R0. apply bpow_gt_0. }
  change 0 with (IZR 0) in Zero.
  pose proof (add_int (sub_int (add_int (sub_int (mul_int C2 P0 ltac:(lia)) (mul_int C5 P1 ltac:(lia)) ltac:(lia)) (mul_int C4 P2 ltac:(lia)) ltac:(lia)) P3 ltac:(lia)) (Zero _ _ Q3) ltac:(lia)) as Q2.
  pose proof (add_int (sub_int P2 P0 ltac:(lia)) (Zero _ _ Q2) ltac:(lia)) as Q1.
  assert (Hw : f32_is (SFmul 24 128 (half : F32) w) (IZR 0)).
  { replace (IZR 0) with (rnd32 (/ 2 * 0)) by (rewrite Rmult_0_r; apply rnd_0). apply (represents_mul f32_half W).
    rewrite Rmult_0_r, rnd_0, Rabs_R0. apply bpow_gt_0. }
  pose proof (add_int P1 (mul_int Hw Q1 ltac:(lia)) ltac:(lia)) as Q. rewrite Z.mul_0_l, Z.add_0_r in Q.
  cbn [add sub mul F32 ieee]. change (@half (ieee 24 128)) with (half : F32).
  match type of Q with represents _ _ ?t _ => set (v := t) in *; change (u8_clamp F32casts (v : F32) = p1) end. clearbody v. clear - Q H1 I.
  unfold u8_clamp. cbn [ltb zero ofZ F32 ieee].
  rewrite (represents_ltb Q (I 255%Z ltac:(lia))), (represents_ltb (represents_zero 24 128 false) Q). change 0 with (IZR 0). rewrite !ltb_Z.
  destruct (Z.ltb_spec p1 255); [|lia]. destruct (Z.ltb_spec 0 p1); [|lia].
  rewrite (to_u32_value _ _ Q).
  assert (E : sf_floor_Z v = p1) by (apply (floor_unique (IZR p1)); [now apply floor_value|unfold floor_of; lra]).
  etransitivity; [apply (f_equal (saturate u32_max) E)|]. apply saturate_id. unfold u32_max. lia.
Qed.
Lemma f32_stored_pixel (im : image Z) (i j : Z) default : (0 <= i_width im <= 2 ^ 24)%Z -> (0 <= i_height im <= 2 ^ 24)%Z ->
  (forall i j, (0 <= i < i_width im)%Z -> (0 <= j < i_height im)%Z -> u8 (i_pixel im i j)) ->
  window_accepted i (i_width im) -> window_accepted j (i_height im) ->
  @interpolate_bicubic F32 F32casts Z u8_to_float (u8_clamp F32casts) im (ofZ i) (ofZ j) default = Colour (i_pixel im i j).
Proof.
  intros U V P A B. unfold window_accepted in *.
  destruct (f32_value (@u8_to_float F32) (u8_clamp F32casts) im (ofZ i) (ofZ j) (IZR i) (IZR j) i j default U V) as [K _];
    [apply (@represents_int 24 128 _ _ i); lia|apply (@represents_int 24 128 _ _ j); lia|unfold floor_of; lra|unfold floor_of; lra|].
  destruct (K (conj A B)) as (wx & wy & Wx & Wy & ->). f_equal. unfold Rminus in Wx, Wy. rewrite Rplus_opp_r in Wx, Wy.
  assert (Row : forall q, (0 <= q < i_height im)%Z -> row_value u8_to_float (u8_clamp F32casts) im i q (wx : F32) = i_pixel im i q).
  { intros q Hq. unfold row_value. apply f32_blend_pixel; try (apply P; lia). exact Wx. }
  unfold window_value. rewrite !Row by lia. apply f32_blend_pixel; try (apply P; lia). exact Wy.
Qed.

(** A coordinate which is not a number reads outside a narrow image. *)
Lemma f32_nan_outside : exists (im : image Z) (x y : F32), u32_image im /\
  @interpolate_bicubic F32 F32casts Z u8_to_float (u8_clamp F32casts) im x y 0%Z = Outside.
Proof.
  exists (Image 1%Z 8%Z (fun _ _ => 7%Z)), (S754_nan : F32), (ofZ 2 : F32). split; [unfold u32_image, u32_max; cbn; lia|].
  vm_compute. reflexivity.
Qed.
(** Images with more than 2^26 rows: the last row is rounded up and the array of four is overrun, a panic. *)
Lemma f32_overrun : exists (im : image Z) (x y : F32), u32_image im /\ isnan x = false /\ isnan y = false /\
  @interpolate_bicubic F32 F32casts Z u8_to_float (u8_clamp F32casts) im x y 0%Z = Overrun.
Proof.
  exists (Image 8%Z (2 ^ 27)%Z (fun _ _ => 7%Z)), (ofZ 2 : F32), (ofZ (2 ^ 26 + 8) : F32). split; [unfold u32_image, u32_max; cbn; lia|].
  split; [now vm_compute|]. split; [now vm_compute|]. vm_compute. reflexivity.
Qed.
