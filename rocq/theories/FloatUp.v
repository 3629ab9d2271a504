(** Non-negative floats with positive overflow: a float is a non-negative number or positive infinity, and sums,
    products and quotients are monotone. *)
From Coq Require Import Reals ZArith SpecFloat Lia Lra Psatz Bool List.
From Flocq Require Import Core BinarySingleNaN.
From Verif Require Import Num Outcome Gray GraySpec GrayFacts Diffuse FloatFacts.
Import List.ListNotations.
Open Scope R_scope.

Section up.
Variables prec emax : Z.
Context (Hprec : Prec_gt_0 prec) (Hmax : Prec_lt_emax prec emax).
Notation bf := (binary_float prec emax).
Notation top := (bpow radix2 emax).
Notation rnd := (FloatFacts.rnd prec emax).
Notation represents := (FloatFacts.represents prec emax).

(** A non-negative number, or infinity. *)
Definition up (x : spec_float) (e : option R) : Prop :=
  match e with Some r => represents x r /\ 0 <= r | None => x = S754_infinity false end.
Definition cap (r : R) : option R := if Rlt_bool r top then Some r else None.
Definition ele (e f : option R) : Prop := match e, f with _, None => True | Some a, Some b => a <= b | None, Some _ => False end.
Definition eadd (e f : option R) : option R := match e, f with Some a, Some b => cap (rnd (a + b)) | _, _ => None end.
Definition emul (k : R) (e : option R) : option R := match e with Some b => cap (rnd (k * b)) | None => None end.
Definition einv (e : option R) : R := match e with Some r => rnd (1 / r) | None => 0 end.

Lemma rnd_nonneg r : 0 <= r -> 0 <= rnd r.
Proof. intros H. rewrite <- (rnd_0 prec emax). now apply rnd_le. Qed.
Lemma top_pos : 0 < top. Proof. apply bpow_gt_0. Qed.
Lemma positive_sign (u : bf) : is_finite u = true -> 0 < B2R u -> Bsign u = false.
Proof. destruct u as [s|s| |s m e Be]; try (cbn; intros; lra). intros _ H. destruct s; [exfalso|reflexivity]. cbn in H. apply gt_0_F2R in H. cbn in H. lia. Qed.
Lemma add_up x y a b : represents x a -> represents y b -> 0 <= a -> 0 <= b -> up (SFadd prec emax x y) (cap (rnd (a + b))).
Proof.
  intros (u & <- & U & <-) (v & <- & V & <-) Ha Hb. rewrite (add_equiv prec emax Hprec Hmax).
  pose proof (Bplus_correct prec emax _ _ mode_NE u v U V) as K. cbn [round_mode] in K. fold (rnd (B2R u + B2R v)) in K.
  pose proof (rnd_nonneg (B2R u + B2R v) ltac:(lra)) as Hn. rewrite (Rabs_pos_eq _ Hn) in K. unfold cap.
  destruct (Rlt_bool_spec (rnd (B2R u + B2R v)) top) as [Hl|Hl].
  - split; [|exact Hn]. eexists. split; [reflexivity|]. tauto.
  - cbn [up]. destruct K as [K S]. rewrite K. assert (Bsign v = false) as Hv; [|rewrite S, Hv; reflexivity].
    destruct (Rlt_dec 0 (B2R v)) as [Hp|Hp]; [exact (positive_sign v V Hp)|]. rewrite <- S. apply positive_sign; [exact U|].
    destruct (Rlt_dec 0 (B2R u)) as [Hq|Hq]; [exact Hq|exfalso]. replace (B2R u + B2R v) with 0 in Hl by lra. rewrite (rnd_0 prec emax) in Hl. pose proof top_pos. lra.
Qed.
Lemma mul_up x y a b : represents x a -> represents y b -> 0 <= a * b -> 0 <= a \/ x = y -> up (SFmul prec emax x y) (cap (rnd (a * b))).
Proof.
  intros (u & <- & U & <-) (v & <- & V & <-) Hab Hs. rewrite (mul_equiv prec emax Hprec Hmax).
  pose proof (Bmult_correct prec emax _ _ mode_NE u v) as K. cbn [round_mode] in K. fold (rnd (B2R u * B2R v)) in K.
  pose proof (rnd_nonneg (B2R u * B2R v) Hab) as Hn. rewrite (Rabs_pos_eq _ Hn) in K. unfold cap.
  destruct (Rlt_bool_spec (rnd (B2R u * B2R v)) top) as [Hl|Hl].
  - split; [|exact Hn]. eexists. split; [reflexivity|]. rewrite U, V in K. tauto.
  - cbn [up]. rewrite K. assert (xorb (Bsign u) (Bsign v) = false) as ->; [|reflexivity].
    destruct Hs as [Ha | E]; [|apply B2SF_inj in E; rewrite E; apply xorb_nilpotent].
    assert (B2R u * B2R v <> 0) as Hz. { intros E. rewrite E, (rnd_0 prec emax) in Hl. pose proof top_pos. lra. }
    assert (0 < B2R u /\ 0 < B2R v) as [Hu Hv]. { assert (0 < B2R u * B2R v) by lra. assert (0 < B2R u) by (destruct Ha as [Ha|Ha]; [exact Ha|rewrite <- Ha in *; lra]). split; [assumption|]. apply (Rmult_lt_reg_l (B2R u)); lra. } rewrite (positive_sign u U Hu), (positive_sign v V Hv). reflexivity.
Qed.
Lemma square_up x a : represents x a -> up (SFmul prec emax x x) (cap (rnd (a * a))).
Proof. intros H. apply mul_up; [assumption..|nra|right; reflexivity]. Qed.
Lemma eadd_up x y e f : up x e -> up y f -> up (SFadd prec emax x y) (eadd e f).
Proof.
  destruct e as [a|], f as [b|]; cbn [up eadd].
  - intros [H1 H2] [H3 H4]. now apply add_up.
  - intros [(u & <- & U & _) _] ->. now destruct u.
  - intros -> [(u & <- & U & _) _]. now destruct u.
  - intros -> ->. reflexivity.
Qed.
Lemma emul_up x y k f : represents x k -> 0 < k -> up y f -> up (SFmul prec emax x y) (emul k f).
Proof.
  intros Hx Hk. destruct f as [b|]; cbn [up emul].
  - intros [H1 H2]. apply mul_up; [assumption..|nra|left; lra].
  - intros ->. destruct Hx as (u & <- & U & E). assert (Bsign u = false) as S by (apply positive_sign; [exact U|lra]). destruct u as [s|s| |s m e Be]; try discriminate U; [cbn in E; lra|]. cbn in S. rewrite S. reflexivity.
Qed.
Lemma rnd_small r : 0 <= r <= 1 -> 0 <= rnd r <= 1.
Proof. intros H. split; [apply rnd_nonneg; lra|]. assert (rnd 1 = 1) as <-; [|now apply rnd_le]. apply (rnd_int (z := 1)). assert (2 ^ 1 <= 2 ^ prec)%Z by (apply Z.pow_le_mono_r; unfold Prec_gt_0 in Hprec; lia). lia. Qed.
Lemma one_top : 1 < top. Proof. change 1 with (bpow radix2 0). apply bpow_lt. unfold Prec_gt_0, Prec_lt_emax in *. lia. Qed.
Lemma einv_up x e : up x e -> (forall r, e = Some r -> 1 <= r) -> represents (SFdiv prec emax (sf_ofZ prec emax 1) x) (einv e) /\ 0 <= einv e <= 1.
Proof.
  assert (represents (sf_ofZ prec emax 1) 1) as H1. { apply (represents_int (z := 1)). assert (2 ^ 1 <= 2 ^ prec)%Z by (apply Z.pow_le_mono_r; unfold Prec_gt_0 in Hprec; lia). lia. }
  destruct e as [r|]; cbn [up einv].
  - intros [Hr _] Hl. specialize (Hl r eq_refl). assert (0 <= 1 / r <= 1) as Hb. { split; [apply Rlt_le, Rdiv_lt_0_compat; lra|]. apply (Rmult_le_reg_r r); [lra|]. unfold Rdiv. rewrite Rmult_assoc, Rinv_l by lra. lra. }
    pose proof (rnd_small _ Hb) as Hs. split; [|exact Hs]. apply represents_div; [assumption..|lra|]. rewrite Rabs_pos_eq by lra. pose proof one_top. lra.
  - intros -> _. split; [|lra]. destruct H1 as (u & <- & U & E). destruct u as [s|s| |s m e Be]; try discriminate U; [apply represents_zero|]. apply represents_zero.
Qed.
Lemma cap_le a b : a <= b -> ele (cap a) (cap b).
Proof. intros H. unfold cap. destruct (Rlt_bool_spec a top), (Rlt_bool_spec b top); cbn; lra. Qed.
Lemma eadd_le e e' f f' : ele e e' -> ele f f' -> ele (eadd e f) (eadd e' f').
Proof. destruct e, e', f, f'; cbn [ele eadd]; try tauto; intros; try (destruct (cap _); exact I). apply cap_le, rnd_le. lra. Qed.
Lemma emul_le k f f' : 0 < k -> ele f f' -> ele (emul k f) (emul k f').
Proof. intros Hk. destruct f, f'; cbn [ele emul]; try tauto; intros; [apply cap_le, rnd_le; nra|destruct (cap _); exact I]. Qed.
Lemma einv_le e f : ele e f -> (forall r, e = Some r -> 1 <= r) -> einv f <= einv e.
Proof.
  destruct e as [a|], f as [b|]; cbn [ele einv]; try tauto; try lra; intros H Ha; specialize (Ha a eq_refl).
  - apply rnd_le. unfold Rdiv. rewrite !Rmult_1_l. apply Rinv_le_contravar; lra.
  - apply rnd_nonneg, Rlt_le, Rdiv_lt_0_compat; lra.
Qed.
Lemma up_nonneg x r : up x (Some r) -> 0 <= r. Proof. intros [_ H]. exact H. Qed.
Lemma one_up : up (sf_ofZ prec emax 1) (Some 1).
Proof. split; [|lra]. apply (represents_int (z := 1)). assert (2 ^ 1 <= 2 ^ prec)%Z by (apply Z.pow_le_mono_r; unfold Prec_gt_0 in Hprec; lia). lia. Qed.
Lemma eadd_one x f r : up x f -> eadd (Some 1) f = Some r -> 1 <= r.
Proof.
  destruct f as [b|]; cbn [up eadd]; [|intros _ H; discriminate H]. intros [_ Hb]. unfold cap. destruct (Rlt_bool_spec (rnd (1 + b)) top); [|intros H'; discriminate H']. intros [= <-].
  assert (rnd 1 = 1) as E1; [|rewrite <- E1 at 1; apply rnd_le; lra]. apply (rnd_int (z := 1)). assert (2 ^ 1 <= 2 ^ prec)%Z by (apply Z.pow_le_mono_r; unfold Prec_gt_0 in Hprec; lia). lia.
Qed.
End up.

(** Conversion between formats rounds. *)
Lemma convert_represents prec emax prec' emax' (Hp : Prec_gt_0 prec) (Hm : Prec_lt_emax prec emax) x r :
  represents prec' emax' x r -> Rabs (rnd prec emax r) < bpow radix2 emax -> represents prec emax (sf_convert prec emax x) (rnd prec emax r).
Proof.
  intros (u & <- & U & <-) Hs. destruct u as [s|s| |s m e Be]; try discriminate U.
  - cbn [B2SF sf_convert B2R]. rewrite (rnd_0 prec emax). apply represents_zero.
  - cbn [B2SF sf_convert]. rewrite (binary_normalize_equiv prec emax Hp Hm). eexists. split; [reflexivity|].
    pose proof (binary_normalize_correct prec emax _ _ mode_NE (if s then Z.neg m else Z.pos m) e s) as K. cbv zeta in K. cbn [round_mode] in K.
    assert (F2R {| Fnum := if s then Z.neg m else Z.pos m; Fexp := e |} = B2R (B754_finite s m e Be)) as E by (destruct s; reflexivity).
    rewrite E in K. rewrite small in K by exact Hs. tauto.
Qed.

(** ** Conductivities in floats *)
Definition chain (k a b : R) : option R := eadd 24 128 (Some 1) (emul 24 128 k (eadd 24 128 (cap 128 (rnd 24 128 (a * a))) (cap 128 (rnd 24 128 (b * b))))).
Lemma chain_up (k : F32) (kr : R) (x y : F32) (a b : R) : represents 24 128 k kr -> 0 < kr -> represents 24 128 x a -> represents 24 128 y b ->
  up 24 128 (one + k * (x * x + y * y))%num (chain kr a b) /\ forall r, chain kr a b = Some r -> 1 <= r.
Proof.
  intros Hk Hp Hx Hy. assert (up 24 128 (k * (x * x + y * y))%num (emul 24 128 kr (eadd 24 128 (cap 128 (rnd 24 128 (a * a))) (cap 128 (rnd 24 128 (b * b)))))) as Hm.
  { apply (emul_up 24 128 _ _ k); [exact Hk|exact Hp|]. apply (eadd_up 24 128 _ _); apply (square_up 24 128 _ _); assumption. }
  split; [apply (eadd_up 24 128 _ _); [apply (one_up 24 128 _ _)|exact Hm]|]. intros r Hr. exact (eadd_one 24 128 _ _ _ _ r Hm Hr).
Qed.
Lemma rnd_bpow prec emax (Hp : Prec_gt_0 prec) e : (SpecFloat.emin prec emax <= e)%Z -> rnd prec emax (bpow radix2 e) = bpow radix2 e.
Proof.
  intros He. apply round_generic; [auto with typeclass_instances|]. apply generic_format_bpow. unfold SpecFloat.fexp, Prec_gt_0 in *. lia.
Qed.
Lemma rnd_between prec emax (Hp : Prec_gt_0 prec) (Hm : Prec_lt_emax prec emax) n r : (SpecFloat.emin prec emax <= - n)%Z -> (0 <= n < emax)%Z -> bpow radix2 (- n) <= r <= bpow radix2 n ->
  bpow radix2 (- n) <= rnd prec emax r <= bpow radix2 n /\ Rabs (rnd prec emax r) < bpow radix2 emax.
Proof.
  intros He Hn [H1 H2]. assert (bpow radix2 (- n) <= rnd prec emax r <= bpow radix2 n) as H.
  { rewrite <- (rnd_bpow prec emax Hp (- n)) at 1 by lia. rewrite <- (rnd_bpow prec emax Hp n) by lia. split; now apply rnd_le. }
  split; [exact H|]. rewrite Rabs_pos_eq by (pose proof (bpow_gt_0 radix2 (- n)); lra). apply Rle_lt_trans with (1 := proj2 H). now apply bpow_lt.
Qed.
Lemma inverse_square (k : F64) (r : R) : represents 53 1024 k r -> bpow radix2 (-63) <= Rabs r <= bpow radix2 63 ->
  exists i, represents 24 128 (narrow Fwidths (one / (k * k))%num) i /\ 0 < i.
Proof.
  intros Hk [H1 H2]. assert (bpow radix2 (-126) <= r * r <= bpow radix2 126) as H.
  { replace (r * r) with (Rabs r * Rabs r) by (unfold Rabs; destruct (Rcase_abs r); ring). change (-126)%Z with (-63 + -63)%Z. change 126%Z with (63 + 63)%Z. rewrite !bpow_plus.
    pose proof (bpow_gt_0 radix2 (-63)). split; apply Rmult_le_compat; lra. }
  destruct (rnd_between 53 1024 _ _ 126 (r * r) ltac:(cbv; discriminate) ltac:(lia) H) as [B1 S1].
  assert (represents 53 1024 (k * k)%num (rnd 53 1024 (r * r))) as R1 by (apply represents_mul; assumption).
  set (q := rnd 53 1024 (r * r)) in *. pose proof (bpow_gt_0 radix2 (- (126))) as Hpos.
  assert (bpow radix2 (- (126)) <= 1 / q <= bpow radix2 126) as H'.
  { unfold Rdiv. rewrite Rmult_1_l. rewrite (bpow_opp radix2 126) at 1. replace (bpow radix2 126) with (/ bpow radix2 (- (126))) at 2 by (rewrite <- bpow_opp; reflexivity). split; apply Rinv_le_contravar; lra. }
  destruct (rnd_between 53 1024 _ _ 126 (1 / q) ltac:(cbv; discriminate) ltac:(lia) H') as [B2 S2].
  assert (represents 53 1024 (one / (k * k))%num (rnd 53 1024 (1 / q))) as R2. { apply represents_div; [apply (one_up 53 1024 _ _)|exact R1|lra|exact S2]. }
  destruct (rnd_between 24 128 _ _ 126 (rnd 53 1024 (1 / q)) ltac:(cbv; discriminate) ltac:(lia) B2) as [B3 S3].
  exists (rnd 24 128 (rnd 53 1024 (1 / q))). split; [|lra]. exact (convert_represents 24 128 53 1024 _ _ _ _ R2 S3).
Qed.
(** The value of a float. *)
Notation value := (SF2R radix2).
Lemma squares_le (a a' : R) : Rabs a <= Rabs a' -> a * a <= a' * a'.
Proof. intros H. replace (a * a) with (Rabs a * Rabs a) by (unfold Rabs; destruct (Rcase_abs a); ring). replace (a' * a') with (Rabs a' * Rabs a') by (unfold Rabs; destruct (Rcase_abs a'); ring). pose proof (Rabs_pos a). apply Rmult_le_compat; lra. Qed.
Lemma chain_le k a b a' b' : 0 < k -> Rabs a <= Rabs a' -> Rabs b <= Rabs b' -> ele (chain k a b) (chain k a' b').
Proof.
  intros Hk Ha Hb. unfold chain. apply (eadd_le 24 128 _); [cbn; lra|]. apply (emul_le 24 128 _ _); [exact Hk|]. apply (eadd_le 24 128 _); apply cap_le, rnd_le, squares_le; assumption.
Qed.
Lemma chain_flat k : chain k 0 0 = Some 1.
Proof.
  assert (cap 128 0 = Some 0) as C0 by (unfold cap; destruct (Rlt_bool_spec 0 (bpow radix2 128)) as [|H]; [reflexivity|pose proof (bpow_gt_0 radix2 128); lra]).
  unfold chain. rewrite Rmult_0_l, (rnd_0 24 128), C0. cbn [eadd]. rewrite Rplus_0_l, (rnd_0 24 128), C0. cbn [emul]. rewrite Rmult_0_r, (rnd_0 24 128), C0. cbn [eadd]. rewrite Rplus_0_r, (rnd_int (z := 1)) by (cbv; discriminate).
  unfold cap. destruct (Rlt_bool_spec 1 (bpow radix2 128)) as [|H]; [reflexivity|]. pose proof (one_top 24 128 _ _). lra.
Qed.
Lemma conductivity_float w h (Lx Ly : gray F32) (k : F64) : sized w h Lx -> sized w h Ly ->
  (forall x y, (x < w)%nat -> (y < h)%nat -> sf_valid 24 128 (pixel Lx x y) /\ isfin (pixel Lx x y) = true /\ sf_valid 24 128 (pixel Ly x y) /\ isfin (pixel Ly x y) = true) ->
  sf_valid 53 1024 k -> isfin k = true -> / 2 ^ 63 <= Rabs (value k) <= 2 ^ 63 ->
  exists out, pm_g2 Fwidths Lx Ly k = Ok out /\ sized w h out /\
    forall x y, (x < w)%nat -> (y < h)%nat -> isfin (pixel out x y) = true /\ 0 <= value (pixel out x y) <= 1 /\
      (value (pixel Lx x y) = 0 -> value (pixel Ly x y) = 0 -> value (pixel out x y) = 1) /\
      forall x' y', (x' < w)%nat -> (y' < h)%nat -> Rabs (value (pixel Lx x y)) <= Rabs (value (pixel Lx x' y')) -> Rabs (value (pixel Ly x y)) <= Rabs (value (pixel Ly x' y')) ->
        value (pixel out x' y') <= value (pixel out x y).
Proof.
  intros (W & H & D) (W' & H' & D') Hf Vk Fk Hk. pose proof (valid_represents Vk Fk) as Rk.
  assert (bpow radix2 (-63) <= Rabs (value k) <= bpow radix2 63) as Hk'. { change (bpow radix2 (-63)) with (/ IZR (Z.pow_pos 2 63)). change (bpow radix2 63) with (IZR (Z.pow_pos 2 63)). replace (IZR (Z.pow_pos 2 63)) with (2 ^ 63) by (change (Z.pow_pos 2 63) with (2 ^ Z.of_nat 63)%Z; apply pow_IZR). exact Hk. }
  destruct (inverse_square k _ Rk Hk') as (i & Ri & Hi). unfold pm_g2. change (single Fwidths) with F32 in *. rewrite W, H, W', H', !Nat.eqb_refl. cbn [andb assert_]. set (out := (of_fn (N := F32) w h (fun x y => (one / (one + narrow Fwidths (one / (k * k))%num * (pixel Lx x y * pixel Lx x y + pixel Ly x y * pixel Ly x y)))%num))). exists out. split; [reflexivity|]. split; [apply of_fn_sized|].
  assert (forall x y, (x < w)%nat -> (y < h)%nat -> let c := pixel out x y in
    represents 24 128 c (einv 24 128 (chain i (value (pixel Lx x y)) (value (pixel Ly x y)))) /\ 0 <= einv 24 128 (chain i (value (pixel Lx x y)) (value (pixel Ly x y))) <= 1 /\ (forall r, chain i (value (pixel Lx x y)) (value (pixel Ly x y)) = Some r -> 1 <= r)) as Hc.
  { intros x y Hx Hy c. destruct (Hf x y Hx Hy) as (V1 & F1 & V2 & F2). unfold c, out. rewrite (pixel_of_fn (N := F32)) by assumption.
    destruct (chain_up _ i _ _ _ _ Ri Hi (valid_represents V1 F1) (valid_represents V2 F2)) as [Hu Hl]. destruct (einv_up 24 128 _ _ _ _ Hu Hl) as [Hr Hb]. split; [exact Hr|]. split; [exact Hb|exact Hl]. }
  intros x y Hx Hy. destruct (Hc x y Hx Hy) as (Hr & Hb & Hl). cbv zeta in Hr. rewrite (represents_value Hr). split; [exact (proj1 (proj2 (represents_valid Hr)))|]. split; [exact Hb|]. split.
  - intros E1 E2. rewrite E1, E2, chain_flat. cbn [einv]. replace (1 / 1) with 1 by field. apply (rnd_int (z := 1)). cbv. discriminate.
  - intros x' y' Hx' Hy' L1 L2. destruct (Hc x' y' Hx' Hy') as (Hr' & _). cbv zeta in Hr'. rewrite (represents_value Hr'). apply (einv_le 24 128 _ _); [apply chain_le; assumption|exact Hl].
Qed.
Lemma conductivity_float_case : exists (Lx Ly : gray F32) (k : F64), sized 2 1 Lx /\ sized 2 1 Ly /\
  (forall x y, (x < 2)%nat -> (y < 1)%nat -> sf_valid 24 128 (pixel Lx x y) /\ isfin (pixel Lx x y) = true /\ sf_valid 24 128 (pixel Ly x y) /\ isfin (pixel Ly x y) = true) /\
  sf_valid 53 1024 k /\ isfin k = true /\ / 2 ^ 63 <= Rabs (value k) <= 2 ^ 63 /\ pixel Lx 0 0 = zero /\ pixel Lx 1 0 <> pixel Lx 0 0.
Proof.
  exists (of_rows (N := F32) [[ofZ 0; ofZ 3]])%list, (of_rows (N := F32) [[ofZ 0; ofZ 4]])%list, (ofZ 2 : F64).
  split; [repeat split|]. split; [repeat split|]. split.
  { intros x y Hx Hy. destruct x as [|[|x]], y as [|y]; try lia; repeat split; vm_compute; reflexivity. }
  split; [vm_compute; reflexivity|]. split; [reflexivity|]. split; [|split; [reflexivity|vm_compute; intros H; discriminate H]].
  change (@ofZ F64 2) with (sf_ofZ 53 1024 2). rewrite (represents_value (represents_int (prec := 53) (emax := 1024) (z := 2) ltac:(cbv; discriminate))). rewrite Rabs_pos_eq by lra.
  assert (1 <= 2 ^ 62) by (apply pow_R1_Rle; lra). replace (2 ^ 63) with (2 * 2 ^ 62) by (cbn [pow]; ring). split; [|lra].
  apply Rle_trans with (/ 1); [apply Rinv_le_contravar; lra|lra].
Qed.
