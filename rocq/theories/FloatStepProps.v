(** What survives rounding in one diffusion step: the error, the range, the brightness and constant images. *)
From Coq Require Import Reals ZArith SpecFloat Lia Lra Psatz.
From Flocq Require Import Core BinarySingleNaN.
From Coq Require Import List Arith Bool.
From Verif Require Import Num LinSpec LinFacts Outcome OutcomeFacts Gray GraySpec GrayFacts GrayReal Diffuse DiffuseSpec DiffuseFacts FloatFacts FloatUp FloatError32 FloatGraySpec FloatGray FloatBlur FloatStep.
Import ListNotations.
Open Scope R_scope.

Lemma real_sized w h (g : gray F32) : sized w h g -> sized w h (real_image g).
Proof. intros (W & H & D). repeat split; [exact W|exact H|]. cbn [real_image g_data]. rewrite map_length. exact D. Qed.
Lemma pow_bpow n : 2 ^ n = bpow radix2 (Z.of_nat n).
Proof. rewrite <- IZR_Zpower by lia. apply pow_IZR. Qed.
Section step.
Variables (w h : nat) (Lt Lflow : gray F32) (step : F32) (a : R).
Hypotheses (Hw : (0 < w)%nat) (Hh : (0 < h)%nat) (GT : finite_image w h a Lt) (GF : finite_between w h 0 1 Lflow) (Ha : a <= 2 ^ 90)
  (Fs : finite_single step) (Hs : 0 <= value step <= 2 ^ 20).
Lemma bound_nonneg : 0 <= a.
Proof. destruct GT as [_ P]. destruct (P 0%nat 0%nat Hw Hh) as [_ Q]. pose proof (Rabs_pos (value (pixel Lt 0 0))). lra. Qed.
Lemma step_float : exists out, calculate_step Lt Lflow step = Ok out /\ sized w h out /\ forall x y, (x < w)%nat -> (y < h)%nat ->
  finite_single (pixel out x y) /\ Rabs (value (pixel out x y) - diffused (real_image Lt) (real_image Lflow) (value step) x y) <= step_error (value step) a.
Proof.
  destruct Fs as [Vs Fn]. pose proof (valid_represents Vs Fn) as Rs.
  destruct (step_float_near step (value step) a Rs ltac:(lra) (conj bound_nonneg ltac:(rewrite pow_bpow in Ha; exact Ha)) w h Lt Lflow GT GF Hw Hh) as (out & exact & E & Ex & So & P).
  destruct (step_image w h (real_image Lt) (real_image Lflow) (value step) (real_sized _ _ _ (proj1 GT)) (real_sized _ _ _ (proj1 GF)) Hw Hh) as (ex' & Ex' & I).
  rewrite Ex in Ex'. injection Ex' as <-. exists out. split; [exact E|]. split; [exact So|]. intros x y Hx Hy. rewrite <- (proj2 I x y Hx Hy). now apply P.
Qed.
Lemma step_float_within lo hi : value step <= 1 / 4 -> finite_between w h lo hi Lt ->
  exists out, calculate_step Lt Lflow step = Ok out /\ finite_between w h (lo - step_error (value step) a) (hi + step_error (value step) a) out.
Proof.
  intros Hq HB. destruct step_float as (out & E & So & P). exists out. split; [exact E|]. split; [exact So|]. intros x y Hx Hy. destruct (P x y Hx Hy) as [Fo Po]. split; [exact Fo|].
  destruct (step_within w h (real_image Lt) (real_image Lflow) (value step) lo hi (real_sized _ _ _ (proj1 GT)) (real_sized _ _ _ (proj1 GF)) Hw Hh ltac:(lra)) as (ex & Ex & (Wx & Hx' & _) & Bx).
  - intros u v Hu Hv. rewrite real_pixel. destruct GF as [(W & H & _) Q]. apply Q; [rewrite <- W|rewrite <- H]; assumption.
  - intros u v Hu Hv. rewrite real_pixel. destruct HB as [(W & H & _) Q]. apply Q; [rewrite <- W|rewrite <- H]; assumption.
  - destruct (step_image w h (real_image Lt) (real_image Lflow) (value step) (real_sized _ _ _ (proj1 GT)) (real_sized _ _ _ (proj1 GF)) Hw Hh) as (ex' & Ex' & I). rewrite Ex in Ex'. injection Ex' as <-.
    specialize (Bx x y). rewrite Wx, Hx' in Bx. specialize (Bx Hx Hy). rewrite (proj2 I x y Hx Hy) in Bx. apply Rabs_le_inv in Po. lra.
Qed.
Lemma step_float_total : exists out, calculate_step Lt Lflow step = Ok out /\ sized w h out /\ Rabs (total (real_image out) - total (real_image Lt)) <= INR w * INR h * step_error (value step) a.
Proof.
  destruct step_float as (out & E & So & P). exists out. split; [exact E|]. split; [exact So|].
  destruct (step_image w h (real_image Lt) (real_image Lflow) (value step) (real_sized _ _ _ (proj1 GT)) (real_sized _ _ _ (proj1 GF)) Hw Hh) as (ex & Ex & I).
  destruct (step_total w h (real_image Lt) (real_image Lflow) (value step) (real_sized _ _ _ (proj1 GT)) (real_sized _ _ _ (proj1 GF)) Hw Hh) as (ex' & Ex' & _ & T). rewrite Ex in Ex'. injection Ex' as <-.
  rewrite <- T, (total_image _ _ _ _ I). unfold total. destruct (real_sized _ _ _ So) as (W & H & _). rewrite W, H. rewrite <- rsum_minus.
  eapply Rle_trans; [apply (rsum_abs_le _ _ (fun _ => INR w * step_error (value step) a))|rewrite rsum_const; right; ring]. intros y Hy. rewrite <- rsum_minus.
  eapply Rle_trans; [apply (rsum_abs_le _ _ (fun _ => step_error (value step) a))|rewrite rsum_const; right; ring]. intros x Hx. rewrite real_pixel. now apply P.
Qed.
End step.
(** Constant images do not change at all. *)
Lemma step_float_constant w h (Lt Lflow : gray F32) (step : F32) c : (0 < w)%nat -> (0 < h)%nat -> finite_between w h c c Lt -> Rabs c <= 2 ^ 90 -> finite_between w h 0 1 Lflow ->
  finite_single step -> 0 <= value step <= 2 ^ 20 -> exists out, calculate_step Lt Lflow step = Ok out /\ finite_between w h c c out.
Proof.
  intros Hw Hh [(W & H & D) PT] Hc [(W' & H' & D') PF] [Vs Fn] Hs. pose proof (valid_represents Vs Fn) as Rs. unfold calculate_step. rewrite W, H, W', H', !Nat.eqb_refl. rewrite (proj2 (Nat.eqb_neq w 0)), (proj2 (Nat.eqb_neq h 0)) by lia. cbn [negb andb assert_].
  eexists. split; [reflexivity|]. split; [apply of_fn_sized|]. intros x y Hx Hy. rewrite !pixel_of_fn by lia. unfold horizontal_flow, vertical_flow.
  assert (Fl : forall a b a' b', (a < w)%nat -> (b < h)%nat -> (a' < w)%nat -> (b' < h)%nat -> rep32 (flow step (pixel Lt a b) (pixel Lt a' b') (pixel Lflow a b) (pixel Lflow a' b')) 0).
  { intros a b a' b' Q1 Q2 Q3 Q4. destruct (PT a b Q1 Q2) as [T1 T2]. destruct (PT a' b' Q3 Q4) as [T1' T2']. destruct (PF a b Q1 Q2) as [U1 U2]. destruct (PF a' b' Q3 Q4) as [U1' U2'].
    assert (E1 : value (pixel Lt a b) = c) by lra. assert (E2 : value (pixel Lt a' b') = c) by lra.
    destruct (flow_near_zero step (value step) (Rabs c) Rs ltac:(lra) (conj (Rabs_pos c) ltac:(rewrite pow_bpow in Hc; exact Hc)) _ _ _ _ T1 T1' U1 U1' ltac:(rewrite E1; lra) ltac:(rewrite E2; lra) U2 U2') as (f & Rf & _ & Z0). now rewrite <- (Z0 ltac:(lra)). }
  destruct (PT x y Hx Hy) as [[VT FT] T2]. assert (R0 : rep32 (pixel Lt x y) c) by (pose proof (valid_represents VT FT) as Q; replace (value (pixel Lt x y)) with c in Q by lra; exact Q).
  assert (RC : rnd32 c = c) by (destruct R0 as (b & _ & _ & <-); apply round_generic; [auto with typeclass_instances|apply generic_format_B2R]).
  assert (Cf : Rabs (rnd32 c) < bpow radix2 128). { rewrite RC. eapply Rle_lt_trans; [exact Hc|]. rewrite pow_bpow. apply bpow_lt. lia. }
  assert (JP : forall (b : bool) (x fl : F32), rep32 x c -> (b = true -> rep32 fl 0) -> rep32 (if b then x + fl else x)%num c).
  { intros b u fl Ru Hf. destruct b; [|exact Ru]. pose proof (represents_add Ru (Hf eq_refl)) as Q. rewrite Rplus_0_r, RC in Q. apply Q. now rewrite <- RC. }
  assert (JM : forall (b : bool) (x fl : F32), rep32 x c -> (b = true -> rep32 fl 0) -> rep32 (if b then x - fl else x)%num c).
  { intros b u fl Ru Hf. destruct b; [|exact Ru]. pose proof (represents_sub Ru (Hf eq_refl)) as Q. rewrite Rminus_0_r, RC in Q. apply Q. now rewrite <- RC. }
  match goal with |- finite_single ?v /\ _ => assert (RV : rep32 v c) end.
  { apply JM; [|intros C; apply Nat.leb_le in C; apply Fl; lia]. apply JP; [|intros C; apply Nat.ltb_lt in C; apply Fl; lia]. apply JM; [|intros C; apply Nat.leb_le in C; apply Fl; lia]. apply JP; [|intros C; apply Nat.ltb_lt in C; apply Fl; lia]. exact R0. }
  destruct (represents_valid RV) as (Q1 & Q2 & _). split; [split; assumption|]. match goal with |- _ <= ?v <= _ => replace v with c by (symmetry; exact (represents_value RV)) end. lra.
Qed.
(** A 2 by 2 image to which all of this applies. *)
Lemma step_float_case : exists (Lt Lflow : gray F32) (step : F32), finite_image 2 2 4 Lt /\ finite_between 2 2 0 1 Lflow /\ finite_single step /\ value step = 1 / 4 /\
  pixel Lt 0 0 <> pixel Lt 1 1 /\ pixel Lflow 0 0 <> pixel Lflow 1 1.
Proof.
  exists (of_rows (N := F32) [[ofZ 1; ofZ 2]; [ofZ 3; ofZ 4]]), (of_rows (N := F32) [[ofZ 0; ofZ 1]; [ofZ 1; ofZ 1]]), (S754_finite false 8388608 (-25)).
  assert (V : forall z, (Z.abs z <= 2 ^ 24)%Z -> value (@ofZ F32 z) = IZR z) by (intros z Hz; exact (represents_value (int32 z Hz))).
  assert (Fz : forall z, (Z.abs z <= 2 ^ 24)%Z -> finite_single (@ofZ F32 z)) by (intros z Hz; destruct (represents_valid (int32 z Hz)) as (Q1 & Q2 & _); split; assumption).
  split; [|split; [|split; [split; reflexivity|split; [|split; vm_compute; intros Q; discriminate Q]]]].
  - split; [repeat split|]. intros x y Hx Hy.
    assert (P : exists z, (1 <= z <= 4)%Z /\ pixel (of_rows (N := F32) [[ofZ 1; ofZ 2]; [ofZ 3; ofZ 4]]) x y = ofZ z).
    { destruct x as [|[|x]], y as [|[|y]]; try lia; eexists; (split; [|reflexivity]); lia. }
    destruct P as (z & Hz & ->). rewrite V by lia. assert (1 <= IZR z <= 4) by (split; apply IZR_le; lia). split; [apply Fz; lia|rewrite Rabs_pos_eq; lra].
  - split; [repeat split|]. intros x y Hx Hy.
    assert (P : exists z, (0 <= z <= 1)%Z /\ pixel (of_rows (N := F32) [[ofZ 0; ofZ 1]; [ofZ 1; ofZ 1]]) x y = ofZ z).
    { destruct x as [|[|x]], y as [|[|y]]; try lia; eexists; (split; [|reflexivity]); lia. }
    destruct P as (z & Hz & ->). rewrite V by lia. assert (0 <= IZR z <= 1) by (split; apply IZR_le; lia). split; [apply Fz; lia|lra].
  - change (IZR (Z.pos 8388608) * bpow radix2 (-25) = 1 / 4). bn (-25)%Z. field.
Qed.
