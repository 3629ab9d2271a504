(** A blur in binary32: an admissible platform, and a constant image that is not kept. *)
From Coq Require Import Reals ZArith SpecFloat Lia Lra Psatz.
From Flocq Require Import Core BinarySingleNaN.
From Coq Require Import List Arith Bool.
From Verif Require Import Num Outcome Gray GraySpec GrayFacts FloatFacts FloatUp FloatError32 FloatGraySpec FloatGray FloatBlur.
Import ListNotations.
Open Scope R_scope.

(** Rounding up, for nonnegative numbers. *)
Definition ceil_of (x : F32) : Z :=
  match x with
  | S754_finite false m e => if (0 <=? e)%Z then (Z.pos m * 2 ^ e)%Z else ((Z.pos m + (2 ^ (- e) - 1)) / 2 ^ (- e))%Z
  | _ => 0%Z
  end.
Lemma ceil_of_spec x : 0 <= value x -> value x <= IZR (ceil_of x) < value x + 1.
Proof.
  destruct x as [s|s| |s m e]; cbn [SF2R ceil_of]; intros H; [lra|lra|lra|]. destruct s.
  - cbn [cond_Zopp] in H. unfold F2R in H. cbn [Fnum Fexp] in H. pose proof (bpow_gt_0 radix2 e). assert (IZR (- Z.pos m) <= -1) by (apply IZR_le; lia). nra.
  - cbn [cond_Zopp] in *. unfold F2R in *. cbn [Fnum Fexp] in *. destruct (Z.leb_spec 0 e) as [E|E].
    + rewrite mult_IZR. change 2%Z with (radix_val radix2). rewrite IZR_Zpower by exact E. lra.
    + set (d := (2 ^ (- e))%Z). assert (Hd : (0 < d)%Z) by (apply Z.pow_pos_nonneg; lia). assert (Eb : bpow radix2 e = / IZR d).
      { unfold d. change 2%Z with (radix_val radix2). rewrite IZR_Zpower by lia. rewrite bpow_opp. now rewrite Rinv_inv. }
      rewrite Eb. pose proof (Z.div_mod (Z.pos m + (d - 1)) d ltac:(lia)) as DM. pose proof (Z.mod_pos_bound (Z.pos m + (d - 1)) d Hd) as MB. set (q := ((Z.pos m + (d - 1)) / d)%Z) in *.
      assert (Q1 : (Z.pos m <= d * q)%Z) by lia. assert (Q2 : (d * q < Z.pos m + d)%Z) by lia. apply IZR_le in Q1. apply IZR_lt in Q2. rewrite plus_IZR in Q2. rewrite mult_IZR in Q1, Q2.
      assert (Hd' : 0 < IZR d) by (apply IZR_lt; exact Hd). split; apply (Rmult_le_reg_l (IZR d)) || apply (Rmult_lt_reg_l (IZR d)); try exact Hd'.
      * rewrite (Rmult_comm (IZR (Z.pos m))), <- Rmult_assoc, Rinv_r, Rmult_1_l by lra. exact Q1.
      * rewrite Rmult_plus_distr_l, (Rmult_comm (IZR (Z.pos m))), <- Rmult_assoc, Rinv_r, !Rmult_1_l, Rmult_1_r by lra. exact Q2.
Qed.
(** pi and exp (-8), rounded to nearest. *)
Definition pi_single : F32 := S754_finite false 13176795 (-22).
Definition exp_minus_8 : F32 := S754_finite false 11526408 (-35).
(** A platform whose exponential function is right at 0 and -8 (and returns 1/2 elsewhere). *)
Definition platform : math F32 :=
  Math F32 pi_single (fun x => if (x =? ofZ 0)%num then ofZ 1 else if (x =? ofZ (-8))%num then exp_minus_8 else S754_finite false 8388608 (-24)) (fun x => x) (fun x => x) (fun x => x) ceil_of.
Lemma single_value m e : value (S754_finite false m e) = IZR (Z.pos m) * bpow radix2 e.
Proof. reflexivity. Qed.
Lemma platform_plausible : plausible platform.
Proof.
  split; [split; reflexivity|]. split; [|split].
  - change (m_pi platform) with pi_single. unfold pi_single. rewrite single_value. bn (-22)%Z. lra.
  - intros x [Vx Fx] Hx. cbn [platform m_exp]. pose proof (valid_represents Vx Fx) as Rx.
    change (x =? ofZ 0)%num with (SFeqb x (S754_zero false)). rewrite (represents_eqb Rx (represents_zero 24 128 false)). unfold Reqb. destruct (Req_EM_T (value x) 0) as [E|E].
    + assert (V : value (@ofZ F32 1) = 1) by (apply (represents_value (int32 1 ltac:(cbv; discriminate)))). rewrite V. split; [split; reflexivity|]. lra.
    + destruct (x =? ofZ (-8))%num; (split; [split; reflexivity|]); (split; [|intros Q; contradiction]).
      * unfold exp_minus_8. rewrite single_value. bn (-35)%Z. lra.
      * rewrite single_value. bn (-24)%Z. lra.
  - intros x _ Hx. cbn [platform m_trunc m_ceil]. apply ceil_of_spec. lra.
Qed.
Definition quarter : F32 := S754_finite false 8388608 (-25).
Lemma blur_float_case : exists (M : math F32) (r : F32) (g : gray F32), plausible M /\ finite_single r /\ / 2 ^ 20 <= value r <= 2 ^ 10 /\ finite_between 2 1 0 1 g /\ pixel g 0 0 <> pixel g 1 0.
Proof.
  exists platform, quarter, (of_rows (N := F32) [[ofZ 0; ofZ 1]]). split; [exact platform_plausible|]. split; [split; reflexivity|]. split; [unfold quarter; rewrite single_value; bn (-25)%Z; lra|]. split; [|vm_compute; intros H; discriminate H].
  split; [repeat split|]. assert (V : value (@ofZ F32 1) = 1) by (apply (represents_value (int32 1 ltac:(cbv; discriminate)))). assert (V0 : value (@ofZ F32 0) = 0) by reflexivity.
  intros x y Hx Hy. destruct x as [|[|x]], y as [|y]; try lia; (split; [split; reflexivity|]).
  - change (0 <= value (@ofZ F32 0) <= 1). rewrite V0. lra.
  - change (0 <= value (@ofZ F32 1) <= 1). rewrite V. lra.
Qed.
Lemma blur_not_constant : exists (M : math F32) (r : F32) (g out : gray F32), plausible M /\ finite_single r /\ / 2 ^ 20 <= value r <= 2 ^ 10 /\ finite_between 1 1 1 1 g /\
  gaussian_blur M g r = Ok out /\ value (pixel out 0 0) = 1 - 4 / 2 ^ 24.
Proof.
  set (g := of_rows (N := F32) [[ofZ 1]]). assert (Hr : / 2 ^ 20 <= value quarter <= 2 ^ 10) by (unfold quarter; rewrite single_value; bn (-25)%Z; lra).
  assert (Hg : finite_between 1 1 1 1 g).
  { split; [repeat split|]. intros x y Hx Hy. destruct x as [|x], y as [|y]; try lia. split; [split; reflexivity|]. change (1 <= value (@ofZ F32 1) <= 1). rewrite (represents_value (int32 1 ltac:(cbv; discriminate))). lra. }
  destruct (blur_float platform quarter 1 1 g 1 1 1 platform_plausible ltac:(split; reflexivity) Hr ltac:(lia) ltac:(lia) Hg ltac:(lra) ltac:(lra) ltac:(apply pow_R1_Rle; lra)) as (out & E & _).
  exists platform, quarter, g, out. split; [exact platform_plausible|]. split; [split; reflexivity|]. split; [exact Hr|]. split; [exact Hg|]. split; [exact E|].
  assert (C : match gaussian_blur platform g quarter with Ok o => match pixel o 0 0 with S754_finite false m e => (Z.pos m =? 16777212)%Z && (e =? -24)%Z | _ => false end | _ => false end = true) by (vm_compute; reflexivity).
  rewrite E in C. destruct (pixel out 0 0) as [s|s| |s m e]; try discriminate C. destruct s; [discriminate C|]. apply andb_prop in C as [C1 C2]. apply Z.eqb_eq in C1, C2. rewrite single_value, C1, C2. bn (-24)%Z. field.
Qed.
Lemma blur_float_constant (M : math F32) (r : F32) w h (g : gray F32) c : plausible M -> finite_single r -> / 2 ^ 20 <= value r <= 2 ^ 10 -> (0 < w)%nat -> (0 < h)%nat ->
  finite_between w h c c g -> Rabs c <= 2 ^ 100 ->
  exists out, gaussian_blur M g r = Ok out /\ sized w h out /\ forall x y, (x < w)%nat -> (y < h)%nat -> finite_single (pixel out x y) /\ Rabs (value (pixel out x y) - c) <= blur_error (value r) (Rabs c).
Proof.
  intros PM Fr Hr Hw Hh Hg Hc. destruct (blur_float M r w h g c c (Rabs c) PM Fr Hr Hw Hh Hg) as (out & E & [So Po] & _).
  - pose proof (Rle_abs (- c)) as Q. rewrite Rabs_Ropp in Q. lra.
  - apply Rle_abs.
  - exact Hc.
  - exists out. split; [exact E|]. split; [exact So|]. intros x y Hx Hy. destruct (Po x y Hx Hy) as [F B]. split; [exact F|]. apply Rabs_le. lra.
Qed.
(** An image and a kernel to which the error bounds of the filters apply. *)
Lemma filter_float_case : exists (g : gray F32) (kernel : list F32), finite_image 3 2 6 g /\ length kernel = 3%nat /\ Forall finite_single kernel /\
  kernel_norm kernel = 6 /\ nth 0 (real_kernel kernel) 0 = -1 /\ pixel g 0 0 <> pixel g 1 1.
Proof.
  exists (of_rows (N := F32) [[ofZ 1; ofZ 2; ofZ 3]; [ofZ 4; ofZ 5; ofZ 6]]), [ofZ (-1); ofZ 2; ofZ 3].
  assert (V : forall z, (Z.abs z <= 2 ^ 24)%Z -> value (@ofZ F32 z) = IZR z) by (intros z Hz; exact (represents_value (int32 z Hz))). split; [|split; [reflexivity|split; [|split; [|split]]]].
  - split; [repeat split|]. intros x y Hx Hy.
    assert (P : exists z, (1 <= z <= 6)%Z /\ pixel (of_rows (N := F32) [[ofZ 1; ofZ 2; ofZ 3]; [ofZ 4; ofZ 5; ofZ 6]]) x y = ofZ z).
    { destruct x as [|[|[|x]]], y as [|[|y]]; try lia; eexists; (split; [|reflexivity]); lia. }
    destruct P as (z & Hz & ->). rewrite V by lia. assert (1 <= IZR z <= 6) by (split; apply IZR_le; lia). split; [|rewrite Rabs_pos_eq; lra].
    destruct (represents_valid (int32 z ltac:(lia))) as (Q1 & Q2 & _). split; assumption.
  - repeat constructor.
  - unfold kernel_norm, real_kernel. cbn [length rsum map nth]. rewrite !V by (cbv; discriminate). rewrite (Rabs_left (-1)), !Rabs_pos_eq by lra. lra.
  - cbn [real_kernel map nth]. now rewrite V by (cbv; discriminate).
  - vm_compute. intros H. discriminate H.
Qed.
