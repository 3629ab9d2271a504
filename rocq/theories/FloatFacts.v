(** IEEE-754 arithmetic of the model ([Num.ieee]) related to exact reals: every operation gives the exact result,
    rounded to nearest.  The correctness theorems are Flocq's. *)
From Coq Require Import Reals ZArith SpecFloat Lia Lra Psatz Bool.
From Flocq Require Import Core BinarySingleNaN.
From Verif Require Import Num.
Open Scope R_scope.

Section float.
Variables prec emax : Z.
Context (Hprec : Prec_gt_0 prec) (Hmax : Prec_lt_emax prec emax).
Notation fexp := (SpecFloat.fexp prec emax).
Notation bf := (binary_float prec emax).
Instance fexp_valid : Valid_exp fexp := FLT_exp_valid (SpecFloat.emin prec emax) prec.

(** Round to nearest, ties to even. *)
Definition rnd (r : R) : R := round radix2 fexp ZnearestE r.
(** The float is finite and its value is [r]. *)
Definition represents (x : spec_float) (r : R) : Prop := exists b : bf, B2SF b = x /\ is_finite b = true /\ B2R b = r.
(** A number of the format. *)
Definition sf_valid (x : spec_float) : Prop := valid_binary prec emax x = true.

Lemma rnd_le a b : a <= b -> rnd a <= rnd b.
Proof. apply round_le; auto with typeclass_instances. Qed.
Lemma rnd_0 : rnd 0 = 0.
Proof. apply round_0; auto with typeclass_instances. Qed.
Lemma rnd_exact x r : represents x r -> rnd r = r.
Proof. intros (b & _ & _ & <-). apply round_generic; [auto with typeclass_instances|]. apply generic_format_B2R. Qed.
Lemma represents_valid x r : represents x r -> sf_valid x /\ sf_isfin x = true /\ sf_isnan x = false.
Proof. intros (b & <- & F & _). split; [apply valid_binary_B2SF|]. now destruct b. Qed.
Lemma represents_unique x r s : represents x r -> represents x s -> r = s.
Proof. intros (b & E & F & <-) (c & G & H & <-). f_equal. apply B2SF_inj. congruence. Qed.
Lemma valid_represents x : sf_valid x -> sf_isfin x = true -> represents x (SF2R radix2 x).
Proof.
  intros V F. exists (SF2B x V). rewrite B2SF_SF2B, is_finite_SF2B, B2R_SF2B. repeat split. now destruct x.
Qed.
Lemma represents_value x r : represents x r -> SF2R radix2 x = r.
Proof. intros (b & <- & _ & <-). apply SF2R_B2SF. Qed.
Lemma represents_bound x r : represents x r -> Rabs r < bpow radix2 emax.
Proof. intros (b & _ & _ & <-). apply abs_B2R_lt_emax. Qed.

Lemma round_nearest_even_equiv s m l : round_nearest_even m l = choice_mode mode_NE s m l.
Proof. case l; [reflexivity|intro c]. case c; [ | reflexivity..]. now simpl; unfold Round.cond_incr; case Z.even. Qed.
Lemma binary_round_aux_equiv sx mx ex lx :
  SpecFloat.binary_round_aux prec emax sx mx ex lx = binary_round_aux prec emax mode_NE sx mx ex lx.
Proof.
  unfold SpecFloat.binary_round_aux, binary_round_aux. set (mrse' := shr_fexp _ _ _ _ _). case mrse'; intros mrs' e'; simpl.
  now rewrite (round_nearest_even_equiv sx).
Qed.
Lemma binary_round_equiv s m e : SpecFloat.binary_round prec emax s m e = binary_round prec emax mode_NE s m e.
Proof.
  unfold SpecFloat.binary_round, binary_round, shl_align_fexp. set (mez := shl_align _ _ _); case mez as [mz ez].
  apply binary_round_aux_equiv.
Qed.
Lemma binary_normalize_equiv m e szero :
  SpecFloat.binary_normalize prec emax m e szero = B2SF (binary_normalize prec emax Hprec Hmax mode_NE m e szero).
Proof. case m as [ | p | p]; [now simpl| |]; simpl; rewrite B2SF_SF2B; apply binary_round_equiv. Qed.

Lemma add_equiv (x y : bf) : SFadd prec emax (B2SF x) (B2SF y) = B2SF (Bplus mode_NE x y).
Proof.
  case x as [sx|sx| |sx mx ex Bx]; case y as [sy|sy| |sy my ey By]; [now (trivial || simpl; case Bool.eqb).. | ].
  apply binary_normalize_equiv.
Qed.
Lemma sub_equiv (x y : bf) : SFsub prec emax (B2SF x) (B2SF y) = B2SF (Bminus mode_NE x y).
Proof.
  case x as [sx|sx| |sx mx ex Bx]; case y as [sy|sy| |sy my ey By]; [now (trivial || simpl; case Bool.eqb).. | ].
  simpl. unfold Zminus. rewrite <- cond_Zopp_negb. apply binary_normalize_equiv.
Qed.
Lemma mul_equiv (x y : bf) : SFmul prec emax (B2SF x) (B2SF y) = B2SF (Bmult mode_NE x y).
Proof.
  case x as [sx|sx| |sx mx ex Bx]; case y as [sy|sy| |sy my ey By]; [now trivial.. | ].
  simpl. rewrite B2SF_SF2B. apply binary_round_aux_equiv.
Qed.
Lemma div_equiv (x y : bf) : SFdiv prec emax (B2SF x) (B2SF y) = B2SF (Bdiv mode_NE x y).
Proof.
  case x as [sx|sx| |sx mx ex Bx]; case y as [sy|sy| |sy my ey By]; [now (trivial || simpl; case Bool.eqb).. | ].
  simpl. rewrite B2SF_SF2B. set (melz := SFdiv_core_binary _ _ _ _ _ _). case melz as [[mz ez] lz]. apply binary_round_aux_equiv.
Qed.
Lemma sqrt_equiv (x : bf) : SFsqrt prec emax (B2SF x) = B2SF (Bsqrt mode_NE x).
Proof.
  case x as [sx|sx| |sx mx ex Bx]; [now (trivial || case sx).. | ]. case sx; [reflexivity | ].
  simpl. rewrite B2SF_SF2B. set (melz := SFsqrt_core_binary _ _ _ _). case melz as [[mz ez] lz]. apply binary_round_aux_equiv.
Qed.

Lemma small r : Rabs (rnd r) < bpow radix2 emax -> Rlt_bool (Rabs (round radix2 fexp ZnearestE r)) (bpow radix2 emax) = true.
Proof. apply Rlt_bool_true. Qed.
Lemma represents_add x y a b : represents x a -> represents y b -> Rabs (rnd (a + b)) < bpow radix2 emax ->
  represents (SFadd prec emax x y) (rnd (a + b)).
Proof.
  intros (u & <- & U & <-) (v & <- & V & <-) S. rewrite add_equiv. eexists. split; [reflexivity|].
  pose proof (Bplus_correct prec emax _ _ mode_NE u v U V) as K. cbn [round_mode] in K. rewrite small in K by exact S. tauto.
Qed.
Lemma represents_sub x y a b : represents x a -> represents y b -> Rabs (rnd (a - b)) < bpow radix2 emax ->
  represents (SFsub prec emax x y) (rnd (a - b)).
Proof.
  intros (u & <- & U & <-) (v & <- & V & <-) S. rewrite sub_equiv. eexists. split; [reflexivity|].
  pose proof (Bminus_correct prec emax _ _ mode_NE u v U V) as K. cbn [round_mode] in K. rewrite small in K by exact S. tauto.
Qed.
(** A sum or difference which is too large is an infinity. *)
Lemma add_total x y a b : represents x a -> represents y b ->
  represents (SFadd prec emax x y) (rnd (a + b)) \/ SFadd prec emax x y = S754_infinity (sf_signneg y).
Proof.
  intros (u & <- & U & <-) (v & <- & V & <-). rewrite add_equiv.
  pose proof (Bplus_correct prec emax _ _ mode_NE u v U V) as K. cbn [round_mode] in K. fold (rnd (B2R u + B2R v)) in K.
  destruct (Rlt_bool_spec (Rabs (rnd (B2R u + B2R v))) (bpow radix2 emax)).
  - left. eexists. split; [reflexivity|]. tauto.
  - right. destruct K as [K S]. rewrite K, S. now destruct v.
Qed.
Lemma sub_total x y a b : represents x a -> represents y b ->
  represents (SFsub prec emax x y) (rnd (a - b)) \/ SFsub prec emax x y = S754_infinity (negb (sf_signneg y)).
Proof.
  intros (u & <- & U & <-) (v & <- & V & <-). rewrite sub_equiv.
  pose proof (Bminus_correct prec emax _ _ mode_NE u v U V) as K. cbn [round_mode] in K. fold (rnd (B2R u - B2R v)) in K.
  destruct (Rlt_bool_spec (Rabs (rnd (B2R u - B2R v))) (bpow radix2 emax)).
  - left. eexists. split; [reflexivity|]. tauto.
  - right. destruct K as [K S]. rewrite K, S. now destruct v.
Qed.
Lemma leb_infinity x a : represents x a -> SFleb x (S754_infinity false) = true.
Proof. intros (u & <- & U & _). now destruct u. Qed.
Lemma represents_mul x y a b : represents x a -> represents y b -> Rabs (rnd (a * b)) < bpow radix2 emax ->
  represents (SFmul prec emax x y) (rnd (a * b)).
Proof.
  intros (u & <- & U & <-) (v & <- & V & <-) S. rewrite mul_equiv. eexists. split; [reflexivity|].
  pose proof (Bmult_correct prec emax _ _ mode_NE u v) as K. cbn [round_mode] in K. rewrite small in K by exact S. rewrite U, V in K. tauto.
Qed.
Lemma represents_div x y a b : represents x a -> represents y b -> b <> 0 -> Rabs (rnd (a / b)) < bpow radix2 emax ->
  represents (SFdiv prec emax x y) (rnd (a / b)).
Proof.
  intros (u & <- & U & <-) (v & <- & V & <-) Z S. rewrite div_equiv. eexists. split; [reflexivity|].
  pose proof (Bdiv_correct prec emax _ _ mode_NE u v Z) as K. cbn [round_mode] in K. rewrite small in K by exact S. rewrite U in K. tauto.
Qed.
Lemma represents_sqrt x a : represents x a -> 0 <= a -> represents (SFsqrt prec emax x) (rnd (R_sqrt.sqrt a)).
Proof.
  intros (u & <- & U & <-) Z. rewrite sqrt_equiv. eexists. split; [reflexivity|].
  pose proof (Bsqrt_correct prec emax _ _ mode_NE u) as (A & B & _). split; [|exact A]. rewrite B.
  destruct u as [s|s| |s m e Be]; try easy. destruct s; [|reflexivity]. exfalso. cbn in Z.
  apply ge_0_F2R in Z. cbn in Z. lia.
Qed.
Lemma represents_opp x a : represents x a -> represents (SFopp x) (- a).
Proof. intros (u & <- & U & <-). exists (Bopp u). rewrite is_finite_Bopp, B2R_Bopp. repeat split; [now destruct u|exact U]. Qed.
Lemma represents_abs x a : represents x a -> represents (SFabs x) (Rabs a).
Proof. intros (u & <- & U & <-). exists (Babs u). rewrite is_finite_Babs, B2R_Babs. repeat split; [now destruct u|exact U]. Qed.
Lemma represents_zero s : represents (S754_zero s) 0.
Proof. now exists (B754_zero s). Qed.
Lemma represents_ofZ z : Rabs (rnd (IZR z)) < bpow radix2 emax -> represents (sf_ofZ prec emax z) (rnd (IZR z)).
Proof.
  intros S. unfold sf_ofZ. rewrite binary_normalize_equiv. eexists. split; [reflexivity|].
  pose proof (binary_normalize_correct prec emax _ _ mode_NE z 0 false) as K. cbv zeta in K. cbn [round_mode] in K.
  replace (F2R {| Fnum := z; Fexp := 0 |}) with (IZR z) in K by (unfold F2R; cbn; ring). rewrite small in K by exact S. tauto.
Qed.
Lemma represents_ltb x y a b : represents x a -> represents y b -> SFltb x y = Rltb a b.
Proof.
  intros (u & <- & U & <-) (v & <- & V & <-). change (Bltb u v = Rltb (B2R u) (B2R v)). rewrite Bltb_correct by assumption.
  unfold Rltb. destruct (Rlt_dec _ _); [now apply Rlt_bool_true|]. apply Rlt_bool_false. lra.
Qed.
Lemma represents_leb x y a b : represents x a -> represents y b -> SFleb x y = Rleb a b.
Proof.
  intros (u & <- & U & <-) (v & <- & V & <-). change (Bleb u v = Rleb (B2R u) (B2R v)). rewrite Bleb_correct by assumption.
  unfold Rleb. destruct (Rle_dec _ _); [now apply Rle_bool_true|]. apply Rle_bool_false. lra.
Qed.
Lemma represents_eqb x y a b : represents x a -> represents y b -> SFeqb x y = Reqb a b.
Proof.
  intros (u & <- & U & <-) (v & <- & V & <-). change (Beqb u v = Reqb (B2R u) (B2R v)). rewrite Beqb_correct by assumption.
  unfold Reqb. destruct (Req_EM_T _ _); [now apply Req_bool_true|]. now apply Req_bool_false.
Qed.
(** Every result is a number of the format. *)
Lemma valid_lift1 (f : spec_float -> spec_float) (g : bf -> bf) : (forall b, f (B2SF b) = B2SF (g b)) -> forall x, sf_valid x -> sf_valid (f x).
Proof. intros E x V. rewrite <- (B2SF_SF2B _ _ x V), E. apply valid_binary_B2SF. Qed.
Lemma valid_lift2 (f : spec_float -> spec_float -> spec_float) (g : bf -> bf -> bf) :
  (forall b c, f (B2SF b) (B2SF c) = B2SF (g b c)) -> forall x y, sf_valid x -> sf_valid y -> sf_valid (f x y).
Proof. intros E x y V W. rewrite <- (B2SF_SF2B _ _ x V), <- (B2SF_SF2B _ _ y W), E. apply valid_binary_B2SF. Qed.
Definition valid_add := valid_lift2 _ _ add_equiv.
Definition valid_sub := valid_lift2 _ _ sub_equiv.
Definition valid_mul := valid_lift2 _ _ mul_equiv.
Definition valid_div := valid_lift2 _ _ div_equiv.
Definition valid_sqrt := valid_lift1 _ _ sqrt_equiv.
Lemma valid_ofZ z : sf_valid (sf_ofZ prec emax z).
Proof. unfold sf_ofZ. rewrite binary_normalize_equiv. apply valid_binary_B2SF. Qed.

(** Whole numbers of at most [prec] bits are exact. *)
Lemma rnd_int z : (Z.abs z <= 2 ^ prec)%Z -> rnd (IZR z) = IZR z.
Proof.
  intros H. apply round_generic; [auto with typeclass_instances|].
  destruct (Z.eq_dec (Z.abs z) (2 ^ prec)) as [E|E].
  - assert (Fe : generic_format radix2 fexp (bpow radix2 prec)).
    { apply generic_format_bpow. unfold SpecFloat.fexp, SpecFloat.emin. unfold Prec_gt_0, Prec_lt_emax in *. lia. }
    rewrite <- IZR_Zpower in Fe by (unfold Prec_gt_0 in *; lia). cbn [radix_val radix2] in Fe.
    destruct (Z.abs_spec z) as [[P A]|[P A]].
    + replace z with (2 ^ prec)%Z by lia. exact Fe.
    + replace z with (- 2 ^ prec)%Z by lia. rewrite opp_IZR. now apply generic_format_opp.
  - apply generic_format_FLT. exists (Float radix2 z 0); cbn.
    + unfold F2R. cbn. ring.
    + lia.
    + unfold SpecFloat.emin. unfold Prec_gt_0, Prec_lt_emax in *. lia.
Qed.
Lemma bpow_emax_big : IZR (2 ^ prec) < bpow radix2 emax.
Proof.
  change 2%Z with (radix_val radix2). rewrite IZR_Zpower by (unfold Prec_gt_0 in *; lia). apply bpow_lt. exact Hmax.
Qed.
Lemma represents_int z : (Z.abs z <= 2 ^ prec)%Z -> represents (sf_ofZ prec emax z) (IZR z).
Proof.
  intros H. rewrite <- (rnd_int z H). apply represents_ofZ. rewrite (rnd_int z H), <- abs_IZR.
  apply Rle_lt_trans with (2 := bpow_emax_big). now apply IZR_le.
Qed.
(** Arithmetic on whole numbers of at most [prec] bits is exact. *)
Lemma int_fits z : (Z.abs z <= 2 ^ prec)%Z -> Rabs (rnd (IZR z)) < bpow radix2 emax.
Proof. intros H. rewrite (rnd_int z H), <- abs_IZR. apply Rle_lt_trans with (2 := bpow_emax_big). now apply IZR_le. Qed.
Lemma add_int x y a b : represents x (IZR a) -> represents y (IZR b) -> (Z.abs (a + b) <= 2 ^ prec)%Z ->
  represents (SFadd prec emax x y) (IZR (a + b)).
Proof. intros X Y H. rewrite <- (rnd_int _ H), plus_IZR. apply represents_add; try assumption. rewrite <- plus_IZR. now apply int_fits. Qed.
Lemma sub_int x y a b : represents x (IZR a) -> represents y (IZR b) -> (Z.abs (a - b) <= 2 ^ prec)%Z ->
  represents (SFsub prec emax x y) (IZR (a - b)).
Proof. intros X Y H. rewrite <- (rnd_int _ H), minus_IZR. apply represents_sub; try assumption. rewrite <- minus_IZR. now apply int_fits. Qed.
Lemma mul_int x y a b : represents x (IZR a) -> represents y (IZR b) -> (Z.abs (a * b) <= 2 ^ prec)%Z ->
  represents (SFmul prec emax x y) (IZR (a * b)).
Proof. intros X Y H. rewrite <- (rnd_int _ H), mult_IZR. apply represents_mul; try assumption. rewrite <- mult_IZR. now apply int_fits. Qed.
End float.
Global Instance prec24 : Prec_gt_0 24 := eq_refl.
Global Instance emax128 : Prec_lt_emax 24 128 := eq_refl.
Global Instance prec53 : Prec_gt_0 53 := eq_refl.
Global Instance emax1024 : Prec_lt_emax 53 1024 := eq_refl.
Arguments rnd_le {prec emax _ a b}.
Arguments rnd_exact {prec emax x r}.
Arguments represents_valid {prec emax x r}.
Arguments represents_unique {prec emax x r s}.
Arguments represents_value {prec emax x r}.
Arguments represents_bound {prec emax x r}.
Arguments represents_add {prec emax _ _ x y a b}.
Arguments represents_sub {prec emax _ _ x y a b}.
Arguments represents_mul {prec emax _ _ x y a b}.
Arguments represents_div {prec emax _ _ x y a b}.
Arguments represents_sqrt {prec emax _ _ x a}.
Arguments represents_opp {prec emax x a}.
Arguments represents_abs {prec emax x a}.
Arguments represents_ltb {prec emax x y a b}.
Arguments represents_leb {prec emax x y a b}.
Arguments represents_eqb {prec emax x y a b}.
Arguments add_total {prec emax _ _ x y a b}.
Arguments sub_total {prec emax _ _ x y a b}.
Arguments leb_infinity {prec emax x a}.
Arguments valid_represents {prec emax x}.
Arguments represents_int {prec emax _ _ z}.
Arguments rnd_int {prec emax _ _ z}.
Arguments add_int {prec emax _ _ x y a b}.
Arguments sub_int {prec emax _ _ x y a b}.
Arguments mul_int {prec emax _ _ x y a b}.
