(** Halving an image (akaze/src/image.rs) in binary32: the mean of four numbers does not leave their range, although three of the
    four operations round. *)
From Coq Require Import Reals ZArith SpecFloat Lia Lra Psatz.
From Flocq Require Import Core BinarySingleNaN.
From Coq Require Import List Arith Bool.
From Verif Require Import Num LinSpec LinFacts Outcome OutcomeFacts Gray GraySpec GrayFacts GrayReal GrayProps FloatFacts FloatUp FloatError32 FloatGraySpec FloatGray FloatBlur FloatStep.
Import ListNotations.
Open Scope R_scope.

(** ** Rounding integers times a power of two *)
Lemma rnd_small n e : (-149 <= e)%Z -> (Z.abs n < 2 ^ 24)%Z -> rnd32 (IZR n * bpow radix2 e) = IZR n * bpow radix2 e.
Proof.
  intros He Hn. apply round_generic; [auto with typeclass_instances|]. apply generic_format_FLT. exists (Float radix2 n e); [reflexivity|exact Hn|exact He].
Qed.
Lemma rnd_large j n e : (0 <= j)%Z -> (-149 <= e)%Z -> (2 ^ (23 + j) <= n < 2 ^ (24 + j))%Z -> rnd32 (IZR n * bpow radix2 e) = IZR (ZnearestE (IZR n * bpow radix2 (- j))) * bpow radix2 (e + j).
Proof.
  intros Hj He Hn. assert (0 < 2 ^ (23 + j))%Z by (apply Z.pow_pos_nonneg; lia). assert (N0 : IZR n <> 0) by (apply IZR_neq; lia).
  assert (M : mag radix2 (IZR n) = (24 + j)%Z :> Z).
  { apply mag_unique. rewrite Rabs_pos_eq by (apply IZR_le; lia). replace (24 + j - 1)%Z with (23 + j)%Z by ring. rewrite <- !IZR_Zpower by lia. split; [apply IZR_le|apply IZR_lt]; cbn [radix_val radix2]; lia. }
  assert (C : cexp radix2 (SpecFloat.fexp 24 128) (IZR n * bpow radix2 e) = (e + j)%Z).
  { unfold cexp. rewrite mag_mult_bpow, M by exact N0. unfold SpecFloat.fexp. change (SpecFloat.emin 24 128) with (-149)%Z. lia. }
  unfold rnd, round, F2R, scaled_mantissa. rewrite C. cbn [Fnum Fexp]. f_equal. f_equal. f_equal. rewrite Rmult_assoc, <- bpow_plus. do 2 f_equal. ring.
Qed.
Lemma nearest_near x (z : Z) : Rabs (x - IZR z) < / 2 -> ZnearestE x = z.
Proof. apply Znearest_imp. Qed.
Lemma nearest_tie (z : Z) s : Z.even z = true -> s = / 2 \/ s = - / 2 -> ZnearestE (IZR z + s) = z.
Proof.
  intros E [-> | ->]; unfold Znearest.
  - assert (F : Zfloor (IZR z + / 2) = z) by (apply Zfloor_imp; rewrite plus_IZR; lra). rewrite F. rewrite Rcompare_Eq by lra. now rewrite E.
  - assert (F : Zfloor (IZR z + - / 2) = (z - 1)%Z) by (apply Zfloor_imp; rewrite plus_IZR, minus_IZR; lra). rewrite F, minus_IZR. rewrite Rcompare_Eq by lra.
    rewrite Z.even_sub, E. cbn [Z.even Bool.eqb negb]. assert (C : Zceil (IZR z + - / 2) = z) by (apply Zceil_imp; rewrite minus_IZR; lra). exact C.
Qed.
Lemma triple_nonneg m e : (-149 <= e)%Z -> (0 <= m < 2 ^ 24)%Z -> rnd32 (rnd32 (3 * (IZR m * bpow radix2 e)) + IZR m * bpow radix2 e) = 4 * (IZR m * bpow radix2 e).
Proof.
  intros He Hm. assert (F4 : rnd32 (4 * (IZR m * bpow radix2 e)) = 4 * (IZR m * bpow radix2 e)).
  { replace (4 * (IZR m * bpow radix2 e)) with (IZR m * bpow radix2 (e + 2)) by (rewrite bpow_plus; change (bpow radix2 2) with 4; ring). apply rnd_small; lia. }
  assert (E3 : 3 * (IZR m * bpow radix2 e) = IZR (3 * m) * bpow radix2 e) by (rewrite mult_IZR; ring). rewrite E3.
  assert (Done : rnd32 (IZR (3 * m) * bpow radix2 e) = IZR (3 * m) * bpow radix2 e -> rnd32 (rnd32 (IZR (3 * m) * bpow radix2 e) + IZR m * bpow radix2 e) = 4 * (IZR m * bpow radix2 e)).
  { intros ->. rewrite <- E3. replace (3 * (IZR m * bpow radix2 e) + IZR m * bpow radix2 e) with (4 * (IZR m * bpow radix2 e)) by ring. exact F4. }
  destruct (Z_lt_le_dec (3 * m) (2 ^ 24)) as [A|A]; [apply Done, rnd_small; lia|].
  assert (B1 : bpow radix2 (- (1)) = / 2) by reflexivity. assert (B2 : bpow radix2 (- (2)) = / 4) by reflexivity.
  assert (P1 : bpow radix2 (e + 1) = 2 * bpow radix2 e) by (rewrite bpow_plus; change (bpow radix2 1) with 2; ring). assert (P2 : bpow radix2 (e + 2) = 4 * bpow radix2 e) by (rewrite bpow_plus; change (bpow radix2 2) with 4; ring).
  (* what the last rounding does *)
  assert (Last : forall s, (-2 <= s <= 2)%Z -> (4 * m + s < 2 ^ 25)%Z /\ (2 ^ 24 <= 4 * m + s)%Z /\ (-1 <= s <= 1)%Z /\ (4 * m < 2 ^ 25)%Z \/ (2 ^ 25 <= 4 * m + s < 2 ^ 26)%Z /\ ((-1 <= s <= 1)%Z \/ Z.even m = true) -> rnd32 (IZR (4 * m + s) * bpow radix2 e) = 4 * (IZR m * bpow radix2 e)).
  { intros s Hs [(Q1 & Q2 & Q3 & Q4)|(Q1 & Q2)].
    - rewrite (rnd_large 1) by lia. rewrite B1, P1. rewrite plus_IZR, mult_IZR.
      assert (ZnearestE ((4 * IZR m + IZR s) * / 2) = (2 * m)%Z) as ->; [|rewrite mult_IZR; ring].
      destruct (Z.eq_dec s 0) as [->|S0]; [apply nearest_near; rewrite mult_IZR; replace ((4 * IZR m + 0) * / 2 - 2 * IZR m) with 0 by field; rewrite Rabs_R0; lra|].
      replace ((4 * IZR m + IZR s) * / 2) with (IZR (2 * m) + IZR s / 2) by (rewrite mult_IZR; field). apply nearest_tie; [apply Z.even_mul|]. assert (s = 1 \/ s = -1)%Z as [->| ->] by lia; [left|right]; lra.
    - rewrite (rnd_large 2) by lia. rewrite B2, P2. rewrite plus_IZR, mult_IZR.
      assert (ZnearestE ((4 * IZR m + IZR s) * / 4) = m) as ->; [|ring]. replace ((4 * IZR m + IZR s) * / 4) with (IZR m + IZR s / 4) by field.
      destruct (Z_le_gt_dec (Z.abs s) 1) as [S1|S1].
      + apply nearest_near. replace (IZR m + IZR s / 4 - IZR m) with (IZR s / 4) by ring. assert (S2 : IZR s <= 1) by (apply IZR_le; lia). assert (S3 : -1 <= IZR s) by (apply IZR_le; lia). apply Rabs_lt. lra.
      + destruct Q2 as [Q2|Q2]; [lia|]. apply nearest_tie; [exact Q2|]. assert (s = 2 \/ s = -2)%Z as [->| ->] by lia; [left|right]; lra. }
  destruct (Z_lt_le_dec (3 * m) (2 ^ 25)) as [A'|A'].
  - rewrite (rnd_large 1) by lia. rewrite B1, P1. set (q := ZnearestE (IZR (3 * m) * / 2)). assert (Q : Rabs (IZR (3 * m) * / 2 - IZR q) <= / 2) by apply Znearest_half.
    assert (S1 : (-1 <= 2 * q - 3 * m <= 1)%Z). { apply Rabs_le_inv in Q. split; apply le_IZR; rewrite minus_IZR, mult_IZR; lra. }
    replace (IZR q * (2 * bpow radix2 e) + IZR m * bpow radix2 e) with (IZR (4 * m + (2 * q - 3 * m)) * bpow radix2 e) by (rewrite plus_IZR, minus_IZR, !mult_IZR; ring).
    apply Last; [lia|]. destruct (Z_lt_le_dec (4 * m) (2 ^ 25)) as [D|D]; [left; lia|right]. assert (m <> 2 ^ 23 \/ 2 * q - 3 * m = 0)%Z by lia. split; [lia|left; lia].
  - rewrite (rnd_large 2) by lia. rewrite B2, P2. set (q := ZnearestE (IZR (3 * m) * / 4)). assert (Q : Rabs (IZR (3 * m) * / 4 - IZR q) <= / 2) by apply Znearest_half.
    assert (S1 : (-2 <= 4 * q - 3 * m <= 2)%Z). { apply Rabs_le_inv in Q. split; apply le_IZR; rewrite minus_IZR, mult_IZR; lra. }
    replace (IZR q * (4 * bpow radix2 e) + IZR m * bpow radix2 e) with (IZR (4 * m + (4 * q - 3 * m)) * bpow radix2 e) by (rewrite plus_IZR, minus_IZR, !mult_IZR; ring).
    assert (Ev : (Z.abs (4 * q - 3 * m) = 2)%Z -> Z.even m = true). { intros V. apply Z.even_spec. exists (2 * q - m - (4 * q - 3 * m) / 2)%Z. assert (4 * q - 3 * m = 2 \/ 4 * q - 3 * m = -2)%Z as [V'|V'] by lia; rewrite V'; [change (2 / 2)%Z with 1%Z|change (-2 / 2)%Z with (-1)%Z]; lia. }
    apply Last; [lia|]. right. split; [lia|]. destruct (Z.eq_dec (Z.abs (4 * q - 3 * m)) 2) as [V|V]; [right; exact (Ev V)|left; lia].
Qed.
Lemma rnd_opp r : rnd32 (- r) = - rnd32 r.
Proof. apply round_NE_opp. Qed.
Lemma represents_form x r : rep32 x r -> exists m e, r = IZR m * bpow radix2 e /\ (-149 <= e)%Z /\ (Z.abs m < 2 ^ 24)%Z.
Proof.
  intros (b & _ & _ & <-). pose proof (generic_format_B2R 24 128 b) as G. change (FLT_exp (3 - 128 - 24) 24) with (FLT_exp (-149) 24) in G. apply FLT_format_generic in G; [|reflexivity]. destruct G as [[n e] Hf Hn He]. exists n, e. split; [exact Hf|]. split; [exact He|exact Hn].
Qed.
Lemma triple x h : rep32 x h -> rnd32 (rnd32 (3 * h) + h) = 4 * h.
Proof.
  intros H. destruct (represents_form x h H) as (m & e & -> & He & Hm). destruct (Z_le_gt_dec 0 m) as [P|P]; [apply triple_nonneg; lia|].
  pose proof (triple_nonneg (- m) e He ltac:(lia)) as T. rewrite opp_IZR in T.
  replace (3 * (- IZR m * bpow radix2 e)) with (- (3 * (IZR m * bpow radix2 e))) in T by ring. rewrite rnd_opp in T.
  replace (- rnd32 (3 * (IZR m * bpow radix2 e)) + - IZR m * bpow radix2 e) with (- (rnd32 (3 * (IZR m * bpow radix2 e)) + IZR m * bpow radix2 e)) in T by ring. rewrite rnd_opp in T. lra.
Qed.
Lemma twice x h : rep32 x h -> rnd32 (h + h) = 2 * h.
Proof.
  intros H. destruct (represents_form x h H) as (m & e & -> & He & Hm). replace (IZR m * bpow radix2 e + IZR m * bpow radix2 e) with (IZR m * bpow radix2 (e + 1)) by (rewrite bpow_plus; change (bpow radix2 1) with 2; ring). rewrite rnd_small by lia. rewrite bpow_plus. change (bpow radix2 1) with 2. ring.
Qed.
Lemma quarter_single : rep32 (@lit F32 1 4) (1 / 4).
Proof.
  unfold lit. replace (1 / 4) with (rnd32 (1 / 4)). - apply represents_div; [apply (int32 1); cbv; discriminate|apply (int32 4); cbv; discriminate|lra|]. apply (fits_pow 0); [lia|]. change (bpow radix2 0) with 1. apply Rabs_le. lra.
  - replace (1 / 4) with (bpow radix2 (-2)) by (bn (-2)%Z; lra). apply (rnd_bpow 24 128 ltac:(reflexivity)). change (SpecFloat.emin 24 128) with (-149)%Z. lia.
Qed.
(** The largest and the smallest of four represented numbers are represented. *)
Lemma of_four (Q : R -> Prop) a b c d : Q a -> Q b -> Q c -> Q d -> exists lo hi, Q lo /\ Q hi /\ (lo <= a <= hi) /\ (lo <= b <= hi) /\ (lo <= c <= hi) /\ (lo <= d <= hi) /\
  (forall l h, l <= a <= h -> l <= b <= h -> l <= c <= h -> l <= d <= h -> l <= lo /\ hi <= h).
Proof.
  intros Ha Hb Hc Hd. exists (Rmin (Rmin a b) (Rmin c d)), (Rmax (Rmax a b) (Rmax c d)).
  assert (Q1 : forall u v, Q u -> Q v -> Q (Rmin u v)) by (intros u v Hu Hv; unfold Rmin; destruct (Rle_dec u v); assumption).
  assert (Q2 : forall u v, Q u -> Q v -> Q (Rmax u v)) by (intros u v Hu Hv; unfold Rmax; destruct (Rle_dec u v); assumption).
  split; [auto|]. split; [auto|]. repeat match goal with |- context [Rmin ?u ?v] => let P := fresh in pose proof (Rmin_l u v) as P; let P' := fresh in pose proof (Rmin_r u v) as P'; let m := fresh "m" in assert (exists m, m = Rmin u v) as [m Em] by eauto; assert (m = u \/ m = v) by (rewrite Em; unfold Rmin; destruct (Rle_dec u v); auto); rewrite <- Em in *; clear Em end.
  repeat match goal with |- context [Rmax ?u ?v] => let P := fresh in pose proof (Rmax_l u v) as P; let P' := fresh in pose proof (Rmax_r u v) as P'; let m := fresh "m" in assert (exists m, m = Rmax u v) as [m Em] by eauto; assert (m = u \/ m = v) by (rewrite Em; unfold Rmax; destruct (Rle_dec u v); auto); rewrite <- Em in *; clear Em end.
  do 4 (split; [lra|]). intros l h. intuition lra.
Qed.
Definition is_single (r : R) : Prop := exists x : F32, rep32 x r.
Section four.
Variables (x y z v : F32) (a b c d A : R).
Hypotheses (Ra : rep32 x a) (Rb : rep32 y b) (Rc : rep32 z c) (Rd : rep32 v d) (HA : A <= bpow radix2 120) (Ba : Rabs a <= A) (Bb : Rabs b <= A) (Bc : Rabs c <= A) (Bd : Rabs d <= A).
Lemma four_mean : exists q, rep32 ((x + y + z + v) * lit 1 4)%num q /\ (forall lo hi, lo <= a <= hi -> lo <= b <= hi -> lo <= c <= hi -> lo <= d <= hi -> lo <= q <= hi) /\
  Rabs (q - (a + b + c + d) / 4) <= 5 * u32 * A + 5 * eta32.
Proof.
  destruct tiny as [Hu He]. assert (A0 : 0 <= A) by (pose proof (Rabs_pos a); lra).
  assert (uA : 0 <= u32 * A <= / 1000 * A) by nra. assert (uuA : 0 <= u32 * (u32 * A) <= / 1000 * A) by nra. assert (uuuA : 0 <= u32 * (u32 * (u32 * A)) <= / 1000 * A) by nra. assert (ue : 0 <= u32 * eta32 <= / 1000 * eta32) by nra.
  assert (E : forall f r, rep32 f r -> Rabs r <= A -> near r r A 1 0) by (intros f r _ H; eapply near_larger; [apply near_self|exact H]).
  assert (B1 : 1 <= bpow radix2 120) by (change 1 with (bpow radix2 0); apply bpow_le; lia). assert (B2 : bpow radix2 127 = 128 * bpow radix2 120) by (change 127%Z with (7 + 120)%Z; rewrite bpow_plus; reflexivity).
  destruct (near_add x y a a A b b A 1 0 0 Ra Rb (E x a Ra Ba) (E y b Rb Bb)) as (r1 & R1 & N1 & _); [rewrite B2; lra|].
  assert (G : forall f r, rep32 f r -> Rabs r <= A -> forall k, near r r A ((1 + u32) ^ k) 0) by (intros f r Rf H k; apply (near_weaken _ _ _ 1 0); [now apply (E f)|apply grown_ge|lra]).
  apply (near_weaken _ _ _ _ _ ((1 + u32) ^ 1) (2 * eta32)) in N1; [|cbn [pow]; lra|lra].
  destruct (near_add _ z _ _ _ c c A ((1 + u32) ^ 1) (2 * eta32) 0 R1 Rc N1 (G z c Rc Bc 1%nat)) as (r2 & R2 & N2 & _); [rewrite B2; cbn [pow]; lra|].
  apply (near_weaken _ _ _ _ _ ((1 + u32) ^ 2) (4 * eta32)) in N2; [|cbn [pow]; right; ring|lra].
  destruct (near_add _ v _ _ _ d d A ((1 + u32) ^ 2) (4 * eta32) 0 R2 Rd N2 (G v d Rd Bd 2%nat)) as (r3 & R3 & N3 & _); [rewrite B2; cbn [pow]; lra|].
  apply (near_weaken _ _ _ _ _ ((1 + u32) ^ 3) (6 * eta32)) in N3; [|cbn [pow]; right; ring|lra].
  assert (Nq : near (1 / 4) (1 / 4) (1 / 4) 1 0) by (eapply near_larger; [apply near_self|rewrite Rabs_pos_eq; lra]).
  destruct (near_times _ _ _ _ _ _ _ _ _ _ _ _ R3 quarter_single N3 Nq) as (q & Rq & N4); [rewrite B2; cbn [pow]; lra|]. exists q. split; [exact Rq|]. split.
  - intros lo hi H1 H2 H3 H4. destruct (of_four is_single a b c d (ex_intro _ x Ra) (ex_intro _ y Rb) (ex_intro _ z Rc) (ex_intro _ v Rd)) as (l & m & [fl Rl] & [fm Rm] & L1 & L2 & L3 & L4 & Best). destruct (Best lo hi H1 H2 H3 H4) as [Lo Hi]. clear Best H1 H2 H3 H4.
    assert (V1 : r1 = rnd32 (a + b)). { apply (represents_unique R1). apply represents_add; [exact Ra|exact Rb|]. apply (fits_pow 127); [lia|]. eapply Rle_trans; [apply Rabs_triang|]. rewrite B2. lra. }
    assert (S1 : Rabs r1 <= 3 * A + 1) by (eapply Rle_trans; [apply (near_size _ _ _ _ _ N1)|cbn [pow]; lra]). assert (S2 : Rabs r2 <= 4 * A + 1) by (eapply Rle_trans; [apply (near_size _ _ _ _ _ N2)|cbn [pow]; lra]). assert (S3 : Rabs r3 <= 5 * A + 1) by (eapply Rle_trans; [apply (near_size _ _ _ _ _ N3)|cbn [pow]; lra]).
    assert (V2 : r2 = rnd32 (r1 + c)). { apply (represents_unique R2). apply represents_add; [exact R1|exact Rc|]. apply (fits_pow 127); [lia|]. eapply Rle_trans; [apply Rabs_triang|]. rewrite B2. lra. }
    assert (V3 : r3 = rnd32 (r2 + d)). { apply (represents_unique R3). apply represents_add; [exact R2|exact Rd|]. apply (fits_pow 127); [lia|]. eapply Rle_trans; [apply Rabs_triang|]. rewrite B2. lra. }
    assert (V4 : q = rnd32 (r3 * (1 / 4))). { apply (represents_unique Rq). apply represents_mul; [exact R3|exact quarter_single|]. apply (fits_pow 127); [lia|]. rewrite Rabs_mult, (Rabs_pos_eq (1 / 4)) by lra. rewrite B2. lra. }
    assert (W1 : 2 * l <= r1 <= 2 * m). { rewrite V1, <- (twice fl l Rl), <- (twice fm m Rm). split; apply rnd_le; lra. }
    assert (W2 : rnd32 (3 * l) <= r2 <= rnd32 (3 * m)) by (rewrite V2; split; apply rnd_le; lra).
    assert (W3 : 4 * l <= r3 <= 4 * m). { rewrite V3, <- (triple fl l Rl), <- (triple fm m Rm). split; apply rnd_le; lra. }
    assert (W4 : l <= q <= m). { rewrite V4. split; [rewrite <- (rnd_exact Rl)|rewrite <- (rnd_exact Rm)]; apply rnd_le; lra. } lra.
  - destruct N4 as (_ & N4 & _). replace ((a + b + c + d) / 4) with ((a + b + c + d) * (1 / 4)) by field. eapply Rle_trans; [exact N4|]. apply Rplus_le_compat; [|nra].
    replace ((A + A + A + A) * (1 / 4)) with A by field. apply Rmult_le_compat_r; [exact A0|]. cbn [pow]. assert (U2 : u32 * u32 <= / 1000000 * u32) by (apply Rmult_le_compat_r; lra). set (s := u32 * u32) in *. assert (S0 : 0 <= s) by (unfold s; nra). assert (s * u32 <= s) by nra. assert (s * s <= s) by nra.
    replace ((1 + u32) * ((1 + u32) * ((1 + u32) * 1)) * 1 * (1 + u32) - 1) with (4 * u32 + 6 * s + 4 * (s * u32) + s * s) by (unfold s; ring). lra.
Qed.
Lemma two_mean : exists q, rep32 ((x + y) * lit 1 2)%num q /\ (forall lo hi, lo <= a <= hi -> lo <= b <= hi -> lo <= q <= hi) /\
  Rabs (q - (a + b) / 2) <= 5 * u32 * A + 5 * eta32.
Proof.
  destruct tiny as [Hu He]. assert (A0 : 0 <= A) by (pose proof (Rabs_pos a); lra).
  assert (uA : 0 <= u32 * A <= / 1000 * A) by nra. assert (uuA : 0 <= u32 * (u32 * A) <= / 1000 * A) by nra. assert (uuuA : 0 <= u32 * (u32 * (u32 * A)) <= / 1000 * A) by nra. assert (ue : 0 <= u32 * eta32 <= / 1000 * eta32) by nra.
  assert (E : forall f r, rep32 f r -> Rabs r <= A -> near r r A 1 0) by (intros f r _ H; eapply near_larger; [apply near_self|exact H]).
  assert (B1 : 1 <= bpow radix2 120) by (change 1 with (bpow radix2 0); apply bpow_le; lia). assert (B2 : bpow radix2 127 = 128 * bpow radix2 120) by (change 127%Z with (7 + 120)%Z; rewrite bpow_plus; reflexivity).
  destruct (near_add x y a a A b b A 1 0 0 Ra Rb (E x a Ra Ba) (E y b Rb Bb)) as (r1 & R1 & N1 & _); [rewrite B2; lra|].
  apply (near_weaken _ _ _ _ _ ((1 + u32) ^ 1) (2 * eta32)) in N1; [|cbn [pow]; lra|lra].
  assert (Nq : near (1 / 2) (1 / 2) (1 / 2) 1 0) by (eapply near_larger; [apply near_self|rewrite Rabs_pos_eq; lra]).
  destruct (near_times _ _ _ _ _ _ _ _ _ _ _ _ R1 half_single N1 Nq) as (q & Rq & N4); [rewrite B2; cbn [pow]; lra|]. exists q. split; [exact Rq|]. split.
  - intros lo hi H1 H2. destruct (of_four is_single a b a b (ex_intro _ x Ra) (ex_intro _ y Rb) (ex_intro _ x Ra) (ex_intro _ y Rb)) as (l & m & [fl Rl] & [fm Rm] & L1 & L2 & _ & _ & Best). destruct (Best lo hi H1 H2 H1 H2) as [Lo Hi]. clear Best H1 H2.
    assert (V1 : r1 = rnd32 (a + b)). { apply (represents_unique R1). apply represents_add; [exact Ra|exact Rb|]. apply (fits_pow 127); [lia|]. eapply Rle_trans; [apply Rabs_triang|]. rewrite B2. lra. }
    assert (S1 : Rabs r1 <= 3 * A + 1) by (eapply Rle_trans; [apply (near_size _ _ _ _ _ N1)|cbn [pow]; lra]).
    assert (V4 : q = rnd32 (r1 * (1 / 2))). { apply (represents_unique Rq). apply represents_mul; [exact R1|exact half_single|]. apply (fits_pow 127); [lia|]. rewrite Rabs_mult, (Rabs_pos_eq (1 / 2)) by lra. rewrite B2. lra. }
    assert (W1 : 2 * l <= r1 <= 2 * m). { rewrite V1, <- (twice fl l Rl), <- (twice fm m Rm). split; apply rnd_le; lra. }
    assert (W4 : l <= q <= m). { rewrite V4. split; [rewrite <- (rnd_exact Rl)|rewrite <- (rnd_exact Rm)]; apply rnd_le; lra. } lra.
  - destruct N4 as (_ & N4 & _). replace ((a + b) / 2) with ((a + b) * (1 / 2)) by field. eapply Rle_trans; [exact N4|]. apply Rplus_le_compat; [|nra].
    replace ((A + A) * (1 / 2)) with A by field. apply Rmult_le_compat_r; [exact A0|]. cbn [pow]. nra.
Qed.
End four.

(** ** The image *)
Section image.
Variables (w h : nat) (g : gray F32) (a : R).
Hypotheses (Hw : (2 <= w)%nat) (Hh : (2 <= h)%nat) (G : finite_image w h a g) (Ha : a <= 2 ^ 120).
Lemma half_float : exists out, half_size g = Ok out /\ sized (w / 2) (h / 2) out /\ forall x y, (x < w / 2)%nat -> (y < h / 2)%nat -> finite_single (pixel out x y) /\
  Rabs (value (pixel out x y) - half_value w h (pixel (real_image g)) x y) <= 5 / 2 ^ 24 * a + 5 / 2 ^ 150 /\
  forall lo hi, finite_between w h lo hi g -> lo <= value (pixel out x y) <= hi.
Proof.
  destruct G as [(W & H & D) P].
  assert (Ha' : a <= bpow radix2 120) by (eapply Rle_trans; [exact Ha|]; right; rewrite <- IZR_Zpower by lia; apply pow_IZR).
  assert (EE : 5 / 2 ^ 24 * a + 5 / 2 ^ 150 = 5 * u32 * a + 5 * eta32).
  { unfold Rdiv at 2. replace (/ 2 ^ 150) with eta32 by (unfold eta32; change (-150)%Z with (- Z.of_nat 150)%Z; rewrite bpow_opp; f_equal; rewrite <- IZR_Zpower by lia; symmetry; apply pow_IZR). unfold u32. lra. }
  rewrite EE. unfold half_size. rewrite W, H, !half_twice.
  assert (1 <= w / 2)%nat by (apply (Nat.div_le_mono 2 w 2); lia). assert (1 <= h / 2)%nat by (apply (Nat.div_le_mono 2 h 2); lia).
  replace (h / 2 =? 0)%nat with false by (symmetry; apply Nat.eqb_neq; lia). replace (w / 2 =? 0)%nat with false by (symmetry; apply Nat.eqb_neq; lia).
  assert (R_ : forall x y, (x < w)%nat -> (y < h)%nat -> rep32 (pixel g x y) (value (pixel g x y)) /\ Rabs (value (pixel g x y)) <= a) by (intros x y Hx Hy; destruct (P x y Hx Hy) as [[V F] B]; split; [now apply valid_represents|exact B]).
  assert (Fin : forall (o : F32) q v (Bd : R -> R -> Prop), rep32 o q -> Rabs (q - v) <= 5 * u32 * a + 5 * eta32 -> (forall lo hi, Bd lo hi -> lo <= q <= hi) -> finite_single o /\ Rabs (value o - v) <= 5 * u32 * a + 5 * eta32 /\ forall lo hi, Bd lo hi -> lo <= value o <= hi).
  { intros o q v Bd Ro Eo Bo. destruct (represents_valid Ro) as (V & F & _). rewrite (represents_value Ro). split; [split; [exact V|exact F]|]. split; [exact Eo|exact Bo]. }
  assert (PA : forall x y, (x < w)%nat -> (y < h)%nat -> forall lo hi, finite_between w h lo hi g -> lo <= value (pixel g x y) <= hi) by (intros x y Hx Hy lo hi [_ Q]; now apply Q).
  assert (Four : forall x y, (x < w / 2)%nat -> (y < h / 2)%nat -> exists q, rep32 ((pixel g (2 * x) (2 * y) + pixel g (2 * x + 1) (2 * y) + pixel g (2 * x) (2 * y + 1) + pixel g (2 * x + 1) (2 * y + 1)) * lit 1 4)%num q /\
    Rabs (q - (pixel (real_image g) (2 * x) (2 * y) + pixel (real_image g) (2 * x + 1) (2 * y) + pixel (real_image g) (2 * x) (2 * y + 1) + pixel (real_image g) (2 * x + 1) (2 * y + 1)) / 4) <= 5 * u32 * a + 5 * eta32 /\
    forall lo hi, finite_between w h lo hi g -> lo <= q <= hi).
  { intros x y Hx Hy. pose proof (half_index w x Hx). pose proof (half_index h y Hy). rewrite !real_pixel.
    destruct (R_ (2 * x)%nat (2 * y)%nat ltac:(lia) ltac:(lia)) as [Ra Ba]. destruct (R_ (2 * x + 1)%nat (2 * y)%nat ltac:(lia) ltac:(lia)) as [Rb Bb]. destruct (R_ (2 * x)%nat (2 * y + 1)%nat ltac:(lia) ltac:(lia)) as [Rc Bc]. destruct (R_ (2 * x + 1)%nat (2 * y + 1)%nat ltac:(lia) ltac:(lia)) as [Rd Bd].
    destruct (four_mean _ _ _ _ _ _ _ _ a Ra Rb Rc Rd Ha' Ba Bb Bc Bd) as (q & Rq & Wq & Eq). exists q. split; [exact Rq|]. split; [exact Eq|]. intros lo hi Q. apply Wq; (eapply PA; [lia|lia|exact Q]). }
  assert (Two : forall x y x' y', (x < w)%nat -> (y < h)%nat -> (x' < w)%nat -> (y' < h)%nat -> exists q, rep32 ((pixel g x y + pixel g x' y') * lit 1 2)%num q /\
    Rabs (q - (pixel (real_image g) x y + pixel (real_image g) x' y') / 2) <= 5 * u32 * a + 5 * eta32 /\ forall lo hi, finite_between w h lo hi g -> lo <= q <= hi).
  { intros x y x' y' Q1 Q2 Q3 Q4. rewrite !real_pixel. destruct (R_ x y Q1 Q2) as [Ra Ba]. destruct (R_ x' y' Q3 Q4) as [Rb Bb].
    destruct (two_mean _ _ _ _ a Ra Rb Ha' Ba Bb) as (q & Rq & Wq & Eq). exists q. split; [exact Rq|]. split; [exact Eq|]. intros lo hi Q. apply Wq; (eapply PA; [lia|lia|exact Q]). }
  assert (One : exists q, rep32 (pixel g (w - 1) (h - 1)) q /\ Rabs (q - pixel (real_image g) (w - 1) (h - 1)) <= 5 * u32 * a + 5 * eta32 /\ forall lo hi, finite_between w h lo hi g -> lo <= q <= hi).
  { destruct (R_ (w - 1)%nat (h - 1)%nat ltac:(lia) ltac:(lia)) as [Ra Ba]. exists (value (pixel g (w - 1) (h - 1))). split; [exact Ra|]. rewrite real_pixel. split; [|intros lo hi Q; apply (PA (w - 1)%nat (h - 1)%nat ltac:(lia) ltac:(lia) lo hi Q)].
    rewrite Rminus_diag_eq, Rabs_R0 by reflexivity. destruct tiny. pose proof (Rabs_pos (value (pixel g (w - 1) (h - 1)))). assert (0 <= u32 * a) by (apply Rmult_le_pos; lra). lra. }
  destruct (Nat.odd w) eqn:OW, (Nat.odd h) eqn:OH; cbn [bind andb]; (eexists; split; [reflexivity|]); (split; [apply of_fn_sized|]); intros x y Hx Hy;
    pose proof (half_index w x Hx); pose proof (half_index h y Hy);
    rewrite !pixel_of_fn by assumption; unfold half_value; rewrite OW, OH; cbn [andb];
    repeat match goal with |- context [(x =? ?k)%nat] => destruct (x =? k)%nat | |- context [(y =? ?k)%nat] => destruct (y =? k)%nat end; cbn [andb].
  all: match goal with
    | |- finite_single (pixel g (w - 1) (h - 1)) /\ _ => destruct One as (q & Rq & Eq & Wq); exact (Fin _ _ _ (fun lo hi => finite_between w h lo hi g) Rq Eq Wq)
    | |- finite_single ((pixel g ?p ?q + pixel g ?r ?s) * lit 1 2)%num /\ _ => destruct (Two p q r s ltac:(lia) ltac:(lia) ltac:(lia) ltac:(lia)) as (o & Rq & Eq & Wq); exact (Fin _ _ _ (fun lo hi => finite_between w h lo hi g) Rq Eq Wq)
    | |- _ => destruct (Four x y Hx Hy) as (o & Rq & Eq & Wq); exact (Fin _ _ _ (fun lo hi => finite_between w h lo hi g) Rq Eq Wq)
    end.
Qed.
End image.
Lemma half_float_range w h (g : gray F32) a lo hi : (2 <= w)%nat -> (2 <= h)%nat -> finite_image w h a g -> a <= 2 ^ 120 -> finite_between w h lo hi g ->
  exists out, half_size g = Ok out /\ finite_between (w / 2) (h / 2) lo hi out.
Proof.
  intros Hw Hh G Ha B. destruct (half_float w h g a Hw Hh G Ha) as (out & E & So & P). exists out. split; [exact E|]. split; [exact So|]. intros x y Hx Hy. destruct (P x y Hx Hy) as (F & _ & Q). split; [exact F|]. now apply Q.
Qed.
Lemma half_float_error w h (g : gray F32) a : (2 <= w)%nat -> (2 <= h)%nat -> finite_image w h a g -> a <= 2 ^ 120 ->
  exists out, half_size g = Ok out /\ sized (w / 2) (h / 2) out /\ forall x y, (x < w / 2)%nat -> (y < h / 2)%nat -> finite_single (pixel out x y) /\
  Rabs (value (pixel out x y) - half_value w h (pixel (real_image g)) x y) <= 5 / 2 ^ 24 * a + 5 / 2 ^ 150.
Proof.
  intros Hw Hh G Ha. destruct (half_float w h g a Hw Hh G Ha) as (out & E & So & P). exists out. split; [exact E|]. split; [exact So|]. intros x y Hx Hy. destruct (P x y Hx Hy) as (F & Q & _). now split.
Qed.
(** An image with an odd side to which this applies. *)
Lemma half_float_case : exists g : gray F32, finite_image 3 2 6 g /\ finite_between 3 2 1 6 g /\ pixel g 0 0 <> pixel g 2 1.
Proof.
  exists (of_rows (N := F32) [[ofZ 1; ofZ 2; ofZ 3]; [ofZ 4; ofZ 5; ofZ 6]]).
  assert (Q : forall x y, (x < 3)%nat -> (y < 2)%nat -> exists z, (1 <= z <= 6)%Z /\ pixel (of_rows (N := F32) [[ofZ 1; ofZ 2; ofZ 3]; [ofZ 4; ofZ 5; ofZ 6]]) x y = ofZ z).
  { intros x y Hx Hy. destruct x as [|[|[|x]]], y as [|[|y]]; try lia; eexists; (split; [|reflexivity]); lia. }
  assert (B : finite_between 3 2 1 6 (of_rows (N := F32) [[ofZ 1; ofZ 2; ofZ 3]; [ofZ 4; ofZ 5; ofZ 6]])).
  { split; [repeat split|]. intros x y Hx Hy. destruct (Q x y Hx Hy) as (z & Hz & ->). destruct (represents_valid (int32 z ltac:(lia))) as (V & F & _). split; [split; assumption|]. rewrite (represents_value (int32 z ltac:(lia))). split; apply IZR_le; lia. }
  split; [|split; [exact B|vm_compute; intros H; discriminate H]]. split; [apply B|]. intros x y Hx Hy. destruct (proj2 B x y Hx Hy) as [F R_]. split; [exact F|]. rewrite Rabs_pos_eq; lra.
Qed.
