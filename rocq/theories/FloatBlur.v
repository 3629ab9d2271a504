(** Gaussian blur in binary32. *)
From Coq Require Import Reals ZArith SpecFloat Lia Lra Psatz.
From Flocq Require Import Core BinarySingleNaN.
From Coq Require Import List Arith Bool.
From Verif Require Import Num LinSpec Outcome OutcomeFacts Gray GraySpec GrayFacts GrayReal FloatFacts FloatUp FloatError32 FloatGraySpec FloatGray.
Import ListNotations.
Open Scope R_scope.

Lemma rnd_in n m r : (-149 <= n)%Z -> (-149 <= m)%Z -> bpow radix2 n <= r <= bpow radix2 m -> bpow radix2 n <= rnd32 r <= bpow radix2 m.
Proof.
  intros Hn Hm [H1 H2]. rewrite <- (rnd_bpow 24 128 ltac:(reflexivity) n) by (change (SpecFloat.emin 24 128) with (-149)%Z; lia). rewrite <- (rnd_bpow 24 128 ltac:(reflexivity) m) at 1 by (change (SpecFloat.emin 24 128) with (-149)%Z; lia).
  split; apply rnd_le; assumption.
Qed.
Lemma rnd_small_int a b r : (Z.abs a <= 2 ^ 24)%Z -> (Z.abs b <= 2 ^ 24)%Z -> IZR a <= r <= IZR b -> IZR a <= rnd32 r <= IZR b.
Proof. intros Ha Hb [H1 H2]. rewrite <- (rnd_int (prec := 24) (emax := 128) (z := a)) by exact Ha. rewrite <- (rnd_int (prec := 24) (emax := 128) (z := b)) at 1 by exact Hb. split; apply rnd_le; assumption. Qed.
Lemma fits_pow n r : (-149 <= n < 128)%Z -> Rabs r <= bpow radix2 n -> Rabs (rnd32 r) < bpow radix2 128.
Proof. intros Hn H. exact (proj2 (rnd_fits n r Hn H)). Qed.
Ltac bp k := let v := eval vm_compute in (Z.pow 2 k) in change (bpow radix2 k) with (IZR v) in *.
Ltac bn k := let v := eval vm_compute in (Z.pow 2 (Z.opp k)) in change (bpow radix2 k) with (/ IZR v) in *.

(** ** The weights before normalisation *)
Section weights.
Variables (M : math F32) (r : F32) (rr : R).
Hypotheses (PM : plausible M) (R_ : rep32 r rr) (Hr : / 1048576 <= rr <= 1024).
Lemma int32 z : (Z.abs z <= 2 ^ 24)%Z -> rep32 (@ofZ F32 z) (IZR z).
Proof. apply represents_int. Qed.
Lemma coefficient : exists c, rep32 (one / (sqrt_ (two * m_pi M) * r))%num c /\ / 4096 <= c <= 524288.
Proof.
  destruct PM as ([Vp Fp] & Bp & _). pose proof (valid_represents Vp Fp) as Rp. set (p := value (m_pi M)) in *.
  assert (B1 : 6 <= rnd32 (2 * p) <= 8) by (apply (rnd_small_int 6 8); [cbv; discriminate|cbv; discriminate|lra]).
  assert (R1 : rep32 (two * m_pi M)%num (rnd32 (2 * p))). { apply represents_mul; [apply int32; cbv; discriminate|exact Rp|]. apply (fits_pow 3); [lia|]. bp 3%Z. apply Rabs_le. lra. }
  pose proof (represents_sqrt R1 ltac:(lra)) as R2. set (q := rnd32 (R_sqrt.sqrt (rnd32 (2 * p)))) in *.
  assert (B2 : 2 <= q <= 3). { apply (rnd_small_int 2 3); [cbv; discriminate|cbv; discriminate|]. split; [apply Rle_trans with (R_sqrt.sqrt (2 * 2)); [rewrite sqrt_square; lra|]|apply Rle_trans with (R_sqrt.sqrt (3 * 3)); [|rewrite sqrt_square; lra]]; apply sqrt_le_1_alt; lra. }
  assert (B3 : bpow radix2 (-19) <= rnd32 (q * rr) <= bpow radix2 12). { apply rnd_in; [lia|lia|]. bn (-19)%Z. bp 12%Z. nra. }
  assert (R3 : rep32 (sqrt_ (two * m_pi M) * r)%num (rnd32 (q * rr))). { apply represents_mul; [exact R2|exact R_|]. apply (fits_pow 12); [lia|]. bp 12%Z. apply Rabs_le. nra. }
  set (d := rnd32 (q * rr)) in *. bn (-19)%Z. bp 12%Z. exists (rnd32 (1 / d)).
  assert (B4 : bpow radix2 (-12) <= 1 / d <= bpow radix2 19).
  { bn (-12)%Z. bp 19%Z. unfold Rdiv. rewrite Rmult_1_l. split; [apply Rinv_le_contravar; lra|]. rewrite <- (Rinv_inv 524288). apply Rinv_le_contravar; lra. }
  split.
  - apply represents_div; [apply (int32 1); cbv; discriminate|exact R3|lra|]. apply (fits_pow 19); [lia|]. apply Rabs_le. bn (-12)%Z. bp 19%Z. lra.
  - apply (rnd_in (-12) 19) in B4; [|lia|lia]. bn (-12)%Z. bp 19%Z. exact B4.
Qed.
Lemma exponent z : (Z.abs z <= 16384)%Z ->
  exists e, rep32 (- (ofZ z * ofZ z) / (two * (r * r)))%num e /\ e <= 0 /\ (z = 0%Z -> e = 0).
Proof.
  intros Hz. pose proof (int32 z ltac:(lia)) as Rz. assert (Bz : 0 <= IZR z * IZR z <= bpow radix2 28).
  { bp 28%Z. rewrite <- mult_IZR. split; apply IZR_le; nia. }
  assert (R1 : rep32 (@ofZ F32 z * ofZ z)%num (rnd32 (IZR z * IZR z))). { apply represents_mul; [exact Rz|exact Rz|]. apply (fits_pow 28); [lia|]. apply Rabs_le. lra. }
  assert (B1 : 0 <= rnd32 (IZR z * IZR z) <= bpow radix2 28). { split; [apply (rnd_nonneg 24 128 _); lra|]. pose proof (rnd_bounded 28 (IZR z * IZR z) ltac:(lia)) as Q. apply Rabs_le_inv in Q; [lra|]. apply Rabs_le. lra. }
  pose proof (represents_opp R1) as R2. set (s := rnd32 (IZR z * IZR z)) in *.
  assert (B3 : bpow radix2 (-40) <= rr * rr <= bpow radix2 20) by (bn (-40)%Z; bp 20%Z; nra).
  assert (R3 : rep32 (r * r)%num (rnd32 (rr * rr))). { apply represents_mul; [exact R_|exact R_|]. apply (fits_pow 20); [lia|]. bn (-40)%Z. apply Rabs_le. lra. }
  apply rnd_in in B3; [|lia|lia]. set (q := rnd32 (rr * rr)) in *.
  assert (B4 : bpow radix2 (-39) <= 2 * q <= bpow radix2 21) by (bn (-40)%Z; bp 20%Z; bn (-39)%Z; bp 21%Z; lra).
  assert (R4 : rep32 (two * (r * r))%num (rnd32 (2 * q))). { apply represents_mul; [apply int32; cbv; discriminate|exact R3|]. apply (fits_pow 21); [lia|]. bn (-39)%Z. apply Rabs_le. lra. }
  apply rnd_in in B4; [|lia|lia]. set (t := rnd32 (2 * q)) in *.
  assert (Ht : 0 < t) by (bn (-39)%Z; lra). assert (B5 : 0 <= s / t <= bpow radix2 67).
  { split; [apply Rmult_le_pos; [lra|apply Rlt_le, Rinv_0_lt_compat, Ht]|]. apply Rle_trans with (bpow radix2 28 * / bpow radix2 (-39)); [|rewrite <- bpow_opp, <- bpow_plus; apply Rle_refl].
    apply Rmult_le_compat; [lra|apply Rlt_le, Rinv_0_lt_compat, Ht|lra|]. apply Rinv_le_contravar; [apply bpow_gt_0|lra]. }
  exists (rnd32 (- s / t)). assert (En : - s / t = - (s / t)) by (field; lra). split; [|split].
  - apply represents_div; [exact R2|exact R4|lra|]. apply (fits_pow 67); [lia|]. rewrite En, Rabs_Ropp. apply Rabs_le. lra.
  - rewrite <- (rnd_0 24 128). apply rnd_le. lra.
  - intros ->. replace (- s / t) with 0; [apply rnd_0|]. unfold s. rewrite Rmult_0_l, (rnd_0 24 128). field. lra.
Qed.
Lemma weight z : (Z.abs z <= 16384)%Z -> exists v, rep32 (gaussian M (ofZ z) r) v /\ 0 <= v <= 524288 /\ (z = 0%Z -> / 8192 <= v).
Proof.
  intros Hz. destruct coefficient as (c & Rc & Bc). destruct (exponent z Hz) as (e & Re & Be & Ze). destruct PM as (_ & _ & HE & _). destruct (represents_valid Re) as (V & F & _).
  destruct (HE _ (conj V F)) as ([V' F'] & B' & Z'); [rewrite (represents_value Re); exact Be|]. pose proof (valid_represents V' F') as Rx. set (x := value (m_exp M _)) in *. rewrite (represents_value Re) in Z'.
  assert (B : 0 <= c * x <= bpow radix2 19) by (bp 19%Z; nra). exists (rnd32 (c * x)). split; [|split].
  - unfold gaussian. apply represents_mul; [exact Rc|exact Rx|]. apply (fits_pow 19); [lia|]. apply Rabs_le. lra.
  - split; [apply (rnd_nonneg 24 128 _); lra|]. apply (rnd_small_int 0 524288); [cbv; discriminate|cbv; discriminate|]. bp 19%Z. lra.
  - intros Hz0. specialize (Z' (Ze Hz0)). assert (bpow radix2 (-13) <= rnd32 (c * x) <= bpow radix2 19) as Q; [|bn (-13)%Z; lra]. apply rnd_in; [lia|lia|]. bn (-13)%Z. split; [|lra]. nra.
Qed.
End weights.

(** ** Normalisation *)
Section normal.
Variables (f : nat -> F32) (v : nat -> R) (len mid : nat).
Hypotheses (F : forall i, (i < len)%nat -> rep32 (f i) (v i) /\ 0 <= v i <= 524288) (Hl : INR len <= 40000) (Hm : (mid < len)%nat) (Vm : / 8192 <= v mid).
Lemma rsum_nonneg n (g : nat -> R) : (forall i, (i < n)%nat -> 0 <= g i) -> 0 <= rsum n g.
Proof. intros H. rewrite <- (rsum_zero n (fun _ => 0)) by reflexivity. now apply rsum_le. Qed.
Lemma rsum_one n (g : nat -> R) m : (forall i, (i < n)%nat -> 0 <= g i) -> (m < n)%nat -> g m <= rsum n g.
Proof. induction n as [|n IH]; intros H L; [lia|]. cbn [rsum]. pose proof (rsum_nonneg n g ltac:(intros; apply H; lia)). destruct (Nat.eq_dec m n) as [-> | E]; [lra|]. specialize (IH ltac:(intros; apply H; lia) ltac:(lia)). specialize (H n ltac:(lia)). lra. Qed.
Lemma len_growth k : (k <= len)%nat -> (1 + u32) ^ k <= 1 + 2 * INR len * u32 /\ 2 * INR len * u32 <= / 200.
Proof.
  intros Hk. assert (2 * INR len * u32 <= / 200) as B by (unfold u32; lra). split; [|exact B]. pose proof u32_pos. apply Rle_trans with ((1 + u32) ^ len); [apply Rle_pow; [lra|exact Hk]|]. apply growth. lra.
Qed.
Lemma fold_sum_near k : (k <= len)%nat ->
  exists s, rep32 (fold_left add (map f (seq 0 k)) zero) s /\ near s (rsum k v) (rsum k v) ((1 + u32) ^ k) (INR k * eta32 * (1 + u32) ^ k).
Proof.
  pose proof u32_pos as Hu. pose proof eta32_pos as He. induction k as [|k IH]; intros Hk.
  - exists 0. split; [apply represents_zero|]. cbn [rsum pow INR]. unfold near. rewrite Rabs_R0. replace (0 - 0) with 0 by ring. rewrite Rabs_R0. lra.
  - destruct (IH ltac:(lia)) as (s & Rs & Ns). destruct (F k ltac:(lia)) as [Rk Bk]. pose proof (grown_ge k) as Gk. destruct (len_growth k ltac:(lia)) as [G1 G2].
    pose proof (rsum_nonneg k v ltac:(intros i Hi; apply F; lia)) as Sp. pose proof (pos_INR k) as Ik. assert (INR k <= INR len) as Il by (apply le_INR; lia).
    assert (Su : rsum k v <= INR k * 524288). { rewrite <- rsum_const. apply rsum_le. intros i Hi. apply F. lia. }
    destruct (near_add _ _ s (rsum k v) (rsum k v) (v k) (v k) (v k) ((1 + u32) ^ k) (INR k * eta32 * (1 + u32) ^ k) 0 Rs Rk Ns) as (t & Rt & Nt & _).
    + unfold near. rewrite Rabs_pos_eq by lra. replace (v k - v k) with 0 by ring. rewrite Rabs_R0. assert (0 <= ((1 + u32) ^ k - 1) * v k) by (apply Rmult_le_pos; lra). split; [apply Rle_refl|]. lra.
    + assert (bpow radix2 60 <= bpow radix2 127) by (apply bpow_le; lia). bp 60%Z. assert (eta32 <= bpow radix2 0) as Q by (apply bpow_le; lia). change (bpow radix2 0) with 1 in Q.
      assert (INR k * eta32 <= 40000 * 1) by (apply Rmult_le_compat; lra). assert (0 <= INR k * eta32) by (apply Rmult_le_pos; lra). assert ((1 + u32) ^ k <= 2) by lra.
      assert (rsum k v + v k <= 40001 * 524288) by nra. assert ((1 + u32) ^ k * (rsum k v + v k) <= 2 * (40001 * 524288)) by (apply Rmult_le_compat; lra).
      assert (INR k * eta32 * (1 + u32) ^ k <= (40000 * 1) * 2) by (apply Rmult_le_compat; lra). lra.
    + exists t. split; [rewrite seq_S, map_app, fold_left_app; exact Rt|]. cbn [rsum]. eapply near_weaken; [exact Nt|cbn [pow]; right; ring|]. rewrite S_INR. cbn [pow].
      assert (eta32 <= eta32 * ((1 + u32) * (1 + u32) ^ k)); [|nra]. assert (1 <= (1 + u32) * (1 + u32) ^ k) by nra. nra.
Qed.
Lemma normalised : exists s w, rep32 (fold_left add (map f (seq 0 len)) zero) s /\
  (forall i, (i < len)%nat -> rep32 (f i / fold_left add (map f (seq 0 len)) zero)%num (w i) /\ 0 <= w i) /\ Rabs (rsum len w - 1) <= (INR len + 2) / 2 ^ 22.
Proof.
  destruct (fold_sum_near len (Nat.le_refl _)) as (s & Rs & (_ & Ns & _ & _)). pose proof u32_pos as Hu. pose proof eta32_pos as He. destruct (len_growth len (Nat.le_refl _)) as [G1 G2]. pose proof (grown_ge len) as G0. pose proof (pos_INR len) as Il.
  assert (I1 : 1 <= INR len) by (change 1 with (INR 1); apply le_INR; lia).
  set (S_ := rsum len v) in *. assert (SL : / 8192 <= S_) by (eapply Rle_trans; [exact Vm|]; apply rsum_one; [intros i Hi; apply F; exact Hi|exact Hm]).
  assert (Heta : eta32 <= bpow radix2 (-60)) by (apply bpow_le; lia). bn (-60)%Z.
  assert (D : Rabs (s - S_) <= 201 / 100 * (INR len * u32) * S_).
  { assert (((1 + u32) ^ len - 1) * S_ <= 2 * INR len * u32 * S_) by (apply Rmult_le_compat_r; lra).
    assert (INR len * eta32 * (1 + u32) ^ len <= INR len * eta32 * 2) by (apply Rmult_le_compat_l; [nra|lra]).
    assert (INR len * eta32 * 2 <= INR len * (/ 100 * u32 * S_)); [|lra]. rewrite Rmult_assoc. apply Rmult_le_compat_l; [lra|]. unfold u32. nra. }
  set (d := 201 / 100 * (INR len * u32)) in *. assert (Hd : 0 <= d <= / 190) by (unfold d, u32 in *; lra).
  apply Rabs_le_inv in D. assert (Sp : 0 < s) by nra. set (q := S_ / s). assert (Eq : q * s = S_) by (unfold q; field; lra).
  assert (Q1 : q <= 101 / 100) by (apply (Rmult_le_reg_r s); [exact Sp|]; rewrite Eq; nra). assert (Q0 : 0 <= q) by (apply Rmult_le_pos; [lra|apply Rlt_le, Rinv_0_lt_compat, Sp]).
  assert (Qd : Rabs (q - 1) <= 101 / 100 * d).
  { apply Rabs_le. split; apply (Rmult_le_reg_r s); try exact Sp; replace ((q - 1) * s) with (S_ - s) by (rewrite <- Eq; ring); nra. }
  exists s, (fun i => rnd32 (v i / s)). split; [exact Rs|].
  assert (Hw : forall i, (i < len)%nat -> 0 <= v i / s <= 101 / 100).
  { intros i Hi. destruct (F i Hi) as [_ B]. split; [apply Rmult_le_pos; [lra|apply Rlt_le, Rinv_0_lt_compat, Sp]|]. eapply Rle_trans; [|exact Q1]. unfold q. apply Rmult_le_compat_r; [apply Rlt_le, Rinv_0_lt_compat, Sp|]. apply rsum_one; [intros j Hj; apply F; exact Hj|exact Hi]. }
  split.
  - intros i Hi. destruct (F i Hi) as [Rf B]. specialize (Hw i Hi). split; [|apply (rnd_nonneg 24 128 _); lra]. apply represents_div; [exact Rf|exact Rs|lra|]. apply (fits_pow 1); [lia|]. change (bpow radix2 1) with 2. apply Rabs_le. lra.
  - assert (W1 : Rabs (rsum len (fun i => rnd32 (v i / s)) - q) <= rsum len (fun i => u32 * (v i / s) + eta32)).
    { replace q with (rsum len (fun i => v i / s)) by (unfold q, S_, Rdiv; apply rsum_scal_r). rewrite <- rsum_minus. apply rsum_abs_le. intros i Hi. eapply Rle_trans; [apply rnd_error|]. rewrite Rabs_pos_eq by (apply Hw, Hi). apply Rle_refl. }
    rewrite rsum_plus, rsum_scal, rsum_const in W1. replace (rsum len (fun i => v i / s)) with q in W1 by (unfold q, S_, Rdiv; symmetry; apply rsum_scal_r).
    set (W := rsum len (fun i => rnd32 (v i / s))) in *. replace (W - 1) with ((W - q) + (q - 1)) by ring. eapply Rle_trans; [apply Rabs_triang|].
    assert (INR len * eta32 <= INR len * (/ 100 * u32)) by (apply Rmult_le_compat_l; [lra|unfold u32; lra]). assert (u32 * q <= u32 * (101 / 100)) by (apply Rmult_le_compat_l; lra).
    eapply Rle_trans; [apply Rplus_le_compat; [exact W1|exact Qd]|]. unfold d. replace ((INR len + 2) / 2 ^ 22) with (4 * u32 * (INR len + 2)) by (unfold u32; field). clear - H H0 I1 Hu. nra.
Qed.
End normal.

(** ** The kernel *)
(** Nonnegative weights whose sum is almost 1. *)
Definition weights_of (len : nat) (kernel : list F32) : Prop :=
  length kernel = len /\ Forall finite_single kernel /\ nonneg_kernel kernel /\ Rabs (rsum len (fun i => nth i (real_kernel kernel) 0) - 1) <= (INR len + 2) / 2 ^ 22.
Lemma gaussian_kernel_float (M : math F32) (r : F32) rr n : plausible M -> rep32 r rr -> / 1048576 <= rr <= 1024 -> INR n <= 16384 ->
  exists kernel, gaussian_kernel M r (n * 2 + 1) = Ok kernel /\ weights_of (n * 2 + 1) kernel.
Proof.
  intros PM Rr Hr Hn. unfold gaussian_kernel. assert (Eh : ((n * 2 + 1) / 2 = n)%nat) by (rewrite Nat.mul_comm, Nat.add_comm; apply (Nat.add_b2n_double_div2 true n)).
  assert (Eo : ((n * 2 + 1) mod 2 = 1)%nat) by (rewrite Nat.mul_comm, Nat.add_comm, Nat.mul_comm, Nat.mod_add by lia; reflexivity).
  rewrite Eo, Eh. cbn [Nat.eqb assert_]. set (len := (n * 2 + 1)%nat) in *. set (f := fun i => gaussian M (ofZ (Z.of_nat i - Z.of_nat n)) r).
  assert (Hz : (Z.of_nat n <= 16384)%Z) by (apply le_IZR; rewrite <- INR_IZR_INZ; exact Hn).
  assert (Hw : forall i, (i < len)%nat -> rep32 (f i) (value (f i)) /\ 0 <= value (f i) <= 524288).
  { intros i Hi. destruct (weight M r rr PM Rr Hr (Z.of_nat i - Z.of_nat n)) as (v & Rv & Bv & _); [unfold len in Hi; lia|]. fold (f i) in Rv. rewrite (represents_value Rv). split; [exact Rv|exact Bv]. }
  assert (Hl : INR len <= 40000) by (unfold len; rewrite plus_INR, mult_INR; cbn [INR]; lra).
  assert (Hc : / 8192 <= value (f n)). { destruct (weight M r rr PM Rr Hr (Z.of_nat n - Z.of_nat n)) as (v & Rv & _ & Zv); [lia|]. fold (f n) in Rv. rewrite (represents_value Rv). apply Zv. lia. }
  destruct (normalised f (fun i => value (f i)) len n Hw Hl ltac:(unfold len; lia) Hc) as (s & w & _ & Hd & HW).
  set (sum := fold_left add (map f (seq 0 len)) zero) in *. exists (map (fun v => v / sum)%num (map f (seq 0 len))). split; [reflexivity|].
  assert (Hnth : forall i, (i < len)%nat -> nth i (real_kernel (map (fun v => v / sum)%num (map f (seq 0 len)))) 0 = w i).
  { intros i Hi. unfold real_kernel. rewrite real_nth, map_map, nth_map_seq by exact Hi. exact (represents_value (proj1 (Hd i Hi))). }
  split; [now rewrite !map_length, seq_length|]. split; [|split].
  - apply Forall_forall. intros x Hx. rewrite map_map in Hx. apply in_map_iff in Hx as (i & <- & Hi). apply in_seq in Hi. destruct (represents_valid (proj1 (Hd i ltac:(lia)))) as (V & Fn & _). split; assumption.
  - intros i. destruct (Nat.lt_ge_cases i len) as [Hi|Hi]; [rewrite Hnth by exact Hi; now apply Hd|]. rewrite nth_overflow; [lra|]. unfold real_kernel. rewrite !map_length, seq_length. exact Hi.
  - rewrite (rsum_ext _ _ w) by exact Hnth. exact HW.
Qed.

(** ** Passes *)
Section passes.
Variables (w h len : nat) (kernel : list F32).
Hypotheses (KW : weights_of len kernel) (Odd : (len mod 2 = 1)%nat) (Hl : INR len <= 40000).
(** What one pass can add beyond the range of the image. *)
Definition pass_error (a : R) : R := (INR len + 20) * (5 * u32 * a + 5 * eta32).
Lemma weighted_between lo hi a (p : nat -> R) : - a <= lo -> hi <= a -> (forall i, (i < len)%nat -> lo <= p i <= hi) ->
  let s := rsum len (fun i => nth i (real_kernel kernel) 0 * p i) in lo - (INR len + 2) / 2 ^ 22 * a <= s <= hi + (INR len + 2) / 2 ^ 22 * a.
Proof.
  intros Ha Hb Hp s. destruct KW as (L & _ & NN & HW). set (W := rsum len (fun i => nth i (real_kernel kernel) 0)) in *.
  destruct len as [|m] eqn:El; [discriminate Odd|]. destruct (Hp 0%nat ltac:(lia)) as [P1 P2]. clear El.
  assert (S1 : W * lo <= s) by (unfold W; rewrite <- rsum_scal_r; apply rsum_le; intros i Hi; apply Rmult_le_compat_l; [apply NN|now apply Hp]).
  assert (S2 : s <= W * hi) by (unfold W; rewrite <- rsum_scal_r; apply rsum_le; intros i Hi; apply Rmult_le_compat_l; [apply NN|now apply Hp]).
  assert (A0 : 0 <= a) by lra. set (e := (INR (S m) + 2) / 2 ^ 22) in *. pose proof (Rabs_pos (W - 1)).
  assert (E1 : Rabs ((W - 1) * lo) <= e * a) by (rewrite Rabs_mult; apply Rmult_le_compat; [apply Rabs_pos|apply Rabs_pos|exact HW|apply Rabs_le; lra]).
  assert (E2 : Rabs ((W - 1) * hi) <= e * a) by (rewrite Rabs_mult; apply Rmult_le_compat; [apply Rabs_pos|apply Rabs_pos|exact HW|apply Rabs_le; lra]).
  apply Rabs_le_inv in E1. apply Rabs_le_inv in E2. lra.
Qed.
Lemma kernel_norm_weights : kernel_norm kernel <= 101 / 100.
Proof.
  destruct KW as (L & _ & NN & HW). unfold kernel_norm. rewrite L. rewrite (rsum_ext _ _ (fun i => nth i (real_kernel kernel) 0)) by (intros; apply Rabs_pos_eq, NN). apply Rabs_le_inv in HW. assert ((INR len + 2) / 2 ^ 22 <= / 100) by lra. lra.
Qed.
Lemma pass_bound a : 0 <= a -> (INR len + 2) / 2 ^ 22 * a + filter_error len (kernel_norm kernel * a) <= pass_error a.
Proof.
  intros Ha. pose proof kernel_norm_weights as KN. pose proof (kernel_norm_pos kernel) as KP. pose proof (pos_INR len) as IL. pose proof u32_pos as Hu. pose proof eta32_pos as He. unfold filter_error, pass_error. unfold Rdiv at 3. rewrite eta32_148.
  replace ((INR len + 2) / 2 ^ 22) with (4 * u32 * (INR len + 2)) by (unfold u32; field). replace ((INR len + 20) / 2 ^ 25) with (u32 / 2 * (INR len + 20)) by (unfold u32; field).
  assert (kernel_norm kernel * a <= 101 / 100 * a) by (apply Rmult_le_compat_r; lra).
  assert (u32 / 2 * (INR len + 20) * (kernel_norm kernel * a) <= u32 / 2 * (INR len + 20) * (101 / 100 * a)) by (apply Rmult_le_compat_l; [apply Rmult_le_pos; lra|lra]).
  assert (0 <= u32 * a) by (apply Rmult_le_pos; lra). assert (0 <= u32 * a * (INR len + 20)) by (apply Rmult_le_pos; lra). assert (0 <= (INR len + 20) * eta32) by (apply Rmult_le_pos; lra). nra.
Qed.
Lemma between_image lo hi a g : - a <= lo -> hi <= a -> finite_between w h lo hi g -> finite_image w h a g.
Proof. intros H1 H2 [S P]. split; [exact S|]. intros x y Hx Hy. destruct (P x y Hx Hy) as [F B]. split; [exact F|]. apply Rabs_le. lra. Qed.
Lemma fits_weights a : 0 <= a <= 2 ^ 120 -> kernel_norm kernel * a <= 2 ^ 126.
Proof. intros H. pose proof kernel_norm_weights. pose proof (kernel_norm_pos kernel). apply Rle_trans with (2 * 2 ^ 120); [apply Rmult_le_compat; lra|]. replace (2 ^ 126) with (2 ^ 6 * 2 ^ 120) by (rewrite <- pow_add; reflexivity). assert (0 < 2 ^ 120) by (apply pow_lt; lra). apply Rmult_le_compat_r; lra. Qed.
Lemma pass_horizontal lo hi a g : - a <= lo -> hi <= a -> 0 <= a <= 2 ^ 120 -> finite_between w h lo hi g -> (0 < w)%nat ->
  exists out, horizontal_filter g kernel = Ok out /\ finite_between w h (lo - pass_error a) (hi + pass_error a) out /\ (0 <= lo -> nonneg_image w h out).
Proof.
  intros H1 H2 Ha Hg Hw. pose proof KW as (L & Fk & NN & _).
  destruct (horizontal_near w h a g kernel (between_image _ _ _ _ H1 H2 Hg) ltac:(rewrite L; exact Odd) ltac:(rewrite L; lra) Fk (fits_weights a Ha) Hw) as (out & E & So & Po & No).
  exists out. split; [exact E|]. destruct Hg as [(W & H & D) P]. split.
  - split; [exact So|]. intros x y Hx Hy. destruct (Po x y Hx Hy) as [Fo Eo]. split; [exact Fo|]. rewrite L in Eo. pose proof (pass_bound a (proj1 Ha)) as PB.
    pose proof (weighted_between lo hi a (fun i => extended (real_image g) (Z.of_nat x + offset (real_kernel kernel) i) (Z.of_nat y)) H1 H2) as WB. cbv zeta in WB.
    replace len with (length (real_kernel kernel)) in WB at 2 3 by (unfold real_kernel; rewrite map_length; exact L). fold (correlate_row (real_kernel kernel) (real_image g) x y) in WB.
    assert (B : forall i, (i < len)%nat -> lo <= extended (real_image g) (Z.of_nat x + offset (real_kernel kernel) i) (Z.of_nat y) <= hi).
    { intros i Hi. unfold extended. rewrite real_pixel. change (g_width (real_image g)) with (g_width g). change (g_height (real_image g)) with (g_height g). rewrite W, H. apply P; apply clamped_lt; lia. }
    apply Rabs_le_inv in Eo. specialize (WB B). lra.
  - intros Hlo. apply No; [exact NN|]. intros x y Hx Hy. destruct (P x y Hx Hy) as [_ B]. lra.
Qed.
Lemma pass_vertical lo hi a g : - a <= lo -> hi <= a -> 0 <= a <= 2 ^ 120 -> finite_between w h lo hi g -> (0 < h)%nat ->
  exists out, vertical_filter g kernel = Ok out /\ finite_between w h (lo - pass_error a) (hi + pass_error a) out /\ (nonneg_image w h g -> nonneg_image w h out).
Proof.
  intros H1 H2 Ha Hg Hh. pose proof KW as (L & Fk & NN & _).
  destruct (vertical_near w h a g kernel (between_image _ _ _ _ H1 H2 Hg) ltac:(rewrite L; exact Odd) ltac:(rewrite L; lra) Fk (fits_weights a Ha) Hh) as (out & E & So & Po & No).
  exists out. split; [exact E|]. destruct Hg as [(W & H & D) P]. split.
  - split; [exact So|]. intros x y Hx Hy. destruct (Po x y Hx Hy) as [Fo Eo]. split; [exact Fo|]. rewrite L in Eo. pose proof (pass_bound a (proj1 Ha)) as PB.
    pose proof (weighted_between lo hi a (fun i => extended (real_image g) (Z.of_nat x) (Z.of_nat y + offset (real_kernel kernel) i)) H1 H2) as WB. cbv zeta in WB.
    replace len with (length (real_kernel kernel)) in WB at 2 3 by (unfold real_kernel; rewrite map_length; exact L). fold (correlate_column (real_kernel kernel) (real_image g) x y) in WB.
    assert (B : forall i, (i < len)%nat -> lo <= extended (real_image g) (Z.of_nat x) (Z.of_nat y + offset (real_kernel kernel) i) <= hi).
    { intros i Hi. unfold extended. rewrite real_pixel. change (g_width (real_image g)) with (g_width g). change (g_height (real_image g)) with (g_height g). rewrite W, H. apply P; apply clamped_lt; lia. }
    apply Rabs_le_inv in Eo. specialize (WB B). lra.
  - intros Ng. apply No; [exact NN|exact Ng].
Qed.
End passes.

(** ** The blur *)
Lemma blur_float (M : math F32) (r : F32) w h (g : gray F32) lo hi a : plausible M -> finite_single r -> / 2 ^ 20 <= value r <= 2 ^ 10 -> (0 < w)%nat -> (0 < h)%nat ->
  finite_between w h lo hi g -> - a <= lo -> hi <= a -> a <= 2 ^ 100 ->
  exists out, gaussian_blur M g r = Ok out /\ finite_between w h (lo - blur_error (value r) a) (hi + blur_error (value r) a) out /\
    (0 <= lo -> forall x y, (x < w)%nat -> (y < h)%nat -> 0 <= value (pixel out x y)).
Proof.
  intros PM [Vr Fr] Hr Hw Hh Hg H1 H2 Ha. pose proof (valid_represents Vr Fr) as Rr. set (rr := value r) in *.
  assert (Hr' : / 1048576 <= rr <= 1024) by (replace 1048576 with (2 ^ 20) by ring; replace 1024 with (2 ^ 10) by ring; exact Hr).
  assert (A0 : 0 <= a). { destruct Hg as [_ P]. destruct (P 0%nat 0%nat Hw Hh) as [_ B]. lra. }
  assert (B2 : bpow radix2 (-19) <= 2 * rr <= bpow radix2 11) by (bn (-19)%Z; bp 11%Z; lra).
  assert (R2 : rep32 (two * r)%num (rnd32 (2 * rr))). { apply represents_mul; [apply int32; cbv; discriminate|exact Rr|]. apply (fits_pow 11); [lia|]. bn (-19)%Z. apply Rabs_le. lra. }
  assert (E2 : rnd32 (2 * rr) <= 2 * rr + / 1000). { destruct (rnd_relative (2 * rr)) as (d & Hd & ->); [rewrite Rabs_pos_eq by lra; eapply Rle_trans; [|exact (proj1 B2)]; apply bpow_le; lia|]. apply Rabs_le_inv in Hd. unfold u32 in Hd. nra. }
  apply rnd_in in B2; [|lia|lia]. bn (-19)%Z. bp 11%Z.
  unfold gaussian_blur. assert (Pos : (zero <? r)%num = true). { change (SFltb (S754_zero false) r = true). rewrite (represents_ltb (represents_zero 24 128 false) Rr). unfold Rltb. destruct (Rlt_dec 0 rr); [reflexivity|lra]. }
  rewrite Pos. cbn [assert_]. pose proof PM as (_ & _ & _ & HC). destruct (represents_valid R2) as (V2 & F2 & _). destruct (HC _ (conj V2 F2)) as [C1 C2]; [rewrite (represents_value R2); lra|]. rewrite (represents_value R2) in C1, C2.
  unfold to_usize. set (z := m_trunc M (m_ceil M (two * r)%num)) in *. set (n := Z.to_nat z).
  assert (Zp : (0 <= z)%Z) by (apply le_IZR; lra). assert (En : INR n = IZR z) by (unfold n; rewrite INR_IZR_INZ, Z2Nat.id by exact Zp; reflexivity).
  destruct (gaussian_kernel_float M r rr n PM Rr Hr' ltac:(lra)) as (kernel & Ek & KW). rewrite Ek. cbn [bind].
  set (len := (n * 2 + 1)%nat) in *. assert (Il : INR len <= 4 * rr + 4) by (unfold len; rewrite plus_INR, mult_INR; cbn [INR]; lra).
  assert (Odd : (len mod 2 = 1)%nat) by (unfold len; rewrite Nat.add_comm, Nat.mod_add by lia; reflexivity). pose proof (pos_INR len) as Ip. pose proof u32_pos as Hu. pose proof eta32_pos as He.
  assert (P100 : 1 <= 2 ^ 100) by (apply pow_R1_Rle; lra). assert (P120 : 2 ^ 120 = 1048576 * 2 ^ 100) by (replace 120%nat with (20 + 100)%nat by reflexivity; rewrite pow_add; f_equal; ring).
  assert (Heta : eta32 <= bpow radix2 0) by (apply bpow_le; lia). change (bpow radix2 0) with 1 in Heta.
  assert (Pe : 0 <= pass_error len a <= / 50 * (a + 1)).
  { unfold pass_error. assert (0 <= u32 * a) by nra. split; [apply Rmult_le_pos; nra|]. assert (Heta' : eta32 <= bpow radix2 (-30)) by (apply bpow_le; lia). bn (-30)%Z. apply Rle_trans with (4200 * (5 * u32 * a + 5 * / 1073741824)); [apply Rmult_le_compat; nra|]. unfold u32. lra. }
  destruct (pass_horizontal w h len kernel KW Odd ltac:(lra) lo hi a g H1 H2 ltac:(lra) Hg Hw) as (t & Et & Gt & Nt). unfold separable_filter. rewrite Et. cbn [bind].
  set (e1 := pass_error len a) in *. set (a1 := a + e1).
  destruct (pass_vertical w h len kernel KW Odd ltac:(lra) (lo - e1) (hi + e1) a1 t) as (out & Eo & Go & No); [unfold a1; lra|unfold a1; lra|unfold a1; lra|exact Gt|exact Hh|].
  exists out. split; [exact Eo|]. split; [|intros Hlo; apply No, Nt, Hlo].
  assert (Fin : e1 + pass_error len a1 <= blur_error rr a).
  { unfold blur_error. replace ((4 * rr + 24) / 2 ^ 20) with (16 * u32 * (4 * rr + 24)) by (unfold u32; field).
    assert (E140 : / 2 ^ 140 = 1024 * eta32). { replace 1024 with (256 * 4) by ring. rewrite Rmult_assoc, <- eta32_148. replace 148%nat with (8 + 140)%nat by reflexivity. rewrite pow_add. field. }
    unfold Rdiv. rewrite E140. assert (E1 : e1 = (INR len + 20) * (5 * u32 * a + 5 * eta32)) by reflexivity. assert (E3 : pass_error len a1 = e1 + (INR len + 20) * (5 * u32) * e1) by (unfold pass_error, a1; rewrite E1; ring).
    rewrite E3. assert ((INR len + 20) * (5 * u32) <= / 100) by (unfold u32; lra). assert ((INR len + 20) * (5 * u32) * e1 <= / 100 * e1) by (apply Rmult_le_compat_r; lra).
    assert (0 <= 5 * u32 * a + 5 * eta32) by nra. assert (e1 <= (4 * rr + 24) * (5 * u32 * a + 5 * eta32)) by (rewrite E1; apply Rmult_le_compat_r; lra). set (k := 4 * rr + 24) in *. assert (0 <= k) by (unfold k; lra). assert (0 <= k * (u32 * a)) by (apply Rmult_le_pos; nra). assert (0 <= k * eta32) by nra. nra. }
  destruct Go as [So Po]. split; [exact So|]. intros x y Hx Hy. destruct (Po x y Hx Hy) as [Fo B]. split; [exact Fo|]. lra.
Qed.
