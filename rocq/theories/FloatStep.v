(** One diffusion step (akaze/src/nonlinear_diffusion.rs) in binary32. *)
From Coq Require Import Reals ZArith SpecFloat Lia Lra Psatz.
From Flocq Require Import Core BinarySingleNaN.
From Coq Require Import List Arith Bool.
From Verif Require Import Num LinSpec LinFacts Outcome OutcomeFacts Gray GraySpec GrayFacts GrayReal Diffuse DiffuseSpec DiffuseFacts FloatFacts FloatUp FloatError32 FloatGraySpec FloatGray FloatBlur.
Import ListNotations.
Open Scope R_scope.

(** ** More on approximations *)
Lemma near_larger r v s a b s' : near r v s a b -> s <= s' -> near r v s' a b.
Proof. intros (H1 & H2 & H3 & H4) Hs. split; [lra|]. split; [|lra]. eapply Rle_trans; [exact H2|]. apply Rplus_le_compat_r. apply Rmult_le_compat_l; lra. Qed.
Lemma near_opp r v s a b : near r v s a b -> near (- r) (- v) s a b.
Proof. intros (H1 & H2 & H3 & H4). unfold near. rewrite Rabs_Ropp. split; [exact H1|]. split; [|lra]. replace (- r - - v) with (- (r - v)) by ring. now rewrite Rabs_Ropp. Qed.
Lemma near_product r v s a b r' v' s' a' b' : near r v s a b -> near r' v' s' a' b' -> near (r * r') (v * v') (s * s') (a * a') (b * (a' * s' + b') + b' * (a * s)).
Proof.
  intros N N'. pose proof (near_size _ _ _ _ _ N') as Sz. destruct N as (H1 & H2 & H3 & H4), N' as (H1' & H2' & H3' & H4'). pose proof (Rabs_pos v) as P. pose proof (Rabs_pos v') as P'.
  assert (0 <= a * s) by (apply Rmult_le_pos; lra). assert (0 <= a' * s') by (apply Rmult_le_pos; lra). assert (Q : 0 <= (a - 1) * s) by (apply Rmult_le_pos; lra).
  split; [rewrite Rabs_mult; apply Rmult_le_compat; try apply Rabs_pos; lra|]. split; [|split; [nra|apply Rplus_le_le_0_compat; apply Rmult_le_pos; lra]].
  replace (r * r' - v * v') with ((r - v) * r' + v * (r' - v')) by ring. eapply Rle_trans; [apply Rabs_triang|]. rewrite !Rabs_mult.
  assert (E1 : Rabs (r - v) * Rabs r' <= ((a - 1) * s + b) * (a' * s' + b')) by (apply Rmult_le_compat; try apply Rabs_pos; lra).
  assert (E2 : Rabs v * Rabs (r' - v') <= s * ((a' - 1) * s' + b')) by (apply Rmult_le_compat; try apply Rabs_pos; lra). 
  replace ((a * a' - 1) * (s * s') + (b * (a' * s' + b') + b' * (a * s))) with (((a - 1) * s + b) * (a' * s' + b') + s * ((a' - 1) * s' + b')) by ring. lra.
Qed.
Lemma near_times (x y : F32) r v s a b r' v' s' a' b' : rep32 x r -> rep32 y r' -> near r v s a b -> near r' v' s' a' b' -> (a * s + b) * (a' * s' + b') <= bpow radix2 127 ->
  exists t, rep32 (x * y)%num t /\ near t (v * v') (s * s') (a * a' * (1 + u32)) ((b * (a' * s' + b') + b' * (a * s)) * (1 + u32) + eta32).
Proof.
  intros X Y N N' Hb. pose proof (near_product _ _ _ _ _ _ _ _ _ _ N N') as Np. exists (rnd32 (r * r')). split; [|apply near_rnd; exact Np].
  apply (mul32 x y r r' 127 X Y ltac:(lia)). rewrite Rabs_mult. eapply Rle_trans; [|exact Hb]. apply Rmult_le_compat; try apply Rabs_pos; eapply near_size; eassumption.
Qed.
Lemma near_minus (x y : F32) r v s r' v' s' a b b' : rep32 x r -> rep32 y r' -> near r v s a b -> near r' v' s' a b' ->
  a * (s + s') + (b + b') <= bpow radix2 127 ->
  exists t, rep32 (x - y)%num t /\ near t (v - v') (s + s') (a * (1 + u32)) ((b + b') * (1 + u32) + eta32).
Proof.
  intros X Y Nx Ny Hb. pose proof (near_plus _ _ _ _ _ _ _ _ _ Nx (near_opp _ _ _ _ _ Ny)) as Np. exists (rnd32 (r - r')). split; [|unfold Rminus; apply near_rnd; exact Np].
  apply represents_sub; [exact X|exact Y|]. apply (fits_pow 127); [lia|]. eapply Rle_trans; [apply (near_size _ _ _ _ _ Np)|exact Hb].
Qed.
Lemma near_exact (x : F32) s : finite_single x -> Rabs (value x) <= s -> rep32 x (value x) /\ near (value x) (value x) s 1 0.
Proof. intros [V F] H. split; [now apply valid_represents|]. eapply near_larger; [apply near_self|exact H]. Qed.

(** ** One flow *)
Section step.
Variables (step : F32) (t A : R).
Hypotheses (Rt : rep32 step t) (Ht : 0 <= t <= 1048576) (HA : 0 <= A <= bpow radix2 90).
Let K := (1 + t) * (1 + A).
Lemma tiny : 0 < u32 <= / 1000000 /\ 0 < eta32 <= / 1000000.
Proof. pose proof u32_pos. pose proof eta32_pos. assert (eta32 <= bpow radix2 (-20)) by (apply bpow_le; lia). bn (-20)%Z. unfold u32 in *. lra. Qed.
Lemma half_single : rep32 (@lit F32 1 2) (1 / 2).
Proof.
  unfold lit. replace (1 / 2) with (rnd32 (1 / 2)). - apply represents_div; [apply (int32 1); cbv; discriminate|apply (int32 2); cbv; discriminate|lra|]. apply (fits_pow 0); [lia|]. change (bpow radix2 0) with 1. apply Rabs_le. lra.
  - replace (1 / 2) with (bpow radix2 (-1)) by (bn (-1)%Z; lra). apply (rnd_bpow 24 128 ltac:(reflexivity)). change (SpecFloat.emin 24 128) with (-149)%Z. lia.
Qed.
Lemma big m : m <= bpow radix2 120 -> m <= bpow radix2 127.
Proof. intros H. eapply Rle_trans; [exact H|]. apply bpow_le. lia. Qed.
Lemma K_ge : 1 <= K /\ 1 + t <= K /\ 1 + A <= K.
Proof. unfold K. nra. Qed.
Lemma flow_near_zero (pa pb ca cb : F32) : finite_single pa -> finite_single pb -> finite_single ca -> finite_single cb -> Rabs (value pa) <= A -> Rabs (value pb) <= A -> 0 <= value ca <= 1 -> 0 <= value cb <= 1 ->
  exists f, rep32 (flow step pa pb ca cb) f /\ near f (1 / 2 * t * (value ca + value cb) * (value pb - value pa)) (2 * t * A) ((1 + u32) ^ 5) (11 * eta32 * K) /\ (value pa = value pb -> f = 0).
Proof.
  intros Fpa Fpb Fca Fcb Hpa Hpb Hca Hcb. destruct tiny as [Hu He]. destruct K_ge as (K1 & K2 & K3).
  destruct (near_exact ca 1 Fca) as [Rca Nca]; [apply Rabs_le; lra|]. destruct (near_exact cb 1 Fcb) as [Rcb Ncb]; [apply Rabs_le; lra|]. destruct (near_exact pa A Fpa Hpa) as [Rpa Npa]. destruct (near_exact pb A Fpb Hpb) as [Rpb Npb].
  assert (B90 : bpow radix2 100 = 1024 * bpow radix2 90) by (change 100%Z with (10 + 90)%Z; rewrite bpow_plus; reflexivity). assert (B1 : 1 <= bpow radix2 90) by (change 1 with (bpow radix2 0); apply bpow_le; lia).
  assert (B120 : bpow radix2 120 = 1073741824 * bpow radix2 90) by (change 120%Z with (30 + 90)%Z; rewrite bpow_plus; reflexivity).
  assert (Nh : near (1 / 2) (1 / 2) (1 / 2) 1 0) by (eapply near_larger; [apply near_self|rewrite Rabs_pos_eq; lra]).
  assert (Nt : near t t t 1 0) by (eapply near_larger; [apply near_self|rewrite Rabs_pos_eq; lra]).
  destruct (near_times (@lit F32 1 2) step _ _ _ _ _ _ _ _ _ _ half_single Rt Nh Nt) as (h & Rh & N1); [apply big; rewrite B120; nra|].
  destruct (near_add ca cb _ _ _ _ _ _ _ _ _ Rca Rcb Nca Ncb) as (c & Rc & N2 & _); [apply big; rewrite B120; nra|].
  apply (near_weaken _ _ _ _ _ (1 + u32) eta32) in N1; [|lra|lra]. apply (near_weaken _ _ _ _ _ (1 + u32) eta32) in N2; [|lra|lra].
  destruct (near_times _ _ _ _ _ _ _ _ _ _ _ _ Rh Rc N1 N2) as (p & Rp & N3).
  { apply big. rewrite B120. apply Rle_trans with (((1 + 1) * (1 / 2 * 1048576) + 1) * ((1 + 1) * (1 + 1) + 1)); [apply Rmult_le_compat; nra|nra]. }
  apply (near_weaken _ _ _ _ _ ((1 + u32) ^ 3) (eta32 * (4 + t))) in N3; [|cbn [pow]; right; ring|].
  2:{ replace ((eta32 * ((1 + u32) * (1 + 1) + eta32) + eta32 * ((1 + u32) * (1 / 2 * t))) * (1 + u32) + eta32) with (eta32 * (((1 + u32) * (1 + 1) + eta32 + (1 + u32) * (1 / 2 * t)) * (1 + u32) + 1)) by ring. apply Rmult_le_compat_l; [lra|]. 
      assert (u32 * t <= / 1000000 * t) by (apply Rmult_le_compat_r; lra). assert (u32 * u32 * t <= / 1000000 * t) by (apply Rmult_le_compat_r; nra). nra. }
  destruct (near_minus pb pa _ _ _ _ _ _ _ _ _ Rpb Rpa Npb Npa) as (d & Rd & N4); [apply big; rewrite B120; nra|].
  apply (near_weaken _ _ _ _ _ (1 + u32) eta32) in N4; [|lra|lra].
  assert (U3 : 1 <= (1 + u32) ^ 3 <= 101 / 100) by (split; [apply grown_ge|cbn [pow]; nra]).
  destruct (near_times _ _ _ _ _ _ _ _ _ _ _ _ Rp Rd N3 N4) as (f & Rf & N5).
  { apply big. rewrite B120. apply Rle_trans with ((2 * 1048576 + 1048580) * (2 * (2 * bpow radix2 90) + 1)); [|nra].
    apply Rmult_le_compat; [|nra| |].
    - apply Rplus_le_le_0_compat; [apply Rmult_le_pos; lra|apply Rmult_le_pos; lra].
    - apply Rplus_le_compat; [apply Rmult_le_compat; lra|]. assert (eta32 * (4 + t) <= 1 * (4 + t)) by (apply Rmult_le_compat_r; lra). lra.
    - apply Rplus_le_compat; [apply Rmult_le_compat; lra|lra]. }
  exists f. split; [exact Rf|]. split.
  2:{ intros E. assert (Z0 : rep32 (pb - pa)%num 0). { pose proof (represents_sub Rpb Rpa) as Q. rewrite E, Rminus_diag_eq, (rnd_0 24 128) in Q by reflexivity. apply Q. rewrite Rabs_R0. apply bpow_gt_0. }
      assert (Z1 : rep32 (@lit F32 1 2 * step * (ca + cb) * (pb - pa))%num 0). { pose proof (represents_mul Rp Z0) as Q. rewrite Rmult_0_r, (rnd_0 24 128) in Q. apply Q. rewrite Rabs_R0. apply bpow_gt_0. }
      rewrite <- (represents_value Rf). exact (represents_value Z1). }
  replace (2 * t * A) with (1 / 2 * t * (1 + 1) * (A + A)) by field.
  eapply near_weaken; [exact N5|cbn [pow]; right; ring|].
  set (w3 := (1 + u32) ^ 3) in *. clearbody w3.
  replace ((eta32 * (4 + t) * ((1 + u32) * (A + A) + eta32) + eta32 * (w3 * (1 / 2 * t * (1 + 1)))) * (1 + u32) + eta32) with (eta32 * (((4 + t) * ((1 + u32) * (A + A) + eta32) + w3 * t) * (1 + u32) + 1)) by field.
  rewrite (Rmult_comm 11 eta32), Rmult_assoc. apply Rmult_le_compat_l; [lra|].
  assert (Q1 : (4 + t) * ((1 + u32) * (A + A) + eta32) <= 4 * (1 + t) * (101 / 50 * A + / 1000000)). { apply Rmult_le_compat; [lra| |lra|nra]. apply Rplus_le_le_0_compat; [apply Rmult_le_pos; lra|lra]. }
  assert (Q2 : w3 * t <= 101 / 100 * t) by (apply Rmult_le_compat_r; lra). assert (Q0 : 0 <= 4 * (1 + t) * (101 / 50 * A + / 1000000) + 101 / 100 * t) by (apply Rplus_le_le_0_compat; [apply Rmult_le_pos; lra|lra]).
  set (m := (4 + t) * ((1 + u32) * (A + A) + eta32) + w3 * t) in *. assert (Q3 : m * (1 + u32) <= (4 * (1 + t) * (101 / 50 * A + / 1000000) + 101 / 100 * t) * (101 / 100)).
  { apply Rle_trans with ((4 * (1 + t) * (101 / 50 * A + / 1000000) + 101 / 100 * t) * (1 + u32)); [apply Rmult_le_compat_r; [lra|unfold m; lra]|apply Rmult_le_compat_l; lra]. }
  unfold K. assert (0 <= t * A) by (apply Rmult_le_pos; lra). clear - Q3 H Ht HA. nra.
Qed.
Lemma flow_near (pa pb ca cb : F32) : finite_single pa -> finite_single pb -> finite_single ca -> finite_single cb -> Rabs (value pa) <= A -> Rabs (value pb) <= A -> 0 <= value ca <= 1 -> 0 <= value cb <= 1 ->
  exists f, rep32 (flow step pa pb ca cb) f /\ near f (1 / 2 * t * (value ca + value cb) * (value pb - value pa)) (2 * t * A) ((1 + u32) ^ 5) (11 * eta32 * K).
Proof. intros H1 H2 H3 H4 H5 H6 H7 H8. destruct (flow_near_zero pa pb ca cb H1 H2 H3 H4 H5 H6 H7 H8) as (f & R1 & N1 & _). exists f. now split. Qed.
Definition next_error (B : R) : R := (B + 11 * eta32 * K) * (1 + u32) + eta32.
Lemma keep_near x r X S_ m B : rep32 x r -> near r X S_ ((1 + u32) ^ m) B -> near r X (S_ + 2 * t * A) ((1 + u32) ^ S m) (next_error B).
Proof.
  intros _ N. destruct tiny as [Hu He]. destruct K_ge as (K1 & _). assert (0 <= B) by apply N. assert (0 <= t * A) by (apply Rmult_le_pos; lra). assert (0 <= eta32 * K) by (apply Rmult_le_pos; lra).
  eapply near_larger; [eapply near_weaken; [exact N|apply Rle_pow; [lra|lia]|]|lra]. unfold next_error. nra.
Qed.
Section join.
Variables (x fl : F32) (r X S_ F : R) (m : nat) (B : R) (cond : bool).
Hypotheses (Rx : rep32 x r) (N : near r X S_ ((1 + u32) ^ m) B) (Hm : (5 <= m <= 8)%nat) (HS : S_ <= 16777217 * A) (HB : B <= 100 * eta32 * K)
  (Hf : cond = true -> exists f, rep32 fl f /\ near f F (2 * t * A) ((1 + u32) ^ 5) (11 * eta32 * K)).
Lemma join_fits : (1 + u32) ^ m * (S_ + 2 * t * A) + (B + 11 * eta32 * K) <= bpow radix2 127.
Proof.
  destruct tiny as [Hu He]. assert (U : 1 <= (1 + u32) ^ m <= 2). { split; [apply grown_ge|]. apply Rle_trans with ((1 + u32) ^ 8); [apply Rle_pow; [lra|lia]|]. apply Rle_trans with (1 + 2 * INR 8 * u32); [apply growth; cbn [INR]; lra|cbn [INR]; lra]. }
  assert (B120 : bpow radix2 120 = 1073741824 * bpow radix2 90) by (change 120%Z with (30 + 90)%Z; rewrite bpow_plus; reflexivity). assert (B1 : 1 <= bpow radix2 90) by (change 1 with (bpow radix2 0); apply bpow_le; lia).
  apply big. rewrite B120. assert (0 <= S_) by (pose proof (Rabs_pos X); destruct N as (Q & _); lra). assert (Q0 : t * A <= 1048576 * bpow radix2 90) by (apply Rmult_le_compat; lra). assert (0 <= t * A) by (apply Rmult_le_pos; lra).
  assert (Q1 : (1 + u32) ^ m * (S_ + 2 * t * A) <= 2 * (16777217 * A + 2097152 * bpow radix2 90)) by (apply Rmult_le_compat; lra).
  assert (Q2 : eta32 * K <= / 1000000 * (1048577 * (1 + bpow radix2 90))). { apply Rmult_le_compat; [lra|destruct K_ge; lra|lra|]. unfold K. apply Rmult_le_compat; lra. }
  lra.
Qed.
Lemma join_plus : exists q, rep32 (if cond then x + fl else x)%num q /\ near q (if cond then X + F else X) (S_ + 2 * t * A) ((1 + u32) ^ S m) (next_error B).
Proof.
  destruct tiny as [Hu He]. destruct cond; [|exists r; split; [exact Rx|eapply keep_near; eassumption]]. destruct (Hf eq_refl) as (f & Rf & Nf). apply (near_weaken _ _ _ _ _ ((1 + u32) ^ m) (11 * eta32 * K)) in Nf; [|apply Rle_pow; [lra|lia]|apply Rle_refl].
  destruct (near_add x fl _ _ _ _ _ _ _ _ _ Rx Rf N Nf join_fits) as (q & Rq & Nq & _). exists q. split; [exact Rq|]. eapply near_weaken; [exact Nq|cbn [pow]; right; ring|apply Rle_refl].
Qed.
Lemma join_minus : exists q, rep32 (if cond then x - fl else x)%num q /\ near q (if cond then X - F else X) (S_ + 2 * t * A) ((1 + u32) ^ S m) (next_error B).
Proof.
  destruct tiny as [Hu He]. destruct cond; [|exists r; split; [exact Rx|eapply keep_near; eassumption]]. destruct (Hf eq_refl) as (f & Rf & Nf). apply (near_weaken _ _ _ _ _ ((1 + u32) ^ m) (11 * eta32 * K)) in Nf; [|apply Rle_pow; [lra|lia]|apply Rle_refl].
  destruct (near_minus x fl _ _ _ _ _ _ _ _ _ Rx Rf N Nf join_fits) as (q & Rq & Nq). exists q. split; [exact Rq|]. eapply near_weaken; [exact Nq|cbn [pow]; right; ring|apply Rle_refl].
Qed.
End join.
Lemma next_le k : (0 <= k <= 4) -> next_error (k * (123 / 10) * eta32 * K) <= (k + 1) * (123 / 10) * eta32 * K.
Proof.
  intros Hk. destruct tiny as [Hu He]. destruct K_ge as (K1 & _). unfold next_error. set (e := eta32 * K). assert (E1 : eta32 <= e) by (unfold e; nra).
  replace ((k * (123 / 10) * eta32 * K + 11 * eta32 * K) * (1 + u32) + eta32) with ((k * (123 / 10) + 11) * e * (1 + u32) + eta32) by (unfold e; ring). replace ((k + 1) * (123 / 10) * eta32 * K) with ((k + 1) * (123 / 10) * e) by (unfold e; ring).
  assert ((k * (123 / 10) + 11) * e * u32 <= 1 / 1000 * e); [|nra]. replace ((k * (123 / 10) + 11) * e * u32) with ((k * (123 / 10) + 11) * u32 * e) by ring. apply Rmult_le_compat_r; nra.
Qed.

(** ** The whole image *)
Variables (w h : nat) (Lt Lflow : gray F32).
Hypotheses (GT : finite_image w h A Lt) (GF : finite_between w h 0 1 Lflow) (Hw : (0 < w)%nat) (Hh : (0 < h)%nat).
Lemma step_float_near : exists out exact, calculate_step Lt Lflow step = Ok out /\ calculate_step (N := RNum) (real_image Lt) (real_image Lflow) t = Ok exact /\ sized w h out /\
  forall x y, (x < w)%nat -> (y < h)%nat -> finite_single (pixel out x y) /\ Rabs (value (pixel out x y) - pixel exact x y) <= step_error t A.
Proof.
  destruct GT as [(W & H & D) PT], GF as [(W' & H' & D') PF]. unfold calculate_step. change (g_width (real_image Lt)) with (g_width Lt). change (g_height (real_image Lt)) with (g_height Lt). change (g_width (real_image Lflow)) with (g_width Lflow). change (g_height (real_image Lflow)) with (g_height Lflow).
  rewrite W, H, W', H', !Nat.eqb_refl. rewrite (proj2 (Nat.eqb_neq w 0)), (proj2 (Nat.eqb_neq h 0)) by lia. cbn [negb andb assert_].
  eexists. eexists. split; [reflexivity|]. split; [reflexivity|]. split; [apply of_fn_sized|]. intros x y Hx Hy.
  rewrite !pixel_of_fn by lia. unfold horizontal_flow, vertical_flow. rewrite !real_pixel.
  destruct tiny as [Hu He]. destruct K_ge as (K1 & K2 & K3). assert (tA : 0 <= t * A) by (apply Rmult_le_pos; lra). assert (tA' : t * A <= 1048576 * A) by (apply Rmult_le_compat_r; lra). assert (eK : 0 <= eta32 * K) by (apply Rmult_le_pos; lra).
  assert (Fl : forall a b a' b', (a < w)%nat -> (b < h)%nat -> (a' < w)%nat -> (b' < h)%nat -> exists f, rep32 (flow step (pixel Lt a b) (pixel Lt a' b') (pixel Lflow a b) (pixel Lflow a' b')) f /\
    near f (@flow RNum t (value (pixel Lt a b)) (value (pixel Lt a' b')) (value (pixel Lflow a b)) (value (pixel Lflow a' b'))) (2 * t * A) ((1 + u32) ^ 5) (11 * eta32 * K)).
  { intros a b a' b' Ha Hb Ha' Hb'. destruct (PT a b Ha Hb) as [T1 T2]. destruct (PT a' b' Ha' Hb') as [T1' T2']. destruct (PF a b Ha Hb) as [U1 U2]. destruct (PF a' b' Ha' Hb') as [U1' U2'].
    exact (flow_near _ _ _ _ T1 T1' U1 U1' T2 T2' U2 U2'). }
  destruct (PT x y Hx Hy) as [T1 T2]. destruct (near_exact _ _ T1 T2) as [R0 N0].
  apply (near_weaken _ _ _ _ _ ((1 + u32) ^ 5) (0 * (123 / 10) * eta32 * K)) in N0; [|apply grown_ge|lra].
  destruct (join_plus (pixel Lt x y) (flow step (pixel Lt x y) (pixel Lt (x + 1) y) (pixel Lflow x y) (pixel Lflow (x + 1) y)) _ _ _ (@flow RNum t (value (pixel Lt x y)) (value (pixel Lt (x + 1) y)) (value (pixel Lflow x y)) (value (pixel Lflow (x + 1) y))) 5 _ (x <? w - 1)%nat R0 N0 ltac:(lia)) as (r1 & R1 & N1); [lra|lra|intros C; apply Nat.ltb_lt in C; apply Fl; lia|].
  apply (near_weaken _ _ _ _ _ ((1 + u32) ^ 6) ((0 + 1) * (123 / 10) * eta32 * K)) in N1; [|lra|apply next_le; lra].
  destruct (join_minus _ (flow step (pixel Lt (x - 1) y) (pixel Lt (x - 1 + 1) y) (pixel Lflow (x - 1) y) (pixel Lflow (x - 1 + 1) y)) _ _ _ (@flow RNum t (value (pixel Lt (x - 1) y)) (value (pixel Lt (x - 1 + 1) y)) (value (pixel Lflow (x - 1) y)) (value (pixel Lflow (x - 1 + 1) y))) 6 _ (1 <=? x)%nat R1 N1 ltac:(lia)) as (r2 & R2 & N2); [lra|lra|intros C; apply Nat.leb_le in C; apply Fl; lia|].
  apply (near_weaken _ _ _ _ _ ((1 + u32) ^ 7) ((0 + 1 + 1) * (123 / 10) * eta32 * K)) in N2; [|lra|apply next_le; lra].
  destruct (join_plus _ (flow step (pixel Lt x y) (pixel Lt x (y + 1)) (pixel Lflow x y) (pixel Lflow x (y + 1))) _ _ _ (@flow RNum t (value (pixel Lt x y)) (value (pixel Lt x (y + 1))) (value (pixel Lflow x y)) (value (pixel Lflow x (y + 1)))) 7 _ (y <? h - 1)%nat R2 N2 ltac:(lia)) as (r3 & R3 & N3); [lra|lra|intros C; apply Nat.ltb_lt in C; apply Fl; lia|].
  apply (near_weaken _ _ _ _ _ ((1 + u32) ^ 8) ((0 + 1 + 1 + 1) * (123 / 10) * eta32 * K)) in N3; [|lra|apply next_le; lra].
  destruct (join_minus _ (flow step (pixel Lt x (y - 1)) (pixel Lt x (y - 1 + 1)) (pixel Lflow x (y - 1)) (pixel Lflow x (y - 1 + 1))) _ _ _ (@flow RNum t (value (pixel Lt x (y - 1))) (value (pixel Lt x (y - 1 + 1))) (value (pixel Lflow x (y - 1))) (value (pixel Lflow x (y - 1 + 1)))) 8 _ (1 <=? y)%nat R3 N3 ltac:(lia)) as (r4 & R4 & N4); [lra|lra|intros C; apply Nat.leb_le in C; apply Fl; lia|].
  apply (near_weaken _ _ _ _ _ ((1 + u32) ^ 9) ((0 + 1 + 1 + 1 + 1) * (123 / 10) * eta32 * K)) in N4; [|lra|apply next_le; lra].
  destruct (represents_valid R4) as (V & Fn & _). split; [split; [exact V|exact Fn]|]. 
  destruct N4 as (_ & N4 & _). match goal with |- Rabs (?v - ?e) <= _ => replace v with r4 by (symmetry; exact (represents_value R4)) end. eapply Rle_trans; [exact N4|]. unfold step_error.
  assert (U9 : (1 + u32) ^ 9 - 1 <= 10 * u32).
  { assert (1 + u32 <= 1 + u32 + 0) by lra. assert (P2 : (1 + u32) ^ 3 <= 1 + 33 / 10 * u32) by (cbn [pow]; nra). assert (P3 : (1 + u32) ^ 9 = ((1 + u32) ^ 3) ^ 3) by ring. rewrite P3. pose proof (grown_ge 3) as P4. set (c := (1 + u32) ^ 3) in *. clearbody c. cbn [pow]. assert (c * c <= (1 + 33 / 10 * u32) * (1 + 33 / 10 * u32)) by (apply Rmult_le_compat; lra). nra. }
  replace (50 / 2 ^ 150 * (1 + t) * (1 + A)) with (50 * (eta32 * K)).
  2:{ replace (/ 2 ^ 150) with eta32 in * by (unfold eta32; change (-150)%Z with (- Z.of_nat 150)%Z; rewrite bpow_opp; f_equal; rewrite <- IZR_Zpower by lia; symmetry; apply pow_IZR). unfold Rdiv. replace (/ 2 ^ 150) with eta32 by (unfold eta32; change (-150)%Z with (- Z.of_nat 150)%Z; rewrite bpow_opp; f_equal; rewrite <- IZR_Zpower by lia; symmetry; apply pow_IZR). unfold K. ring. }
  apply Rplus_le_compat; [|lra]. replace (10 / 2 ^ 24 * (1 + 8 * t) * A) with (10 * u32 * (A + 2 * t * A + 2 * t * A + 2 * t * A + 2 * t * A)) by (unfold u32; field). apply Rmult_le_compat_r; lra.
Qed.
End step.
