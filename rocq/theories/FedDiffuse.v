(** A whole FED cycle of diffusion steps does not increase the spread of an image. *)
From Coq Require Import List Arith Lia Reals Lra Psatz Permutation FunctionalExtensionality.
From Verif Require Import Num Outcome OutcomeFacts LinSpec LinFacts Gray GraySpec GrayFacts GrayReal Diffuse DiffuseSpec DiffuseFacts Fed FedSpec FedFacts FedSum FedOperator.
Import ListNotations.
Open Scope R_scope.

Section grid.
Variables (w h : nat) (c : nat * nat -> R).
Hypothesis Hc : forall x y, (x < w)%nat -> (y < h)%nat -> 0 <= c (x, y) <= 1.
Notation V := (nat * nat -> R).
Definition grid_sum (f : V) : R := rsum h (fun y => rsum w (fun x => f (x, y))).
Lemma grid_ext f g : (forall x y, (x < w)%nat -> (y < h)%nat -> f (x, y) = g (x, y)) -> grid_sum f = grid_sum g.
Proof. intros H. apply rsum_ext. intros y Hy. apply rsum_ext. intros x Hx. now apply H. Qed.
Lemma grid_le f g : (forall x y, (x < w)%nat -> (y < h)%nat -> f (x, y) <= g (x, y)) -> grid_sum f <= grid_sum g.
Proof. intros H. apply rsum_le. intros y Hy. apply rsum_le. intros x Hx. now apply H. Qed.
Lemma grid_comb a f b g : grid_sum (fun p => a * f p + b * g p) = a * grid_sum f + b * grid_sum g.
Proof. unfold grid_sum. rewrite <- !rsum_scal, <- rsum_plus. apply rsum_ext. intros y _. rewrite <- !rsum_scal, <- rsum_plus. reflexivity. Qed.
Lemma grid_nonneg f : (forall x y, (x < w)%nat -> (y < h)%nat -> 0 <= f (x, y)) -> 0 <= grid_sum f.
Proof. intros H. apply Rle_trans with (grid_sum (fun _ => 0)); [|now apply grid_le]. unfold grid_sum. rewrite rsum_zero; [lra|]. intros y _. now apply rsum_zero. Qed.

Definition ip (f g : V) : R := grid_sum (fun p => f p * g p).
Lemma ip_sym f g : ip f g = ip g f.
Proof. unfold ip. apply grid_ext. intros. ring. Qed.
Lemma ip_comb a f b g k : ip (comb a f b g) k = a * ip f k + b * ip g k.
Proof. unfold ip. rewrite <- grid_comb. apply grid_ext. intros. unfold comb. ring. Qed.
Lemma ip_pos f : 0 <= ip f f.
Proof. apply grid_nonneg. intros. nra. Qed.

(** Sum over all ordered pairs of neighbours. *)
Definition around (H : nat * nat -> R) (p : nat * nat) : R := rsum_list H (neighbours w h (fst p) (snd p)).
Definition edge_sum (H : nat * nat -> nat * nat -> R) : R := grid_sum (fun p => around (H p) p).
Lemma around_four H x y : around H (x, y) =
  (if (x + 1 <? w)%nat then H ((x + 1)%nat, y) else 0) + (if (1 <=? x)%nat then H ((x - 1)%nat, y) else 0) +
  ((if (y + 1 <? h)%nat then H (x, (y + 1)%nat) else 0) + (if (1 <=? y)%nat then H (x, (y - 1)%nat) else 0)).
Proof. unfold around, neighbours. cbn [fst snd]. rewrite !rsum_list_app. destruct (x + 1 <? w)%nat, (1 <=? x)%nat, (y + 1 <? h)%nat, (1 <=? y)%nat; cbn [rsum_list]; ring. Qed.
Lemma edge_swap H : edge_sum H = edge_sum (fun p q => H q p).
Proof.
  assert (E : forall H, edge_sum H =
    rsum h (fun y => rsum w (fun x => if (x + 1 <? w)%nat then H (x, y) ((x + 1)%nat, y) else 0)) +
    rsum h (fun y => rsum w (fun x => if (1 <=? x)%nat then H (x, y) ((x - 1)%nat, y) else 0)) +
    (rsum w (fun x => rsum h (fun y => if (y + 1 <? h)%nat then H (x, y) (x, (y + 1)%nat) else 0)) +
     rsum w (fun x => rsum h (fun y => if (1 <=? y)%nat then H (x, y) (x, (y - 1)%nat) else 0)))).
  { clear H. intros H. unfold edge_sum, grid_sum.
    rewrite (rsum_swap w h (fun x y => if (y + 1 <? h)%nat then H (x, y) (x, (y + 1)%nat) else 0)), (rsum_swap w h (fun x y => if (1 <=? y)%nat then H (x, y) (x, (y - 1)%nat) else 0)).
    rewrite <- !rsum_plus. apply rsum_ext. intros y _. rewrite <- !rsum_plus. apply rsum_ext. intros x _. apply around_four. }
  rewrite !E.
  assert (X : forall H : nat * nat -> nat * nat -> R, rsum h (fun y => rsum w (fun x => if (x + 1 <? w)%nat then H (x, y) ((x + 1)%nat, y) else 0)) =
              rsum h (fun y => rsum w (fun x => if (1 <=? x)%nat then H ((x - 1)%nat, y) (x, y) else 0))).
  { intros K. apply rsum_ext. intros y _. rewrite (rsum_shift w (fun x => K (x, y) ((x + 1)%nat, y))). apply rsum_ext. intros x _. destruct (Nat.leb_spec 1 x); [|reflexivity]. now replace (x - 1 + 1)%nat with x by lia. }
  assert (Y : forall H : nat * nat -> nat * nat -> R, rsum w (fun x => rsum h (fun y => if (y + 1 <? h)%nat then H (x, y) (x, (y + 1)%nat) else 0)) =
              rsum w (fun x => rsum h (fun y => if (1 <=? y)%nat then H (x, (y - 1)%nat) (x, y) else 0))).
  { intros K. apply rsum_ext. intros x _. rewrite (rsum_shift h (fun y => K (x, y) (x, (y + 1)%nat))). apply rsum_ext. intros y _. destruct (Nat.leb_spec 1 y); [|reflexivity]. now replace (y - 1 + 1)%nat with y by lia. }
  rewrite (X H), (Y H), (X (fun p q => H q p)), (Y (fun p q => H q p)). ring.
Qed.
Lemma edge_comb a H b K : edge_sum (fun p q => a * H p q + b * K p q) = a * edge_sum H + b * edge_sum K.
Proof. unfold edge_sum. rewrite <- grid_comb. apply grid_ext. intros x y _ _. rewrite !around_four. destruct (x + 1 <? w)%nat, (1 <=? x)%nat, (y + 1 <? h)%nat, (1 <=? y)%nat; ring. Qed.
Lemma edge_le H K : (forall x y a b, (x < w)%nat -> (y < h)%nat -> (a < w)%nat -> (b < h)%nat -> H (x, y) (a, b) <= K (x, y) (a, b)) -> edge_sum H <= edge_sum K.
Proof. intros HK. apply grid_le. intros x y Hx Hy. apply rsum_list_le. intros [a b] Hab. cbn [fst snd] in Hab. destruct (neighbours_inside w h x y a b Hx Hy Hab). now apply HK. Qed.
Lemma edge_ext H K : (forall p q, H p q = K p q) -> edge_sum H = edge_sum K.
Proof. intros HK. apply grid_ext. intros x y _ _. apply rsum_list_ext. intros q _. apply HK. Qed.

(** The diffusion operator. *)
Definition weight (p q : nat * nat) : R := (c p + c q) / 2.
Definition lap (f : V) : V := fun p => around (fun q => weight p q * (f p - f q)) p.
Lemma lap_comb a f b g : lap (comb a f b g) = comb a (lap f) b (lap g).
Proof. extensionality p. destruct p as [x y]. unfold lap, comb. rewrite !around_four. destruct (x + 1 <? w)%nat, (1 <=? x)%nat, (y + 1 <? h)%nat, (1 <=? y)%nat; ring. Qed.
Lemma lap_form f g : ip (lap f) g = / 2 * edge_sum (fun p q => weight p q * ((f p - f q) * (g p - g q))).
Proof.
  assert (E : ip (lap f) g = edge_sum (fun p q => weight p q * (f p - f q) * g p)).
  { unfold ip, edge_sum. apply grid_ext. intros x y _ _. unfold lap. rewrite !around_four. destruct (x + 1 <? w)%nat, (1 <=? x)%nat, (y + 1 <? h)%nat, (1 <=? y)%nat; ring. }
  pose proof (edge_swap (fun p q => weight p q * (f p - f q) * g p)) as S. cbn beta in S.
  rewrite (edge_ext (fun p q => weight p q * ((f p - f q) * (g p - g q))) (fun p q => 1 * (weight p q * (f p - f q) * g p) + 1 * (weight q p * (f q - f p) * g q))).
  - rewrite edge_comb, <- S, E. lra.
  - intros p q. unfold weight. ring_simplify. lra.
Qed.
Lemma lap_sym f g : ip (lap f) g = ip f (lap g).
Proof. rewrite (ip_sym f), !lap_form. f_equal. apply edge_ext. intros. ring. Qed.
Lemma weight_range x y a b : (x < w)%nat -> (y < h)%nat -> (a < w)%nat -> (b < h)%nat -> 0 <= weight (x, y) (a, b) <= 1.
Proof. intros. unfold weight. pose proof (Hc x y). pose proof (Hc a b). intuition lra. Qed.
Lemma four_squares a b d e : (a + b + (d + e)) * (a + b + (d + e)) <= 4 * (a * a + b * b + (d * d + e * e)).
Proof. pose proof (Rle_0_sqr (a - b)). pose proof (Rle_0_sqr (a - d)). pose proof (Rle_0_sqr (a - e)). pose proof (Rle_0_sqr (b - d)). pose proof (Rle_0_sqr (b - e)). pose proof (Rle_0_sqr (d - e)). unfold Rsqr in *. lra. Qed.
Lemma around_square F x y : around F (x, y) * around F (x, y) <= 4 * around (fun q => F q * F q) (x, y).
Proof. rewrite !around_four. eapply Rle_trans; [apply four_squares|]. apply Req_le. destruct (x + 1 <? w)%nat, (1 <=? x)%nat, (y + 1 <? h)%nat, (1 <=? y)%nat; ring. Qed.
Lemma lap_bound f : ip (lap f) (lap f) <= 8 * ip (lap f) f.
Proof.
  rewrite (lap_form f f). apply Rle_trans with (4 * edge_sum (fun p q => (weight p q * (f p - f q)) * (weight p q * (f p - f q)))).
  - unfold ip, edge_sum. replace (4 * grid_sum (fun p => around (fun q => weight p q * (f p - f q) * (weight p q * (f p - f q))) p))
      with (grid_sum (fun p => 4 * around (fun q => weight p q * (f p - f q) * (weight p q * (f p - f q))) p + 0 * 0)) by (rewrite (grid_comb 4 _ 0 (fun _ => 0)); ring).
    apply grid_le. intros x y _ _. unfold lap. pose proof (around_square (fun q => weight (x, y) q * (f (x, y) - f q)) x y). lra.
  - replace (8 * (/ 2 * edge_sum (fun p q => weight p q * ((f p - f q) * (f p - f q))))) with (4 * edge_sum (fun p q => weight p q * ((f p - f q) * (f p - f q)))) by lra.
    apply Rmult_le_compat_l; [lra|]. apply edge_le. intros x y a b Hx Hy Ha Hb. pose proof (weight_range x y a b Hx Hy Ha Hb) as [W0 W1].
    set (k := weight (x, y) (a, b)) in *. set (e := f (x, y) - f (a, b)). assert (0 <= e * e) by nra. assert (k * k <= k) by nra. nra.
Qed.
Lemma lap_nonneg f : 0 <= ip (lap f) f.
Proof. pose proof (lap_bound f). pose proof (ip_pos (lap f)). lra. Qed.

(** Steps of sizes [d / r] for the squared cosines [r] of a cycle, in any order. *)
Lemma lap_cycle d n rs f : 0 <= d <= 1 / 8 -> Permutation rs (squares n) ->
  let out := fold_left (fun g r => comb 1 g (- (d / r)) (lap g)) rs f in ip out out <= ip f f.
Proof.
  intros Hd Hp.
  pose proof (cycle_short ip ip_sym ip_comb ip_pos (fun f => comb d (lap f) 0 f)) as C.
  replace (fun g r => comb 1 g (- (d / r)) (lap g)) with (fun g r => step (fun f => comb d (lap f) 0 f) r g).
  2:{ extensionality g. extensionality r. extensionality p. unfold step, comb, Rdiv. ring. }
  apply (C) with (n := n); [| | |exact Hp].
  - intros a k b g. rewrite lap_comb. extensionality p. unfold comb. ring.
  - intros k g. rewrite (ip_sym k), !ip_comb, (lap_sym k g), (ip_sym k (lap g)). rewrite (ip_sym k g). ring.
  - intros k. rewrite !ip_comb. rewrite !(ip_sym _ (comb d (lap k) 0 k)), !ip_comb. pose proof (lap_bound k). pose proof (lap_nonneg k).
    rewrite !Rmult_0_l, !Rplus_0_r. assert (d * d * ip (lap k) (lap k) <= d * d * (8 * ip (lap k) k)) by (apply Rmult_le_compat_l; nra). assert (d * d * 8 <= d) by nra. nra.
Qed.
End grid.

(** ** Images *)
Definition values (g : gray RNum) : nat * nat -> R := fun p => pixel g (fst p) (snd p).

Lemma lap_local w h c f g : (forall x y, (x < w)%nat -> (y < h)%nat -> f (x, y) = g (x, y)) ->
  forall x y, (x < w)%nat -> (y < h)%nat -> lap w h c f (x, y) = lap w h c g (x, y).
Proof. intros H x y Hx Hy. unfold lap, around. apply rsum_list_ext. intros [a b] Hab. cbn [fst snd] in Hab. destruct (neighbours_inside w h x y a b Hx Hy Hab). now rewrite !H by assumption. Qed.

Lemma diffused_lap w h (Lt Lflow : gray RNum) s x y : sized w h Lt -> sized w h Lflow ->
  diffused Lt Lflow s x y = comb 1 (values Lt) (- s) (lap w h (values Lflow) (values Lt)) (x, y).
Proof.
  intros (W & H & _) _. unfold diffused, comb, lap, around, weight, values. cbn [fst snd]. rewrite W, H.
  induction (neighbours w h x y) as [|[a b] l IH]; cbn [rsum_list fst snd]; [rnum_eq; ring|]. rnum_eq. lra.
Qed.

Section cycle.
Variables (w h : nat) (Lflow : gray RNum).
Hypotheses (SF : sized w h Lflow) (Hw : (0 < w)%nat) (Hh : (0 < h)%nat).
Lemma steps_run ts : forall (Lt : gray RNum), sized w h Lt ->
  exists out, foldM (fun g s => calculate_step (N := RNum) g Lflow s) ts Lt = Ok out /\ sized w h out /\ total out = total Lt /\
    forall f, (forall x y, (x < w)%nat -> (y < h)%nat -> values Lt (x, y) = f (x, y)) ->
    forall x y, (x < w)%nat -> (y < h)%nat -> values out (x, y) = fold_left (fun g s => comb 1 g (- s) (lap w h (values Lflow) g)) ts f (x, y).
Proof.
  induction ts as [|t ts IH]; intros Lt SL.
  - exists Lt. split; [reflexivity|]. split; [exact SL|]. split; [reflexivity|]. intros f H. exact H.
  - destruct (step_image w h Lt Lflow t SL SF Hw Hh) as (mid & E & S & P). destruct (step_total w h Lt Lflow t SL SF Hw Hh) as (mid' & E' & _ & T). assert (mid' = mid) as -> by congruence.
    destruct (IH mid S) as (out & E2 & S2 & T2 & P2). exists out. cbn [foldM]. rewrite E. cbn [bind]. split; [exact E2|]. split; [exact S2|]. split; [congruence|].
    intros f H. cbn [fold_left]. apply P2. intros x y Hx Hy. unfold values at 1. cbn [fst snd]. rewrite P by assumption. rewrite (diffused_lap w h) by assumption.
    unfold comb. rewrite (lap_local w h _ _ _ H x y Hx Hy), H by assumption. reflexivity.
Qed.
End cycle.

Lemma spread_ip w h v (g : gray RNum) : sized w h g -> spread v g = ip w h (values g) (values g) - 2 * v * total g + v * v * (INR w * INR h).
Proof.
  intros (W & H & _). unfold spread, ip, grid_sum, total, values. rewrite W, H. cbn [fst snd].
  replace (v * v * (INR w * INR h)) with (rsum h (fun _ => rsum w (fun _ => v * v))) by (rewrite !rsum_const; ring).
  rewrite <- rsum_scal, <- rsum_minus, <- rsum_plus. apply rsum_ext. intros y _. rewrite <- rsum_scal, <- rsum_minus, <- rsum_plus. apply rsum_ext. intros x _. rnum_eq. ring.
Qed.

Lemma fed_cycle_contracts checks fuel T M tau_max reordering steps w h (Lt Lflow : gray RNum) :
  0 < T -> (0 < M)%Z -> 0 < tau_max <= 1 / 4 ->
  fed_tau_by_process_time checks fuel T M tau_max reordering = Ok steps ->
  T / IZR M <= max_cycle_time tau_max (INR (length steps)) ->
  sized w h Lt -> sized w h Lflow -> (0 < w)%nat -> (0 < h)%nat -> within 0 1 Lflow ->
  exists out, foldM (fun g s => calculate_step (N := RNum) g Lflow s) steps Lt = Ok out /\ sized w h out /\ total out = total Lt /\
    forall v, spread v out <= spread v Lt.
Proof.
  intros HT HM Htau E Hlimit SL SF Hw Hh HF.
  destruct (steps_run w h Lflow SF Hw Hh steps Lt SL) as (out & Eo & So & To & Po). exists out. split; [exact Eo|]. split; [exact So|]. split; [exact To|].
  intros v. rewrite (spread_ip w h v out So), (spread_ip w h v Lt SL), To. apply Rplus_le_compat_r, Rplus_le_compat_r.
  specialize (Po (values Lt) (fun _ _ _ _ => eq_refl)).
  unfold fed_tau_by_process_time, fed_tau_by_cycle_time, fed_tau_internal in E. set (t := T / IZR M) in *. set (n := fed_count t tau_max) in *.
  apply fed_order_ok_permutation in E.
  assert (Hl : length steps = n) by (rewrite (Permutation_length E), length_fed_steps; reflexivity). rewrite Hl in Hlimit.
  set (d := fed_scale n t tau_max * tau_max / 2) in *.
  assert (Ht : 0 < t) by (apply Rdiv_lt_0_compat; [exact HT|now apply IZR_lt]).
  assert (Ed : fed_steps n (fed_scale n t tau_max) tau_max = map (fun r => d / r) (squares n)).
  { unfold fed_steps, squares. rewrite map_map. apply map_ext. intros k. rewrite fed_step_cos2. reflexivity. }
  rewrite Ed in E. apply Permutation_map_inv in E as (rs & -> & Hp%Permutation_sym).
  destruct (Nat.eq_dec n 0) as [En|En].
  { rewrite En in Hl. destruct rs; [|discriminate Hl]. cbn in Po. apply Req_le. unfold ip. apply grid_ext. intros x y Hx Hy. now rewrite Po. }
  assert (Hn : 0 < INR n) by (apply lt_0_INR; lia).
  assert (Hd : 0 <= d <= 1 / 8).
  { unfold max_cycle_time in Hlimit. unfold d, fed_scale.
    replace (3 * t / (tau_max * (INR n * (INR n + 1))) * tau_max / 2) with (3 * t / (INR n * (INR n + 1)) / 2) by (field; lra).
    assert (0 < INR n * (INR n + 1)) by nra.
    assert (3 * t / (INR n * (INR n + 1)) <= tau_max).
    { apply (Rmult_le_reg_r (INR n * (INR n + 1))); [lra|]. unfold Rdiv. rewrite Rmult_assoc, Rinv_l by lra. nra. }
    assert (0 <= 3 * t / (INR n * (INR n + 1))) by (apply Rlt_le, Rdiv_lt_0_compat; lra). lra. }
  pose proof (lap_cycle w h (values Lflow) (fun x y Hx Hy => HF x y ltac:(destruct SF as (-> & _); exact Hx) ltac:(destruct SF as (_ & -> & _); exact Hy)) d n rs (values Lt) Hd Hp) as C. cbn zeta in C.
  replace (ip w h (values out) (values out)) with
    (ip w h (fold_left (fun g r => comb 1 g (- (d / r)) (lap w h (values Lflow) g)) rs (values Lt)) (fold_left (fun g r => comb 1 g (- (d / r)) (lap w h (values Lflow) g)) rs (values Lt))).
  - exact C.
  - unfold ip. apply grid_ext. intros x y Hx Hy. rewrite Po by assumption.
    assert (F : forall f, fold_left (fun g s => comb 1 g (- s) (lap w h (values Lflow) g)) (map (fun r => d / r) rs) f = fold_left (fun g r => comb 1 g (- (d / r)) (lap w h (values Lflow) g)) rs f).
    { clear. induction rs as [|r rs IH]; intros f; [reflexivity|]. cbn [map fold_left]. apply IH. }
    now rewrite F.
Qed.
