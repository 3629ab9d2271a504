(** Proofs about diffusion, conductivity and the contrast factor. *)
From Coq Require Import List Arith Lia Bool ZArith Reals Lra Psatz SpecFloat.
From Verif Require Import Num LinSpec LinFacts Outcome OutcomeFacts Gray GraySpec GrayFacts GrayReal GrayProps Diffuse DiffuseSpec BicubicFacts P3pFacts.
Import ListNotations.
Open Scope R_scope.
Ltac req := match goal with |- @eq _ ?a ?b => change (@eq R a b) end.

(** ** C19 *)
Section step.
Variables (w h : nat) (Lt Lflow : gray RNum) (s : R).
Hypotheses (ST : sized w h Lt) (SF : sized w h Lflow) (Hw : (0 < w)%nat) (Hh : (0 < h)%nat).
Lemma rsum_list_app {A} (f : A -> R) l k : rsum_list f (l ++ k) = rsum_list f l + rsum_list f k.
Proof. induction l as [|a l IH]; cbn [app rsum_list]; [ring|]. rewrite IH. ring. Qed.
Lemma step_image : exists out, @calculate_step RNum Lt Lflow s = Ok out /\ image_of w h (diffused Lt Lflow s) out.
Proof.
  destruct ST as (W & H & D), SF as (W' & H' & D'). unfold calculate_step. rewrite W, H, W', H', !Nat.eqb_refl.
  rewrite (proj2 (Nat.eqb_neq w 0)), (proj2 (Nat.eqb_neq h 0)) by lia. cbn [negb andb assert_].
  eexists. split; [reflexivity|]. split; [apply of_fn_sized|]. intros x y Hx Hy.
  rewrite !pixel_of_fn by lia. unfold diffused, neighbours. rewrite W, H. rewrite !rsum_list_app.
  replace (x + 1 <? w)%nat with (x <? w - 1)%nat by (destruct (Nat.ltb_spec x (w - 1)), (Nat.ltb_spec (x + 1) w); lia).
  replace (y + 1 <? h)%nat with (y <? h - 1)%nat by (destruct (Nat.ltb_spec y (h - 1)), (Nat.ltb_spec (y + 1) h); lia).
  unfold horizontal_flow, vertical_flow, flow, lit. 
  destruct (x <? w - 1)%nat, (Nat.leb_spec 1 x), (y <? h - 1)%nat, (Nat.leb_spec 1 y); cbn [rsum_list];
    try (replace (x - 1 + 1)%nat with x by lia); try (replace (y - 1 + 1)%nat with y by lia); rnum_eq; req; first [field|apply Rminus_diag_uniq; field].
Qed.
End step.

(** Sums over an image. *)
Lemma total_image w h f (g : gray RNum) : image_of w h f g -> total g = rsum h (fun y => rsum w (fun x => f x y)).
Proof. intros [(W & H & _) P]. unfold total. rewrite W, H. apply rsum_ext. intros y Hy. apply rsum_ext. intros x Hx. now apply P. Qed.
Lemma rsum_shift n F : rsum n (fun x => if (x + 1 <? n)%nat then F x else 0) = rsum n (fun x => if (1 <=? x)%nat then F (x - 1)%nat else 0).
Proof.
  destruct n as [|n]; [reflexivity|]. rewrite (rsum_first n (fun x => if (1 <=? x)%nat then F (x - 1)%nat else 0)). cbn [Nat.leb rsum]. replace (n + 1 <? S n)%nat with false by (symmetry; apply Nat.ltb_ge; lia). rewrite Rplus_0_l, Rplus_0_r.
  apply rsum_ext. intros i Hi. replace (i + 1 <? S n)%nat with true by (symmetry; apply Nat.ltb_lt; lia). cbn [Nat.leb]. f_equal. lia. Qed.
Definition flux (Lt Lflow : gray RNum) (s : R) (x y x' y' : nat) : R := s * ((pixel Lflow x y + pixel Lflow x' y') / 2) * (pixel Lt x' y' - pixel Lt x y).
Lemma flux_sym Lt Lflow s x y x' y' : flux Lt Lflow s x y x' y' = - flux Lt Lflow s x' y' x y.
Proof. unfold flux. rnum_eq. req. first [field|apply Rminus_diag_uniq; field]. Qed.
Lemma diffused_flux w h Lt Lflow s x y : g_width Lt = w -> g_height Lt = h ->
  diffused Lt Lflow s x y = pixel Lt x y
    + (if (x + 1 <? w)%nat then flux Lt Lflow s x y (x + 1) y else 0) - (if (1 <=? x)%nat then flux Lt Lflow s (x - 1) y (x - 1 + 1) y else 0)
    + (if (y + 1 <? h)%nat then flux Lt Lflow s x y x (y + 1) else 0) - (if (1 <=? y)%nat then flux Lt Lflow s x (y - 1) x (y - 1 + 1) else 0).
Proof. intros W H. unfold diffused, neighbours, flux. rewrite W, H, !rsum_list_app.
  destruct (x + 1 <? w)%nat, (Nat.leb_spec 1 x), (y + 1 <? h)%nat, (Nat.leb_spec 1 y); cbn [rsum_list];
    try (replace (x - 1 + 1)%nat with x by lia); try (replace (y - 1 + 1)%nat with y by lia); rnum_eq; req; first [field|apply Rminus_diag_uniq; field]. Qed.
Lemma step_total w h (Lt Lflow : gray RNum) (s : R) : sized w h Lt -> sized w h Lflow -> (0 < w)%nat -> (0 < h)%nat ->
  exists out, @calculate_step RNum Lt Lflow s = Ok out /\ sized w h out /\ total out = total Lt.
Proof.
  intros ST SF Hw Hh. destruct (step_image w h Lt Lflow s ST SF Hw Hh) as (out & E & I). exists out. split; [exact E|]. split; [apply I|].
  rewrite (total_image _ _ _ _ I). destruct ST as (W & H & _). unfold total. rewrite W, H.
  rewrite (rsum_ext h _ (fun y => rsum w (fun x => pixel Lt x y)
     + (rsum w (fun x => if (x + 1 <? w)%nat then flux Lt Lflow s x y (x + 1) y else 0) - rsum w (fun x => if (1 <=? x)%nat then flux Lt Lflow s (x - 1) y (x - 1 + 1) y else 0))
     + (rsum w (fun x => if (y + 1 <? h)%nat then flux Lt Lflow s x y x (y + 1) else 0) - rsum w (fun x => if (1 <=? y)%nat then flux Lt Lflow s x (y - 1) x (y - 1 + 1) else 0)))).
  2:{ intros y Hy. rewrite <- !rsum_minus, <- !rsum_plus. apply rsum_ext. intros x Hx. rewrite (diffused_flux w h) by assumption. ring. }
  rewrite !rsum_plus.
  rewrite (rsum_zero h (fun y => rsum w (fun x => if (x + 1 <? w)%nat then flux Lt Lflow s x y (x + 1) y else 0) - rsum w (fun x => if (1 <=? x)%nat then flux Lt Lflow s (x - 1) y (x - 1 + 1) y else 0))).
  2:{ intros y Hy. rewrite (rsum_shift w (fun x => flux Lt Lflow s x y (x + 1) y)). ring. }
  rewrite rsum_minus. rewrite (rsum_swap h w (fun y x => if (y + 1 <? h)%nat then flux Lt Lflow s x y x (y + 1) else 0)), (rsum_swap h w (fun y x => if (1 <=? y)%nat then flux Lt Lflow s x (y - 1) x (y - 1 + 1) else 0)).
  rewrite <- rsum_minus. rewrite (rsum_zero w); [ring|]. intros x Hx. rewrite (rsum_shift h (fun y => flux Lt Lflow s x y x (y + 1))). ring. Qed.
Lemma neighbours_inside w h x y a b : (x < w)%nat -> (y < h)%nat -> In (a, b) (neighbours w h x y) -> (a < w)%nat /\ (b < h)%nat.
Proof. intros Hx Hy. unfold neighbours. rewrite !in_app_iff.
  destruct (Nat.ltb_spec (x + 1) w), (Nat.leb_spec 1 x), (Nat.ltb_spec (y + 1) h), (Nat.leb_spec 1 y); cbn [In]; intuition; match goal with E : (_, _) = (_, _) |- _ => injection E; lia end. Qed.
Lemma neighbours_four w h x y : (length (neighbours w h x y) <= 4)%nat.
Proof. unfold neighbours. destruct (x + 1 <? w)%nat, (1 <=? x)%nat, (y + 1 <? h)%nat, (1 <=? y)%nat; cbn; lia. Qed.
Lemma rsum_list_ext {A} (f g : A -> R) l : (forall x, In x l -> f x = g x) -> rsum_list f l = rsum_list g l.
Proof. induction l as [|a l IH]; intros H; cbn [rsum_list]; [reflexivity|]. rewrite H by now left. rewrite IH by (intros; apply H; now right). reflexivity. Qed.
Lemma rsum_list_le {A} (f g : A -> R) l : (forall x, In x l -> f x <= g x) -> rsum_list f l <= rsum_list g l.
Proof. induction l as [|a l IH]; intros H; cbn [rsum_list]; [lra|]. specialize (IH (fun x Hx => H x (or_intror Hx))). specialize (H a (or_introl eq_refl)). lra. Qed.
Lemma rsum_list_scal {A} (f : A -> R) c l : rsum_list (fun x => c * f x) l = c * rsum_list f l.
Proof. induction l as [|a l IH]; cbn [rsum_list]; [ring|]. rewrite IH. ring. Qed.
Lemma rsum_list_const {A} c (l : list A) : rsum_list (fun _ => c) l = INR (length l) * c.
Proof. induction l as [|a l IH]; cbn [rsum_list length]; [cbn; ring|]. rewrite IH, S_INR. ring. Qed.
Lemma step_within w h (Lt Lflow : gray RNum) (s lo hi : R) : sized w h Lt -> sized w h Lflow -> (0 < w)%nat -> (0 < h)%nat ->
  0 <= s <= 1 / 4 -> within 0 1 Lflow -> within lo hi Lt ->
  exists out, @calculate_step RNum Lt Lflow s = Ok out /\ sized w h out /\ within lo hi out.
Proof.
  intros ST SF Hw Hh Hs Hc B. destruct (step_image w h Lt Lflow s ST SF Hw Hh) as (out & E & I). exists out. split; [exact E|]. split; [apply I|].
  destruct I as [(Wo & Ho & _) P]. intros x y. rewrite Wo, Ho. intros Hx Hy. rewrite P by assumption. unfold diffused. destruct ST as (W & H & _), SF as (W' & H' & _). rewrite W, H.
  unfold within in B, Hc. rewrite W, H in B. rewrite W', H' in Hc. set (v := pixel Lt x y). assert (Bv : lo <= v <= hi) by (apply B; assumption).
  set (l := neighbours w h x y). assert (LN : INR (length l) <= 4) by (replace 4 with (INR 4) by (cbn; lra); apply le_INR, neighbours_four).
  assert (UP : rsum_list (fun '(a, b) => (pixel Lflow x y + pixel Lflow a b) / 2 * (pixel Lt a b - v)) l <= INR (length l) * (hi - v)).
  { rewrite <- rsum_list_const. apply rsum_list_le. intros [a b] Hab. destruct (neighbours_inside _ _ _ _ _ _ Hx Hy Hab).
    pose proof (Hc x y Hx Hy). pose proof (Hc a b ltac:(assumption) ltac:(assumption)). pose proof (B a b ltac:(assumption) ltac:(assumption)). rnum_eq. nra. }
  assert (LO : INR (length l) * (lo - v) <= rsum_list (fun '(a, b) => (pixel Lflow x y + pixel Lflow a b) / 2 * (pixel Lt a b - v)) l).
  { rewrite <- rsum_list_const. apply rsum_list_le. intros [a b] Hab. destruct (neighbours_inside _ _ _ _ _ _ Hx Hy Hab).
    pose proof (Hc x y Hx Hy). pose proof (Hc a b ltac:(assumption) ltac:(assumption)). pose proof (B a b ltac:(assumption) ltac:(assumption)). rnum_eq. nra. }
  set (S := rsum_list _ l) in *. pose proof (pos_INR (length l)). rnum_eq. split.
  - assert (4 * (lo - v) <= S) by nra. nra.
  - assert (S <= 4 * (hi - v)) by nra. nra. Qed.
Lemma step_constant w h c (Lt Lflow : gray RNum) (s : R) : constant_image w h c Lt -> sized w h Lflow -> (0 < w)%nat -> (0 < h)%nat ->
  exists out, @calculate_step RNum Lt Lflow s = Ok out /\ constant_image w h c out.
Proof.
  intros C SF Hw Hh. destruct (step_image w h Lt Lflow s (proj1 C) SF Hw Hh) as (out & E & Sz & P). exists out. split; [exact E|]. split; [exact Sz|].
  intros x y Hx Hy. rewrite P by assumption. unfold diffused. destruct C as [(W & H & _) V]. rewrite W, H. rewrite (rsum_list_ext _ (fun _ => 0)).
  - rewrite rsum_list_const, V by assumption. rring.
  - intros [a b] Hab. destruct (neighbours_inside _ _ _ _ _ _ Hx Hy Hab). rewrite !V by assumption. rnum_eq. req. first [field|apply Rminus_diag_uniq; field]. Qed.
(** A step above 1/4 overshoots: white dot on black. *)
Lemma step_overshoots (s : R) : 1 / 4 < s -> exists (Lt Lflow out : gray RNum), sized 3 3 Lt /\ sized 3 3 Lflow /\ within 0 1 Lflow /\ within 0 1 Lt /\
  @calculate_step RNum Lt Lflow s = Ok out /\ pixel out 1 1 < 0.
Proof.
  intros Hs. set (dot := Gray (N := RNum) 3 3 [0; 0; 0; 0; 1; 0; 0; 0; 0]). set (ones := Gray (N := RNum) 3 3 [1; 1; 1; 1; 1; 1; 1; 1; 1]).
  destruct (step_image 3 3 dot ones s) as (out & E & Sz & P); [repeat split|repeat split|lia|lia|]. exists dot, ones, out.
  split; [repeat split|]. split; [repeat split|]. split; [|split; [|split; [exact E|]]].
  - intros x y Hx Hy. cbn in Hx, Hy. destruct x as [|[|[|]]], y as [|[|[|]]]; try lia; cbn; lra.
  - intros x y Hx Hy. cbn in Hx, Hy. destruct x as [|[|[|]]], y as [|[|[|]]]; try lia; cbn; lra.
  - rewrite P by lia. replace (diffused dot ones s 1 1) with (1 + s * -4) by (cbv - [Rplus Rmult Rminus Rdiv IZR Ropp Rinv]; field). lra. Qed.
Lemma step_empty (Lt Lflow : gray RNum) (s : R) : g_width Lt = 0%nat \/ g_height Lt = 0%nat -> @calculate_step RNum Lt Lflow s = Panic.
Proof. intros [H|H]; unfold calculate_step; rewrite H; cbn [Nat.eqb negb andb assert_]; [reflexivity|]. rewrite andb_false_r. reflexivity. Qed.

(** ** C20 *)
Lemma pm_g2_image w h (Lx Ly : gray RNum) (k : R) : sized w h Lx -> sized w h Ly -> k <> 0 ->
  exists out, pm_g2 Rwidths Lx Ly k = Ok out /\ image_of w h (fun x y => conductivity k (pixel Lx x y) (pixel Ly x y)) out.
Proof.
  intros (W & H & D) (W' & H' & D') Hk. unfold pm_g2. cbn [single double Rwidths] in *. rewrite W, H, W', H', !Nat.eqb_refl. cbn [andb assert_].
  eexists. split; [reflexivity|]. split; [apply of_fn_sized|]. intros x y Hx Hy. rewrite pixel_of_fn by assumption. unfold conductivity. cbn [narrow Rwidths]. rnum_eq. f_equal. f_equal. field. exact Hk. Qed.
Lemma conductivity_range k lx ly : k <> 0 -> 0 < conductivity k lx ly <= 1.
Proof. intros Hk. unfold conductivity. assert (0 < k * k) by (destruct (Rtotal_order k 0) as [?|[?|?]]; nra).
  assert (0 <= (lx * lx + ly * ly) / (k * k)) by (apply Rmult_le_pos; [nra|apply Rlt_le, Rinv_0_lt_compat; assumption]).
  set (q := _ / _) in *. split; [apply Rdiv_lt_0_compat; lra|]. apply (Rmult_le_reg_r (1 + q)); [lra|]. unfold Rdiv. rewrite Rmult_assoc, Rinv_l by lra. lra. Qed.
Lemma conductivity_flat k : k <> 0 -> conductivity k 0 0 = 1.
Proof. intros Hk. unfold conductivity. field. auto. Qed.
Lemma conductivity_decreasing k a b c d : k <> 0 -> a * a + b * b < c * c + d * d -> conductivity k c d < conductivity k a b.
Proof. intros Hk H. unfold conductivity. assert (0 < k * k) by (destruct (Rtotal_order k 0) as [?|[?|?]]; nra).
  assert (K : forall x y, 0 <= (x * x + y * y) / (k * k)) by (intros; apply Rmult_le_pos; [nra|apply Rlt_le, Rinv_0_lt_compat; assumption]).
  assert ((a * a + b * b) / (k * k) < (c * c + d * d) / (k * k)) by (apply Rmult_lt_compat_r; [apply Rinv_0_lt_compat; assumption|exact H]).
  pose proof (K a b). unfold Rdiv at 1 3. rewrite !Rmult_1_l. apply Rinv_lt_contravar; [|lra]. apply Rmult_lt_0_compat; lra. Qed.
