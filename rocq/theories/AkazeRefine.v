(** Proofs about sub-pixel refinement and orientation. *)
From Coq Require Import List Arith Lia Bool ZArith Reals Lra Psatz.
From Verif Require Import Num LinSpec LinFacts Outcome OutcomeFacts Gray GraySpec GrayFacts GrayReal GrayProps Diffuse DiffuseSpec DiffuseFacts DiffuseProps BicubicSpec BicubicFacts P3pFacts Akaze AkazeSpec AkazeSchedule AkazeSpace AkazeDetect.
Import ListNotations.
Open Scope R_scope.

Lemma get_pixel w h (g : gray RNum) x y : sized w h g -> (x < w)%nat -> (y < h)%nat -> get g x y = Ok (pixel g x y).
Proof.
  intros (W & H & L) Hx Hy. unfold get. rewrite W, H. apply Nat.ltb_lt in Hx as Bx, Hy as By. rewrite Bx, By. cbn [andb]. rewrite (read_nth (A := RNum) _ _ (0 : RNum)) by (rewrite L; nia). unfold pixel. now rewrite W. Qed.

(** ** Orientation *)
Section orientation.
Variable A : angles RNum.
Lemma fast_atan2_direction y x : fast_atan2 Rwidths Rmath A y x = direction A x y.
Proof. reflexivity. Qed.
Lemma round_in z side : z < INR side - 1 / 2 -> (0 < side)%nat -> (Z.to_nat (Rround z) < side)%nat.
Proof.
  intros H P. destruct (Rle_dec 0 z) as [K|K].
  - pose proof (proj2 (round_below z (Z.of_nat side - 1) K)) as B. rewrite minus_IZR, <- INR_IZR_INZ in B. specialize (B ltac:(lra)). lia.
  - destruct (Z_le_gt_dec 1 (Rround z)) as [L|L]; [apply round_half in L; lra|]. lia. Qed.
Lemma sample_ok w h (e : rlevel) xf yf s i j : sized w h (Lx e) -> sized w h (Ly e) -> xf + IZR i * INR s < INR w - 1 / 2 -> yf + IZR j * INR s < INR h - 1 / 2 -> (0 < w)%nat -> (0 < h)%nat ->
  sample_gradient Rwidths Rmath A e xf yf (INR s) (i, j) = Ok (gradient_sample A e xf yf s (i, j)).
Proof.
  intros Sx Sy Bx By Pw Ph. unfold sample_gradient. cbv zeta. unfold to_usize. cbn [m_trunc m_round Rmath]. rewrite !Rtrunc_IZR. cbn [single Rwidths add mul ofZ RNum].
  rewrite (get_pixel w h (Lx e)) by (try assumption; apply round_in; assumption). cbn [bind]. rewrite (get_pixel w h (Ly e)) by (try assumption; apply round_in; assumption). cbn [bind]. rewrite fast_atan2_direction. reflexivity. Qed.
Lemma disc_small : forallb (fun '(i, j) => Z.leb (-5) i && Z.leb i 5 && Z.leb (-5) j && Z.leb j 5) disc = true.
Proof. vm_compute. reflexivity. Qed.
Lemma disc_bound i j : In (i, j) disc -> (-5 <= i <= 5)%Z /\ (-5 <= j <= 5)%Z.
Proof. intros H. pose proof (proj1 (forallb_forall _ _) disc_small (i, j) H) as B. cbn beta iota in B. rewrite !andb_true_iff, !Z.leb_le in B. lia. Qed.
Lemma in_window_iff a ang : in_window Rwidths Rmath a (window_end Rwidths Rmath a) ang = true <-> in_arc a ang.
Proof.
  unfold in_window, window_end. cbn [m_pi Rmath single Rwidths]. cbn [add sub mul div ofZ zero RNum]. rewrite !orb_true_iff, !andb_true_iff, !orb_true_iff, !andb_true_iff. rewrite <- !(reflect_iff _ _ (Rltb_reflect _ _)). unfold in_arc. pose proof PI_RGT_0.
  match goal with |- context [@ltb ?n ?a ?b] => destruct (Rltb_reflect a b : reflect (a < b) (@ltb n a b)) as [L|L] end; split; intros K.
  - destruct K as [K|K]; [lra|]. right. split; [lra|]. destruct K as [_ [K|K]]; [right|left]; lra.
  - destruct K as [K|K]; [lra|]. right. split; [lra|]. destruct K as [_ [K|K]]; [right|left]; lra.
  - left. destruct K as [K|K]; lra.
  - left. destruct K as [K|K]; lra. Qed.
Lemma window_sum_acc a l : forall sx sy, exists tx ty, arc_sum a l tx ty /\
  fold_left (fun '(sx, sy) '(rx, ry, ang) => if in_window Rwidths Rmath a (window_end Rwidths Rmath a) ang then (sx + rx, sy + ry) else (sx, sy)) l (sx, sy) = (sx + tx, sy + ty).
Proof.
  induction l as [|[[rx ry] ang] l IH]; intros sx sy; cbn [fold_left].
  - exists 0, 0. split; [constructor|]. apply f_equal2; ring.
  - destruct (in_window Rwidths Rmath a (window_end Rwidths Rmath a) ang) eqn:E.
    + destruct (IH (sx + rx) (sy + ry)) as (tx & ty & S & F). exists (rx + tx), (ry + ty). split; [constructor; [now apply in_window_iff|exact S]|]. rewrite F. apply f_equal2; ring.
    + destruct (IH sx sy) as (tx & ty & S & F). exists tx, ty. split; [|exact F]. apply arc_out; [|exact S]. intros I. apply in_window_iff in I. congruence. Qed.
Lemma window_sum_arc a l : exists sx sy, window_sum Rwidths Rmath l a = (sx, sy) /\ arc_sum a l sx sy.
Proof. destruct (window_sum_acc a l 0 0) as (tx & ty & S & F). exists tx, ty. split; [|exact S]. unfold window_sum. etransitivity; [exact F|]. apply f_equal2; ring. Qed.
Lemma arc_sum_fun a l sx sy : arc_sum a l sx sy -> forall sx' sy', arc_sum a l sx' sy' -> sx = sx' /\ sy = sy'.
Proof. induction 1; intros sx' sy' H'; inversion H'; subst; try contradiction; auto; edestruct IHarc_sum; eauto; subst; auto. Qed.
Variable samples : list sample.
Notation step := (15 / 100).
(** [best] and [angle] after the arcs before the [n]-th. *)
Definition so_far (n : nat) (best angle : R) : Prop :=
  (exists k sx sy, (k < n)%nat /\ INR k * step < 2 * PI /\ arc_sum (INR k * step) samples sx sy /\ best = sx * sx + sy * sy /\ 0 < best /\ angle = direction A sx sy /\
    (forall k' sx' sy', (k' < n)%nat -> INR k' * step < 2 * PI -> arc_sum (INR k' * step) samples sx' sy' -> sx' * sx' + sy' * sy' <= best) /\
    (forall k' sx' sy', (k' < k)%nat -> arc_sum (INR k' * step) samples sx' sy' -> sx' * sx' + sy' * sy' < best)) \/
  ((forall k sx sy, (k < n)%nat -> INR k * step < 2 * PI -> arc_sum (INR k * step) samples sx sy -> sx = 0 /\ sy = 0) /\ best = 0 /\ angle = 0).
Lemma earlier n k : (k <= n)%nat -> INR n * step < 2 * PI -> INR k * step < 2 * PI.
Proof. intros H K. apply le_INR in H. lra. Qed.
Lemma so_far_next n best angle : so_far n best angle -> INR n * step < 2 * PI -> forall sx sy, arc_sum (INR n * step) samples sx sy ->
  so_far (S n) (if Rlt_dec best (sx * sx + sy * sy) then sx * sx + sy * sy else best) (if Rlt_dec best (sx * sx + sy * sy) then direction A sx sy else angle).
Proof.
  intros H Hn sx sy AS. destruct (Rlt_dec best (sx * sx + sy * sy)) as [L|L].
  - left. exists n, sx, sy. split; [lia|]. split; [exact Hn|]. split; [exact AS|]. split; [reflexivity|].
    assert (B : 0 <= best /\ forall k' sx' sy', (k' < n)%nat -> arc_sum (INR k' * step) samples sx' sy' -> sx' * sx' + sy' * sy' <= best).
    { destruct H as [(k & tx & ty & _ & _ & _ & _ & P & _ & M & _)|(Z & -> & _)].
      - split; [lra|]. intros k' sx' sy' Hk' S. apply (M k' sx' sy' Hk'); [apply (earlier n); [lia|exact Hn]|exact S].
      - split; [lra|]. intros k' sx' sy' Hk' S. destruct (Z k' sx' sy' Hk') as [-> ->]; [apply (earlier n); [lia|exact Hn]|exact S|]. lra. }
    destruct B as [B0 B]. split; [lra|]. split; [reflexivity|]. split.
    + intros k' sx' sy' Hk' _ S. destruct (Nat.eq_dec k' n) as [->|NE]; [destruct (arc_sum_fun _ _ _ _ AS _ _ S) as [-> ->]; lra|]. pose proof (B k' sx' sy' ltac:(lia) S). lra.
    + intros k' sx' sy' Hk' S. pose proof (B k' sx' sy' Hk' S). lra.
  - destruct H as [(k & tx & ty & Hk & Hk2 & S & E & P & EA & M & M2)|(Z & E & EA)].
    + left. exists k, tx, ty. split; [lia|]. do 5 (split; [assumption|]). split; [|exact M2]. intros k' sx' sy' Hk' K S'. destruct (Nat.eq_dec k' n) as [->|NE]; [destruct (arc_sum_fun _ _ _ _ AS _ _ S') as [-> ->]; lra|]. apply (M k'); [lia|assumption|assumption].
    + right. split; [|auto]. intros k sx' sy' Hk K S'. destruct (Nat.eq_dec k n) as [->|NE]; [destruct (arc_sum_fun _ _ _ _ AS _ _ S') as [<- <-]; nra|]. apply (Z k); [lia|assumption|assumption]. Qed.
Lemma slide_spec fuel : forall n best angle, so_far n best angle -> (n + fuel = 64)%nat -> (1 <= fuel)%nat ->
  exists result, slide Rwidths Rmath A fuel samples (INR n * step) best angle = Ok result /\ main_direction A samples result.
Proof.
  pose proof PI_4 as P4. induction fuel as [|fuel IH]; intros n best angle H E F; [lia|]. cbn [slide]. match goal with |- context [@ltb ?n ?a ?b] => destruct (Rltb_reflect a b : reflect (a < b) (@ltb n a b)) as [L|L] end.
  - change (INR n * step < 2 * PI) in L. assert (fuel <> 0)%nat. { intros ->. replace n with 63%nat in L by lia. replace (INR 63) with 63 in L by (rewrite INR_IZR_INZ; reflexivity). lra. }
    destruct (window_sum_arc (INR n * step) samples) as (sx & sy & W & S). cbn [single Rwidths] in *. change (carrier RNum) with R in *. rewrite W. pose proof (so_far_next n best angle H L sx sy S) as N.
    match goal with |- context [@ltb ?n ?a ?b] => destruct (Rltb_reflect a b : reflect (a < b) (@ltb n a b)) as [L2|L2] end; cbn [add mul RNum] in L2; (destruct (Rlt_dec best (sx * sx + sy * sy)); [|try contradiction]); try contradiction;
      destruct (IH (Datatypes.S n) _ _ N ltac:(lia) ltac:(lia)) as (res & E' & M); exists res; (split; [|exact M]); rewrite S_INR in E'; (etransitivity; [|exact E']); f_equal; unfold lit; cbn [add mul div ofZ RNum]; lra.
  - exists angle. split; [reflexivity|]. assert (L' : 2 * PI <= INR n * step) by (apply Rnot_lt_le; exact L). destruct H as [(k & sx & sy & Hk & Hk2 & S & EB & P & EA & M & M2)|(Z & E2 & EA)].
    + left. exists k, sx, sy. rewrite <- EB. do 4 (split; [assumption|]). split; [|exact M2]. intros k' sx' sy' K S'. apply (M k'); [|assumption|assumption]. destruct (le_lt_dec n k') as [G|G]; [|exact G]. apply le_INR in G. lra.
    + right. split; [|exact EA]. intros k sx sy K S. apply (Z k); [|assumption|assumption]. destruct (le_lt_dec n k) as [G|G]; [|exact G]. apply le_INR in G. lra. Qed.
End orientation.

(** ** Refinement *)
Lemma newton_solves (p1 p2 p3 p4 p5 p6 p7 p8 p9 : R) :
  let d_x := 1 / 2 * (p1 - p2) in let d_y := 1 / 2 * (p3 - p4) in let d_xx := p1 + p2 - 2 * p9 in let d_yy := p3 + p4 - 2 * p9 in let d_xy := 1 / 4 * (p5 + p6) - 1 / 4 * (p7 + p8) in
  let inv := 1 / (d_xx * d_yy - d_xy * d_xy) in
  let d0 := - d_x * (inv * d_yy) + - d_y * (inv * - d_xy) in let d1 := - d_x * (inv * - d_xy) + - d_y * (inv * d_xx) in
  (p1 + p2 - 2 * p9) * (p3 + p4 - 2 * p9) - (p5 + p6 - p7 - p8) / 4 * ((p5 + p6 - p7 - p8) / 4) <> 0 ->
  (p1 - p2) / 2 + (p1 + p2 - 2 * p9) * d0 + (p5 + p6 - p7 - p8) / 4 * d1 = 0 /\ (p3 - p4) / 2 + (p5 + p6 - p7 - p8) / 4 * d0 + (p3 + p4 - 2 * p9) * d1 = 0.
Proof.
  cbv zeta. intros NZ. assert (E : 1 / 4 * (p5 + p6) - 1 / 4 * (p7 + p8) = (p5 + p6 - p7 - p8) / 4) by field. rewrite E. revert NZ. generalize ((p5 + p6 - p7 - p8) / 4) (p1 + p2 - 2 * p9) (p3 + p4 - 2 * p9). intros a b c NZ. split; field; exact NZ. Qed.
Section refine.
Variables (o : rsettings) (A : angles RNum) (levels : list rlevel) (class : nat) (e : rlevel) (x y : nat).
Hypotheses (WS : well_sized e) (GS : gradient_sized e) (SC : 1 / 2 <= esigma e * derivative_factor o / 2 ^ octave e) (M : maximum_of o levels class e x y).
Notation w := (g_width (Ldet e)).
Notation h := (g_height (Ldet e)).
Notation ratio := (2 ^ octave e).
Lemma ratio_pos : 1 <= ratio.
Proof. apply pow_R1_Rle. lra. Qed.
Lemma centre_back n : centre (octave e) n / ratio = INR n + 1 / 2 - / (2 * ratio).
Proof. unfold centre. pose proof ratio_pos. field. lra. Qed.
Lemma half_ratio : 0 < / (2 * ratio) <= 1 / 2.
Proof. pose proof ratio_pos. split; [apply Rinv_0_lt_compat; lra|]. replace (1 / 2) with (/ 2) by lra. apply Rinv_le_contravar; lra. Qed.
Lemma centre_round n : Rround (centre (octave e) n / ratio) = Z.of_nat n.
Proof. rewrite centre_back. pose proof half_ratio. pose proof (pos_INR n). apply round_nat; lra. Qed.
Lemma orientation_ok kp dx dy : kp = keypoint_at o class e x y -> Rabs dx <= 1 -> Rabs dy <= 1 ->
  exists s angle, integer_scale o e s /\
    main_orientation Rwidths Rmath A e (moved_by kp dx dy 0) = Ok angle /\
    main_direction A (map (gradient_sample A e (INR x + dx + 1 / 2 - / (2 * ratio)) (INR y + dy + 1 / 2 - / (2 * ratio)) s) disc) angle.
Proof.
  intros -> Dx Dy. destruct M as (_ & _ & s & IS & (C1 & C2)). pose proof ratio_pos as RP. pose proof half_ratio as HR.
  assert (S1 : (1 <= s)%nat). { destruct s as [|s']; [|lia]. exfalso. unfold integer_scale in IS. cbn [INR] in IS. lra. }
  set (xf := INR x + dx + 1 / 2 - / (2 * ratio)). set (yf := INR y + dy + 1 / 2 - / (2 * ratio)).
  unfold main_orientation. cbv zeta. unfold moved_by, keypoint_at. cbn [kp_x kp_y kp_size kp_angle kp_octave m_round Rmath]. change (single Rwidths) with RNum. rewrite ratio_pow.
  assert (EX : @div RNum (centre (octave e) x + dx * ratio) ratio = xf). { change (@eq R ((centre (octave e) x + dx * ratio) / ratio) xf). unfold xf, centre. field. lra. }
  assert (EY : @div RNum (centre (octave e) y + dy * ratio) ratio = yf). { change (@eq R ((centre (octave e) y + dy * ratio) / ratio) yf). unfold yf, centre. field. lra. }
  rewrite EX, EY.
  assert (ES : Rround (@div RNum (@mul RNum (lit 1 2) (2 * (esigma e * derivative_factor o))) ratio) = Z.of_nat s).
  { assert (E : @div RNum (@mul RNum (lit 1 2) (2 * (esigma e * derivative_factor o))) ratio = esigma e * derivative_factor o / ratio). { change (@eq R (1 / 2 * (2 * (esigma e * derivative_factor o)) / ratio) (esigma e * derivative_factor o / ratio)). field. lra. } rewrite E. apply round_nat; [lra|exact IS]. }
  cbn [double Rwidths] in *. rewrite ES, <- INR_IZR_INZ.
  assert (SM : mapM (sample_gradient Rwidths Rmath A e xf yf (INR s)) disc = Ok (map (gradient_sample A e xf yf s) disc)).
  { assert (Q : forall l, (forall p, In p l -> In p disc) -> mapM (sample_gradient Rwidths Rmath A e xf yf (INR s)) l = Ok (map (gradient_sample A e xf yf s) l)); [|apply Q; auto].
    destruct WS as (W2 & H2 & _), GS as (Sx & Sy). assert (SQ : 1 <= sqrt 2) by (rewrite <- sqrt_1; apply sqrt_le_1; lra). assert (SI : 1 <= INR s) by (change 1 with (INR 1); now apply le_INR).
    assert (RC : 10 * INR s <= 10 * sqrt 2 * INR s) by nra. assert (AB : forall d, Rabs d <= 1 -> -1 <= d <= 1) by (intros d; unfold Rabs; destruct (Rcase_abs d); lra). apply AB in Dx, Dy.
    induction l as [|[i j] l IH]; intros I; cbn [mapM map]; [reflexivity|]. destruct (disc_bound i j) as [[I1 I2] [J1 J2]]; [apply I; now left|]. apply IZR_le in I1, I2, J1, J2.
    assert (PI1 : IZR i * INR s <= 5 * INR s) by (apply Rmult_le_compat_r; lra). assert (PJ : IZR j * INR s <= 5 * INR s) by (apply Rmult_le_compat_r; lra).
    rewrite (sample_ok A w h) by (try assumption; try (change (single Rwidths) with RNum in *; lia); unfold xf, yf; change (single Rwidths) with RNum in *; lra). cbn [bind]. rewrite IH by (intros; apply I; now right). reflexivity. }
  match goal with |- context [bind ?m _] => replace m with (Ok (map (gradient_sample A e xf yf s) disc)) by (symmetry; exact SM) end. 
  exists s. destruct (slide_spec A (map (gradient_sample A e xf yf s) disc) 64 0 0 0) as (angle & E & D); [right; split; [intros; lia|auto]|lia|lia|]. exists angle. split; [exact IS|]. split; [|exact D]. cbn [bind]. change slide_fuel with 64%nat. cbn [INR] in E. rewrite Rmult_0_l in E. exact E. Qed.
Lemma refine_spec kp : kp = keypoint_at o class e x y ->
  exists r dx dy, refine_keypoint Rwidths Rmath A levels kp = Ok r /\ (curvature (Ldet e) x y <> 0 -> stationary (Ldet e) x y dx dy) /\
    (if Rle_dec (Rmax (Rabs dx) (Rabs dy)) 1 then
       exists s angle, integer_scale o e s /\ r = Some (moved_by kp dx dy angle) /\
         main_direction A (map (gradient_sample A e (INR x + dx + 1 / 2 - / (2 * ratio)) (INR y + dy + 1 / 2 - / (2 * ratio)) s) disc) angle
     else r = None).
Proof.
  intros Ek. pose proof M as (EN & (BD & _ & _) & _). destruct BD as (X1 & X2 & Y1 & Y2). destruct WS as (W2 & H2 & S).
  unfold refine_keypoint. cbv zeta. change (single Rwidths) with RNum in *. assert (KO : kp_octave kp = octave e) by (now rewrite Ek). assert (KX : kp_x kp = centre (octave e) x) by (now rewrite Ek). assert (KY : kp_y kp = centre (octave e) y) by (now rewrite Ek).
  assert (KC : kp_class kp = class) by (now rewrite Ek). assert (KA : kp_angle kp = 0) by (now rewrite Ek). rewrite KO, KX, KY, KC, KA. rewrite ratio_pow.
  assert (TX : forall n, to_usize Rmath (m_round Rmath (@div RNum (centre (octave e) n) ratio)) = n). { intros n. unfold to_usize. cbn [m_trunc m_round Rmath div RNum]. rewrite Rtrunc_IZR, centre_round. apply Nat2Z.id. }
  rewrite !TX. unfold read. rewrite EN. cbn [unwrap bind]. rewrite !(get_pixel w h (Ldet e)) by (try assumption; change (single Rwidths) with RNum in *; lia). cbn [bind].
  replace (1 <=? x)%nat with true by (symmetry; now apply Nat.leb_le). replace (1 <=? y)%nat with true by (symmetry; now apply Nat.leb_le). cbn [assert_ bind].
  match goal with |- context [andb (leb (abs_ ?a) one) _] => set (d0 := a) end. match goal with |- context [andb _ (leb (abs_ ?a) one)] => set (d1 := a) end.
  assert (ST : curvature (Ldet e) x y <> 0 -> stationary (Ldet e) x y d0 d1).
  { intros NZ. exact (newton_solves (pixel (Ldet e) (x + 1) y) (pixel (Ldet e) (x - 1) y) (pixel (Ldet e) x (y + 1)) (pixel (Ldet e) x (y - 1)) (pixel (Ldet e) (x + 1) (y + 1)) (pixel (Ldet e) (x - 1) (y - 1)) (pixel (Ldet e) (x + 1) (y - 1)) (pixel (Ldet e) (x - 1) (y + 1)) (pixel (Ldet e) x y) NZ). }
  exists (if Rle_dec (Rmax (Rabs d0) (Rabs d1)) 1 then match main_orientation Rwidths Rmath A e (moved_by kp d0 d1 0) with Ok angle => Some (moved_by kp d0 d1 angle) | _ => None end else None), d0, d1.
  assert (MX : Rmax (Rabs d0) (Rabs d1) <= 1 <-> Rabs d0 <= 1 /\ Rabs d1 <= 1). { split; [|intros [? ?]; now apply Rmax_lub]. intros H. pose proof (Rmax_l (Rabs d0) (Rabs d1)). pose proof (Rmax_r (Rabs d0) (Rabs d1)). lra. }
  assert (LB : (@leb RNum (abs_ d0) one && @leb RNum (abs_ d1) one)%bool = if Rle_dec (Rmax (Rabs d0) (Rabs d1)) 1 then true else false).
  { destruct (Rle_dec (Rmax (Rabs d0) (Rabs d1)) 1) as [L|L].
    - apply MX in L as [L1 L2]. apply andb_true_iff. split; apply (reflect_iff _ _ (Rleb_reflect _ _)); assumption.
    - apply not_true_is_false. intros K. apply L, MX. apply andb_true_iff in K as [K1 K2]. split; [apply (reflect_iff _ _ (Rleb_reflect (Rabs d0) 1)); exact K1|apply (reflect_iff _ _ (Rleb_reflect (Rabs d1) 1)); exact K2]. }
  match goal with |- context [if ?b then assert_ _ _ else _] => replace b with (if Rle_dec (Rmax (Rabs d0) (Rabs d1)) 1 then true else false) by (symmetry; exact LB) end.
  split; [|split; [exact ST|]].
  2:{ destruct (Rle_dec (Rmax (Rabs d0) (Rabs d1)) 1) as [L|L]; [|reflexivity]. apply MX in L as [L1 L2]. destruct (orientation_ok kp d0 d1 Ek L1 L2) as (s & angle & IS & E & D). rewrite E. exists s, angle. auto. }
  destruct (Rle_dec (Rmax (Rabs d0) (Rabs d1)) 1) as [L|L]; [|reflexivity]. apply MX in L as [L1 L2]. destruct (orientation_ok kp d0 d1 Ek L1 L2) as (s & angle & IS & E & D).
  match goal with |- assert_ ?b _ = _ => replace b with true end. 2:{ symmetry. cbn [eqb RNum zero]. unfold Reqb. destruct (Req_EM_T 0 0); [reflexivity|contradiction]. }
  cbn [assert_].
  match goal with |- context [main_orientation Rwidths Rmath A e ?k] => assert (EK : k = moved_by kp d0 d1 0) end.
  { unfold moved_by, to_image. change (single Rwidths) with RNum. rewrite KO, KX, KY, KC, ?ratio_pow. unfold centre, of_nat, lit. cbn [add sub mul div one ofZ RNum]. rewrite <- !INR_IZR_INZ. f_equal; lra. }
  rewrite EK, E. reflexivity. Qed.
End refine.
