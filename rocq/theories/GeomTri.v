(** Facts about triangulation from many views and by linear systems. *)
From Coq Require Import Reals Lra Psatz List ZArith Bool Lia.
From Verif Require Import Num Lin LinSpec LinFacts Core CoreSpec CoreFacts DesignFacts Geom GeomSpec GeomFacts GeomEpi.
Import ListNotations.
Open Scope R_scope.

Lemma forallb_same {A} (f g : A -> bool) l : (forall x, f x = g x) -> forallb f l = forallb g l.
Proof. intros H. induction l as [|x l IH]; cbn; [reflexivity|]. rewrite H, IH. reflexivity. Qed.

(** ** The smallest eigenvalue *)
Lemma float_ord_ltb_R (a b : R) : float_ord_ltb (N := RNum) a b = Rltb a b.
Proof.
  unfold float_ord_ltb. cbn [isnan RNum]. change (ltb (n := RNum) a b) with (Rltb a b). change (eqb (n := RNum) a b) with (Reqb a b). change (signneg (n := RNum) a) with (Rltb a 0). change (signneg (n := RNum) b) with (Rltb b 0).
  destruct (Rltb a b); [reflexivity|]. cbn [orb]. destruct (Reqb a b) eqn:E; [|reflexivity]. apply Reqb_spec in E. rewrite E. destruct (Rltb b 0); reflexivity.
Qed.
Lemma min_float_by_spec {X} (key : X -> R) l : forall best,
  (min_float_by (N := RNum) key best l = best \/ In (min_float_by (N := RNum) key best l) l) /\
  key (min_float_by (N := RNum) key best l) <= key best /\ forall z, In z l -> key (min_float_by (N := RNum) key best l) <= key z.
Proof.
  induction l as [|a l IH]; intros best; cbn [min_float_by]; [split; [left; reflexivity|]; split; [lra|intros _ []]|].
  rewrite float_ord_ltb_R. destruct (Rltb (key a) (key best)) eqn:E; [apply Rltb_spec in E|apply Rltb_false in E].
  - destruct (IH a) as (H1 & H2 & H3). split; [|split].
    + right. destruct H1 as [->|H1]; [left; reflexivity|right; exact H1].
    + lra.
    + intros z [<-|Hz]; [exact H2|apply H3, Hz].
  - destruct (IH best) as (H1 & H2 & H3). split; [|split].
    + destruct H1 as [H1|H1]; [left; exact H1|right; right; exact H1].
    + exact H2.
    + intros z [<-|Hz]; [lra|apply H3, Hz].
Qed.

(** A symmetric positive matrix with a kernel: the smallest eigenvalue's vector is in it. *)
Lemma min_eigen_kernel (M : mat4 RNum) (l : list (eigenpair RNum)) x0 v lam :
  (forall x y, hdot x (hmvec M y) = hdot (hmvec M x) y) -> (forall x, 0 <= hdot x (hmvec M x)) -> eigen_correct M l ->
  x0 <> hzero -> hmvec M x0 = hzero -> In (lam, v) l -> (forall lam' v', In (lam', v') l -> lam <= lam') ->
  hmvec M v = hzero /\ v <> hzero.
Proof.
  intros Hs Hpos (Hl & He & Hc) Hx E Hin Hmin. destruct (He lam v Hin) as [Ev Hu]. split; [|intros ->; revert Hu; lin_unfold; lra].
  destruct (Req_dec lam 0) as [->|Hne]; [rewrite Ev; lin|]. exfalso. apply Hx, Hc. intros lam' v' Hin'. destruct (He lam' v' Hin') as [Ev' Hu'].
  pose proof (Hs v' x0) as H. rewrite E, hdot_zero_r, Ev', hdot_scale_l in H. symmetry in H. apply Rmult_integral in H as [H|H]; [|exact H].
  exfalso. pose proof (Hmin lam' v' Hin') as Hm. rewrite H in Hm. pose proof (Hpos v) as Hp. rewrite Ev, hdot_scale_r, Hu in Hp. lra.
Qed.

(** ** The kernel of the design matrix *)
Lemma on_line_direction (p : riso) (q b : rvec3) : rigid p -> on_line p q b -> exists s : R, vsub q (centre p) = vscale s (direction (p, b)).
Proof. intros Hp [s E]. exists s. rewrite <- (direction_point p q Hp), E, mvec_scale. reflexivity. Qed.
Lemma sees_on_line (p : riso) (q b : rvec3) : sees p q b -> on_line p q b /\ unit_vec b.
Proof. intros [Hn ->]. split; [exists (norm (iso_point p q)); symmetry; apply normalize_scale, Hn|apply normalize_unit, Hn]. Qed.
Lemma kernel_direction (p : riso) (b : rvec3) (x : rvec4) : rigid p -> off_ray p b x = vzero ->
  exists s : R, vsub (xyz x) (vscale (hw x) (centre p)) = vscale s (direction (p, b)).
Proof.
  intros Hp H. apply off_ray_zero in H. set (s := dot b _) in H. exists s. destruct (pose_output_coords p x) as [Hout _]. rewrite Hout in H. clearbody s.
  apply (f_equal (mvec (mtrans (rot p)))) in H. rewrite mvec_add, (rotation_back _ _ Hp), !mvec_scale in H. unfold direction. cbn [fst snd]. rewrite <- H. unfold centre. rewrite mvec_neg. generalize (mvec (mtrans (rot p)) (trans p)) (xyz x) (hw x). clear. lin.
Qed.
Lemma independent_zero (u v : rvec3) (x y : R) : cross u v <> vzero -> vscale x u = vscale y v -> x = 0 /\ y = 0.
Proof.
  intros Hc E. assert (0 < norm2 (cross u v)) as Hn by apply norm2_pos, Hc. split.
  - apply (f_equal (fun z => dot (cross z v) (cross u v))) in E. rewrite !cross_scale_l, cross_self in E. replace (vscale y (vzero : rvec3)) with (vzero : rvec3) in E by lin. rewrite dot_zero_l, dot_scale_l, <- norm2_dot in E. nra.
  - apply (f_equal (fun z => dot (cross u z) (cross u v))) in E. rewrite !cross_scale_r, cross_self in E. replace (vscale x (vzero : rvec3)) with (vzero : rvec3) in E by lin. rewrite dot_zero_l, dot_scale_l, <- norm2_dot in E. nra.
Qed.
Lemma of_point_not_zero (q : rvec3) : of_point q <> (hzero : rvec4).
Proof. intros E. injection E. intros. lra. Qed.

(** Two rays which are not parallel determine the point. *)
Lemma lines_determine (p1 p2 : riso) (b1 b2 q : rvec3) (x : rvec4) : rigid p1 -> rigid p2 -> on_line p1 q b1 -> on_line p2 q b2 ->
  cross (direction (p1, b1)) (direction (p2, b2)) <> vzero -> off_ray p1 b1 x = vzero -> off_ray p2 b2 x = vzero -> x <> hzero ->
  hw x <> 0 /\ x = hscale (hw x) (of_point q).
Proof.
  intros Hp1 Hp2 L1 L2 Hc K1 K2 Hx. destruct (on_line_direction _ _ _ Hp1 L1) as [s1 E1]. destruct (on_line_direction _ _ _ Hp2 L2) as [s2 E2].
  destruct (kernel_direction _ _ _ Hp1 K1) as [r1 F1]. destruct (kernel_direction _ _ _ Hp2 K2) as [r2 F2].
  set (d1 := direction (p1, b1)) in *. set (d2 := direction (p2, b2)) in *. set (w := hw x) in *. set (v := xyz x) in *.
  assert (vsub v (vscale w q) = vscale (r1 - w * s1) d1) as G1.
  { transitivity (vsub (vsub v (vscale w (centre p1))) (vscale w (vsub q (centre p1)))); [generalize v q (centre p1) w; clear; lin|]. rewrite E1, F1. generalize d1; clear; lin. }
  assert (vsub v (vscale w q) = vscale (r2 - w * s2) d2) as G2.
  { transitivity (vsub (vsub v (vscale w (centre p2))) (vscale w (vsub q (centre p2)))); [generalize v q (centre p2) w; clear; lin|]. rewrite E2, F2. generalize d2; clear; lin. }
  destruct (independent_zero d1 d2 _ _ Hc (eq_trans (eq_sym G1) G2)) as [Z _]. rewrite Z, vscale_zero in G1. apply vsub_zero in G1.
  assert (x = hscale w (of_point q)) as Ex. { destruct x as [x1 x2 x3 x4]. unfold v, w in *. cbn [hw] in *. revert G1. clear. destruct q as [q1 q2 q3]. lin_unfold. intros E. injection E as -> -> ->. lin_split; rring. }
  split; [|exact Ex]. intros Ew. apply Hx. rewrite Ex, Ew. clear. lin.
Qed.

(** ** [LinearEigenTriangulator] *)
Lemma linear_eigen_few eigen (l : list (observation RNum)) : (length l < 2)%nat -> linear_eigen eigen l = None.
Proof. intros H. unfold linear_eigen. apply Nat.ltb_lt in H. rewrite H. reflexivity. Qed.

Section linear.
Context (eigen : mat4 RNum -> option (list (eigenpair RNum))) (l : list (observation RNum)) (q : rvec3).
Context (Hq : q <> vzero) (Hl : forall p b, In (p, b) l -> rigid p /\ unit_vec b /\ on_line p q b).
Context (Hi : exists o1 o2, In o1 l /\ In o2 l /\ cross (direction o1) (direction o2) <> vzero).

Lemma linear_length : (2 <= length l)%nat.
Proof.
  destruct Hi as (o1 & o2 & H1 & H2 & Hc). destruct l as [|a [|b l']]; cbn [length]; [destruct H1|exfalso|lia]. destruct H1 as [<-|[]], H2 as [<-|[]]. apply Hc, cross_self.
Qed.
Lemma linear_kernel : hmvec (design l) (of_point q) = hzero.
Proof.
  apply design_kernel. intros p b Hin. destruct (Hl p b Hin) as (Hp & Hb & s & E). apply (off_ray_along p b (of_point q) s Hb). rewrite pose_output_point, xyz_of_point. exact E.
Qed.
Lemma linear_unique (x : rvec4) : hmvec (design l) x = hzero -> x <> hzero -> from_homogeneous x = from_point q.
Proof.
  intros K Hx. pose proof (proj1 (design_kernel l x) K) as K'. destruct Hi as ([p1 b1] & [p2 b2] & H1 & H2 & Hc). destruct (Hl _ _ H1) as (R1 & _ & L1). destruct (Hl _ _ H2) as (R2 & _ & L2).
  destruct (lines_determine p1 p2 b1 b2 q x R1 R2 L1 L2 Hc (K' _ _ H1) (K' _ _ H2) Hx) as [Hw ->]. apply from_homogeneous_multiple; [|left; cbn; lra]. exact Hw.
Qed.
Lemma linear_point es : eigen (design l) = Some es -> eigen_correct (design l) es -> linear_eigen eigen l = checked l (from_point q).
Proof.
  intros He Hc. unfold linear_eigen. pose proof linear_length as Hlen. assert (Nat.ltb (length l) 2 = false) as -> by (apply Nat.ltb_ge; exact Hlen). rewrite He.
  destruct es as [|e es']; [destruct Hc as [Hn _]; congruence|]. destruct (min_float_by_spec (X := eigenpair RNum) fst es' e) as (H1 & H2 & H3). set (r := @min_float_by RNum (eigenpair RNum) fst e es') in *.
  destruct (min_eigen_kernel (design l) (e :: es') (of_point q) (snd r) (fst r) (design_symmetric l) (design_positive l) Hc (of_point_not_zero q) linear_kernel) as [K Hx].
  - destruct H1 as [->|H1]; [left; destruct e; reflexivity|right; destruct r; exact H1].
  - intros lam' v' [->|Hin]; [exact H2|apply (H3 _ Hin)].
  - change (checked l (from_homogeneous (snd r)) = checked l (from_point q)). rewrite (linear_unique _ K Hx). reflexivity.
Qed.
Lemma checked_point : checked l (from_point q) = if forallb (fun o => negb (Rltb (dot (direction o) q) 0)) l then Some (from_point q) else None.
Proof.
  unfold checked. change (h_finite (from_point q : rvec4)) with true. cbv iota. erewrite forallb_same; [reflexivity|]. intros [p b]. rewrite direction_turn, positive_R. cbn [fst snd]. f_equal. unfold bearing. destruct (from_point_coords q Hq) as [-> _].
  unfold normalize. rewrite vdiv_scale, dot_scale_r. pose proof (norm_pos q Hq) as Hn. apply Rinv_0_lt_compat in Hn. set (k := / norm q) in *. set (x := dot _ q).
  destruct (Rltb x 0) eqn:E; [apply Rltb_spec in E; apply Rltb_spec; nra|apply Rltb_false in E; apply Rltb_false; nra].
Qed.
Lemma linear_exact es : eigen (design l) = Some es -> eigen_correct (design l) es ->
  ((forall o, In o l -> 0 <= dot (direction o) q) -> linear_eigen eigen l = Some (from_point q)) /\
  ((exists o, In o l /\ dot (direction o) q < 0) -> linear_eigen eigen l = None).
Proof.
  intros He Hc. rewrite (linear_point es He Hc), checked_point. split.
  - intros H. rewrite (proj2 (forallb_forall _ l)); [reflexivity|]. intros o Ho. apply negb_true_iff, Rltb_false, H, Ho.
  - intros (o & Ho & Hn). match goal with |- (if ?b then _ else _) = _ => destruct b eqn:E end; [|reflexivity]. rewrite forallb_forall in E. specialize (E o Ho). apply negb_true_iff, Rltb_false in E. lra.
Qed.
End linear.

(** ** [SineL1Triangulator] *)
Definition gradient_sum (l : list (observation RNum)) (q : rvec3) : rvec3 :=
  fold_right (fun o s => vadd (point_gradient (vsub (centre (fst o)) q) (direction o)) s) vzero l.
Lemma gradient_fold (l : list (observation RNum)) (q acc : rvec3) :
  fold_left (fun (acc : rvec3) (o : observation RNum) => let pose := iso_inv (fst o) in vadd acc (point_gradient (vsub (trans pose) q) (turn pose (snd o)))) l acc = vadd acc (gradient_sum l q).
Proof.
  revert acc. induction l as [|o l IH]; intros acc; cbn [fold_left gradient_sum fold_right]; [symmetry; apply vadd_zero_r|]. rewrite IH. cbv zeta. fold (gradient_sum l q). rewrite centre_inv. destruct o as [p b]. rewrite direction_turn. cbn [fst snd]. rewrite vadd_assoc. reflexivity.
Qed.
Lemma refine_step (l : list (observation RNum)) (scale eps2 : R) n (q : rvec3) :
  sine_l1_refine l scale eps2 (S n) q =
    let delta := vscale scale (gradient_sum l q) in
    if Rltb (norm2 delta / norm2 (vadd q delta)) eps2 then vadd q delta else sine_l1_refine l scale eps2 n (vadd q delta).
Proof. cbn [sine_l1_refine]. rewrite gradient_fold, vadd_zero_l. reflexivity. Qed.
Lemma refine_fixed (l : list (observation RNum)) (scale eps2 : R) n (q : rvec3) : gradient_sum l q = vzero -> sine_l1_refine l scale eps2 n q = q.
Proof.
  intros H. induction n as [|n IH]; [reflexivity|]. rewrite refine_step, H. replace (vscale scale (vzero : rvec3)) with (vzero : rvec3) by lin. cbv zeta. rewrite vadd_zero_r, IH. destruct (Rltb _ _); reflexivity.
Qed.
Lemma gradient_sum_exact (l : list (observation RNum)) (q : rvec3) : (forall p b, In (p, b) l -> rigid p /\ unit_vec b /\ on_line p q b) -> gradient_sum l q = vzero.
Proof.
  induction l as [|[p b] l IH]; intros H; cbn [gradient_sum fold_right]; [reflexivity|]. fold (gradient_sum l q). rewrite IH by (intros; apply H; right; assumption). rewrite vadd_zero_r. cbn [fst snd].
  destruct (H p b (or_introl eq_refl)) as (Hp & Hb & L). apply point_gradient_zero; [apply rotation_unit; [apply rotation_mtrans, Hp|exact Hb]|]. destruct (on_line_direction p q b Hp L) as [s E]. exists (- s). transitivity (vneg (vsub q (centre p))); [generalize (centre p); clear; lin|]. rewrite E. generalize (direction (p, b)). clear. lin.
Qed.
Lemma sine_l1_exact eigen eps rate n (l : list (observation RNum)) q es : q <> vzero ->
  (forall p b, In (p, b) l -> rigid p /\ unit_vec b /\ on_line p q b) -> (exists o1 o2, In o1 l /\ In o2 l /\ cross (direction o1) (direction o2) <> vzero) ->
  eigen (design l) = Some es -> eigen_correct (design l) es -> sine_l1 eigen eps rate n l = linear_eigen eigen l.
Proof.
  intros Hq Hl Hi He Hc. unfold sine_l1. rewrite (linear_point eigen l q Hl Hi es He Hc), (checked_point l q Hq). match goal with |- context [if ?b then _ else _] => destruct b end; [|reflexivity]. rewrite (point_from_point q Hq), refine_fixed; [reflexivity|]. apply gradient_sum_exact, Hl.
Qed.

(** Refinement does not increase the sum of squared distances to the rays. *)
Lemma square_error_gradients (l : list (observation RNum)) q : (forall o, In o l -> unit_vec (direction o)) ->
  square_error l q = fold_right (fun o s => norm2 (point_gradient (vsub (centre (fst o)) q) (direction o)) + s) 0 l.
Proof.
  intros H. induction l as [|o l IH]; [reflexivity|]. cbn [square_error fold_right]. fold (square_error l q). rewrite IH by (intros; apply H; right; assumption). f_equal.
  rewrite point_gradient_norm2 by (apply H; left; reflexivity). generalize (centre (fst o)) (direction o). clear. lin.
Qed.
Lemma gradient_step (c q d delta : rvec3) : unit_vec d ->
  norm2 (point_gradient (vsub c (vadd q delta)) d) <= norm2 (point_gradient (vsub c q) d) - 2 * dot delta (point_gradient (vsub c q) d) + norm2 delta.
Proof.
  intros Hd. set (g := point_gradient (vsub c q) d).
  replace (point_gradient (vsub c (vadd q delta)) d) with (vsub g (point_gradient delta d)) by (unfold g, point_gradient; generalize c q d delta; clear; lin).
  rewrite norm2_sub. assert (dot g (point_gradient delta d) = dot delta g) as ->.
  { unfold point_gradient at 1. rewrite dot_sub_r, dot_scale_r. assert (dot g d = 0) as -> by exact (point_gradient_orth _ d Hd). rewrite (dot_comm g delta). rring. }
  assert (norm2 (point_gradient delta d) <= norm2 delta); [|rlra]. rewrite (point_gradient_norm2 delta d Hd), lagrange. unfold unit_vec in Hd. rewrite Hd. set (y := dot delta d). assert (0 <= y * y) by nra. rlra.
Qed.
Lemma step_error (l : list (observation RNum)) q delta : (forall o, In o l -> unit_vec (direction o)) ->
  square_error l (vadd q delta) <= square_error l q - 2 * dot delta (gradient_sum l q) + INR (length l) * norm2 delta.
Proof.
  intros H. rewrite !square_error_gradients by exact H. induction l as [|o l IH].
  - cbn [fold_right gradient_sum length INR]. rewrite dot_zero_r. rlra.
  - cbn [fold_right gradient_sum]. fold (gradient_sum l q). rewrite dot_add_r. change (length (o :: l)) with (S (length l)). rewrite S_INR. specialize (IH (fun o' Ho => H o' (or_intror Ho))).
    pose proof (gradient_step (centre (fst o)) q (direction o) delta (H o (or_introl eq_refl))). set (x := dot delta (point_gradient _ _)) in *. set (y := dot delta (gradient_sum l q)) in *. set (z := norm2 delta) in *. rlra.
Qed.
Lemma refine_error (l : list (observation RNum)) rate eps2 n q : (forall o, In o l -> unit_vec (direction o)) -> 0 <= rate <= 2 ->
  square_error l (sine_l1_refine l (rate / INR (length l)) eps2 n q) <= square_error l q.
Proof.
  intros H Hr. revert q. induction n as [|n IH]; intros q; [cbn; lra|]. rewrite refine_step. cbv zeta. set (delta := vscale _ _).
  assert (square_error l (vadd q delta) <= square_error l q) as Hs.
  { pose proof (step_error l q delta H) as Hst. destruct l as [|o l']; [cbn; lra|]. set (l := o :: l') in *. assert (0 < INR (length l)) as Hn by (apply lt_0_INR; cbn; lia). unfold delta in Hst at 2 3. rewrite dot_scale_l, norm2_scale, <- norm2_dot in Hst.
    set (k := INR (length l)) in *. pose proof (norm2_nonneg (gradient_sum l q)) as Hg. set (g := norm2 (gradient_sum l q)) in *.
    replace (square_error l q - 2 * (rate / k * g) + k * (rate / k * (rate / k) * g)) with (square_error l q - rate / k * (2 - rate) * g) in Hst by (rfield; lra).
    assert (0 <= rate / k) by (unfold Rdiv; apply Rmult_le_pos; [lra|left; apply Rinv_0_lt_compat; lra]). assert (0 <= rate / k * (2 - rate) * g) by (apply Rmult_le_pos; [apply Rmult_le_pos; lra|lra]). lra. }
  destruct (Rltb _ _); [exact Hs|]. exact (Rle_trans _ _ _ (IH _) Hs).
Qed.

(** ** [RelativeDltTriangulator] *)
Lemma hgram_form (M : mat4 RNum) x y : hdot x (hmvec (hgram M) y) = hdot (hmvec M x) (hmvec M y).
Proof. destruct M as [[] [] [] []], x, y. unfold hgram. lin_unfold. rring. Qed.
Lemma hgram_kernel (M : mat4 RNum) x : hmvec (hgram M) x = hzero <-> hmvec M x = hzero.
Proof.
  split; intros E.
  - apply hdot_self. rewrite <- hgram_form, E. apply hdot_zero_r.
  - apply hdot_self. rewrite hgram_form, E. apply hdot_zero_r.
Qed.
Lemma dlt_kernel (p : riso) (a b : rvec3) (x : rvec4) : vz a <> 0 -> vz b <> 0 ->
  (hmvec (dlt_design p a b) x = hzero <-> xyz x = vscale (hz x / vz a) a /\ xyz (pose_output p x) = vscale (hz (pose_output p x) / vz b) b).
Proof.
  intros Ha Hb. set (y := pose_output p x).
  assert (hmvec (dlt_design p a b) x = V4 (vx a * hz x - vz a * hx x) (vy a * hz x - vz a * hy x) (vx b * hz y - vz b * hx y) (vy b * hz y - vz b * hy y)) as ->.
  { unfold dlt_design, y, pose_output. clear. lin. }
  clearbody y. destruct x as [x1 x2 x3 x4], y as [y1 y2 y3 y4], a as [a1 a2 a3], b as [b1 b2 b3]. cbn [vz] in Ha, Hb. lin_unfold. split.
  - intros E. injection E as E1 E2 E3 E4. split; lin_split.
    + apply (Rmult_eq_reg_r a3); [|exact Ha]. transitivity (a1 * x3); [rlra|rfield; exact Ha].
    + apply (Rmult_eq_reg_r a3); [|exact Ha]. transitivity (a2 * x3); [rlra|rfield; exact Ha].
    + rfield. exact Ha.
    + apply (Rmult_eq_reg_r b3); [|exact Hb]. transitivity (b1 * y3); [rlra|rfield; exact Hb].
    + apply (Rmult_eq_reg_r b3); [|exact Hb]. transitivity (b2 * y3); [rlra|rfield; exact Hb].
    + rfield. exact Hb.
  - intros [E1 E2]. injection E1 as -> -> _. injection E2 as -> -> _. lin_split; rfield; assumption.
Qed.
Lemma scale_by_z (a : rvec3) (s : R) : vz a <> 0 -> vscale s a = vscale (vz (vscale s a) / vz a) a.
Proof. destruct a as [x y z]. cbn [vz]. intros H. lin_unfold. lin_split; rfield; exact H. Qed.
Lemma svd4_kernel (M vt : mat4 RNum) x0 : svd4_correct M vt -> x0 <> hzero -> hmvec M x0 = hzero -> hmvec M (hrow4 vt) = hzero /\ hrow4 vt <> hzero.
Proof.
  intros (s1 & s2 & s3 & s4 & H4 & H2 & Hc) Hx E. rewrite <- hgram_kernel.
  apply (min_eigen_kernel (hgram M) _ x0 (hrow4 vt) (s4 * s4)) in Hc; try assumption.
  - intros x y. rewrite (hdot_comm _ y), !hgram_form. apply hdot_comm.
  - intros x. rewrite hgram_form. apply hdot_self.
  - apply hgram_kernel, E.
  - right; right; right; left; reflexivity.
  - intros lam v [H|[H|[H|[H|[]]]]]; injection H as <- _; nra.
Qed.
Lemma relative_dlt_exact svd (p : riso) (q b : rvec3) vt : rigid p -> q <> vzero -> sees p q b -> off_baseline p q -> vz q <> 0 -> vz b <> 0 ->
  svd (dlt_design p (normalize q) b) = Some vt -> svd4_correct (dlt_design p (normalize q) b) vt ->
  (acute p q -> relative_dlt svd p (normalize q) b = Some (from_point q)) /\ (~ acute p q -> relative_dlt svd p (normalize q) b = None).
Proof.
  intros Hp Hq Hb Ho Hzq Hzb Hs Hc. destruct (exact_facts p q b Hp Hq Hb Ho) as (Ha & Hd & Hcr & _). destruct (sees_on_line p q b Hb) as [L Hub].
  assert (vz (normalize q) <> 0) as Hza. { unfold normalize. rewrite vdiv_scale. cbn [vz vscale]. rnum. apply Rmult_integral_contrapositive_currified; [exact Hzq|]. apply Rinv_neq_0_compat. pose proof (norm_pos q Hq). lra. }
  assert (forall x : rvec4, hmvec (dlt_design p (normalize q) b) x = hzero -> off_ray iso_id (normalize q) x = vzero /\ off_ray p b x = vzero) as Hk.
  { intros x K. apply dlt_kernel in K as [K1 K2]; [|assumption..]. split; [apply (off_ray_along _ _ _ _ Ha (eq_trans (f_equal xyz (pose_output_id x)) K1))|apply (off_ray_along _ _ _ _ Hub K2)]. }
  assert (hmvec (dlt_design p (normalize q) b) (of_point q) = hzero) as K0.
  { apply dlt_kernel; [assumption..|]. rewrite pose_output_point, !xyz_of_point. cbn [hz of_point]. split.
    - pose proof (scale_by_z (normalize q) (norm q) Hza) as E. rewrite (normalize_scale q Hq) in E. exact E.
    - destruct L as [s E]. rewrite E. apply (scale_by_z b s Hzb). }
  destruct (svd4_kernel _ vt (of_point q) Hc (of_point_not_zero q) K0) as [K Hx]. destruct (Hk _ K) as [K1 K2].
  assert (direction (iso_id, normalize q) = normalize q) as Edir by (unfold direction; cbn [fst snd rot iso_id]; rewrite mtrans_id; apply mvec_id).
  destruct (lines_determine iso_id p (normalize q) b q (hrow4 vt) rigid_id Hp) as [Hw Ex]; [|exact L|rewrite Edir; exact Hcr|exact K1|exact K2|exact Hx|].
  { exists (norm q). rewrite iso_point_id. symmetry. apply normalize_scale, Hq. }
  unfold relative_dlt. rewrite Hs. rewrite Ex. rewrite (from_homogeneous_multiple _ _ Hw) by (left; cbn; lra). change (from_homogeneous (of_point q)) with (from_point q). change (h_finite (from_point q : rvec4)) with true. cbv iota zeta.
  unfold bearing. destruct (from_point_coords q Hq) as [-> _]. rewrite direction_turn. replace (positive (N := RNum) (dot (normalize q) (normalize q))) with true.
  2: { symmetry. apply positive_true. rewrite <- norm2_dot. unfold unit_vec in Ha. lra. }
  cbn [andb]. rewrite positive_R. pose proof (exact_sign p q b Hp Hq Hb) as Hsg. destruct (Rltb _ 0); split; try reflexivity; intros H; exfalso.
  - apply Hsg in H; [exact H|reflexivity].
  - apply Hsg in H. discriminate.
Qed.

(** ** [MeanMeanTriangulator] *)
Definition vsum (f : observation RNum -> rvec3) (l : list (observation RNum)) : rvec3 := fold_right (fun o s => vadd (f o) s) vzero l.
Lemma mean_fold (l : list (observation RNum)) (c b : rvec3) :
  fold_left (fun (acc : rvec3 * rvec3) (o : observation RNum) => let pose := iso_inv (fst o) in (vadd (fst acc) (trans pose), vadd (snd acc) (turn pose (snd o)))) l (c, b)
  = (vadd c (vsum (fun o => centre (fst o)) l), vadd b (vsum direction l)).
Proof.
  revert c b. induction l as [|[p u] l IH]; intros c b; cbn [fold_left vsum fold_right]; [rewrite !vadd_zero_r; reflexivity|]. cbv zeta. cbn [fst snd]. rewrite IH, !vadd_assoc. reflexivity.
Qed.
Definition mean_distance (u c : rvec3) (o : observation RNum) : R :=
  let q := cross u (direction o) in dot (vscale (1 / norm2 q) q) (cross (direction o) (vsub c (centre (fst o)))).
Lemma mean_distance_fold (u c : rvec3) (l : list (observation RNum)) (k : R) :
  fold_left (fun (acc : R) (o : observation RNum) => let pose := iso_inv (fst o) in let b := turn pose (snd o) in let tr := vsub c (trans pose) in let q := cross u b in
    acc + dot (vscale (1 / norm2 q) q) (cross b tr)) l k = k + Rsum (mean_distance u c) l.
Proof.
  revert k. induction l as [|[p b] l IH]; intros k; cbn [fold_left Rsum fold_right]; [ring|]. cbv zeta. rewrite IH. unfold Rsum. rewrite <- Rplus_assoc. reflexivity.
Qed.
Lemma mean_mean_value (l : list (observation RNum)) :
  mean_mean l =
    let n := INR (length l) in
    let c := vdiv (vsum (fun o => centre (fst o)) l) n in
    let u := normalize (vsum direction l) in
    let w := 1 / (Rsum (mean_distance u c) l / n) in
    let d := vadd u (vscale w c) in
    checked l (from_homogeneous (V4 (vx d) (vy d) (vz d) w)).
Proof.
  unfold mean_mean. rewrite mean_fold, !vadd_zero_l. change (ofZ (Z.of_nat (length l)) : RNum) with (IZR (Z.of_nat (length l))). rewrite <- INR_IZR_INZ. cbv zeta.
  set (n := INR (length l)). set (c := vdiv _ n). set (u := normalize _).
  pose proof (mean_distance_fold u c l 0) as E. rewrite Rplus_0_l in E. rewrite <- E. reflexivity.
Qed.

(** Exact when all cameras are at the same distance from the point. *)
Lemma mean_distance_equal (u c q : rvec3) (o : observation RNum) (dist k : R) :
  vsub q (centre (fst o)) = vscale dist (direction o) -> q = vadd c (vscale k u) -> cross u (direction o) <> vzero -> mean_distance u c o = k.
Proof.
  intros E1 E2 Hc. unfold mean_distance. apply vsub_move in E1. rewrite E1. set (d := direction o) in *. apply norm2_pos in Hc as Hn.
  assert (cross d (vsub c (vsub q (vscale dist d))) = vscale k (cross u d)) as -> by (rewrite E2; generalize c u d; clear; lin).
  cbv zeta. rewrite dot_scale_l, dot_scale_r, <- norm2_dot. rnum. rfield. lra.
Qed.
Lemma Rsum_const {A} (f : A -> R) (l : list A) k : (forall a, In a l -> f a = k) -> Rsum f l = INR (length l) * k.
Proof.
  intros H. induction l as [|a l IH]; cbn [Rsum fold_right]; [cbn; ring|]. change (length (a :: l)) with (S (length l)). rewrite S_INR, (H a (or_introl eq_refl)). unfold Rsum in IH. rewrite IH by (intros; apply H; right; assumption). ring.
Qed.
Lemma centre_sum (l : list (observation RNum)) (q : rvec3) (dist : R) : (forall o, In o l -> vsub q (centre (fst o)) = vscale dist (direction o)) ->
  vsum (fun o => centre (fst o)) l = vsub (vscale (INR (length l)) q) (vscale dist (vsum direction l)).
Proof.
  intros H. induction l as [|o l IH]; [cbn; lin|]. cbn [vsum fold_right]. change (length (o :: l)) with (S (length l)). rewrite S_INR. unfold vsum in IH. rewrite IH by (intros; apply H; right; assumption). specialize (H o (or_introl eq_refl)). apply vsub_move in H. rewrite H.
  generalize (direction o) (INR (length l)) (fold_right (fun o0 s => vadd (direction o0) s) (vzero : rvec3) l). clear. lin.
Qed.
Lemma mean_mean_equidistant (l : list (observation RNum)) (q : rvec3) (dist : R) : q <> vzero -> 0 < dist ->
  (forall o, In o l -> vsub q (centre (fst o)) = vscale dist (direction o)) -> vsum direction l <> vzero ->
  (forall o, In o l -> cross (vsum direction l) (direction o) <> vzero) -> (forall o, In o l -> 0 <= dot (direction o) q) ->
  mean_mean l = Some (from_point q).
Proof.
  intros Hq Hd Hl Hs Hc Hf. rewrite mean_mean_value. cbv zeta. set (n := INR (length l)). set (S := vsum direction l) in *. pose proof (norm_pos S Hs) as HS.
  assert (0 < n) as Hn. { unfold n. apply lt_0_INR. destruct l; [exfalso; apply Hs; reflexivity|cbn; lia]. }
  rewrite (centre_sum l q dist Hl). fold n S. set (c := vdiv _ n). set (u := normalize S). set (k := dist * norm S / n).
  assert (0 < k) as Hk by (unfold k, Rdiv; apply Rmult_lt_0_compat; [nra|apply Rinv_0_lt_compat; lra]).
  assert (q = vadd c (vscale k u)) as Eq.
  { unfold c, k. rewrite <- (normalize_scale S Hs) at 1. fold u. generalize u q (norm S) Hn. clear. intros u q m Hn. destruct q as [q1 q2 q3], u as [u1 u2 u3]. lin_unfold. lin_split; rfield; lra. }
  rewrite (Rsum_const _ l k).
  2: { intros o Ho. apply (mean_distance_equal u c q o dist k (Hl o Ho) Eq). intros E. apply (Hc o Ho). unfold u, normalize in E. rewrite vdiv_scale, cross_scale_l in E. apply (f_equal (vscale (norm S))) in E. rewrite vscale_scale, Rinv_r, vscale_one in E by lra. rewrite E. generalize (norm S). clear. lin. }
  fold n. replace (1 / (n * k / n)) with (/ k) by (rfield; lra).
  set (d := vadd u (vscale (/ k) c)). assert (V4 (vx d) (vy d) (vz d) (/ k) = hscale (/ k) (of_point q)) as ->.
  { unfold d. rewrite Eq. generalize u c Hk. clear. intros u c Hk. destruct u as [u1 u2 u3], c as [c1 c2 c3]. lin_unfold. lin_split; rfield; lra. }
  rewrite from_homogeneous_pos by (apply Rinv_0_lt_compat, Hk). change (from_homogeneous (of_point q)) with (from_point q). rewrite (checked_point l q Hq).
  rewrite (proj2 (forallb_forall _ l)); [reflexivity|]. intros o Ho. apply negb_true_iff, Rltb_false, Hf, Ho.
Qed.
