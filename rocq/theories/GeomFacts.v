(** Facts about epipolar gradients and two-view triangulation. *)
From Coq Require Import Reals Lra Psatz List ZArith Bool.
From Verif Require Import Num Lin LinSpec LinFacts Core CoreSpec CoreFacts DesignFacts Geom GeomSpec.
Import ListNotations.
Open Scope R_scope.

Lemma positive_R (x : R) : positive (N := RNum) x = negb (Rltb x 0). Proof. reflexivity. Qed.
Lemma positive_true (x : R) : positive (N := RNum) x = true <-> 0 <= x.
Proof. rewrite positive_R, negb_true_iff. apply Rltb_false. Qed.
Lemma positive_false (x : R) : positive (N := RNum) x = false <-> x < 0.
Proof. rewrite positive_R, negb_false_iff. apply Rltb_spec. Qed.

Lemma cross_zero_r (u : rvec3) : cross u (vzero : rvec3) = vzero. Proof. lin. Qed.
Lemma cross_zero_l (u : rvec3) : cross (vzero : rvec3) u = vzero. Proof. lin. Qed.
Lemma cross_sub_l (u v w : rvec3) : cross (vsub u v) w = vsub (cross u w) (cross v w). Proof. lin. Qed.
Lemma cross_neg_r (u v : rvec3) : cross u (vneg v) = vneg (cross u v). Proof. lin. Qed.
Lemma vsub_zero_r (u : rvec3) : vsub u vzero = u. Proof. lin. Qed.
Lemma vsub_move (u v w : rvec3) : vsub u v = w -> v = vsub u w. Proof. intros <-. lin. Qed.
Lemma vadd_sub_l (u v : rvec3) : u = vadd (vsub u v) v. Proof. lin. Qed.
Lemma vsub_self (u : rvec3) : vsub u u = vzero. Proof. lin. Qed.
Lemma vadd_sub (u v : rvec3) : vadd (vsub u v) v = u. Proof. lin. Qed.

(** ** The intersection of two rays *)
Lemma intersect_meet (t a b : rvec3) (lam mu : R) :
  unit_vec a -> cross a b <> vzero -> vscale lam a = vadd t (vscale mu b) -> lam <> 0 ->
  intersect t a b = if Rltb lam 0 then None else if Rltb (dot a b) 0 then None else Some (from_point (vscale lam a)).
Proof.
  intros Ha Hz E Hl. unfold intersect.
  assert (cross t b = vscale lam (cross a b)) as Hc.
  { apply (f_equal (fun v => cross v b)) in E. rewrite cross_scale_l, cross_add_l, cross_scale_l, cross_self in E. rewrite E. generalize (cross t b). intros v. lin. }
  rewrite Hc, dot_scale_r, <- norm2_dot. pose proof (norm2_pos _ Hz) as Hp. set (n := norm2 (cross a b)) in *. set (w := div _ _).
  assert (w = / lam) as Ew by (unfold w; rnum; field; split; [exact Hl|lra]). clearbody w. rewrite Ew. clear w Ew n Hp Hc.
  assert (V4 (vx a) (vy a) (vz a) (/ lam) = hscale (/ lam) (of_point (vscale lam a))) as Ep by (destruct a as [x y z]; lin_unfold; lin_split; rfield; exact Hl).
  assert (vscale lam a <> vzero) as Hla.
  { intros Ez. apply (f_equal norm2) in Ez. rewrite norm2_scale in Ez. unfold unit_vec in Ha. rewrite Ha in Ez. replace (norm2 (vzero : rvec3)) with 0 in Ez by lin. apply Hl. nra. }
  assert (from_homogeneous (V4 (vx a) (vy a) (vz a) (/ lam) : rvec4) = from_point (vscale lam a)) as Ef.
  { rewrite Ep. unfold from_point. apply from_homogeneous_multiple; [apply Rinv_neq_0_compat, Hl|left; cbn; lra]. }
  rewrite Ef. change (h_finite (from_point (vscale lam a) : rvec4)) with true. cbv iota. unfold bearing. destruct (from_point_coords (vscale lam a) Hla) as [-> _].
  destruct (Rltb lam 0) eqn:El; [apply Rltb_spec in El|apply Rltb_false in El].
  - replace (normalize (vscale lam a)) with (vneg a).
    + assert (positive (N := RNum) (dot (vneg a) a) = false) as ->; [|reflexivity]. apply positive_false. rewrite dot_neg_l, <- norm2_dot. unfold unit_vec in Ha. lra.
    + replace (vscale lam a) with (vscale (- lam) (vneg a)) by (generalize a; intros; lin). rewrite normalize_pos_scale by lra. rewrite normalize_of_unit; [reflexivity|apply unit_neg, Ha].
  - rewrite normalize_pos_scale by lra. rewrite (normalize_of_unit a Ha). replace (positive (N := RNum) (dot a a)) with true.
    + cbn [andb]. rewrite positive_R. destruct (Rltb (dot a b) 0); reflexivity.
    + symmetry. apply positive_true. rewrite <- norm2_dot. unfold unit_vec in Ha. lra.
Qed.

(** Whatever the inputs, an accepted point is on the first ray, in front of its origin. *)
Lemma intersect_accepts (t a b : rvec3) p : unit_vec a -> dot (cross a b) (cross t b) <> 0 -> intersect t a b = Some p ->
  exists lam, 0 < lam /\ p = from_point (vscale lam a) /\ bearing p = a /\ 0 <= dot a b.
Proof.
  intros Ha Hd. unfold intersect. set (w := div _ _). set (n := norm2 (cross a b)) in w.
  assert (0 < n) as Hn. { apply norm2_pos. intros E. rewrite E, dot_zero_l in Hd. apply Hd. reflexivity. }
  assert (w <> 0) as Hw. { unfold w. rnum. unfold Rdiv. apply Rmult_integral_contrapositive_currified; [lra|apply Rinv_neq_0_compat, Hd]. }
  clearbody w. change (h_finite (from_homogeneous (V4 (vx a) (vy a) (vz a) w : rvec4))) with true. cbv iota.
  assert (V4 (vx a) (vy a) (vz a) w = hscale w (of_point (vscale (/ w) a))) as Ep by (destruct a as [x y z]; lin_unfold; lin_split; rfield; exact Hw).
  assert (from_homogeneous (V4 (vx a) (vy a) (vz a) w : rvec4) = from_point (vscale (/ w) a)) as Ef.
  { rewrite Ep. unfold from_point. apply from_homogeneous_multiple; [exact Hw|left; cbn; lra]. }
  rewrite Ef. assert (/ w <> 0) as Hl by apply Rinv_neq_0_compat, Hw. set (lam := / w) in *. clearbody lam.
  assert (vscale lam a <> vzero) as Hla.
  { intros Ez. apply (f_equal norm2) in Ez. rewrite norm2_scale in Ez. unfold unit_vec in Ha. rewrite Ha in Ez. replace (norm2 (vzero : rvec3)) with 0 in Ez by lin. apply Hl. nra. }
  unfold bearing. destruct (from_point_coords (vscale lam a) Hla) as [-> _].
  destruct (Rlt_dec lam 0) as [Hneg|Hpos].
  - replace (normalize (vscale lam a)) with (vneg a).
    + assert (positive (N := RNum) (dot (vneg a) a) = false) as ->; [|discriminate]. apply positive_false. rewrite dot_neg_l, <- norm2_dot. unfold unit_vec in Ha. lra.
    + replace (vscale lam a) with (vscale (- lam) (vneg a)) by (generalize a; intros; lin). rewrite normalize_pos_scale by lra. rewrite normalize_of_unit; [reflexivity|apply unit_neg, Ha].
  - rewrite normalize_pos_scale by lra. rewrite (normalize_of_unit a Ha). replace (positive (N := RNum) (dot a a)) with true.
    + cbn [andb]. destruct (positive (dot a b)) eqn:Eb; [|discriminate]. apply positive_true in Eb. intros [= <-]. exists lam. split; [lra|]. split; [reflexivity|]. split; [|exact Eb].
      destruct (from_point_coords (vscale lam a) Hla) as [-> _]. rewrite normalize_pos_scale by lra. apply normalize_of_unit, Ha.
    + symmetry. apply positive_true. rewrite <- norm2_dot. unfold unit_vec in Ha. lra.
Qed.

(** Bearings which already lie in a common epipolar plane are not moved. *)
Lemma across_none (a n : rvec3) : unit_vec a -> dot a n = 0 -> normalize (vsub a (vscale (dot a n) n)) = a.
Proof. intros Ha ->. rewrite vscale_zero, vsub_zero_r. apply normalize_of_unit, Ha. Qed.
Lemma dot_vdiv (a u : rvec3) (s : R) : dot a u = 0 -> dot a (vdiv u s) = 0.
Proof. intros E. rewrite vdiv_scale, dot_scale_r, E. rring. Qed.
Lemma correct_l1_none (t a b : rvec3) : unit_vec a -> unit_vec b -> dot a (cross b t) = 0 -> correct_l1 t a b = (a, b).
Proof.
  intros Ha Hb E. unfold correct_l1. assert (dot b (cross a t) = 0) as E' by (rewrite <- (Ropp_0), <- E; generalize a b t; lin).
  destruct (ltb _ _); [rewrite (across_none a) by (auto using dot_vdiv)|rewrite (across_none b) by (auto using dot_vdiv)]; reflexivity.
Qed.
Lemma correct_l1_unit_dot (v n : rvec3) : unit_vec v -> unit_vec n \/ n = vzero -> 0 <= dot (normalize (vsub v (vscale (dot v n) n))) v.
Proof.
  intros Hv Hn. unfold normalize. rewrite vdiv_scale, dot_scale_l. set (m := norm _). assert (0 <= m) by apply norm_nonneg.
  assert (0 <= / m). { destruct (Req_dec m 0) as [->|Hm]; [rewrite Rinv_0; lra|]. left. apply Rinv_0_lt_compat. lra. }
  apply Rmult_le_pos; [assumption|]. rewrite dot_sub_l, dot_scale_l, <- norm2_dot. unfold unit_vec in *. rewrite Hv, (dot_comm n v). destruct Hn as [Hn| ->]; [|rewrite dot_zero_r; lra].
  pose proof (unit_dot_bounds v n Hv Hn). nra.
Qed.

(** ** Exact observations by two cameras *)
Lemma centre_inv (p : riso) : trans (iso_inv p) = centre p. Proof. reflexivity. Qed.
Lemma direction_turn (p : riso) (b : rvec3) : turn (iso_inv p) b = direction (p, b). Proof. reflexivity. Qed.
Lemma direction_point (p : riso) (q : rvec3) : rigid p -> mvec (mtrans (rot p)) (iso_point p q) = vsub q (centre p).
Proof.
  intros Hp. unfold iso_point, centre. rewrite mvec_add, (rotation_back _ _ Hp), mvec_neg. generalize (mvec (mtrans (rot p)) (trans p)). clear. lin.
Qed.
Lemma sees_direction (p : riso) (q b : rvec3) : rigid p -> sees p q b ->
  let n := norm (iso_point p q) in 0 < n /\ unit_vec (direction (p, b)) /\ vsub q (centre p) = vscale n (direction (p, b)) /\ direction (p, b) = normalize (vsub q (centre p)).
Proof.
  intros Hp [Hn ->] n. assert (0 < n) as Hpos by (apply norm_pos, Hn). split; [exact Hpos|]. unfold direction. cbn [fst snd].
  split. { apply rotation_unit; [apply rotation_mtrans, Hp|apply normalize_unit, Hn]. }
  split.
  - unfold n. rewrite <- (direction_point p q Hp), <- mvec_scale, normalize_scale by exact Hn. reflexivity.
  - rewrite <- (direction_point p q Hp), normalize_rotation by apply rotation_mtrans, Hp. reflexivity.
Qed.
Lemma unit_normalize_not_zero (q : rvec3) : unit_vec (normalize q) -> q <> vzero.
Proof. intros H ->. unfold unit_vec, normalize in H. rewrite vdiv_scale, norm2_scale in H. replace (norm2 (vzero : rvec3)) with 0 in H by lin. lra. Qed.

Lemma baseline_cross (a d c q : rvec3) (m n : R) : q = vscale m a -> vsub q c = vscale n d -> cross a d = vzero -> cross q c = vzero.
Proof.
  intros E1 E2 E. apply vsub_move in E2. rewrite E2, E1. transitivity (vscale (- (m * n)) (cross a d)); [|rewrite E; clear; lin]. clear. lin.
Qed.
Lemma baseline_triple (a d c q : rvec3) (m n : R) : q = vscale m a -> vsub q c = vscale n d -> dot d (cross a c) = 0.
Proof. intros E1 E2. apply vsub_move in E2. rewrite E2, E1. clear. lin. Qed.
Lemma exact_facts (p : riso) (q b : rvec3) : rigid p -> q <> vzero -> sees p q b -> off_baseline p q ->
  unit_vec (normalize q) /\ unit_vec (direction (p, b)) /\ cross (normalize q) (direction (p, b)) <> vzero /\
  vscale (norm q) (normalize q) = vadd (centre p) (vscale (norm (iso_point p q)) (direction (p, b))) /\ dot (direction (p, b)) (cross (normalize q) (centre p)) = 0.
Proof.
  intros Hp Hq Hb Hoff. destruct (sees_direction p q b Hp Hb) as (Hn & Hd & Ed & _). split; [apply normalize_unit, Hq|]. split; [exact Hd|].
  pose proof (normalize_scale q Hq) as Eq. symmetry in Eq. split; [|split].
  - intros E. apply Hoff. exact (baseline_cross _ _ _ _ _ _ Eq Ed E).
  - rewrite <- Eq, <- Ed. generalize (centre p). clear. lin.
  - exact (baseline_triple _ _ _ _ _ _ Eq Ed).
Qed.


Lemma exact_sign (p : riso) (q b : rvec3) : rigid p -> q <> vzero -> sees p q b -> (Rltb (dot (normalize q) (direction (p, b))) 0 = true <-> ~ acute p q).
Proof.
  intros Hp Hq Hb. destruct (sees_direction p q b Hp Hb) as (Hn & Hd & Ed & _). rewrite Rltb_spec. unfold acute. rewrite Ed.
  rewrite <- (normalize_scale q Hq) at 2. rewrite dot_scale_l, dot_scale_r. pose proof (norm_pos q Hq) as Hm. set (x := dot (normalize q) _). set (n := norm (iso_point p q)) in *. set (m := norm q) in *.
  assert (0 < m * n) as Hmn by nra. replace (m * (n * x)) with (m * n * x) by ring. split; [intros; nra|]. intros H. apply Rnot_le_lt in H. nra.
Qed.

Lemma angular_exact (p : riso) (q b : rvec3) : rigid p -> q <> vzero -> sees p q b -> off_baseline p q ->
  intersect (centre p) (normalize q) (direction (p, b)) = if Rltb (dot (normalize q) (direction (p, b))) 0 then None else Some (from_point q).
Proof.
  intros Hp Hq Hb Ho. destruct (exact_facts p q b Hp Hq Hb Ho) as (Ha & Hd & Hc & E & _). pose proof (norm_pos q Hq) as Hn.
  rewrite (intersect_meet _ _ _ _ _ Ha Hc E) by lra. replace (Rltb (norm q) 0) with false by (symmetry; apply Rltb_false; lra). rewrite (normalize_scale q Hq). reflexivity.
Qed.
Lemma triple_scale (d a c : rvec3) (s : R) : dot d (cross a c) = 0 -> dot d (cross a (vscale s c)) = 0.
Proof. intros E. rewrite cross_scale_r, dot_scale_r, E. rring. Qed.

Lemma angular_l1_exact (p : riso) (q b : rvec3) : rigid p -> q <> vzero -> sees p q b -> off_baseline p q ->
  (acute p q -> angular_l1 p (normalize q) b = Some (from_point q)) /\ (~ acute p q -> angular_l1 p (normalize q) b = None).
Proof.
  intros Hp Hq Hb Ho. destruct (exact_facts p q b Hp Hq Hb Ho) as (Ha & Hd & Hc & E & E0). unfold angular_l1. rewrite direction_turn, centre_inv.
  rewrite correct_l1_none; [|exact Hd|exact Ha|unfold normalize; rewrite vdiv_scale; apply triple_scale, E0]. rewrite (angular_exact p q b Hp Hq Hb Ho).
  pose proof (exact_sign p q b Hp Hq Hb) as Hs. destruct (Rltb _ 0); split; try reflexivity; intros H; exfalso.
  - apply Hs in H; [exact H|reflexivity].
  - apply Hs in H. discriminate.
Qed.
Lemma angular_linf_exact (p : riso) (q b : rvec3) : rigid p -> q <> vzero -> sees p q b -> off_baseline p q ->
  (acute p q -> angular_linf p (normalize q) b = Some (from_point q)) /\ (~ acute p q -> angular_linf p (normalize q) b = None).
Proof.
  intros Hp Hq Hb Ho. destruct (exact_facts p q b Hp Hq Hb Ho) as (Ha & Hd & Hc & E & E0). unfold angular_linf. rewrite direction_turn, centre_inv.
  set (d := direction (p, b)) in *. set (a := normalize q) in *. set (t' := normalize (centre p)).
  assert (dot d (cross a t') = 0) as E1 by (unfold t', normalize; rewrite vdiv_scale; apply triple_scale, E0).
  assert (forall x : rvec3, x = d \/ x = a -> dot x (cross (vadd d a) t') = 0 /\ dot x (cross (vsub d a) t') = 0) as Hx.
  { intros x [-> | ->].
    - split; [transitivity (dot d (cross a t')); [generalize d a t'; clear; lin|exact E1]|transitivity (- dot d (cross a t')); [generalize d a t'; clear; lin|rewrite E1; rring]].
    - split; [transitivity (- dot d (cross a t')); [generalize d a t'; clear; lin|rewrite E1; rring]|transitivity (- dot d (cross a t')); [generalize d a t'; clear; lin|rewrite E1; rring]]. }
  set (n := if ltb _ _ then _ else _). assert (dot d n = 0 /\ dot a n = 0) as [E2 E3].
  { unfold n. destruct (ltb _ _); split; apply dot_vdiv, Hx; auto. }
  rewrite (across_none d n Hd E2), (across_none a n Ha E3). unfold a, d. rewrite (angular_exact p q b Hp Hq Hb Ho). fold a d.
  pose proof (exact_sign p q b Hp Hq Hb) as Hs. fold a d in Hs. destruct (Rltb _ 0); split; try reflexivity; intros H; exfalso.
  - apply Hs in H; [exact H|reflexivity].
  - apply Hs in H. discriminate.
Qed.
