(** The angular triangulators make the smallest correction. *)
From Coq Require Import Reals Lra Psatz List ZArith Bool.
From Verif Require Import Num Lin LinSpec LinFacts Core CoreSpec CoreFacts DesignFacts Geom GeomSpec GeomFacts GeomEpi GeomProps.
Import ListNotations.
Open Scope R_scope.

(** ** Sines *)
Lemma asin_range (s : R) : 0 <= s <= 1 -> 0 <= asin s <= PI / 2.
Proof.
  intros [H0 H1]. split; [|apply asin_bound]. rewrite <- asin_0. destruct (Req_dec s 0) as [->|]; [lra|].
  assert (0 <= sin (asin s)) as Hs by (rewrite sin_asin by lra; exact H0). pose proof (asin_bound s) as Hb. rewrite asin_0. destruct (Rle_dec 0 (asin s)) as [|Hn]; [assumption|].
  apply Rnot_le_lt in Hn. assert (sin (asin s) < 0) by (apply sin_lt_0_var; [pose proof PI_RGT_0; lra|exact Hn]). lra.
Qed.
Lemma asin_le_angle (s y : R) : 0 <= s <= 1 -> 0 <= y -> (y <= PI / 2 -> s <= sin y) -> asin s <= y.
Proof.
  intros Hs Hy H. pose proof (asin_range s Hs) as Hr. destruct (Rle_dec y (PI / 2)) as [Hl|Hl]; [|lra].
  apply sin_incr_0; [pose proof PI_RGT_0; lra..|]. rewrite sin_asin by lra. apply H, Hl.
Qed.
Lemma asin_mono (s r : R) : 0 <= s -> s <= r -> r <= 1 -> asin s <= asin r.
Proof. intros H0 H1 H2. apply asin_le_angle; [lra|apply asin_range; lra|]. intros _. rewrite sin_asin by lra. exact H1. Qed.
Lemma asin_sum (s x y : R) : 0 <= s <= 1 -> 0 <= x <= 1 -> 0 <= y <= 1 -> s <= x * sqrt (1 - y * y) + y * sqrt (1 - x * x) -> asin s <= asin x + asin y.
Proof.
  intros Hs Hx Hy H. pose proof (asin_range x Hx). pose proof (asin_range y Hy). apply asin_le_angle; [exact Hs|lra|]. intros _.
  rewrite sin_plus, !sin_asin, !cos_asin by lra. unfold Rsqr. lra.
Qed.
Lemma acos_sine (d s : R) : -1 <= d <= 1 -> 0 <= s <= 1 -> d * d + s * s <= 1 -> asin s <= acos d.
Proof.
  intros Hd Hs H. pose proof (acos_bound d) as Hb. apply asin_le_angle; [exact Hs|lra|]. intros _. rewrite sin_acos by lra.
  rewrite <- (sqrt_square s) by lra. apply sqrt_le_1_alt. unfold Rsqr. lra.
Qed.
Lemma acos_sine_eq (d s : R) : 0 <= d -> 0 <= s -> d * d + s * s = 1 -> acos d = asin s.
Proof.
  intros Hd Hs H. assert (d <= 1) by nra. assert (s <= 1) by nra. pose proof (acos_bound d) as Hb. pose proof (asin_range s ltac:(lra)) as Hr. pose proof PI_RGT_0.
  apply Rle_antisym; [|apply acos_sine; lra]. assert (acos d <= PI / 2) as Ha.
  { destruct (Rle_dec (acos d) (PI / 2)) as [|Hn]; [assumption|]. apply Rnot_le_lt in Hn. assert (cos (acos d) < 0) by (apply cos_lt_0; lra). rewrite cos_acos in * by lra. lra. }
  apply sin_incr_0; [lra..|]. rewrite sin_asin, sin_acos by lra. rewrite <- (sqrt_square s) by lra. apply sqrt_le_1_alt. unfold Rsqr. lra.
Qed.

(** ** Planes *)
Lemma unit_sine (a n : rvec3) : unit_vec a -> unit_vec n -> 0 <= Rabs (dot a n) <= 1.
Proof. intros Ha Hn. split; [apply Rabs_pos|]. apply Rabs_le. apply unit_dot_bounds; assumption. Qed.
Lemma angle_self (a : rvec3) : unit_vec a -> angle a a = 0.
Proof. intros Ha. unfold angle. rewrite <- norm2_dot, Ha. apply acos_1. Qed.
Lemma bessel (a u n : rvec3) : unit_vec a -> unit_vec u -> unit_vec n -> dot n u = 0 -> dot a u * dot a u + dot a n * dot a n <= 1.
Proof.
  intros Ha Hu Hn Ho. pose proof (norm2_nonneg (vsub a (vadd (vscale (dot a u) u) (vscale (dot a n) n)))) as H.
  rewrite norm2_sub, norm2_add, !norm2_scale, !dot_add_r, !dot_scale_l, !dot_scale_r, (dot_comm u n), Ho in H. unfold unit_vec in *. rewrite Ha, Hu, Hn in H. rlra.
Qed.
(** No direction in a plane is nearer than the plane. *)
Lemma angle_plane (a u n : rvec3) : unit_vec a -> unit_vec u -> unit_vec n -> dot n u = 0 -> asin (Rabs (dot a n)) <= angle a u.
Proof.
  intros Ha Hu Hn Ho. apply acos_sine; [apply unit_dot_bounds; assumption|apply unit_sine; assumption|]. rewrite <- Rabs_mult, Rabs_pos_eq by (apply Rle_0_sqr). apply bessel; assumption.
Qed.

Definition into (n v : rvec3) : rvec3 := normalize (vsub v (vscale (dot v n) n)).
Lemma into_norm2 (n v : rvec3) : unit_vec v -> unit_vec n -> norm2 (vsub v (vscale (dot v n) n)) = 1 - dot v n * dot v n.
Proof. intros Hv Hn. rewrite norm2_sub, norm2_scale, dot_scale_r. unfold unit_vec in *. rewrite Hv, Hn. rring. Qed.
Lemma into_facts (n v : rvec3) : unit_vec v -> unit_vec n -> Rabs (dot v n) < 1 ->
  unit_vec (into n v) /\ dot n (into n v) = 0 /\ angle v (into n v) = asin (Rabs (dot v n)) /\ 0 < dot v (into n v).
Proof.
  intros Hv Hn Hl. pose proof (into_norm2 n v Hv Hn) as E. pose proof (Rabs_pos (dot v n)) as H0.
  assert (dot v n * dot v n = Rabs (dot v n) * Rabs (dot v n)) as Es by (rewrite <- Rabs_mult, Rabs_pos_eq; [reflexivity|apply Rle_0_sqr]).
  assert (vsub v (vscale (dot v n) n) <> vzero) as Hz. { intros Ez. rewrite Ez in E. replace (norm2 (vzero : rvec3)) with 0 in E by lin. rnum_eq. nra. }
  pose proof (norm_pos _ Hz) as Hp. pose proof (norm_sq (vsub v (vscale (dot v n) n))) as Hsq.
  assert (dot v (into n v) = norm (vsub v (vscale (dot v n) n))) as Ed.
  { unfold into, normalize. rewrite vdiv_scale, dot_scale_r, dot_sub_r, dot_scale_r, <- norm2_dot. unfold unit_vec in Hv. rewrite Hv, <- E, <- Hsq. rfield. rlra. }
  split; [apply normalize_unit, Hz|]. split; [|split].
  - unfold into, normalize. rewrite vdiv_scale, dot_scale_r, dot_sub_r, dot_scale_r, <- norm2_dot. unfold unit_vec in Hn. rewrite Hn, (dot_comm n v). rring.
  - unfold angle. rewrite Ed. apply acos_sine_eq; [apply norm_nonneg|exact H0|]. rewrite Hsq, E, Es. rring.
  - rewrite Ed. exact Hp.
Qed.
Lemma into_zero (v : rvec3) : unit_vec v -> normalize (vsub v (vscale (dot v vzero) vzero)) = v.
Proof. intros Hv. apply across_none; [exact Hv|apply dot_zero_r]. Qed.

(** A plane containing the base line and two given directions. *)
Lemma perp_exists (t : rvec3) : unit_vec t -> exists n : rvec3, unit_vec n /\ dot n t = 0.
Proof.
  intros Ht. assert (forall e : rvec3, dot (cross e t) t = 0) as Hd by (intros e; rewrite dot_comm; apply dot_cross_r).
  destruct (Req_dec (norm2 (cross (V3 1 0 0) t)) 0) as [E|E].
  - assert (cross (V3 0 1 0) t <> vzero) as Hz.
    { intros Ez. apply norm2_zero in E. destruct t as [x y z]. unfold unit_vec in Ht. lin_unfold. injection E as E1 E2 E3. injection Ez as F1 F2 F3. rnum_eq. nra. }
    exists (normalize (cross (V3 0 1 0) t)). split; [apply normalize_unit, Hz|]. unfold normalize. rewrite vdiv_scale, dot_scale_l, Hd. rring.
  - assert (cross (V3 1 0 0) t <> vzero) as Hz by (intros Ez; apply E; rewrite Ez; lin).
    exists (normalize (cross (V3 1 0 0) t)). split; [apply normalize_unit, Hz|]. unfold normalize. rewrite vdiv_scale, dot_scale_l, Hd. rring.
Qed.
Lemma parallel_perp (t u n : rvec3) : unit_vec t -> cross u t = vzero -> dot n t = 0 -> dot n u = 0.
Proof.
  intros Ht Hc Hn. assert (u = vscale (dot u t) t) as ->.
  { pose proof (triple_cross t u t) as H. rewrite Hc, cross_zero_r, <- norm2_dot in H. unfold unit_vec in Ht. rewrite Ht, vscale_one in H. symmetry in H. apply vsub_zero in H. rewrite (dot_comm u t). exact H. }
  rewrite dot_scale_r, Hn. rring.
Qed.
Lemma plane_of (t u v : rvec3) : unit_vec t -> dot u (cross v t) = 0 -> exists n : rvec3, unit_vec n /\ dot n t = 0 /\ dot n u = 0 /\ dot n v = 0.
Proof.
  intros Ht E. assert (forall w : rvec3, cross w t <> vzero -> forall z : rvec3, dot z (cross w t) = 0 -> dot (normalize (cross w t)) z = 0) as Hn.
  { intros w Hw z Hz. unfold normalize. rewrite vdiv_scale, dot_scale_l, (dot_comm _ z), Hz. rring. }
  destruct (Req_dec (norm2 (cross u t)) 0) as [Eu|Eu]; [apply norm2_zero in Eu; destruct (Req_dec (norm2 (cross v t)) 0) as [Ev|Ev]; [apply norm2_zero in Ev|]|].
  - destruct (perp_exists t Ht) as (n & Hu & Hp). exists n. repeat split; eauto using parallel_perp.
  - assert (cross v t <> vzero) as Hz by (intros Ez; apply Ev; rewrite Ez; lin). exists (normalize (cross v t)). split; [apply normalize_unit, Hz|].
    split; [apply Hn; [exact Hz|apply dot_cross_r]|]. split; [apply Hn; [exact Hz|exact E]|apply Hn; [exact Hz|apply dot_cross_l]].
  - assert (cross u t <> vzero) as Hz by (intros Ez; apply Eu; rewrite Ez; lin). exists (normalize (cross u t)). split; [apply normalize_unit, Hz|].
    split; [apply Hn; [exact Hz|apply dot_cross_r]|]. split; [apply Hn; [exact Hz|apply dot_cross_l]|apply Hn; [exact Hz|]].
    rewrite <- Ropp_0, <- E. generalize u v t. clear. lin.
Qed.

(** Coordinates across the base line. *)
Lemma plane_frame (t n : rvec3) : unit_vec t -> unit_vec n -> dot n t = 0 -> t = cross n (cross t n).
Proof. intros Ht Hn E. rewrite triple_cross, E, <- norm2_dot. unfold unit_vec in Hn. rewrite Hn. generalize t. clear. lin. Qed.
Lemma plane_triple (t n a b : rvec3) : unit_vec t -> unit_vec n -> dot n t = 0 ->
  dot a (cross b t) = dot a n * dot b (cross t n) - dot a (cross t n) * dot b n.
Proof. intros Ht Hn E. rewrite (plane_frame t n Ht Hn E) at 1. generalize (cross t n). intros m. clear. lin. Qed.
Lemma frame_unit (t n : rvec3) : unit_vec t -> unit_vec n -> dot n t = 0 -> unit_vec (cross t n).
Proof. intros Ht Hn E. unfold unit_vec in *. rewrite lagrange, Ht, Hn, (dot_comm t n), E. rring. Qed.
Lemma plane_norm (t n a : rvec3) : unit_vec t -> unit_vec n -> dot n t = 0 ->
  norm2 (cross a t) = dot a n * dot a n + dot a (cross t n) * dot a (cross t n).
Proof.
  intros Ht Hn E. pose proof (frame_unit t n Ht Hn E) as Hm. rewrite (plane_frame t n Ht Hn E) at 1. rewrite triple_cross, norm2_sub, !norm2_scale, dot_scale_l, dot_scale_r, dot_cross_r. unfold unit_vec in *. rewrite Hn, Hm. rring.
Qed.

(** ** The bounds *)
Lemma sqrt_bound (x y : R) : 0 <= y -> x * x <= y -> Rabs x <= sqrt y.
Proof. intros Hy H. rewrite <- (sqrt_square (Rabs x)) by apply Rabs_pos. apply sqrt_le_1_alt. rewrite <- Rabs_mult, Rabs_pos_eq; [exact H|apply Rle_0_sqr]. Qed.
Lemma abs_sq (x : R) : Rabs x * Rabs x = x * x.
Proof. rewrite <- Rabs_mult. apply Rabs_pos_eq, Rle_0_sqr. Qed.

Lemma ratio_bound (y m M : R) : 0 < M -> M <= 1 -> y * y + m * m <= M * M -> y * y <= 1 -> Rabs m / M <= sqrt (1 - Rabs y * Rabs y).
Proof.
  intros HM H1 H Hy. rewrite abs_sq. replace (Rabs m / M) with (Rabs (m / M)) by (unfold Rdiv; rewrite Rabs_mult, (Rabs_pos_eq (/ M)); [reflexivity|left; apply Rinv_0_lt_compat, HM]).
  apply sqrt_bound; [lra|]. apply (Rmult_le_reg_r (M * M)); [nra|]. replace (m / M * (m / M) * (M * M)) with (m * m) by (field; lra).
  assert (M * M <= 1) by nra. assert (0 <= y * y) by apply Rle_0_sqr. assert (y * y * (M * M) <= y * y * 1) by (apply Rmult_le_compat_l; assumption). lra.
Qed.

Lemma l1_bound (t a b u v : rvec3) (M : R) : unit_vec t -> unit_vec a -> unit_vec b -> unit_vec u -> unit_vec v -> dot u (cross v t) = 0 ->
  0 < M <= 1 -> norm2 (cross a t) <= M * M -> norm2 (cross b t) <= M * M -> Rabs (dot a (cross b t)) / M <= 1 ->
  asin (Rabs (dot a (cross b t)) / M) <= angle a u + angle b v.
Proof.
  intros Ht Ha Hb Hu Hv E [HM HM1] HA HB Hs. destruct (plane_of t u v Ht E) as (n & Hn & Hnt & Hnu & Hnv).
  pose proof (angle_plane a u n Ha Hu Hn Hnu). pose proof (angle_plane b v n Hb Hv Hn Hnv). apply Rle_trans with (asin (Rabs (dot a n)) + asin (Rabs (dot b n))); [|lra].
  pose proof (unit_sine a n Ha Hn) as Sa. pose proof (unit_sine b n Hb Hn) as Sb.
  rewrite (plane_norm t n a Ht Hn Hnt) in HA. rewrite (plane_norm t n b Ht Hn Hnt) in HB. rewrite (plane_triple t n a b Ht Hn Hnt) in Hs |- *.
  set (x := dot a n) in *. set (y := dot b n) in *. set (k := dot a (cross t n)) in *. set (l := dot b (cross t n)) in *. clearbody x y k l. rnum_eq.
  assert (x * x <= 1) by (pose proof (abs_sq x); nra). assert (y * y <= 1) by (pose proof (abs_sq y); nra).
  pose proof (ratio_bound y l M HM HM1 HB ltac:(assumption)) as R1. pose proof (ratio_bound x k M HM HM1 HA ltac:(assumption)) as R2.
  apply asin_sum; [split; [unfold Rdiv; apply Rmult_le_pos; [apply Rabs_pos|left; apply Rinv_0_lt_compat, HM]|exact Hs]|exact Sa|exact Sb|].
  apply Rle_trans with ((Rabs x * Rabs l + Rabs y * Rabs k) / M).
  - unfold Rdiv. apply Rmult_le_compat_r; [left; apply Rinv_0_lt_compat, HM|]. rewrite <- !Rabs_mult. replace (x * l - k * y) with (x * l + - (y * k)) by ring. rewrite <- (Rabs_Ropp (y * k)). apply Rabs_triang.
  - unfold Rdiv in *. rewrite Rmult_plus_distr_r, !Rmult_assoc. apply Rplus_le_compat; apply Rmult_le_compat_l; try apply Rabs_pos; assumption.
Qed.

Lemma linf_bound (t a b u v : rvec3) (M : R) : unit_vec t -> unit_vec a -> unit_vec b -> unit_vec u -> unit_vec v -> dot u (cross v t) = 0 ->
  0 < M -> norm2 (cross (vadd a b) t) <= M * M -> norm2 (cross (vsub a b) t) <= M * M -> Rabs (dot a (cross b t)) / M <= 1 ->
  asin (Rabs (dot a (cross b t)) / M) <= Rmax (angle a u) (angle b v).
Proof.
  intros Ht Ha Hb Hu Hv E HM HA HB Hs. destruct (plane_of t u v Ht E) as (n & Hn & Hnt & Hnu & Hnv).
  pose proof (angle_plane a u n Ha Hu Hn Hnu) as La. pose proof (angle_plane b v n Hb Hv Hn Hnv) as Lb.
  pose proof (unit_sine a n Ha Hn) as Sa. pose proof (unit_sine b n Hb Hn) as Sb.
  rewrite (plane_norm t n _ Ht Hn Hnt), !dot_add_l in HA. rewrite (plane_norm t n _ Ht Hn Hnt), !dot_sub_l in HB. rewrite (plane_triple t n a b Ht Hn Hnt) in Hs |- *.
  set (x := dot a n) in *. set (y := dot b n) in *. set (k := dot a (cross t n)) in *. set (l := dot b (cross t n)) in *. clearbody x y k l. rnum_eq.
  assert (Rabs k + Rabs l <= M) as Hkl.
  { assert (forall z, z * z <= M * M -> Rabs z <= M) as Hz by (intros z Hz; rewrite <- (sqrt_square M) by lra; apply sqrt_bound; [nra|exact Hz]).
    pose proof (Rle_0_sqr (x + y)) as Q1. pose proof (Rle_0_sqr (x - y)) as Q2. unfold Rsqr in Q1, Q2.
    assert (Rabs (k + l) <= M) by (apply Hz; lra). assert (Rabs (k - l) <= M) by (apply Hz; lra). clear - H H0. unfold Rabs in *. repeat destruct (Rcase_abs _); lra. }
  assert (Rabs (x * l - k * y) <= Rabs x * Rabs l + Rabs y * Rabs k) as Htr.
  { rewrite <- !Rabs_mult. replace (x * l - k * y) with (x * l + - (y * k)) by ring. rewrite <- (Rabs_Ropp (y * k)). apply Rabs_triang. }
  assert (Rabs (x * l - k * y) / M <= Rmax (Rabs x) (Rabs y)) as Hle.
  { apply (Rmult_le_reg_r M); [exact HM|]. unfold Rdiv. rewrite Rmult_assoc, Rinv_l, Rmult_1_r by lra. pose proof (Rmax_l (Rabs x) (Rabs y)). pose proof (Rmax_r (Rabs x) (Rabs y)). pose proof (Rabs_pos x). pose proof (Rabs_pos y). pose proof (Rabs_pos k). pose proof (Rabs_pos l). nra. }
  assert (0 <= Rabs (x * l - k * y) / M) as H0 by (unfold Rdiv; apply Rmult_le_pos; [apply Rabs_pos|left; apply Rinv_0_lt_compat, HM]).
  unfold Rmax in Hle. destruct (Rle_dec (Rabs x) (Rabs y)).
  - eapply Rle_trans; [|apply Rmax_r]. eapply Rle_trans; [|exact Lb]. apply asin_mono; lra.
  - eapply Rle_trans; [|apply Rmax_l]. eapply Rle_trans; [|exact La]. apply asin_mono; lra.
Qed.

(** ** The corrections *)
Definition best (cost : R -> R -> R) (t a b a' b' : rvec3) : Prop :=
  unit_vec a' /\ unit_vec b' /\ dot a' (cross b' t) = 0 /\ 0 < dot a a' /\ 0 < dot b b' /\
  forall u v : rvec3, unit_vec u -> unit_vec v -> dot u (cross v t) = 0 -> cost (angle a a') (angle b b') <= cost (angle a u) (angle b v).

Lemma angle_nonneg (u v : rvec3) : 0 <= angle u v. Proof. apply acos_bound. Qed.
Lemma best_same (cost : R -> R -> R) (t a b : rvec3) : (forall x y, 0 <= x -> 0 <= y -> cost 0 0 <= cost x y) -> unit_vec a -> unit_vec b -> dot a (cross b t) = 0 -> best cost t a b a b.
Proof.
  intros Hc Ha Hb E. assert (dot a a = 1 /\ dot b b = 1) as [Ea Eb] by (split; assumption). rewrite <- norm2_dot in *. split; [exact Ha|]. split; [exact Hb|]. split; [exact E|]. split; [rewrite <- norm2_dot; rlra|]. split; [rewrite <- norm2_dot; rlra|].
  intros u v _ _ _. rewrite !angle_self by assumption. apply Hc; apply angle_nonneg.
Qed.
Lemma sum_cost (x y : R) : 0 <= x -> 0 <= y -> 0 + 0 <= x + y. Proof. lra. Qed.
Lemma max_cost (x y : R) : 0 <= x -> 0 <= y -> Rmax 0 0 <= Rmax x y.
Proof. intros Hx Hy. rewrite Rmax_left by lra. eapply Rle_trans; [exact Hx|apply Rmax_l]. Qed.
Lemma vdiv_zero (x : R) : vdiv (vzero : rvec3) x = vzero.
Proof. rewrite vdiv_scale. generalize (/ x). lin. Qed.
Lemma triple_swap (a b t : rvec3) : dot b (cross a t) = - dot a (cross b t). Proof. lin. Qed.
Lemma triple_below (a b t : rvec3) : unit_vec a -> Rabs (dot a (cross b t)) <= norm (cross b t).
Proof.
  intros Ha. pose proof (cauchy a (cross b t)) as H. unfold unit_vec in Ha. rewrite Ha, Rmult_1_l in H. unfold norm. cbn [sqrt_ RNum]. apply sqrt_bound; [apply norm2_nonneg|exact H].
Qed.
Lemma cross_below (a t : rvec3) : unit_vec a -> unit_vec t -> norm (cross a t) <= 1.
Proof.
  intros Ha Ht. unfold norm. cbn [sqrt_ RNum]. rewrite <- sqrt_1. apply sqrt_le_1_alt. rewrite lagrange. unfold unit_vec in *. rewrite Ha, Ht. pose proof (Rle_0_sqr (dot a t)) as H. unfold Rsqr in H. rnum_eq. lra.
Qed.
Lemma abs_div (x M : R) : 0 < M -> Rabs (/ M * x) = Rabs x / M.
Proof. intros HM. rewrite Rabs_mult, (Rabs_pos_eq (/ M)) by (left; apply Rinv_0_lt_compat, HM). unfold Rdiv. ring. Qed.
Lemma div_below (x M : R) : 0 < M -> (x / M <= 1 <-> x <= M) /\ (x / M < 1 <-> x < M).
Proof.
  intros HM. assert (x = x / M * M) as E by (field; lra). set (y := x / M) in *. clearbody y. subst x. split; split; intros H; nra.
Qed.
(** The triple product is as large as that only in a corner. *)
(** Three mutually perpendicular directions. *)
Definition square_corner (a b c : rvec3) : Prop := dot a b = 0 /\ dot a c = 0 /\ dot b c = 0.
Lemma triple_corner (a b t : rvec3) : unit_vec a -> cross b t <> vzero -> Rabs (dot a (cross b t)) = norm (cross b t) -> dot a t = 0 /\ dot a b = 0.
Proof.
  intros Ha Hz E. assert (cross a (cross b t) = vzero) as Hc.
  { apply norm2_zero. rewrite lagrange. unfold unit_vec in Ha. rewrite Ha, <- (norm_sq (cross b t)), <- (abs_sq (dot a (cross b t))), E. rring. }
  rewrite triple_cross in Hc. pose proof (f_equal (fun v => dot (cross v t) (cross b t)) Hc) as H1. cbv beta in H1. rewrite cross_sub_l, !cross_scale_l, cross_self, cross_zero_l, dot_zero_l, dot_sub_l, !dot_scale_l, dot_zero_l, <- norm2_dot in H1.
  pose proof (norm2_pos _ Hz). assert (dot a t = 0) as Et by (rnum_eq; nra). split; [exact Et|]. rewrite Et in Hc.
  assert (t <> vzero) as Ht by (intros ->; apply Hz, cross_zero_r). pose proof (norm2_pos _ Ht) as Hp. pose proof (f_equal (fun v => dot v t) Hc) as H2. cbv beta in H2. rewrite dot_sub_l, !dot_scale_l, dot_zero_l, <- norm2_dot in H2. rnum_eq. nra.
Qed.

Lemma l1_best (t a b : rvec3) : unit_vec t -> unit_vec a -> unit_vec b -> ~ square_corner a b t ->
  best Rplus t a b (fst (correct_l1 t a b)) (snd (correct_l1 t a b)).
Proof.
  intros Ht Ha Hb Hsq. set (A := norm (cross a t)). set (B := norm (cross b t)). set (s := dot a (cross b t)).
  assert (Rabs s <= B) as HsB by (apply triple_below, Ha). assert (Rabs s <= A) as HsA by (unfold s; rewrite <- Rabs_Ropp, <- triple_swap; apply triple_below, Hb).
  assert (A <= 1) as HA1 by (apply cross_below; assumption). assert (B <= 1) as HB1 by (apply cross_below; assumption).
  assert (0 <= A) as HA0 by apply norm_nonneg. assert (0 <= B) as HB0 by apply norm_nonneg. pose proof (norm_sq (cross a t)) as EA. pose proof (norm_sq (cross b t)) as EB. fold A in EA. fold B in EB.
  unfold correct_l1. fold A. fold B. cbn [ltb RNum]. destruct (Rltb A B) eqn:E; [apply Rltb_spec in E|apply Rltb_false in E]; cbn [fst snd].
  - assert (cross b t <> vzero) as Hz by (intros Ez; unfold B in E; rewrite Ez in E; assert (norm (vzero : rvec3) = 0) as E0 by (unfold norm; replace (norm2 (vzero : rvec3)) with 0 by lin; apply sqrt_0); rewrite E0 in E; lra).
    set (n := vdiv (cross b t) B). assert (unit_vec n) as Hn by (apply (normalize_unit _ Hz)).
    assert (Rabs (dot a n) = Rabs s / B) as En by (unfold n; rewrite vdiv_scale, dot_scale_r; apply abs_div; lra).
    assert (Rabs (dot a n) < 1) as Hl by (rewrite En; apply div_below; lra).
    destruct (into_facts n a Ha Hn Hl) as (Iu & Io & Ia & Ip). fold (into n a). split; [exact Iu|]. split; [exact Hb|]. split.
    { unfold n in Io. rewrite vdiv_scale, dot_scale_l in Io. rewrite dot_comm. apply Rmult_integral in Io as [Io|Io]; [|exact Io]. exfalso. apply (Rinv_neq_0_compat B); [lra|exact Io]. }
    split; [exact Ip|]. split; [rewrite <- norm2_dot; unfold unit_vec in Hb; rlra|]. intros u v Hu Hv Hc. rewrite Ia, (angle_self b Hb), Rplus_0_r, En.
    apply (l1_bound t a b u v B Ht Ha Hb Hu Hv Hc); [lra|rewrite <- EA; nra|rewrite <- EB; lra|apply div_below; fold s; lra].
  - destruct (Req_dec A 0) as [Z|Z].
    { unfold A in Z. apply norm_zero in Z. rewrite Z, vdiv_zero, into_zero by exact Hb. apply best_same; [apply sum_cost|assumption..|]. fold s. unfold A in HsA. rewrite Z in HsA.
      assert (norm (vzero : rvec3) = 0) as E0 by (unfold norm; replace (norm2 (vzero : rvec3)) with 0 by lin; apply sqrt_0). rewrite E0 in HsA. destruct (Req_dec s 0) as [|Hs0]; [assumption|]. apply Rabs_pos_lt in Hs0. lra. }
    assert (cross a t <> vzero) as Hz by (intros Ez; apply Z; unfold A; rewrite Ez; unfold norm; replace (norm2 (vzero : rvec3)) with 0 by lin; apply sqrt_0).
    set (n := vdiv (cross a t) A). assert (unit_vec n) as Hn by (apply (normalize_unit _ Hz)).
    assert (Rabs (dot b n) = Rabs s / A) as En by (unfold n; rewrite vdiv_scale, dot_scale_r, triple_swap, abs_div, Rabs_Ropp by lra; reflexivity).
    assert (Rabs (dot b n) < 1) as Hl.
    { rewrite En. apply div_below; [lra|]. destruct (Rlt_le_dec (Rabs s) A) as [|Hge]; [assumption|exfalso]. apply Hsq.
      assert (Rabs s = A) as E1 by lra. assert (Rabs s = B) as E2 by lra.
      assert (cross b t <> vzero) as Hzb by (intros Ez; apply Z; rewrite <- E1, E2; unfold B; rewrite Ez; unfold norm; replace (norm2 (vzero : rvec3)) with 0 by lin; apply sqrt_0).
      destruct (triple_corner a b t Ha Hzb E2) as [F1 F2]. destruct (triple_corner b a t Hb Hz) as [F3 _]; [rewrite triple_swap, Rabs_Ropp; exact E1|]. repeat split; assumption. }
    destruct (into_facts n b Hb Hn Hl) as (Iu & Io & Ia & Ip). fold (into n b). split; [exact Ha|]. split; [exact Iu|]. split.
    { rewrite triple_swap, (dot_comm (into n b)). replace (dot (cross a t) (into n b)) with 0; [rring|]. symmetry. revert Io. generalize (into n b). intros w Io. unfold n in Io.
      rewrite vdiv_scale, dot_scale_l in Io. apply Rmult_integral in Io as [Io|Io]; [exfalso; apply (Rinv_neq_0_compat A); [lra|exact Io]|exact Io]. }
    split; [rewrite <- norm2_dot; unfold unit_vec in Ha; rlra|]. split; [exact Ip|]. intros u v Hu Hv Hc. rewrite Ia, (angle_self a Ha), Rplus_0_l, En.
    apply (l1_bound t a b u v A Ht Ha Hb Hu Hv Hc); [lra|rewrite <- EA; lra|rewrite <- EB; nra|apply div_below; fold s; lra].
Qed.

(** The plane of the other rule, with the choice of [angular_linf]. *)
Definition middle (t a b : rvec3) : rvec3 :=
  let na := cross (vadd a b) t in
  let nb := cross (vsub a b) t in
  if Rltb (norm2 nb) (norm2 na) then vdiv na (norm na) else vdiv nb (norm nb).

Lemma middle_best (t a b N : rvec3) (k : R) : unit_vec t -> unit_vec a -> unit_vec b -> (k = 1 \/ k = -1) -> N = cross (vadd a (vscale k b)) t ->
  norm2 (cross (vadd a b) t) <= norm2 N -> norm2 (cross (vsub a b) t) <= norm2 N ->
  best Rmax t a b (into (vdiv N (norm N)) a) (into (vdiv N (norm N)) b).
Proof.
  intros Ht Ha Hb Hk EN H1 H2. set (s := dot a (cross b t)).
  assert (dot a N = k * s) as Ea by (rewrite EN; unfold s; generalize a b t; clear; lin). assert (dot b N = - s) as Eb by (rewrite EN; unfold s; generalize a b t; clear; lin).
  assert (s * s <= norm2 (cross b t)) as SB. { pose proof (triple_below a b t Ha) as H. pose proof (Rabs_pos s). fold s in H. rewrite <- (abs_sq s), <- norm_sq. rnum_eq. nra. }
  assert (s * s <= norm2 (cross a t)) as SA. { pose proof (triple_below b a t Hb) as H. rewrite triple_swap, Rabs_Ropp in H. pose proof (Rabs_pos s). fold s in H. rewrite <- (abs_sq s), <- norm_sq. rnum_eq. nra. }
  assert (norm2 (cross (vadd a b) t) + norm2 (cross (vsub a b) t) = 2 * (norm2 (cross a t) + norm2 (cross b t))) as Epar by (generalize a b t; clear; lin).
  assert (2 * (s * s) <= norm2 N) as HN by rlra.
  destruct (Req_dec (norm2 N) 0) as [Z|Z].
  - assert (N = vzero) as -> by (apply norm2_zero; exact Z). rewrite vdiv_zero. unfold into. rewrite !into_zero by assumption. apply best_same; [apply max_cost|assumption..|]. fold s. rnum_eq. nra.
  - assert (N <> vzero) as Hz by (intros E; apply Z; rewrite E; lin). set (n := vdiv N (norm N)). pose proof (norm_pos N Hz) as HM. pose proof (norm_sq N) as EM. assert (unit_vec n) as Hn by (apply (normalize_unit _ Hz)).
    assert (Rabs s < norm N) as Hlt. { pose proof (Rabs_pos s). pose proof (abs_sq s). pose proof (norm2_pos N Hz). rnum_eq. nra. }
    assert (Rabs (dot a n) = Rabs s / norm N) as Ean. { unfold n. rewrite vdiv_scale, dot_scale_r, abs_div, Ea, Rabs_mult by exact HM. replace (Rabs k) with 1; [unfold Rdiv; ring|]. destruct Hk as [-> | ->]; [rewrite Rabs_pos_eq; lra|rewrite Rabs_left; lra]. }
    assert (Rabs (dot b n) = Rabs s / norm N) as Ebn. { unfold n. rewrite vdiv_scale, dot_scale_r, abs_div, Eb, Rabs_Ropp by exact HM. reflexivity. }
    assert (Rabs s / norm N < 1) as Hl by (apply div_below; assumption).
    destruct (into_facts n a Ha Hn ltac:(rewrite Ean; exact Hl)) as (Iu & Io & Ia & Ip). destruct (into_facts n b Hb Hn ltac:(rewrite Ebn; exact Hl)) as (Ju & Jo & Ja & Jp).
    assert (dot n t = 0) as Hnt. { unfold n. rewrite vdiv_scale, dot_scale_l, EN, (dot_comm _ t), dot_cross_r. rring. }
    split; [exact Iu|]. split; [exact Ju|]. split.
    { rewrite (plane_triple t n _ _ Ht Hn Hnt), !(dot_comm _ n), Io, Jo. rring. }
    split; [exact Ip|]. split; [exact Jp|]. intros u v Hu Hv Hc. rewrite Ia, Ja, Ean, Ebn, Rmax_left by lra.
    apply (linf_bound t a b u v (norm N) Ht Ha Hb Hu Hv Hc HM); [rewrite EM; assumption..|]. fold s. lra.
Qed.
Lemma linf_best (t a b : rvec3) : unit_vec t -> unit_vec a -> unit_vec b -> best Rmax t a b (into (middle t a b) a) (into (middle t a b) b).
Proof.
  intros Ht Ha Hb. unfold middle. destruct (Rltb _ _) eqn:E; [apply Rltb_spec in E|apply Rltb_false in E].
  - apply (middle_best t a b _ 1); auto; [generalize a b t; clear; lin|lra|lra].
  - apply (middle_best t a b _ (-1)); auto; [generalize a b t; clear; lin|lra].
Qed.

(** ** The triangulators *)
Lemma ray_basis (t a b : rvec3) : dot a (cross b t) = 0 ->
  vscale (norm2 (cross a b)) t = vadd (vscale (dot (cross t b) (cross a b)) a) (vscale (dot (cross a t) (cross a b)) b).
Proof.
  intros E. transitivity (vadd (vadd (vscale (dot (cross t b) (cross a b)) a) (vscale (dot (cross a t) (cross a b)) b)) (vscale (dot a (cross b t)) (cross a b))).
  - generalize t a b. clear. lin.
  - rewrite E, vscale_zero. apply vadd_zero_r.
Qed.
Lemma intersect_rays (t a b : rvec3) x q : unit_vec a -> dot a (cross b t) = 0 -> intersect t a b = Some x -> point x = Some q ->
  exists lam mu : R, 0 < lam /\ q = vscale lam a /\ q = vadd t (vscale mu b).
Proof.
  intros Ha E Hi Hq.
  assert (forall w : R, w = 0 -> from_homogeneous (V4 (vx a) (vy a) (vz a) w : rvec4) = x -> False) as Hw.
  { intros w -> Ex. assert (point x = None) as Hn; [|congruence]. rewrite <- Ex. apply point_none. rewrite from_homogeneous_scale, hw_scale. cbn [hw]. rring. }
  assert (forall P : Prop, (dot (cross a b) (cross t b) <> 0 -> P) -> P) as Hc.
  { intros P HP. destruct (Req_dec (dot (cross a b) (cross t b)) 0) as [Z|Z]; [exfalso|exact (HP Z)]. revert Hi. unfold intersect. destruct (h_finite _); [|discriminate]. destruct (_ && _)%bool; [|discriminate].
    intros Hi'. assert (forall y : rvec4, Some y = Some x -> y = x) as Hj by congruence. apply Hj in Hi'. revert Hi'. apply Hw. rewrite Z. rnum. unfold Rdiv. rewrite Rinv_0. ring. }
  refine (Hc _ _). intros Hd. clear Hc Hw. assert (cross a b <> vzero) as Hz by (intros Z; apply Hd; rewrite Z; apply dot_zero_l). pose proof (norm2_pos _ Hz) as Hn.
  set (n := norm2 (cross a b)) in *. set (lam := dot (cross t b) (cross a b) / n). set (mu := - dot (cross a t) (cross a b) / n).
  assert (vscale lam a = vadd t (vscale mu b)) as Em.
  { pose proof (f_equal (vscale (/ n)) (ray_basis t a b E)) as H. fold n in H. rewrite vscale_scale, Rinv_l, vscale_one in H by lra. rewrite H at 1. unfold lam, mu. clear. unfold Rdiv. generalize (dot (cross t b) (cross a b)) (dot (cross a t) (cross a b)) (/ n). intros x y z. lin. }
  assert (lam <> 0) as Hl. { unfold lam. rewrite dot_comm. unfold Rdiv. apply Rmult_integral_contrapositive_currified; [exact Hd|apply Rinv_neq_0_compat; lra]. }
  rewrite (intersect_meet t a b lam mu Ha Hz Em Hl) in Hi. destruct (Rltb lam 0) eqn:El; [discriminate|]. apply Rltb_false in El. destruct (Rltb (dot a b) 0); [discriminate|]. injection Hi as <-.
  exists lam, mu. split; [lra|]. assert (q = vscale lam a) as ->; [|split; [reflexivity|exact Em]].
  assert (vscale lam a <> vzero) as Hla. { intros Ez. apply (f_equal norm2) in Ez. rewrite norm2_scale in Ez. unfold unit_vec in Ha. rewrite Ha in Ez. replace (norm2 (vzero : rvec3)) with 0 in Ez by lin. nra. }
  rewrite point_from_point in Hq by exact Hla. congruence.
Qed.

Lemma normalize_zero : normalize (vzero : rvec3) = vzero. Proof. apply vdiv_zero. Qed.
Lemma coplanar_scale (t u v : rvec3) (s : R) : s <> 0 -> (dot u (cross v (vscale s t)) = 0 <-> dot u (cross v t) = 0).
Proof.
  intros Hs. rewrite cross_scale_r, dot_scale_r. split; [|intros ->; rring]. intros H. apply Rmult_integral in H as [H|H]; [contradiction|exact H].
Qed.
Lemma best_normalize cost (t a b a' b' : rvec3) : t <> vzero -> best cost (normalize t) a b a' b' -> best cost t a b a' b'.
Proof.
  intros Ht (H1 & H2 & H3 & H4 & H5 & H6). pose proof (norm_pos t Ht) as Hn. assert (forall u v, dot u (cross v t) = 0 <-> dot u (cross v (normalize t)) = 0) as Hc.
  { intros u v. rewrite <- (normalize_scale t Ht) at 1. apply coplanar_scale. lra. }
  repeat split; try assumption; [apply Hc; exact H3|]. intros u v Hu Hv H. apply H6; try assumption. exact (proj1 (Hc u v) H).
Qed.
Lemma correct_l1_zero (a b : rvec3) : unit_vec b -> correct_l1 vzero a b = (a, b).
Proof.
  intros Hb. unfold correct_l1. rewrite !cross_zero_r. assert (ltb (norm (vzero : rvec3)) (norm vzero) = false) as -> by (apply Rltb_false; apply Rle_refl). rewrite vdiv_zero, into_zero by exact Hb. reflexivity.
Qed.
Lemma l1_best_any (t a b : rvec3) : unit_vec a -> unit_vec b -> t = vzero \/ ~ square_corner a b (normalize t) ->
  best Rplus t a b (fst (correct_l1 (normalize t) a b)) (snd (correct_l1 (normalize t) a b)).
Proof.
  intros Ha Hb Hs. destruct (Req_dec (norm2 t) 0) as [Z|Z].
  - apply norm2_zero in Z. subst t. rewrite normalize_zero. rewrite correct_l1_zero by assumption. apply best_same; [apply sum_cost|assumption..|rewrite cross_zero_r; apply dot_zero_r].
  - assert (t <> vzero) as Ht by (intros E; apply Z; rewrite E; lin). apply best_normalize; [exact Ht|]. apply l1_best; [apply normalize_unit, Ht|assumption..|]. destruct Hs as [Hs|Hs]; [contradiction|exact Hs].
Qed.
(** Where the two rays and the baseline are pairwise perpendicular the corrected bearing is zero, and
    the result is not a point. *)
Lemma correct_corner (t a b : rvec3) : unit_vec t -> unit_vec a -> unit_vec b -> square_corner a b t -> correct_l1 t a b = (a, vzero).
Proof.
  intros Ht Ha Hb (E1 & E2 & E3). unfold unit_vec in *. assert (norm2 (cross a t) = 1) as Na by (rewrite lagrange, Ha, Ht, E2; rring). assert (norm2 (cross b t) = 1) as Nb by (rewrite lagrange, Hb, Ht, E3; rring).
  unfold correct_l1. rewrite (norm_unit _ Na), (norm_unit _ Nb). replace (ltb (1 : carrier RNum) 1) with false by (symmetry; apply Rltb_false; lra). f_equal.
  rewrite vdiv_scale, Rinv_1, vscale_one. set (n := cross a t) in *.
  assert (cross b n = vzero) as Hc by (unfold n; rewrite triple_cross, E3, (dot_comm b a), E1; generalize a t; lin).
  pose proof (triple_cross n b n) as H. rewrite Hc, cross_zero_r, <- norm2_dot, Na, vscale_one, (dot_comm n b) in H. rewrite <- H. apply normalize_zero.
Qed.
Lemma intersect_zero (t b : rvec3) x : intersect t vzero b = Some x -> point x = None.
Proof.
  unfold intersect. destruct (h_finite _); [|discriminate]. destruct (_ && _)%bool; [|discriminate]. intros H. assert (forall y : rvec4, Some y = Some x -> y = x) as Hj by congruence. apply Hj in H. rewrite <- H.
  apply point_none. rewrite from_homogeneous_scale, hw_scale. cbn [hw]. rewrite cross_zero_l. replace (norm2 (vzero : rvec3)) with 0 by lin. rnum. unfold Rdiv. ring.
Qed.
Lemma square_corner_dec (a b t : rvec3) : square_corner a b t \/ ~ square_corner a b t.
Proof. unfold square_corner. destruct (Req_dec (dot a b) 0), (Req_dec (dot a t) 0), (Req_dec (dot b t) 0); tauto. Qed.
Lemma middle_zero (a b : rvec3) : middle vzero a b = vzero.
Proof. unfold middle. rewrite !cross_zero_r, !vdiv_zero. destruct (Rltb _ _); reflexivity. Qed.
Lemma linf_best_any (t a b : rvec3) : unit_vec a -> unit_vec b -> best Rmax t a b (into (middle (normalize t) a b) a) (into (middle (normalize t) a b) b).
Proof.
  intros Ha Hb. destruct (Req_dec (norm2 t) 0) as [Z|Z].
  - apply norm2_zero in Z. subst t. rewrite normalize_zero, middle_zero. unfold into. rewrite !into_zero by assumption. apply best_same; [apply max_cost|assumption..|rewrite cross_zero_r; apply dot_zero_r].
  - assert (t <> vzero) as Ht by (intros E; apply Z; rewrite E; lin). apply best_normalize; [exact Ht|]. apply linf_best; [apply normalize_unit, Ht|assumption..].
Qed.

Lemma second_error_direction (p : riso) (b q : rvec3) : rigid p -> second_error p b q = angle (direction (p, b)) (normalize (vsub q (centre p))).
Proof.
  intros Hp. unfold second_error, angle. f_equal. rewrite <- (direction_point p q Hp), normalize_rotation by apply rotation_mtrans, Hp. unfold direction. cbn [fst snd]. rewrite rotation_dot by apply rotation_mtrans, Hp. reflexivity.
Qed.
Lemma point_coplanar (c q : rvec3) : dot (normalize (vsub q c)) (cross (normalize q) c) = 0.
Proof. unfold normalize. rewrite !vdiv_scale, cross_scale_l, dot_scale_l, dot_scale_r. replace (dot (vsub q c) (cross q c)) with 0 by lin. rring. Qed.

Lemma best_point cost (p : riso) (a b d' a' : rvec3) x q : rigid p -> unit_vec a -> unit_vec b ->
  best cost (centre p) (direction (p, b)) a d' a' -> intersect (centre p) a' d' = Some x -> point x = Some q -> 0 < dot (iso_point p q) b ->
  forall q' : rvec3, q' <> vzero -> iso_point p q' <> vzero -> cost (second_error p b q) (first_error a q) <= cost (second_error p b q') (first_error a q').
Proof.
  intros Hp Ha Hb (H1 & H2 & H3 & H4 & H5 & H6) Hi Hq Hf q' Hq' Hs'. set (d := direction (p, b)) in *. set (c := centre p) in *.
  assert (dot a' (cross d' c) = 0) as H3' by (rewrite triple_swap, H3; rring).
  destruct (intersect_rays c a' d' x q H2 H3' Hi Hq) as (lam & mu & Hl & E1 & E2).
  assert (normalize q = a') as En by (rewrite E1, normalize_pos_scale, normalize_of_unit by assumption; reflexivity).
  assert (vsub q c = vscale mu d') as Em by (rewrite E2; generalize c; intros; lin).
  assert (dot (vsub q c) d = dot (iso_point p q) b) as Ed.
  { unfold c. rewrite <- (direction_point p q Hp). unfold d, direction. cbn [fst snd]. apply rotation_dot, rotation_mtrans, Hp. }
  assert (0 < mu) as Hmu. { rewrite <- Ed, Em, dot_scale_l, (dot_comm d' d) in Hf. rnum_eq. nra. }
  assert (normalize (vsub q c) = d') as Ed' by (rewrite Em, normalize_pos_scale, normalize_of_unit by assumption; reflexivity).
  rewrite !(second_error_direction p b _ Hp). fold d c. rewrite Ed'. unfold first_error. rewrite En.
  apply H6; [apply normalize_unit; intros Z; apply Hs'|apply normalize_unit, Hq'|apply point_coplanar].
  assert (mvec (mtrans (rot p)) (iso_point p q') = vzero) as Z' by (rewrite (direction_point p q' Hp); exact Z). exact (rotation_zero _ _ (rotation_mtrans _ Hp) Z').
Qed.

Lemma angular_l1_best (p : riso) (a b : rvec3) x q : rigid p -> unit_vec a -> unit_vec b ->
  angular_l1 p a b = Some x -> point x = Some q -> 0 < dot (iso_point p q) b ->
  forall q' : rvec3, q' <> vzero -> iso_point p q' <> vzero -> first_error a q + second_error p b q <= first_error a q' + second_error p b q'.
Proof.
  intros Hp Ha Hb Hx Hq Hf q' Hq' Hs'. assert (unit_vec (direction (p, b))) as Hd by (apply rotation_unit; [apply rotation_mtrans, Hp|exact Hb]).
  unfold angular_l1 in Hx. rewrite direction_turn, centre_inv in Hx.
  assert (centre p = vzero \/ ~ square_corner (direction (p, b)) a (normalize (centre p))) as Hs.
  { destruct (square_corner_dec (direction (p, b)) a (normalize (centre p))) as [Hs|Hs]; [left|right; exact Hs]. apply norm2_zero. destruct (Req_dec (norm2 (centre p)) 0) as [Z|Z]; [exact Z|exfalso].
    rewrite correct_corner in Hx; [|apply normalize_unit; intros E; apply Z; rewrite E; lin|assumption..]. apply intersect_zero in Hx. congruence. }
  pose proof (l1_best_any (centre p) (direction (p, b)) a Hd Ha Hs) as Hbest.
  destruct (correct_l1 (normalize (centre p)) (direction (p, b)) a) as [d' a']. cbn [fst snd] in Hbest.
  pose proof (best_point Rplus p a b d' a' x q Hp Ha Hb Hbest Hx Hq Hf q' Hq' Hs'). lra.
Qed.
Lemma angular_linf_best (p : riso) (a b : rvec3) x q : rigid p -> unit_vec a -> unit_vec b ->
  angular_linf p a b = Some x -> point x = Some q -> 0 < dot (iso_point p q) b ->
  forall q' : rvec3, q' <> vzero -> iso_point p q' <> vzero -> Rmax (first_error a q) (second_error p b q) <= Rmax (first_error a q') (second_error p b q').
Proof.
  intros Hp Ha Hb Hx Hq Hf q' Hq' Hs'. assert (unit_vec (direction (p, b))) as Hd by (apply rotation_unit; [apply rotation_mtrans, Hp|exact Hb]).
  pose proof (linf_best_any (centre p) (direction (p, b)) a Hd Ha) as Hbest. rewrite !(Rmax_comm (first_error _ _)). exact (best_point Rmax p a b _ _ x q Hp Ha Hb Hbest Hx Hq Hf q' Hq' Hs').
Qed.

(** *** Examples: rays which do not meet *)
Definition side_camera : riso := Iso mid (V3 (-3) 0 0).
Lemma side_rigid : rigid side_camera. Proof. apply rotation_id. Qed.
Lemma side_centre : centre side_camera = V3 3 0 0. Proof. unfold centre, side_camera. lin_unfold. lin_split; rlra. Qed.
Lemma side_meet (x : rvec3) : x = V3 0 0 1 -> intersect (V3 3 0 0) x (V3 (-3/5) 0 (4/5) : rvec3) = Some (from_point (V3 0 0 4)).
Proof.
  intros ->. rewrite (intersect_meet _ _ _ 4 5).
  - assert (Rltb 4 0 = false) as -> by (apply Rltb_false; lra). assert (Rltb (dot (V3 0 0 1 : rvec3) (V3 (-3/5) 0 (4/5))) 0 = false) as -> by (apply Rltb_false; lin_unfold; rnum_eq; lra).
    do 2 f_equal. lin_unfold. lin_split; rlra.
  - unfold unit_vec. lin_unfold. rlra.
  - lin_unfold. intros [= H]. lra.
  - lin_unfold. lin_split; rlra.
  - lra.
Qed.
Lemma normalize_by (s : R) (u v : rvec3) : 0 < s -> unit_vec v -> u = vscale s v -> normalize u = v.
Proof. intros Hs Hv ->. rewrite normalize_pos_scale by exact Hs. apply normalize_of_unit, Hv. Qed.
Lemma norm_by (s : R) (u : rvec3) : 0 <= s -> norm2 u = s * s -> norm u = s.
Proof. intros Hs E. unfold norm. rewrite E. rnum. apply sqrt_square, Hs. Qed.
Lemma side_normal (s : R) (u : rvec3) : 0 < s -> u = V3 0 s 0 -> vdiv u (norm u) = V3 0 1 0.
Proof. intros Hs ->. apply (normalize_by s); [exact Hs|unfold unit_vec; lin_unfold; rlra|lin_unfold; lin_split; rlra]. Qed.

Lemma l1_noisy : exists (p : riso) (a b : rvec3) x q, rigid p /\ unit_vec a /\ unit_vec b /\ ~ (exists lam mu : R, vscale lam a = vadd (centre p) (vscale mu (direction (p, b)))) /\
  angular_l1 p a b = Some x /\ point x = Some q /\ 0 < dot (iso_point p q) b.
Proof.
  exists side_camera, (V3 0 0 1), (V3 (-12/25) (15/25) (16/25)), (from_point (V3 0 0 4)), (V3 0 0 4).
  assert (direction (side_camera, (V3 (-12/25) (15/25) (16/25) : rvec3)) = V3 (-12/25) (15/25) (16/25)) as Ed by apply mid_direction.
  split; [exact side_rigid|]. split; [unfold unit_vec; lin_unfold; rlra|]. split; [unfold unit_vec; lin_unfold; rlra|]. rewrite side_centre, Ed. split.
  { intros (lam & mu & H). revert H. lin_unfold. rnum. intros [= H1 H2 H3]. lra. }
  split.
  - unfold angular_l1. rewrite direction_turn, centre_inv, side_centre, Ed. rewrite (normalize_by 3 (V3 3 0 0) (V3 1 0 0)) by (try lra; try (unfold unit_vec; lin_unfold; rlra); lin_unfold; lin_split; rlra).
    unfold correct_l1. rewrite (side_normal 1) by (try lra; lin_unfold; lin_split; rlra).
    rewrite (norm_by 1 (cross (V3 0 0 1) _)) by (try lra; lin_unfold; rlra). assert (norm (cross (V3 (-12/25) (15/25) (16/25)) (V3 1 0 0 : rvec3)) < 1) as Hl.
    { apply Rsqr_incrst_0; [|apply norm_nonneg|lra]. unfold Rsqr. rewrite norm_sq. lin_unfold. rnum_eq. lra. }
    match goal with |- context[if ?c then _ else _] => assert (c = true) as -> by (apply Rltb_spec; exact Hl) end. rewrite (normalize_by (4/5) _ (V3 (-3/5) 0 (4/5))) by (try lra; try (unfold unit_vec; lin_unfold; rlra); lin_unfold; lin_split; rlra).
    apply side_meet. reflexivity.
  - split; [apply point_from_point; lin_unfold; intros [= H]; lra|]. unfold side_camera. lin_unfold. rnum_eq. lra.
Qed.
Lemma linf_noisy : exists (p : riso) (a b : rvec3) x q, rigid p /\ unit_vec a /\ unit_vec b /\ ~ (exists lam mu : R, vscale lam a = vadd (centre p) (vscale mu (direction (p, b)))) /\
  angular_linf p a b = Some x /\ point x = Some q /\ 0 < dot (iso_point p q) b.
Proof.
  exists side_camera, (V3 0 (3/5) (4/5)), (V3 (-12/25) (-15/25) (16/25)), (from_point (V3 0 0 4)), (V3 0 0 4).
  assert (direction (side_camera, (V3 (-12/25) (-15/25) (16/25) : rvec3)) = V3 (-12/25) (-15/25) (16/25)) as Ed by apply mid_direction.
  split; [exact side_rigid|]. split; [unfold unit_vec; lin_unfold; rlra|]. split; [unfold unit_vec; lin_unfold; rlra|]. rewrite side_centre, Ed. split.
  { intros (lam & mu & H). revert H. lin_unfold. rnum. intros [= H1 H2 H3]. lra. }
  split.
  - unfold angular_linf. rewrite direction_turn, centre_inv, side_centre, Ed. rewrite (normalize_by 3 (V3 3 0 0) (V3 1 0 0)) by (try lra; try (unfold unit_vec; lin_unfold; rlra); lin_unfold; lin_split; rlra).
    match goal with |- context[if ?c then _ else _] => assert (c = true) as -> by (apply Rltb_spec; lin_unfold; rnum_eq; lra) end.
    match goal with |- context[vdiv ?u (sqrt_ (norm2 ?u))] => change (vdiv u (sqrt_ (norm2 u))) with (vdiv u (norm u)); rewrite (side_normal (36/25) u) by (try lra; lin_unfold; lin_split; rlra) end.
    rewrite (normalize_by (4/5) _ (V3 0 0 1)) by (try lra; try (unfold unit_vec; lin_unfold; rlra); lin_unfold; lin_split; rlra).
    rewrite (normalize_by (4/5) _ (V3 (-3/5) 0 (4/5))) by (try lra; try (unfold unit_vec; lin_unfold; rlra); lin_unfold; lin_split; rlra).
    apply side_meet. reflexivity.
  - split; [apply point_from_point; lin_unfold; intros [= H]; lra|]. unfold side_camera. lin_unfold. rnum_eq. lra.
Qed.

(** A result behind the second camera is far from the best. *)
Lemma away_worse : exists (p : riso) (a b : rvec3) q q', rigid p /\ unit_vec a /\ unit_vec b /\ q' <> vzero /\ iso_point p q' <> vzero /\
  angular_l1 p a b = Some (from_point q) /\ angular_linf p a b = Some (from_point q) /\
  first_error a q' + second_error p b q' < first_error a q + second_error p b q /\
  Rmax (first_error a q') (second_error p b q') < Rmax (first_error a q) (second_error p b q).
Proof.
  exists away, between, away_bearing, between, (V3 6 0 9). split; [apply away_rigid|]. split; [apply between_unit|]. split; [apply away_unit|].
  split; [lin_unfold; intros [= H]; lra|]. assert (iso_point away (V3 6 0 9) = vscale 5 away_bearing) as E by (unfold away, away_bearing; lin_unfold; lin_split; rlra).
  pose proof away_unit as Hu. split. { rewrite E. intros Z. apply (f_equal norm2) in Z. rewrite norm2_scale in Z. unfold unit_vec in Hu. rewrite Hu in Z. replace (norm2 (vzero : rvec3)) with 0 in Z by lin. lra. }
  split; [apply away_results|]. split; [apply away_results|]. unfold first_error, second_error. rewrite E, away_image.
  assert (forall v : rvec3, unit_vec v -> angle v v = 0) as Hz. { intros v Hv. unfold angle. rewrite <- norm2_dot. unfold unit_vec in Hv. rewrite Hv. apply acos_1. }
  assert (normalize (vscale (-5) away_bearing) = vneg away_bearing) as En. { replace (vscale (-5) away_bearing) with (vscale 5 (vneg away_bearing)) by (generalize away_bearing; lin). rewrite normalize_pos_scale by lra. apply normalize_of_unit, unit_neg, Hu. }
  rewrite En, (normalize_of_unit between between_unit), (Hz _ between_unit), normalize_pos_scale, (normalize_of_unit away_bearing Hu), (Hz _ Hu) by lra.
  assert (angle away_bearing (vneg away_bearing) = PI) as Epi. { unfold angle. rewrite dot_neg_r, <- norm2_dot. unfold unit_vec in Hu. rewrite Hu. transitivity (PI - acos 1); [exact (acos_opp 1)|rewrite acos_1; lra]. }
  rewrite Epi. assert (angle between (normalize (V3 6 0 9)) < PI) as Hlt.
  { assert (0 < dot between (normalize (V3 6 0 9 : rvec3))) as Hd. { unfold normalize. rewrite vdiv_scale, dot_scale_r. apply Rmult_lt_0_compat; [apply Rinv_0_lt_compat, norm_pos; lin_unfold; intros [= H]; lra|]. unfold between. lin_unfold. rnum_eq. lra. }
    unfold angle. pose proof PI_RGT_0. assert (dot between (normalize (V3 6 0 9 : rvec3)) <= 1) as H1. { apply unit_dot_bounds; [apply between_unit|apply normalize_unit; lin_unfold; intros [= H1]; lra]. }
destruct (acos_bound (dot between (normalize (V3 6 0 9 : rvec3)))) as [_ [H2|H2]]; [exact H2|exfalso]. apply (f_equal cos) in H2. rewrite cos_acos, cos_PI in H2 by lra. lra. }
  pose proof PI_RGT_0. split; [lra|]. rewrite Rmax_left by (apply acos_bound). rewrite Rmax_right by lra. exact Hlt.
Qed.
