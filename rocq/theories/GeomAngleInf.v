(** The angular triangulators make the smallest correction: results at infinity, and competitors at infinity. *)
From Coq Require Import Reals Lra Psatz List ZArith Bool Floats.SpecFloat.
From Verif Require Import Num Lin LinSpec LinFacts Core CoreSpec CoreFacts DesignFacts Geom GeomSpec GeomFacts GeomEpi GeomProps GeomAngle.
Import ListNotations.
Open Scope R_scope.

(** ** Parallel vectors *)
Lemma cross_normalize_zero (u t : rvec3) : cross (normalize u) t = vzero -> cross u t = vzero.
Proof.
  intros H. destruct (Req_dec (norm2 u) 0) as [Z|Z].
  - apply norm2_zero in Z. rewrite Z. apply cross_zero_l.
  - rewrite <- (normalize_scale u) by (intros E; apply Z; rewrite E; lin). rewrite cross_scale_l, H. generalize (norm u). intros s. lin.
Qed.
Lemma parallel_units (u v : rvec3) : unit_vec u -> unit_vec v -> cross u v = vzero -> 0 <= dot u v -> u = v.
Proof.
  intros Hu Hv Hc Hd. unfold unit_vec in *. assert (dot u v * dot u v = 1) as Hq.
  { pose proof (lagrange u v) as H. rewrite Hc, Hu, Hv in H. replace (norm2 (vzero : rvec3)) with 0 in H by lin. rnum_eq. lra. }
  assert (dot u v = 1) as E1 by (rnum_eq; nra). pose proof (triple_cross v u v) as H. rewrite Hc, cross_zero_r, (dot_comm v u), E1, <- norm2_dot, Hv, !vscale_one in H.
  apply (f_equal (fun w => vadd w v)) in H. cbv beta in H. transitivity (vadd (vsub u v) v); [generalize u v; clear; lin|]. rewrite <- H. generalize v. clear. lin.
Qed.
Lemma parallel_perpendicular (u v : rvec3) : cross u v = vzero -> dot u v = 0 -> u <> vzero -> v = vzero.
Proof.
  intros Hc Hd Hu. apply norm2_zero. pose proof (lagrange u v) as H. rewrite Hc, Hd in H. replace (norm2 (vzero : rvec3)) with 0 in H by lin. pose proof (norm2_pos u Hu) as Hp.
  assert (norm2 u * norm2 v = 0) as Hm by (rnum_eq; lra). apply Rmult_integral in Hm as [Hm|Hm]; [rnum_eq; lra|exact Hm].
Qed.

Lemma xyz_of (a : rvec3) (w : R) : xyz (V4 (vx a) (vy a) (vz a) w : rvec4) = a. Proof. destruct a. reflexivity. Qed.

(** ** Where [intersect] returns a point at infinity *)
Lemma intersect_infinity (c a d : rvec3) x : unit_vec a -> unit_vec d -> dot a (cross d c) = 0 -> cross d c <> vzero ->
  intersect c a d = Some x -> point x = None -> bearing x = a /\ a = d.
Proof.
  intros Ha Hd Hc Hz Hi Hn. unfold intersect in Hi. set (w := (norm2 (cross a d) / dot (cross a d) (cross c d))%num) in Hi.
  destruct (h_finite _); [|discriminate]. destruct (positive (dot _ a) && positive _)%bool eqn:Ep; [|discriminate].
  assert (forall y : rvec4, Some y = Some x -> y = x) as Hj by congruence. apply Hj in Hi. clear Hj. rewrite Hi in Ep.
  assert (w = 0) as Hw.
  { apply point_none in Hn. rewrite <- Hi, from_homogeneous_scale, hw_scale in Hn. cbn [hw] in Hn. apply Rmult_integral in Hn as [Hn|Hn]; [exact Hn|].
    exfalso. revert Hn. assert (a <> vzero) as Hav by (intros ->; unfold unit_vec in Ha; replace (norm2 (vzero : rvec3)) with 0 in Ha by lin; rnum_eq; lra).
    intros Hn. destruct (canon_scale_abs (V4 (vx a) (vy a) (vz a) w)) as [E1 E2]; [rewrite (xyz_of a w); exact Hav|]. rewrite Hn, Rabs_R0 in E1. rewrite <- E1 in E2. lra. }
  assert (bearing x = a) as Eb.
  { rewrite <- Hi, Hw. unfold from_homogeneous. cbn [hw]. change (signneg (0 : RNum)) with (Rltb 0 0). assert (Rltb 0 0 = false) as -> by (apply Rltb_false; lra).
    unfold bearing. rewrite (xyz_of a 0).
    rewrite (norm_unit a Ha). destruct a as [a1 a2 a3]. lin_unfold. lin_split; rfield. }
  split; [exact Eb|]. assert (cross a d = vzero) as Ez.
  { destruct (Req_dec (norm2 (cross a d)) 0) as [Z|Z]; [apply norm2_zero, Z|exfalso]. apply Hz.
    assert (dot (cross a d) (cross c d) = 0) as Hq.
    { destruct (Req_dec (dot (cross a d) (cross c d)) 0) as [|Hne]; [assumption|exfalso]. unfold w in Hw. change (norm2 (cross a d) * / dot (cross a d) (cross c d) = 0) in Hw. apply Rmult_integral in Hw as [Hw|Hw]; [exact (Z Hw)|]. exact (Rinv_neq_0_compat _ Hne Hw). }
    assert (cross (cross a d) (cross c d) = vzero) as Hp.
    { transitivity (vscale (- dot a (cross d c)) d); [generalize a d c; clear; lin|]. rewrite Hc, Ropp_0. apply vscale_zero. }
    assert (cross c d = vzero) as H0 by (apply (parallel_perpendicular _ _ Hp Hq); intros E; apply Z; rewrite E; lin).
    transitivity (vneg (cross c d)); [generalize c d; clear; lin|]. rewrite H0. lin. }
  apply parallel_units; [assumption..|]. rewrite Eb in Ep. apply andb_true_iff in Ep as [_ Ep]. unfold positive in Ep. cbn [signneg RNum] in Ep. apply negb_true_iff in Ep. apply Rltb_false in Ep. exact Ep.
Qed.

(** ** Results at infinity are the best *)
(** No direction and no point is better. *)
Definition unbeaten (cost : R -> R -> R) (p : riso) (a b : rvec3) (e2 e1 : R) : Prop :=
  (forall q : rvec3, q <> vzero -> iso_point p q <> vzero -> cost e2 e1 <= cost (second_error p b q) (first_error a q)) /\
  (forall u : rvec3, unit_vec u -> cost e2 e1 <= cost (angle b (turn p u)) (angle a u)).
Lemma turn_error (p : riso) (b u : rvec3) : rigid p -> angle b (turn p u) = angle (direction (p, b)) u.
Proof.
  intros Hp. unfold angle, direction, turn. cbn [fst snd]. f_equal. rewrite <- (rotation_dot (mtrans (rot p)) b), (rotation_back _ _ Hp) by apply rotation_mtrans, Hp. reflexivity.
Qed.
Lemma best_unbeaten cost (p : riso) (a b d' a' : rvec3) : rigid p -> best cost (centre p) (direction (p, b)) a d' a' ->
  unbeaten cost p a b (angle (direction (p, b)) d') (angle a a').
Proof.
  intros Hp (H1 & H2 & H3 & H4 & H5 & H6). split.
  - intros q Hq Hs. rewrite (second_error_direction p b _ Hp). unfold first_error. apply H6; [apply normalize_unit; intros Z; apply Hs|apply normalize_unit, Hq|apply point_coplanar].
    assert (mvec (mtrans (rot p)) (iso_point p q) = vzero) as Z' by (rewrite (direction_point p q Hp); exact Z). exact (rotation_zero _ _ (rotation_mtrans _ Hp) Z').
  - intros u Hu. rewrite (turn_error p b u Hp). apply H6; [assumption..|]. apply dot_cross_l.
Qed.
Lemma best_direction cost (p : riso) (a b d' a' : rvec3) x : rigid p -> unit_vec a -> unit_vec b ->
  best cost (centre p) (direction (p, b)) a d' a' -> cross d' (centre p) <> vzero -> intersect (centre p) a' d' = Some x -> point x = None ->
  unbeaten cost p a b (angle b (turn p (bearing x))) (angle a (bearing x)).
Proof.
  intros Hp Ha Hb Hbest Hz Hi Hn. pose proof (best_unbeaten cost p a b d' a' Hp Hbest) as Hu. destruct Hbest as (H1 & H2 & H3 & _).
  destruct (intersect_infinity (centre p) a' d' x H2 H1) as [Eb E]; [rewrite triple_swap, H3; rring|exact Hz|exact Hi|exact Hn|].
  rewrite Eb, (turn_error p b a' Hp), E. rewrite E in Hu at 1. exact Hu.
Qed.

(** The corrected ray of the second camera runs along the baseline only if the planes of the two rays are at right angles. *)
Lemma into_along (n d t : rvec3) : cross (into n d) t = vzero -> cross d t = vscale (dot d n) (cross n t).
Proof.
  intros H. apply cross_normalize_zero in H. rewrite cross_sub_l, cross_scale_l in H. apply (f_equal (fun w => vadd w (vscale (dot d n) (cross n t)))) in H. cbv beta in H.
  transitivity (vadd (vsub (cross d t) (vscale (dot d n) (cross n t))) (vscale (dot d n) (cross n t))); [generalize (cross d t) (vscale (dot d n) (cross n t)); clear; lin|]. rewrite H. generalize (vscale (dot d n) (cross n t)). clear. lin.
Qed.
Lemma cross_dot_along (n A t : rvec3) (k : R) : n = vscale k A -> dot (cross n t) A = 0.
Proof. intros ->. generalize A t k. clear. lin. Qed.
Lemma correct_l1_off (t a d : rvec3) : dot (cross d t) (cross a t) <> 0 -> cross (fst (correct_l1 t d a)) t <> vzero.
Proof.
  intros Hd Hz. apply Hd. unfold correct_l1 in Hz. destruct (ltb _ _); cbn [fst] in Hz.
  - fold (into (vdiv (cross a t) (norm (cross a t))) d) in Hz. apply into_along in Hz. rewrite Hz, dot_scale_l, (cross_dot_along (vdiv (cross a t) (norm (cross a t))) (cross a t) t (/ norm (cross a t))) by apply vdiv_scale. rring.
  - rewrite Hz. apply dot_zero_l.
Qed.
Lemma middle_off (t a d : rvec3) : dot (cross d t) (cross a t) <> 0 -> cross (into (middle t d a) d) t <> vzero.
Proof.
  intros Hd Hz. apply into_along in Hz.
  assert (forall (k : R) (N : rvec3), N = vadd (cross d t) (vscale k (cross a t)) -> middle t d a = vdiv N (norm N) -> norm2 (cross d t) + k * dot (cross d t) (cross a t) = 0) as Hk.
  { intros k N EN Em. rewrite Em in Hz. pose proof (f_equal (fun w => dot w N) Hz) as H. cbv beta in H. rewrite dot_scale_l, (cross_dot_along (vdiv N (norm N)) N t (/ norm N)) in H by apply vdiv_scale.
    replace (dot (cross d t) N) with (norm2 (cross d t) + k * dot (cross d t) (cross a t)) in H by (rewrite EN; generalize (cross d t) (cross a t) k; clear; lin). rewrite H. rring. }
  pose proof (norm2_nonneg (cross d t)) as Hp. unfold middle in Hk. destruct (Rltb _ _) eqn:E.
  - apply Rltb_spec in E. specialize (Hk 1 (cross (vadd d a) t) ltac:(generalize d a t; clear; lin) eq_refl).
    replace (cross (vsub d a) t) with (vsub (cross d t) (cross a t)) in E by (generalize d a t; clear; lin). replace (cross (vadd d a) t) with (vadd (cross d t) (cross a t)) in E by (generalize d a t; clear; lin).
    assert (norm2 (vadd (cross d t) (cross a t)) - norm2 (vsub (cross d t) (cross a t)) = 4 * dot (cross d t) (cross a t)) as H4 by (generalize (cross d t) (cross a t); clear; lin). rnum_eq. lra.
  - apply Rltb_false in E. specialize (Hk (-1) (cross (vsub d a) t) ltac:(generalize d a t; clear; lin) eq_refl).
    replace (cross (vsub d a) t) with (vsub (cross d t) (cross a t)) in E by (generalize d a t; clear; lin). replace (cross (vadd d a) t) with (vadd (cross d t) (cross a t)) in E by (generalize d a t; clear; lin).
    assert (norm2 (vadd (cross d t) (cross a t)) - norm2 (vsub (cross d t) (cross a t)) = 4 * dot (cross d t) (cross a t)) as H4 by (generalize (cross d t) (cross a t); clear; lin). rnum_eq. apply Hd. lra.
Qed.

(** The planes through the two camera centres and each of the two rays are not at right angles (and exist). *)
Definition planes_meet (p : riso) (a b : rvec3) : Prop := dot (cross (direction (p, b)) (centre p)) (cross a (centre p)) <> 0.
Lemma planes_scaled (p : riso) (a b : rvec3) : planes_meet p a b ->
  centre p <> vzero /\ dot (cross (direction (p, b)) (normalize (centre p))) (cross a (normalize (centre p))) <> 0 /\ ~ square_corner (direction (p, b)) a (normalize (centre p)).
Proof.
  intros H. unfold planes_meet in H. assert (centre p <> vzero) as Hc by (intros E; apply H; rewrite E, !cross_zero_r; apply dot_zero_l). split; [exact Hc|].
  assert (dot (cross (direction (p, b)) (normalize (centre p))) (cross a (normalize (centre p))) <> 0) as H'.
  { intros E. apply H. rewrite <- (normalize_scale _ Hc), !cross_scale_r, dot_scale_l, dot_scale_r, E. rring. }
  split; [exact H'|]. intros (E1 & E2 & E3). apply H'. set (t := normalize (centre p)) in *.
  replace (dot (cross (direction (p, b)) t) (cross a t)) with (dot (direction (p, b)) a * norm2 t - dot (direction (p, b)) t * dot a t) by (generalize (direction (p, b)) a t; clear; lin). rewrite E1, E2, E3. rring.
Qed.
Lemma off_scaled (d' c : rvec3) : cross d' (normalize c) <> vzero -> cross d' c <> vzero.
Proof. intros H E. apply H. unfold normalize. rewrite vdiv_scale, cross_scale_r, E. generalize (/ norm c). clear. lin. Qed.

Lemma angular_l1_infinity (p : riso) (a b : rvec3) x : rigid p -> unit_vec a -> unit_vec b -> planes_meet p a b ->
  angular_l1 p a b = Some x -> point x = None -> unbeaten Rplus p a b (angle b (turn p (bearing x))) (angle a (bearing x)).
Proof.
  intros Hp Ha Hb Hm Hx Hn. assert (unit_vec (direction (p, b))) as Hd by (apply rotation_unit; [apply rotation_mtrans, Hp|exact Hb]).
  destruct (planes_scaled p a b Hm) as (Hc & Ho & Hs). unfold angular_l1 in Hx. rewrite direction_turn, centre_inv in Hx.
  pose proof (l1_best_any (centre p) (direction (p, b)) a Hd Ha (or_intror Hs)) as Hbest. pose proof (correct_l1_off _ a (direction (p, b)) Ho) as Hoff.
  destruct (correct_l1 (normalize (centre p)) (direction (p, b)) a) as [d' a']. cbn [fst snd] in Hbest, Hoff.
  exact (best_direction Rplus p a b d' a' x Hp Ha Hb Hbest (off_scaled _ _ Hoff) Hx Hn).
Qed.
Lemma angular_linf_infinity (p : riso) (a b : rvec3) x : rigid p -> unit_vec a -> unit_vec b -> planes_meet p a b ->
  angular_linf p a b = Some x -> point x = None -> unbeaten Rmax p a b (angle b (turn p (bearing x))) (angle a (bearing x)).
Proof.
  intros Hp Ha Hb Hm Hx Hn. assert (unit_vec (direction (p, b))) as Hd by (apply rotation_unit; [apply rotation_mtrans, Hp|exact Hb]).
  destruct (planes_scaled p a b Hm) as (Hc & Ho & Hs). pose proof (linf_best_any (centre p) (direction (p, b)) a Hd Ha) as Hbest.
  exact (best_direction Rmax p a b _ _ x Hp Ha Hb Hbest (off_scaled _ _ (middle_off _ a (direction (p, b)) Ho)) Hx Hn).
Qed.

(** ** Finite results are not beaten by directions either *)
Lemma best_point_unbeaten cost (p : riso) (a b d' a' : rvec3) x q : rigid p -> unit_vec a -> unit_vec b ->
  best cost (centre p) (direction (p, b)) a d' a' -> intersect (centre p) a' d' = Some x -> point x = Some q -> 0 < dot (iso_point p q) b ->
  unbeaten cost p a b (second_error p b q) (first_error a q).
Proof.
  intros Hp Ha Hb Hbest Hi Hq Hf. pose proof (best_unbeaten cost p a b d' a' Hp Hbest) as Hu. destruct Hbest as (H1 & H2 & H3 & H4 & H5 & H6). set (d := direction (p, b)) in *. set (c := centre p) in *.
  assert (dot a' (cross d' c) = 0) as H3' by (rewrite triple_swap, H3; rring).
  destruct (intersect_rays c a' d' x q H2 H3' Hi Hq) as (lam & mu & Hl & E1 & E2).
  assert (normalize q = a') as En by (rewrite E1, normalize_pos_scale, normalize_of_unit by assumption; reflexivity).
  assert (vsub q c = vscale mu d') as Em by (rewrite E2; generalize c; intros; lin).
  assert (dot (vsub q c) d = dot (iso_point p q) b) as Ed.
  { unfold c. rewrite <- (direction_point p q Hp). unfold d, direction. cbn [fst snd]. apply rotation_dot, rotation_mtrans, Hp. }
  assert (0 < mu) as Hmu. { rewrite <- Ed, Em, dot_scale_l, (dot_comm d' d) in Hf. rnum_eq. nra. }
  assert (normalize (vsub q c) = d') as Ed' by (rewrite Em, normalize_pos_scale, normalize_of_unit by assumption; reflexivity).
  rewrite (second_error_direction p b q Hp). fold d c. rewrite Ed'. unfold first_error. rewrite En. exact Hu.
Qed.
Lemma angular_l1_unbeaten (p : riso) (a b : rvec3) x q : rigid p -> unit_vec a -> unit_vec b ->
  angular_l1 p a b = Some x -> point x = Some q -> 0 < dot (iso_point p q) b -> unbeaten Rplus p a b (second_error p b q) (first_error a q).
Proof.
  intros Hp Ha Hb Hx Hq Hf. assert (unit_vec (direction (p, b))) as Hd by (apply rotation_unit; [apply rotation_mtrans, Hp|exact Hb]).
  unfold angular_l1 in Hx. rewrite direction_turn, centre_inv in Hx.
  assert (centre p = vzero \/ ~ square_corner (direction (p, b)) a (normalize (centre p))) as Hs.
  { destruct (square_corner_dec (direction (p, b)) a (normalize (centre p))) as [Hs|Hs]; [left|right; exact Hs]. apply norm2_zero. destruct (Req_dec (norm2 (centre p)) 0) as [Z|Z]; [exact Z|exfalso].
    rewrite correct_corner in Hx; [|apply normalize_unit; intros E; apply Z; rewrite E; lin|assumption..]. apply intersect_zero in Hx. congruence. }
  pose proof (l1_best_any (centre p) (direction (p, b)) a Hd Ha Hs) as Hbest.
  destruct (correct_l1 (normalize (centre p)) (direction (p, b)) a) as [d' a']. cbn [fst snd] in Hbest.
  exact (best_point_unbeaten Rplus p a b d' a' x q Hp Ha Hb Hbest Hx Hq Hf).
Qed.
Lemma angular_linf_unbeaten (p : riso) (a b : rvec3) x q : rigid p -> unit_vec a -> unit_vec b ->
  angular_linf p a b = Some x -> point x = Some q -> 0 < dot (iso_point p q) b -> unbeaten Rmax p a b (second_error p b q) (first_error a q).
Proof.
  intros Hp Ha Hb Hx Hq Hf. assert (unit_vec (direction (p, b))) as Hd by (apply rotation_unit; [apply rotation_mtrans, Hp|exact Hb]).
  pose proof (linf_best_any (centre p) (direction (p, b)) a Hd Ha) as Hbest. exact (best_point_unbeaten Rmax p a b _ _ x q Hp Ha Hb Hbest Hx Hq Hf).
Qed.

(** *** The forms of the property theorems *)
Lemma angular_l1_far (p : riso) (a b : rvec3) x q : rigid p -> unit_vec a -> unit_vec b ->
  angular_l1 p a b = Some x -> point x = Some q -> 0 < dot (iso_point p q) b ->
  forall u : rvec3, unit_vec u -> first_error a q + second_error p b q <= angle a u + angle b (mvec (rot p) u).
Proof. intros Hp Ha Hb Hx Hq Hf u Hu. pose proof (proj2 (angular_l1_unbeaten p a b x q Hp Ha Hb Hx Hq Hf) u Hu) as H. unfold turn in H. lra. Qed.
Lemma angular_linf_far (p : riso) (a b : rvec3) x q : rigid p -> unit_vec a -> unit_vec b ->
  angular_linf p a b = Some x -> point x = Some q -> 0 < dot (iso_point p q) b ->
  forall u : rvec3, unit_vec u -> Rmax (first_error a q) (second_error p b q) <= Rmax (angle a u) (angle b (mvec (rot p) u)).
Proof. intros Hp Ha Hb Hx Hq Hf u Hu. rewrite (Rmax_comm (first_error _ _)), (Rmax_comm (angle a u)). exact (proj2 (angular_linf_unbeaten p a b x q Hp Ha Hb Hx Hq Hf) u Hu). Qed.
Lemma angular_l1_at_infinity (p : riso) (a b : rvec3) x : rigid p -> unit_vec a -> unit_vec b -> dot (cross (direction (p, b)) (centre p)) (cross a (centre p)) <> 0 ->
  angular_l1 p a b = Some x -> point x = None ->
  (forall q : rvec3, q <> vzero -> iso_point p q <> vzero -> angle a (bearing x) + angle b (mvec (rot p) (bearing x)) <= first_error a q + second_error p b q) /\
  (forall u : rvec3, unit_vec u -> angle a (bearing x) + angle b (mvec (rot p) (bearing x)) <= angle a u + angle b (mvec (rot p) u)).
Proof.
  intros Hp Ha Hb Hm Hx Hn. destruct (angular_l1_infinity p a b x Hp Ha Hb Hm Hx Hn) as [H1 H2]. unfold turn in *.
  split; [intros q Hq Hs; specialize (H1 q Hq Hs)|intros u Hu; specialize (H2 u Hu)]; lra.
Qed.
Lemma angular_linf_at_infinity (p : riso) (a b : rvec3) x : rigid p -> unit_vec a -> unit_vec b -> dot (cross (direction (p, b)) (centre p)) (cross a (centre p)) <> 0 ->
  angular_linf p a b = Some x -> point x = None ->
  (forall q : rvec3, q <> vzero -> iso_point p q <> vzero -> Rmax (angle a (bearing x)) (angle b (mvec (rot p) (bearing x))) <= Rmax (first_error a q) (second_error p b q)) /\
  (forall u : rvec3, unit_vec u -> Rmax (angle a (bearing x)) (angle b (mvec (rot p) (bearing x))) <= Rmax (angle a u) (angle b (mvec (rot p) u))).
Proof.
  intros Hp Ha Hb Hm Hx Hn. destruct (angular_linf_infinity p a b x Hp Ha Hb Hm Hx Hn) as [H1 H2]. unfold turn in *. rewrite !(Rmax_comm (angle a (bearing x))).
  split; [intros q Hq Hs; rewrite (Rmax_comm (first_error _ _)); exact (H1 q Hq Hs)|intros u Hu; rewrite (Rmax_comm (angle a u)); exact (H2 u Hu)].
Qed.

(** *** Binary64: corrected rays which are equal give nothing *)
Definition void (x : spec_float) : Prop := x = S754_nan \/ exists s, x = S754_zero s.
Lemma sfmul_comm (x y : F64) : (x * y)%num = (y * x)%num.
Proof.
  change (SFmul 53 1024 x y = SFmul 53 1024 y x). destruct x as [s|s| |s m e], y as [s'|s'| |s' m' e']; try reflexivity; unfold SFmul; rewrite ?(Bool.xorb_comm s'), ?(Pos.mul_comm m'), ?(Z.add_comm e'); reflexivity.
Qed.
Lemma sfsub_self (x : F64) : void (x - x)%num.
Proof.
  change (void (SFsub 53 1024 x x)). destruct x as [s|s| |s m e]; unfold SFsub; [right|left|left; reflexivity|right].
  - destruct s; cbn; eexists; reflexivity.
  - destruct s; reflexivity.
  - rewrite Z.sub_diag. exists false. reflexivity.
Qed.
Lemma void_mul (x y : F64) : void x -> void (x * y)%num.
Proof. intros [-> | [s ->]]; [left; reflexivity|]. destruct y; [right; eexists; reflexivity|left; reflexivity|left; reflexivity|right; eexists; reflexivity]. Qed.
Lemma void_add (x y : F64) : void x -> void y -> void (x + y)%num.
Proof. intros [-> | [s ->]] [-> | [s' ->]]; [left; reflexivity..|]. right. destruct s, s'; eexists; reflexivity. Qed.
Lemma void_div (x y : F64) : void x -> void y -> (x / y)%num = S754_nan.
Proof. intros [-> | [s ->]] [-> | [s' ->]]; reflexivity. Qed.
Lemma intersect_same (t a : vec3 F64) : intersect t a a = None.
Proof.
  unfold intersect. assert (void (vx (cross a a)) /\ void (vy (cross a a)) /\ void (vz (cross a a))) as (Hx & Hy & Hz).
  { unfold cross. cbn [vx vy vz]. rewrite (sfmul_comm (vz a) (vy a)), (sfmul_comm (vx a) (vz a)), (sfmul_comm (vy a) (vx a)). repeat split; apply sfsub_self. }
  assert (forall v, void (dot (cross a a) v)) as Hd by (intros v; unfold dot; repeat apply void_add; apply void_mul; assumption).
  change (norm2 (cross a a)) with (dot (cross a a) (cross a a)). rewrite (void_div _ _ (Hd _) (Hd _)). unfold from_homogeneous. cbn [hw]. change (@signneg F64 S754_nan) with false. cbv iota.
  unfold h_finite, hdiv. cbn [hx hy hz hw]. match goal with |- context[@isfin F64 (@div F64 S754_nan ?y)] => change (@isfin F64 (@div F64 S754_nan y)) with false end. rewrite andb_false_r. reflexivity.
Qed.

(** *** Examples: bearings which are corrected to the same direction *)
Lemma same_infinity (c u : rvec3) : unit_vec u -> intersect c u u = Some (V4 (vx u) (vy u) (vz u) 0).
Proof.
  intros Hu. unfold intersect. rewrite cross_self. replace (norm2 (vzero : rvec3) / dot (vzero : rvec3) (cross c u))%num with (0 : RNum).
  2:{ replace (norm2 (vzero : rvec3)) with 0 by lin. change (0 = 0 * / dot (vzero : rvec3) (cross c u)). ring. }
  assert (from_homogeneous (V4 (vx u) (vy u) (vz u) (0 : RNum)) = V4 (vx u) (vy u) (vz u) 0) as ->.
  { unfold from_homogeneous. cbn [hw]. change (signneg (0 : RNum)) with (Rltb 0 0). assert (Rltb 0 0 = false) as -> by (apply Rltb_false; lra).
    rewrite (xyz_of u 0), (norm_unit u Hu). destruct u as [u1 u2 u3]. lin_unfold. lin_split; rfield. }
  change (h_finite (V4 (vx u) (vy u) (vz u) (0 : RNum))) with true. cbv iota. unfold bearing. rewrite (xyz_of u 0).
  assert (positive (dot u u) = true) as Hp. { rewrite <- norm2_dot. unfold unit_vec in Hu. rewrite Hu. unfold positive. cbn [signneg RNum]. apply negb_true_iff, Rltb_false. lra. }
  rewrite Hp. reflexivity.
Qed.
Lemma far_setting : let a := (V3 0 (-3/5) (4/5) : rvec3) in let b := (V3 0 (3/5) (4/5) : rvec3) in
  rigid side_camera /\ unit_vec a /\ unit_vec b /\ direction (side_camera, b) <> a /\ dot (cross (direction (side_camera, b)) (centre side_camera)) (cross a (centre side_camera)) <> 0.
Proof.
  cbv zeta. assert (direction (side_camera, (V3 0 (3/5) (4/5) : rvec3)) = V3 0 (3/5) (4/5)) as Ed by apply mid_direction.
  split; [exact side_rigid|]. split; [unfold unit_vec; lin_unfold; rlra|]. split; [unfold unit_vec; lin_unfold; rlra|]. rewrite side_centre, Ed. split; [intros [= H]; lra|]. lin_unfold. rnum_eq. lra.
Qed.
Lemma l1_far_case : exists (p : riso) (a b : rvec3) x, rigid p /\ unit_vec a /\ unit_vec b /\ direction (p, b) <> a /\
  dot (cross (direction (p, b)) (centre p)) (cross a (centre p)) <> 0 /\ angular_l1 p a b = Some x /\ point x = None.
Proof.
  destruct far_setting as (H1 & H2 & H3 & H4 & H5). exists side_camera, (V3 0 (-3/5) (4/5)), (V3 0 (3/5) (4/5)), (V4 0 (3/5) (4/5) 0).
  split; [exact H1|]. split; [exact H2|]. split; [exact H3|]. split; [exact H4|]. split; [exact H5|]. split; [|apply point_none; reflexivity].
  assert (direction (side_camera, (V3 0 (3/5) (4/5) : rvec3)) = V3 0 (3/5) (4/5)) as Ed by apply mid_direction.
  unfold angular_l1. rewrite direction_turn, centre_inv, side_centre, Ed. rewrite (normalize_by 3 (V3 3 0 0) (V3 1 0 0)) by (try lra; try (unfold unit_vec; lin_unfold; rlra); lin_unfold; lin_split; rlra).
  unfold correct_l1. rewrite (norm_by 1 (cross (V3 0 (3/5) (4/5)) _)) by (try lra; lin_unfold; rlra). rewrite (norm_by 1 (cross (V3 0 (-3/5) (4/5)) _)) by (try lra; lin_unfold; rlra).
  match goal with |- context[if ?c then _ else _] => assert (c = false) as -> by (apply Rltb_false; lra) end.
  rewrite (normalize_by (7/25) _ (V3 0 (3/5) (4/5))) by (try lra; try exact H3; lin_unfold; lin_split; rfield). exact (same_infinity _ _ H3).
Qed.
Lemma linf_far_case : exists (p : riso) (a b : rvec3) x, rigid p /\ unit_vec a /\ unit_vec b /\ direction (p, b) <> a /\
  dot (cross (direction (p, b)) (centre p)) (cross a (centre p)) <> 0 /\ angular_linf p a b = Some x /\ point x = None.
Proof.
  destruct far_setting as (H1 & H2 & H3 & H4 & H5). exists side_camera, (V3 0 (-3/5) (4/5)), (V3 0 (3/5) (4/5)), (V4 0 0 1 0).
  split; [exact H1|]. split; [exact H2|]. split; [exact H3|]. split; [exact H4|]. split; [exact H5|]. split; [|apply point_none; reflexivity].
  assert (direction (side_camera, (V3 0 (3/5) (4/5) : rvec3)) = V3 0 (3/5) (4/5)) as Ed by apply mid_direction.
  unfold angular_linf. rewrite direction_turn, centre_inv, side_centre, Ed. rewrite (normalize_by 3 (V3 3 0 0) (V3 1 0 0)) by (try lra; try (unfold unit_vec; lin_unfold; rlra); lin_unfold; lin_split; rlra).
  match goal with |- context[if ?c then _ else _] => assert (c = true) as -> by (apply Rltb_spec; lin_unfold; rnum_eq; lra) end.
  match goal with |- context[vdiv ?u (sqrt_ (norm2 ?u))] => change (vdiv u (sqrt_ (norm2 u))) with (vdiv u (norm u)); rewrite (side_normal (8/5) u) by (try lra; lin_unfold; lin_split; rlra) end.
  rewrite !(normalize_by (4/5) _ (V3 0 0 1)) by (try lra; try (unfold unit_vec; lin_unfold; rlra); lin_unfold; lin_split; rlra).
  apply same_infinity. unfold unit_vec. lin_unfold. rlra.
Qed.
