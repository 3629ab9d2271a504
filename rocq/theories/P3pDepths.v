(** The triples of depths. *)
From Coq Require Import Reals List Lia Lra Psatz Arith.
From Verif Require Import Num Outcome Lin LinSpec LinFacts Core Pinhole PinholeSpec EssentialFacts P3p P3pSpec P3pFacts P3pSolve.
Import ListNotations.
Open Scope R_scope.

Section push.
Variables a12 a13 a23 b12 b13 b23 : R.
Hypothesis a23_pos : 0 < a23.

Lemma push_solution_spec (tau w0 w1 : R) (l : rvec3) :
  In l (push_solution (N := RNum) a23 b23 tau w0 w1) <->
  0 <= vx l /\ 0 < vy l /\ 0 < vz l /\ vz l = tau * vy l /\ vx l = w0 * vy l + w1 * vz l /\
  vy l * vy l + vz l * vz l + b23 * vy l * vz l = a23.
Proof.
  unfold push_solution. rnum. cbn [ltb leb RNum].
  destruct (Rltb 0 tau) eqn:E1.
  - apply Rltb_true in E1. set (q := tau * (b23 + tau) + 1). set (d := a23 / q).
    destruct (Rltb 0 d) eqn:E2.
    + apply Rltb_true in E2.
      assert (Hq : q <> 0) by (intro Q; unfold d in E2; rewrite Q in E2; unfold Rdiv in E2; rewrite Rinv_0 in E2; lra).
      assert (Hd : d * q = a23) by (unfold d; field; exact Hq).
      set (l2 := sqrt d). assert (S : l2 * l2 = d) by (apply sqrt_def; lra). assert (P : 0 < l2) by (apply sqrt_lt_R0; exact E2).
      destruct (Rleb 0 (w0 * l2 + w1 * (tau * l2))) eqn:E3.
      * apply Rleb_true in E3. cbn [In]. split.
        -- intros [<-|[]]. cbn [vx vy vz]. repeat split; try assumption; try nra.
           rewrite <- Hd, <- S. unfold q. ring.
        -- destruct l as [x y z]. cbn [vx vy vz]. intros (Hx & Hy & Hz & Et & El & Ea). left. rewrite Et in Ea, El.
           assert (Y : y * y = d). { apply Rmult_eq_reg_r with q; [|exact Hq]. rewrite Hd, <- Ea. unfold q. ring. }
           assert (Yl : l2 = y). { unfold l2. rewrite <- Y. apply sqrt_square. lra. }
           rewrite El, Et, Yl. reflexivity.
      * cbn [In]. split; [tauto|]. destruct l as [x y z]. cbn [vx vy vz]. intros (Hx & Hy & Hz & Et & El & Ea). rewrite Et in Ea, El.
        assert (Y : y * y = d). { apply Rmult_eq_reg_r with q; [|exact Hq]. rewrite Hd, <- Ea. unfold q. ring. }
        assert (Yl : l2 = y). { unfold l2. rewrite <- Y. apply sqrt_square. lra. }
        rewrite Yl, <- El in E3. unfold Rleb in E3. destruct (Rle_dec 0 x); [discriminate|contradiction].
    + apply Rltb_false in E2. cbn [In]. split; [tauto|]. destruct l as [x y z]. cbn [vx vy vz]. intros (Hx & Hy & Hz & Et & El & Ea). rewrite Et in Ea.
      assert (Y : y * y * q = a23) by (rewrite <- Ea; unfold q; ring).
      assert (0 < q) by (apply Rmult_lt_reg_l with (y * y); nra).
      assert (0 < d) by (apply Rdiv_lt_0_compat; assumption). lra.
  - apply Rltb_false in E1. cbn [In]. split; [tauto|]. intros (Hx & Hy & Hz & Et & _). nra.
Qed.

Variables (v1 v2 : rvec3) (s : R).
Hypothesis den : s * vx v2 - vx v1 <> 0.
(** No common solution of the plane and of the quadric has a zero in the second or third place. *)
Hypothesis nonzero : forall l : rvec3, dot v1 l = s * dot v2 l ->
  a13 * (vx l * vx l + vy l * vy l + b12 * vx l * vy l) = a12 * (vx l * vx l + vz l * vz l + b13 * vx l * vz l) ->
  vy l = 0 \/ vz l = 0 -> vy l = 0 /\ vz l = 0.

Lemma plane_solved (x y z w0 w1 : R) : w0 = 1 / (s * vx v2 - vx v1) * (vy v1 - s * vy v2) -> w1 = 1 / (s * vx v2 - vx v1) * (vz v1 - s * vz v2) ->
  (dot v1 (V3 x y z) = s * dot v2 (V3 x y z) <-> x = w0 * y + w1 * z).
Proof.
  intros -> ->. unfold dot. cbn [vx vy vz]. rnum. split.
  - intros H. apply Rmult_eq_reg_l with (s * vx v2 - vx v1); [|exact den]. field_simplify; [|exact den]. lra.
  - intros ->. field. exact den.
Qed.

Lemma push_solutions_spec (l : rvec3) :
  In l (push_solutions (N := RNum) a12 a13 a23 b12 b13 b23 v1 v2 s) <->
  0 <= vx l /\ 0 < vy l /\ 0 < vz l /\ dot v1 l = s * dot v2 l /\
  a13 * (vx l * vx l + vy l * vy l + b12 * vx l * vy l) = a12 * (vx l * vx l + vz l * vz l + b13 * vx l * vz l) /\
  vy l * vy l + vz l * vz l + b23 * vy l * vz l = a23.
Proof.
  unfold push_solutions, quadratic_coefficients, four, two. rnum. cbn [leb RNum].
  set (w0 := 1 / (s * vx v2 - vx v1) * (vy v1 - s * vy v2)). set (w1 := 1 / (s * vx v2 - vx v1) * (vz v1 - s * vz v2)).
  set (A := (a13 - a12) * w1 * w1 - a12 * b13 * w1 - a12).
  set (B := a13 * b12 * w1 - a12 * b13 * w0 - 2 * w0 * w1 * (a12 - a13)).
  set (C := (a13 - a12) * w0 * w0 + a13 * b12 * w0 + a13).
  assert (HP : forall x y z, dot v1 (V3 x y z) = s * dot v2 (V3 x y z) <-> x = w0 * y + w1 * z) by (intros; apply plane_solved; reflexivity).
  assert (HQ : forall y z, let x := w0 * y + w1 * z in
    a13 * (x * x + y * y + b12 * x * y) - a12 * (x * x + z * z + b13 * x * z) = A * (z * z) + B * (z * y) + C * (y * y))
    by (intros; unfold x, A, B, C; ring).
  assert (NA : A <> 0).
  { intro Q. specialize (HQ 0 1). cbv zeta in HQ. specialize (HP (w0 * 0 + w1 * 1) 0 1).
    destruct (nonzero (V3 (w0 * 0 + w1 * 1) 0 1)) as [_ Z]; [apply HP; reflexivity| |left; reflexivity|cbn [vz] in Z; lra].
    cbn [vx vy vz]. rewrite Q in HQ. rnum. lra. }
  assert (NC : C <> 0).
  { intro Q. specialize (HQ 1 0). cbv zeta in HQ. specialize (HP (w0 * 1 + w1 * 0) 1 0).
    destruct (nonzero (V3 (w0 * 1 + w1 * 0) 1 0)) as [Z _]; [apply HP; reflexivity| |right; reflexivity|cbn [vy] in Z; lra].
    cbn [vx vy vz]. rewrite Q in HQ. rnum. lra. }
  clearbody w0 w1 A B C.
  assert (EB : forall t, A * (t * t + 1 / A * B * t + 1 / A * C) = A * (t * t) + B * t + C) by (intros; field; exact NA).
  assert (NC' : 1 / A * C <> 0) by (unfold Rdiv; rewrite Rmult_1_l; apply Rmult_integral_contrapositive_currified; [apply Rinv_neq_0_compat; exact NA|exact NC]).
  set (b := 1 / A * B) in *. set (c := 1 / A * C) in *. clearbody b c.
  destruct (Rleb 0 (b * b - 4 * c)) eqn:ED.
  - apply Rleb_true in ED. destruct (root2real_roots b c ED (or_intror NC')) as (r1 & r2 & ER & R). rewrite ER. rewrite in_app_iff, !push_solution_spec.
    destruct l as [x y z]. rewrite HP. cbn [vx vy vz]. split.
    + intros K. assert (K' : 0 <= x /\ 0 < y /\ 0 < z /\ x = w0 * y + w1 * z /\ y * y + z * z + b23 * y * z = a23 /\ (z - r1 * y) * (z - r2 * y) = 0).
      { destruct K as [(K1 & K2 & K3 & K4 & K5 & K6)|(K1 & K2 & K3 & K4 & K5 & K6)]; repeat (split; [assumption|]); rewrite K4; ring. }
      destruct K' as (K1 & K2 & K3 & K4 & K5 & K6). repeat (split; [assumption|]). split; [|exact K5].
      specialize (HQ y z). cbv zeta in HQ. rewrite <- K4 in HQ.
      assert (Z : A * (z * z) + B * (z * y) + C * (y * y) = 0).
      { specialize (R (z / y)). specialize (EB (z / y)). rewrite R in EB.
        transitivity (y * y * (A * (z / y * (z / y)) + B * (z / y) + C)); [field; lra|]. rewrite <- EB.
        transitivity (A * ((z - r1 * y) * (z - r2 * y))); [field; lra|]. rewrite K6. ring. }
      lra.
    + intros (K1 & K2 & K3 & K4 & K5 & K6).
      specialize (HQ y z). cbv zeta in HQ. rewrite <- K4 in HQ.
      assert (Z : (z / y - r1) * (z / y - r2) = 0).
      { rewrite <- R. apply Rmult_eq_reg_l with A; [|exact NA]. rewrite EB, Rmult_0_r.
        apply Rmult_eq_reg_l with (y * y); [|nra]. rewrite Rmult_0_r. transitivity (A * (z * z) + B * (z * y) + C * (y * y)); [field; lra|lra]. }
      apply Rmult_integral in Z.
      assert (ZZ : z = z / y * y) by (rnum_eq; field; lra).
      destruct Z as [Z|Z]; [left|right]; repeat (split; [assumption|]); (split; [rewrite ZZ at 1; f_equal; lra|]); split; assumption.
  - cbn [In]. split; [tauto|]. destruct l as [x y z]. rewrite HP. cbn [vx vy vz]. intros (K1 & K2 & K3 & K4 & K5 & K6).
    specialize (HQ y z). cbv zeta in HQ. rewrite <- K4 in HQ.
    assert (Z : z / y * (z / y) + b * (z / y) + c = 0).
    { apply Rmult_eq_reg_l with A; [|exact NA]. rewrite EB, Rmult_0_r.
      apply Rmult_eq_reg_l with (y * y); [|nra]. rewrite Rmult_0_r. transitivity (A * (z * z) + B * (z * y) + C * (y * y)); [field; lra|lra]. }
    unfold Rleb in ED. destruct (Rle_dec 0 (b * b - 4 * c)); [discriminate|]. exfalso.
    pose proof (Rle_0_sqr (2 * (z / y) + b)) as S. unfold Rsqr in S. nra.
Qed.
End push.

(** ** All depths *)
Section depths.
Variables a12 a13 a23 c12 c23 c31 g : R.
Hypothesis a23_pos : 0 < a23.
Hypothesis reg : regular a12 a13 a23 c12 c23 c31 g.
Notation D := (pencil a12 a13 a23 c12 c23 c31 g).
Notation D0 := (d0_matrix (N := RNum) a12 a13 a23 c12 c23 c31 g).

Lemma regular_eigen : exists e1 e2, eigen_singular D0 = (eigen_vector D e1, eigen_vector D e2, normalize (cross (row1 D) (row2 D)), e1, e2) /\
  e1 <> 0 /\ e1 * e2 < 0 /\ e1 + e2 = trace D /\
  (forall e, e = e1 \/ e = e2 -> mvec D (eigen_vector D e) = vscale e (eigen_vector D e) /\ unit_vec (eigen_vector D e)).
Proof.
  rewrite d0_pencil. pose proof (pencil_symmetric a12 a13 a23 c12 c23 c31 g) as Sym.
  destruct reg as [Sing [u [v Sad]] _ _ Tilt _].
  pose proof (saddle_minors D u v Sym Sing Sad) as M.
  destruct (eigen_singular_spec D Sym M) as (e1 & e2 & E & ES & EP & EA). exists e1, e2.
  assert (N1 : e1 <> 0) by (intros ->; lra). assert (N2 : e2 <> 0) by (intros ->; lra).
  split; [exact E|]. split; [exact N1|]. split; [lra|]. split; [exact ES|].
  assert (N12 : e1 <> e2) by (intros ->; nra).
  intros e He.
  assert (Z : det (shift D e) = 0). { rewrite char_poly, Sing, <- ES, <- EP. rnum. destruct He as [-> | ->]; ring. }
  assert (Ne : e <> 0) by (destruct He as [-> | ->]; assumption).
  apply eigen_vector_spec; [exact Sym|exact Z|].
  apply tilted_minor; [exact Sym|exact Z| |].
  - rewrite <- ES, <- EP. destruct He as [-> | ->].
    + replace (e1 * e2 - 2 * e1 * (e1 + e2) + 3 * (e1 * e1)) with (e1 * (e1 - e2)) by ring. apply Rmult_integral_contrapositive_currified; [assumption|lra].
    + replace (e1 * e2 - 2 * e2 * (e1 + e2) + 3 * (e2 * e2)) with (e2 * (e2 - e1)) by ring. apply Rmult_integral_contrapositive_currified; [assumption|lra].
  - intros w Hw Ew. exact (Tilt e w Ne Hw Ew).
Qed.

Lemma depths_cone (l : rvec3) : In l (depths (N := RNum) a12 a13 a23 c12 c23 c31 g) <->
  0 <= vx l /\ 0 < vy l /\ 0 < vz l /\ form D l = 0 /\ a13 * side c12 (vx l) (vy l) = a12 * side c31 (vx l) (vz l) /\ side c23 (vy l) (vz l) = a23.
Proof.
  destruct regular_eigen as (e1 & e2 & E & N1 & NP & ES & EV).
  destruct (EV e1 (or_introl eq_refl)) as [X1 U1]. destruct (EV e2 (or_intror eq_refl)) as [X2 U2].
  unfold depths. rewrite E. set (v1 := eigen_vector D e1) in *. set (v2 := eigen_vector D e2) in *. clearbody v1 v2. clear E EV.
  assert (N12 : e1 <> e2) by (intros ->; nra).
  pose proof (spectral_form D e1 e2 v1 v2 (pencil_symmetric _ _ _ _ _ _ _) N12 ES X1 X2 U1 U2) as F.
  assert (Q : 0 < - e2 / e1).
  { destruct (Rlt_dec 0 e1); [apply Rdiv_lt_0_compat; nra|]. assert (e1 < 0) by lra. replace (- e2 / e1) with (e2 / (- e1)) by (field; lra). apply Rdiv_lt_0_compat; nra. }
  cbn [ltb RNum opp div sqrt_ zero]. apply Rltb_true in Q as Q'. rewrite Q'. clear Q'.
  set (s := sqrt (- e2 / e1)).
  assert (Ss : s * s = - e2 / e1) by (apply sqrt_def; lra). clearbody s.
  assert (F' : forall l, form D l = e1 * ((dot v1 l - s * dot v2 l) * (dot v1 l + s * dot v2 l))).
  { intros l'. rewrite F. rnum. transitivity (e1 * (dot v1 l' * dot v1 l' - s * s * (dot v2 l' * dot v2 l'))); [rewrite Ss; rnum_eq; field; exact N1|rnum_eq; ring]. }
  assert (Z : forall l, form D l = 0 <-> dot v1 l = s * dot v2 l \/ dot v1 l = - s * dot v2 l).
  { intros l'. rewrite F'. rnum_eq. split.
    - intros H. apply Rmult_integral in H. destruct H as [H|H]; [contradiction|]. apply Rmult_integral in H. destruct H; [left; lra|right; lra].
    - intros [H|H]; rewrite H; ring. }
  assert (D00 : (s * vx v2 - vx v1) <> 0 /\ (- s * vx v2 - vx v1) <> 0).
  { assert (K : form D (V3 1 0 0) <> 0).
    { replace (form D (V3 1 0 0)) with (a23 * (1 - g)) by (unfold form, pencil; lin_unfold; rnum; ring).
      apply Rmult_integral_contrapositive_currified; [lra|]. pose proof (not_one _ _ _ _ _ _ _ reg). lra. }
    rewrite F' in K. unfold dot in K. cbn [vx vy vz] in K. rnum. split; intro Q0; apply K.
    - replace (vx v1 * 1 + vy v1 * 0 + vz v1 * 0 - s * (vx v2 * 1 + vy v2 * 0 + vz v2 * 0)) with (- (s * vx v2 - vx v1)) by ring. rewrite Q0. ring.
    - replace (vx v1 * 1 + vy v1 * 0 + vz v1 * 0 + s * (vx v2 * 1 + vy v2 * 0 + vz v2 * 0)) with (- (- s * vx v2 - vx v1)) by ring. rewrite Q0. ring. }
  assert (SD : forall c x y, x * x + y * y + - two * c * x * y = side c x y) by (intros; unfold side, two; rnum; ring).
  assert (NZ : forall t, t = s \/ t = - s -> forall l : rvec3, dot v1 l = t * dot v2 l ->
    a13 * (vx l * vx l + vy l * vy l + - two * c12 * vx l * vy l) = a12 * (vx l * vx l + vz l * vz l + - two * c31 * vx l * vz l) ->
    vy l = 0 \/ vz l = 0 -> vy l = 0 /\ vz l = 0).
  { intros t Ht l' H1 H2 H3. rewrite !SD in H2. apply (proper _ _ _ _ _ _ _ reg l'); [|exact H2|exact H3]. apply Z. destruct Ht as [-> | ->]; [left|right]; exact H1. }
  rewrite in_app_iff.
  rewrite (push_solutions_spec a12 a13 a23 (- two * c12) (- two * c31) (- two * c23) a23_pos v1 v2 s (proj1 D00) (NZ s (or_introl eq_refl)) l).
  rewrite (push_solutions_spec a12 a13 a23 (- two * c12) (- two * c31) (- two * c23) a23_pos v1 v2 (- s) (proj2 D00) (NZ (- s) (or_intror eq_refl)) l).
  rewrite !SD, Z. tauto.
Qed.

Lemma depths_exact (l : rvec3) : In l (depths (N := RNum) a12 a13 a23 c12 c23 c31 g) <->
  0 <= vx l /\ 0 < vy l /\ 0 < vz l /\ law_residual a12 a13 a23 (-2 * c12) (-2 * c31) (-2 * c23) l = vzero.
Proof.
  rewrite depths_cone, pencil_form. destruct l as [x y z]. unfold law_residual. cbn [vx vy vz]. split.
  - intros (H1 & H2 & H3 & H4 & H5 & H6). repeat (split; [assumption|]). rewrite H6 in H4.
    assert (K : a23 * (side c12 x y - a12) = a23 * (g * (side c31 x z - a13))) by lra.
    apply Rmult_eq_reg_l in K; [|lra].
    assert (K2 : (g * a13 - a12) * (side c31 x z - a13) = 0).
    { transitivity (a13 * (g * (side c31 x z - a13)) - a12 * (side c31 x z - a13)); [ring|]. rewrite <- K. lra. }
    apply Rmult_integral in K2. destruct K2 as [K2|K2]; [exfalso; apply (not_ratio _ _ _ _ _ _ _ reg); lra|].
    rewrite K2, Rmult_0_r in K. unfold side in *. unfold vzero. apply (f_equal3 V3); rnum; lra.
  - intros (H1 & H2 & H3 & H4). repeat (split; [assumption|]).
    assert (K1 : side c12 x y = a12) by (injection H4 as H4 _ _; unfold side; rnum; lra).
    assert (K2 : side c31 x z = a13) by (injection H4 as _ H4 _; unfold side; rnum; lra).
    assert (K3 : side c23 y z = a23) by (injection H4 as _ _ H4; unfold side; rnum; lra).
    rewrite K1, K2, K3. repeat split; ring.
Qed.
End depths.
Lemma regular_eigenvectors a12 a13 a23 c12 c23 c31 g : regular a12 a13 a23 c12 c23 c31 g ->
  exists e1 e2 v1 v2 v3, eigen_singular (d0_matrix (N := RNum) a12 a13 a23 c12 c23 c31 g) = (v1, v2, v3, e1, e2) /\
    mvec (pencil a12 a13 a23 c12 c23 c31 g) v1 = vscale e1 v1 /\ unit_vec v1 /\
    mvec (pencil a12 a13 a23 c12 c23 c31 g) v2 = vscale e2 v2 /\ unit_vec v2 /\ e1 * e2 < 0.
Proof.
  intros H. destruct (regular_eigen _ _ _ _ _ _ _ H) as (e1 & e2 & E & _ & P & _ & V).
  destruct (V e1 (or_introl eq_refl)) as [X1 U1]. destruct (V e2 (or_intror eq_refl)) as [X2 U2].
  eexists e1, e2, _, _, _. split; [exact E|]. auto.
Qed.
