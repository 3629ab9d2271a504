(** The solver finds exactly the congruent triangles. *)
From Coq Require Import Reals List Lia Lra Psatz Arith.
From Verif Require Import Num Outcome Lin LinSpec LinFacts Core Pinhole PinholeSpec EssentialFacts P3p P3pSpec P3pFacts.
Import ListNotations.
Open Scope R_scope.

(** ** The cone *)
Lemma d0_pencil (a12 a13 a23 c12 c23 c31 g : R) : d0_matrix (N := RNum) a12 a13 a23 c12 c23 c31 g = pencil a12 a13 a23 c12 c23 c31 g.
Proof. unfold d0_matrix, pencil. apply (f_equal3 M3); apply (f_equal3 V3); rnum; ring. Qed.
Lemma pencil_det (a12 a13 a23 c12 c23 c31 g : R) :
  let '(p3, p2, p1, p0) := cubic_coefficients (N := RNum) a12 a13 a23 c12 c23 c31 in
  det (pencil a12 a13 a23 c12 c23 c31 g) = a23 * (p3 * (g * g * g) + p2 * (g * g) + p1 * g + p0).
Proof. unfold cubic_coefficients, pencil, two. lin_unfold. rnum. ring. Qed.
Lemma pencil_form (a12 a13 a23 c12 c23 c31 g : R) (l : rvec3) : form (pencil a12 a13 a23 c12 c23 c31 g) l =
  a23 * side c12 (vx l) (vy l) - a12 * side c23 (vy l) (vz l) - g * (a23 * side c31 (vx l) (vz l) - a13 * side c23 (vy l) (vz l)).
Proof. destruct l as [x y z]. unfold form, pencil, side. lin_unfold. rnum. ring. Qed.
Lemma pencil_symmetric a12 a13 a23 c12 c23 c31 g : symmetric3 (pencil a12 a13 a23 c12 c23 c31 g).
Proof. reflexivity. Qed.

(** ** Symmetric matrices *)
Definition sym (a b c d e f : R) : rmat3 := M3 (V3 a b c) (V3 b d e) (V3 c e f).
Lemma symmetric_sym A : symmetric3 A -> exists a b c d e f, A = sym a b c d e f.
Proof.
  destruct A as [[a b c] [b' d e] [c' e' f]]. intros H.
  exists a, b, c, d, e, f. unfold symmetric3, mtrans, col1, col2, col3 in H. cbn [row1 row2 row3 vx vy vz] in H. unfold sym. congruence.
Qed.
(** The sum of the principal minors. *)
Definition minors (A : rmat3) : R :=
  vx (row1 A) * vy (row2 A) - vy (row1 A) * vx (row2 A) + (vx (row1 A) * vz (row3 A) - vz (row1 A) * vx (row3 A)) +
  (vy (row2 A) * vz (row3 A) - vz (row2 A) * vy (row3 A)).
Definition shift (A : rmat3) (e : R) : rmat3 := msub A (mscale e mid).
Lemma char_poly (A : rmat3) (e : R) : det (shift A e) = det A - minors A * e + trace A * (e * e) - e * e * e.
Proof. destruct A as [[a b c] [a' b' c'] [a'' b'' c'']]. unfold shift, minors. lin_unfold. rnum. ring. Qed.
Lemma form_minor (A : rmat3) (u v : rvec3) : symmetric3 A ->
  form A u * form A v - dot u (mvec A v) * dot u (mvec A v) = form (adjugate A) (cross u v).
Proof.
  intros H. destruct (symmetric_sym A H) as (a & b & c & d & e & f & ->). destruct u as [u1 u2 u3], v as [v1 v2 v3].
  unfold form, sym, adjugate. lin_unfold. rnum. ring.
Qed.
Lemma adjugate_square (A : rmat3) : symmetric3 A -> det A = 0 -> forall w, minors A * form (adjugate A) w = norm2 (mvec (adjugate A) w).
Proof.
  intros H D w. destruct (symmetric_sym A H) as (a & b & c & d & e & f & ->). destruct w as [x y z].
  assert (G : minors (sym a b c d e f) * form (adjugate (sym a b c d e f)) (V3 x y z) - norm2 (mvec (adjugate (sym a b c d e f)) (V3 x y z)) =
    det (sym a b c d e f) * (x * x * (d + f) + y * y * (a + f) + z * z * (a + d) - 2 * b * x * y - 2 * c * x * z - 2 * e * y * z)).
  { unfold minors, form, sym, adjugate. lin_unfold. rnum. ring. }
  rewrite D in G. lra.
Qed.
(** A singular form that takes both signs has a negative sum of minors. *)
Lemma saddle_minors (A : rmat3) (u v : rvec3) : symmetric3 A -> det A = 0 -> form A u < 0 < form A v -> minors A < 0.
Proof.
  intros H D [Hu Hv]. pose proof (form_minor A u v H) as F. pose proof (adjugate_square A H D (cross u v)) as S.
  pose proof (norm2_nonneg (mvec (adjugate A) (cross u v))) as P. rewrite <- S in P.
  assert (Q : form (adjugate A) (cross u v) < 0) by (rewrite <- F; nra).
  destruct (Rlt_dec (minors A) 0) as [|N]; [assumption|exfalso].
  assert (N' : minors A = 0) by nra. rewrite N', Rmult_0_l in S. symmetry in S. apply norm2_zero in S.
  unfold form in Q. rewrite S, dot_zero_r in Q. lra.
Qed.

(** ** The eigenvectors *)
Lemma eigen_vector_spec (A : rmat3) (e : R) : symmetric3 A -> det (shift A e) = 0 ->
  (vx (row1 A) - e) * (vy (row2 A) - e) - vy (row1 A) * vy (row1 A) <> 0 ->
  mvec A (eigen_vector A e) = vscale e (eigen_vector A e) /\ unit_vec (eigen_vector A e).
Proof.
  intros H D M. destruct (symmetric_sym A H) as (a & b & c & d & h & f & ->).
  unfold sym, shift in *. cbn [row1 row2 row3 vx vy vz] in M.
  unfold eigen_vector. cbn [row1 row2 row3 vx vy vz]. rnum.
  set (tmp := 1 / (e * (a + d) + - a * d - e * e + b * b)).
  assert (T : tmp = - / ((a - e) * (d - e) - b * b)).
  { unfold tmp. field. split; [intro Q; apply M; lra|]. intro Q. apply M. lra. }
  set (a1 := - (e * c + (b * h - c * d)) * tmp). set (a2 := - (e * h + (b * c - a * h)) * tmp).
  assert (H1 : (a - e) * a1 + b * a2 + c = 0) by (unfold a1, a2; rewrite T; field; exact M).
  assert (H2 : b * a1 + (d - e) * a2 + h = 0) by (unfold a1, a2; rewrite T; field; exact M).
  assert (H3 : c * a1 + h * a2 + (f - e) = 0).
  { unfold a1, a2. rewrite T. apply Rmult_eq_reg_r with ((a - e) * (d - e) - b * b); [|exact M].
    rewrite Rmult_0_l, <- D. lin_unfold. rnum. field. exact M. }
  clearbody a1 a2. clear tmp T M D H.
  set (s := sqrt (a1 * a1 + a2 * a2 + 1)).
  assert (P : 0 < a1 * a1 + a2 * a2 + 1) by nra.
  assert (S : s * s = a1 * a1 + a2 * a2 + 1) by (apply sqrt_def; lra).
  assert (S0 : s <> 0) by (intro Q; rewrite Q in S; lra).
  clearbody s. split.
  - unfold mvec, dot, vscale. cbn [row1 row2 row3 vx vy vz]. rnum. apply (f_equal3 V3); rnum.
    + transitivity (((a - e) * a1 + b * a2 + c) * (1 / s) + a1 * (1 / s) * e); [ring|rewrite H1; ring].
    + transitivity ((b * a1 + (d - e) * a2 + h) * (1 / s) + a2 * (1 / s) * e); [ring|rewrite H2; ring].
    + transitivity ((c * a1 + h * a2 + (f - e)) * (1 / s) + 1 / s * e); [ring|rewrite H3; ring].
  - unfold unit_vec, norm2, dot. cbn [vx vy vz]. rnum.
    transitivity ((a1 * a1 + a2 * a2 + 1) / (s * s)); [field; exact S0|]. rewrite S. field. lra.
Qed.
Lemma mvec_shift (A : rmat3) (e : R) (v : rvec3) : mvec (shift A e) v = vzero -> mvec A v = vscale e v.
Proof.
  intros H. replace (mvec A v) with (vadd (mvec (shift A e) v) (vscale e v)).
  - rewrite H. apply vadd_zero_l.
  - destruct A as [[a b c] [a' b' c'] [a'' b'' c'']], v as [x y z]. unfold shift. lin_unfold. lin_split; rnum; ring.
Qed.
(** If no eigenvector for [e] lies in the plane of the first two coordinates, the corresponding minor is not zero. *)
Lemma tilted_minor (A : rmat3) (e : R) : symmetric3 A -> det (shift A e) = 0 ->
  minors A - 2 * e * trace A + 3 * (e * e) <> 0 ->
  (forall v, v <> vzero -> mvec A v = vscale e v -> vz v <> 0) ->
  (vx (row1 A) - e) * (vy (row2 A) - e) - vy (row1 A) * vy (row1 A) <> 0.
Proof.
  intros H D T V M. destruct (symmetric_sym A H) as (a & b & c & d & h & f & ->).
  cbn [sym row1 row2 row3 vx vy vz] in M.
  assert (D' : (a - e) * ((d - e) * (f - e) - h * h) - b * (b * (f - e) - h * c) + c * (b * h - (d - e) * c) = 0)
    by (rewrite <- D; unfold sym, shift; lin_unfold; rnum; ring).
  assert (T' : (d - e) * (f - e) - h * h + ((a - e) * (f - e) - c * c) + ((a - e) * (d - e) - b * b) <> 0).
  { intro Q. apply T. rewrite <- Q. unfold sym, minors, trace. cbn [row1 row2 row3 vx vy vz]. rnum. ring. }
  set (m11 := (d - e) * (f - e) - h * h) in T'. set (m22 := (a - e) * (f - e) - c * c) in T'. set (m33 := (a - e) * (d - e) - b * b) in T', M.
  set (m12 := c * h - b * (f - e)). set (m13 := b * h - c * (d - e)). set (m23 := b * c - h * (a - e)).
  assert (E13 : m13 * m13 = 0).
  { transitivity (m11 * m33 - (d - e) * ((a - e) * ((d - e) * (f - e) - h * h) - b * (b * (f - e) - h * c) + c * (b * h - (d - e) * c))).
    - unfold m11, m13, m33. ring.
    - rewrite D', M. ring. }
  assert (E23 : m23 * m23 = 0).
  { transitivity (m22 * m33 - (a - e) * ((a - e) * ((d - e) * (f - e) - h * h) - b * (b * (f - e) - h * c) + c * (b * h - (d - e) * c))).
    - unfold m22, m23, m33. ring.
    - rewrite D', M. ring. }
  assert (Z13 : m13 = 0) by nra. assert (Z23 : m23 = 0) by nra.
  destruct (Req_dec m11 0) as [Z11|N11].
  - assert (N22 : m22 <> 0) by (intro Q; apply T'; lra).
    apply (V (V3 m12 m22 m23)); [intro Q; injection Q as _ Q _; exact (N22 Q)| |cbn [vz]; exact Z23].
    apply mvec_shift. unfold sym, shift. lin_unfold. lin_split; rnum.
    + unfold m12, m22, m23. ring.
    + etransitivity; [|exact D']. unfold m12, m22, m23. ring.
    + unfold m12, m22, m23. ring.
  - apply (V (V3 m11 m12 m13)); [intro Q; injection Q as Q _ _; exact (N11 Q)| |cbn [vz]; exact Z13].
    apply mvec_shift. unfold sym, shift. lin_unfold. lin_split; rnum.
    + etransitivity; [|exact D']. unfold m12, m11, m13. ring.
    + unfold m12, m11, m13. ring.
    + unfold m12, m11, m13. ring.
Qed.

Lemma eigen_singular_spec (A : rmat3) : symmetric3 A -> minors A < 0 ->
  exists e1 e2, eigen_singular A = (eigen_vector A e1, eigen_vector A e2, normalize (cross (row1 A) (row2 A)), e1, e2) /\
    e1 + e2 = trace A /\ e1 * e2 = minors A /\ Rabs e2 <= Rabs e1.
Proof.
  intros H M. destruct (symmetric_sym A H) as (a & b & c & d & h & f & ->).
  unfold eigen_singular. cbn [sym row1 row2 row3 vx vy vz].
  set (B := - a - d - f).
  assert (EC : - (b * b) - c * c - h * h + a * (d + f) + d * f = minors (sym a b c d h f)) by (unfold minors, sym; cbn [row1 row2 row3 vx vy vz]; ring).
  assert (EB : - B = trace (sym a b c d h f)) by (unfold B, trace, sym; cbn [row1 row2 row3 vx vy vz]; rnum; ring).
  set (C := minors (sym a b c d h f)) in *.
  destruct (root2real_roots B C) as (r1 & r2 & E & R); [nra|right; lra|].
  assert (S : r1 + r2 = - B) by (generalize (R 0) (R 1); intros; nra).
  assert (P : r1 * r2 = C) by (generalize (R 0); intros; nra).
  rnum. change (- a - d - f) with B. rewrite EC, E.
  assert (N : (V3 (b * h - c * d) (c * b - h * a) (d * a - b * b) : rvec3) = cross (V3 a b c) (V3 b d h)) by (lin_unfold; lin_split; rnum; ring).
  rewrite N. destruct (Rltb (Rabs r1) (Rabs r2)) eqn:L.
  - apply Rltb_true in L. exists r2, r1. split; [reflexivity|]. split; [lra|]. split; [nra|lra].
  - apply Rltb_false in L. exists r1, r2. split; [reflexivity|]. split; [lra|]. split; [nra|lra].
Qed.

(** ** The cone is a pair of planes *)
Lemma symmetric_dot (A : rmat3) (u v : rvec3) : symmetric3 A -> dot (mvec A u) v = dot u (mvec A v).
Proof. intros H. rewrite dot_mvec. f_equal. unfold symmetric3 in H. rewrite H. reflexivity. Qed.
Lemma eigen_orthogonal (A : rmat3) (e1 e2 : R) (v1 v2 : rvec3) : symmetric3 A -> e1 <> e2 ->
  mvec A v1 = vscale e1 v1 -> mvec A v2 = vscale e2 v2 -> dot v1 v2 = 0.
Proof.
  intros H N H1 H2. pose proof (symmetric_dot A v1 v2 H) as Q. rewrite H1, H2, dot_scale_l, dot_scale_r in Q.
  apply Rmult_eq_reg_l with (e1 - e2); [|lra]. rnum. rewrite Rmult_0_r. ring_simplify. change (carrier RNum) with R in *. lra.
Qed.
Lemma frame_expand (v1 v2 l : rvec3) : unit_vec v1 -> unit_vec v2 -> dot v1 v2 = 0 ->
  l = vadd (vadd (vscale (dot v1 l) v1) (vscale (dot v2 l) v2)) (vscale (dot (cross v1 v2) l) (cross v1 v2)) /\ unit_vec (cross v1 v2).
Proof.
  unfold unit_vec. intros U1 U2 O.
  assert (UW : norm2 (cross v1 v2) = 1) by (rewrite lagrange, U1, U2, O; rnum; ring).
  split; [|exact UW].
  set (P := M3 v1 v2 (cross v1 v2)).
  assert (HP : orthogonal (mtrans P)).
  { unfold orthogonal. rewrite mtrans_mtrans. unfold P. unfold norm2 in *.
    pose proof (dot_cross_l v1 v2) as C1. pose proof (dot_cross_r v1 v2) as C2.
    transitivity (M3 (V3 (dot v1 v1) (dot v1 v2) (dot v1 (cross v1 v2))) (V3 (dot v1 v2) (dot v2 v2) (dot v2 (cross v1 v2)))
      (V3 (dot v1 (cross v1 v2)) (dot v2 (cross v1 v2)) (dot (cross v1 v2) (cross v1 v2)) : rvec3)); [generalize (cross v1 v2); intros w; lin|].
    rewrite U1, U2, UW, O, C1, C2. reflexivity. }
  apply orthogonal_right in HP. rewrite mtrans_mtrans in HP.
  transitivity (mvec (mmul (mtrans P) P) l); [rewrite HP; symmetry; apply mvec_id|].
  unfold P. generalize (cross v1 v2). intros w. lin.
Qed.
Lemma spectral_form (A : rmat3) (e1 e2 : R) (v1 v2 : rvec3) : symmetric3 A -> e1 <> e2 -> e1 + e2 = trace A ->
  mvec A v1 = vscale e1 v1 -> mvec A v2 = vscale e2 v2 -> unit_vec v1 -> unit_vec v2 ->
  forall l, form A l = e1 * (dot v1 l * dot v1 l) + e2 * (dot v2 l * dot v2 l).
Proof.
  intros H N T H1 H2 U1 U2 l. pose proof (eigen_orthogonal A e1 e2 v1 v2 H N H1 H2) as O.
  destruct (frame_expand v1 v2 l U1 U2 O) as [E UW]. set (w := cross v1 v2) in *.
  assert (W1 : dot v1 w = 0) by apply dot_cross_l. assert (W2 : dot v2 w = 0) by apply dot_cross_r.
  assert (TW : trace A = dot v1 (mvec A v1) + dot v2 (mvec A v2) + dot w (mvec A w)).
  { assert (X : forall B : rmat3, trace B = dot (V3 1 0 0) (mvec B (V3 1 0 0)) + dot (V3 0 1 0) (mvec B (V3 0 1 0)) + dot (V3 0 0 1 : rvec3) (mvec B (V3 0 0 1))) by lin.
    set (P := M3 v1 v2 w).
    assert (HP : mmul (mtrans P) P = mid).
    { apply mat_ext. intros u. rewrite mvec_id. destruct (frame_expand v1 v2 u U1 U2 O) as [E' _]. rewrite E' at 2. unfold P, w. generalize (cross v1 v2). intros w'. clear. lin. }
    transitivity (trace (mmul (mtrans P) (mmul P A))).
    - rewrite mmul_assoc, HP, mmul_id_l. reflexivity.
    - rewrite trace_comm. unfold P. clear. lin. }
  rewrite H1, H2, !dot_scale_r in TW. unfold unit_vec, norm2 in U1, U2. rewrite U1, U2 in TW.
  assert (WW : dot w (mvec A w) = 0) by (rewrite <- T in TW; revert TW; generalize (dot w (mvec A w)); rnum; intros; lra).
  assert (W1' : dot v1 (mvec A w) = 0) by (rewrite <- (symmetric_dot A v1 w H), H1, dot_scale_l, W1; rnum; ring).
  assert (W2' : dot v2 (mvec A w) = 0) by (rewrite <- (symmetric_dot A v2 w H), H2, dot_scale_l, W2; rnum; ring).
  unfold form. rewrite E at 1 2. rewrite !mvec_add, !mvec_scale, H1, H2, !dot_add_l, !dot_add_r, !dot_scale_l, !dot_scale_r.
  rewrite (dot_comm v2 v1), (dot_comm w v1), (dot_comm w v2), O, W1, W2, U1, U2, WW, W1', W2'.
  generalize (dot v1 l) (dot v2 l) (dot w l). rnum. intros. ring.
Qed.
