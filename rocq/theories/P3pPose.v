(** Poses from depths, and the solver as a whole. *)
From Coq Require Import Reals List Lia Lra Psatz Arith.
From Verif Require Import Num Outcome Lin LinSpec LinFacts Core Pinhole PinholeSpec EssentialFacts P3p P3pSpec P3pFacts P3pSolve P3pDepths.
Import ListNotations.
Open Scope R_scope.

(** The matrix with two vectors and their cross product as columns. *)
Definition frame (u v : rvec3) : rmat3 := mtrans (M3 u v (cross u v)).
Lemma frame_gram (u v : rvec3) : mmul (mtrans (frame u v)) (frame u v) =
  M3 (V3 (norm2 u) (dot u v) 0) (V3 (dot u v) (norm2 v) 0) (V3 0 0 (norm2 u * norm2 v - dot u v * dot u v)).
Proof. unfold frame. lin. Qed.
Lemma frame_det (u v : rvec3) : det (frame u v) = norm2 u * norm2 v - dot u v * dot u v.
Proof. unfold frame. lin. Qed.
Lemma frame_det_cross (u v : rvec3) : det (frame u v) = norm2 (cross u v).
Proof. rewrite frame_det, lagrange. reflexivity. Qed.
Lemma frame_col1 (u v : rvec3) : mvec (frame u v) (V3 1 0 0) = u. Proof. unfold frame. lin. Qed.
Lemma frame_col2 (u v : rvec3) : mvec (frame u v) (V3 0 1 0) = v. Proof. unfold frame. lin. Qed.

Lemma inverse_right (X B : rmat3) : mmul B X = mid -> mmul X B = mid.
Proof.
  intros H. assert (D : det X <> 0). { intro Q. pose proof (det_mmul B X) as K. rewrite H, Q, det_id in K. rnum_eq. lra. }
  assert (HA : mmul X (mscale (/ det X) (adjugate X)) = mid).
  { rewrite mscale_mmul_r, mmul_adjugate. clear - D. revert D. generalize (det X). intros d D. lin_unfold. lin_split; rnum_eq; field; exact D. }
  assert (E : B = mscale (/ det X) (adjugate X)) by (rewrite <- (mmul_id_r B), <- HA, mmul_assoc, H, mmul_id_l; reflexivity).
  rewrite E. exact HA.
Qed.

(** Frames with the same Gram matrix differ by a rotation. *)
Lemma frame_rotation (u v u' v' : rvec3) (B : rmat3) : norm2 u = norm2 u' -> norm2 v = norm2 v' -> dot u v = dot u' v' ->
  mmul B (frame u v) = mid -> rotation (mmul (frame u' v') B).
Proof.
  intros H1 H2 H3 HB. pose proof (inverse_right _ _ HB) as HB'. set (X := frame u v) in *. set (Y := frame u' v').
  assert (G : mmul (mtrans Y) Y = mmul (mtrans X) X) by (unfold X, Y; rewrite !frame_gram, H1, H2, H3; reflexivity).
  split.
  - rewrite mtrans_mmul. transitivity (mmul (mmul (mtrans B) (mmul (mtrans Y) Y)) B); [rewrite !mmul_assoc; reflexivity|]. rewrite G.
    transitivity (mmul (mtrans (mmul X B)) (mmul X B)); [rewrite mtrans_mmul, !mmul_assoc; reflexivity|]. rewrite HB'. apply mmul_id_l.
  - assert (DX : det Y = det X) by (unfold X, Y; rewrite !frame_det, H1, H2, H3; reflexivity).
    rewrite det_mmul, DX, <- det_mmul, HB'. apply det_id.
Qed.
Lemma dot_of_sides (u v : rvec3) : 2 * dot u v = norm2 u + norm2 v - norm2 (vsub u v).
Proof. lin. Qed.

Lemma pose_of_depths_correct (B : rmat3) (w1 w2 w3 y1 y2 y3 l : rvec3) :
  mmul B (frame (vsub w1 w2) (vsub w1 w3)) = mid -> congruent w1 w2 w3 y1 y2 y3 l ->
  let '(r, t) := pose_of_depths B w1 y1 y2 y3 l in rotation r /\ aligns (Iso r t) w1 w2 w3 y1 y2 y3 l.
Proof.
  intros HB (C1 & C2 & C3). rewrite distance_law in C1, C2, C3. unfold pose_of_depths.
  set (z1 := vscale (vx l) y1) in *. set (z2 := vscale (vy l) y2) in *. set (z3 := vscale (vz l) y3) in *.
  fold (frame (vsub z1 z2) (vsub z1 z3)).
  assert (S : forall a b c : rvec3, vsub (vsub a b) (vsub a c) = vneg (vsub b c)) by lin.
  assert (DD : dot (vsub w1 w2) (vsub w1 w3) = dot (vsub z1 z2) (vsub z1 z3)).
  { apply Rmult_eq_reg_l with 2; [|lra]. rewrite !dot_of_sides, !S, !norm2_neg, C1, C2, C3. reflexivity. }
  set (r := mmul (frame (vsub z1 z2) (vsub z1 z3)) B).
  assert (E1 : mvec r (vsub w1 w2) = vsub z1 z2).
  { unfold r. rewrite <- (frame_col1 (vsub w1 w2) (vsub w1 w3)) at 1. rewrite <- mvec_mmul, <- mmul_assoc, HB, mmul_id_r. apply frame_col1. }
  assert (E2 : mvec r (vsub w1 w3) = vsub z1 z3).
  { unfold r. rewrite <- (frame_col2 (vsub w1 w2) (vsub w1 w3)) at 1. rewrite <- mvec_mmul, <- mmul_assoc, HB, mmul_id_r. apply frame_col2. }
  split; [apply (frame_rotation (vsub w1 w2) (vsub w1 w3)); auto|].
  unfold aligns, iso_point. cbn [rot trans]. fold z1 z2 z3. clearbody r z1 z2 z3.
  rewrite mvec_sub in E1, E2.
  assert (K : forall a b c d : rvec3, vsub a b = vsub c d -> vadd b (vsub c a) = d).
  { intros a b c d Q. assert (K1 : vadd b (vsub c a) = vsub c (vsub a b)) by (clear; lin). rewrite K1, Q. clear. lin. }
  assert (K0 : forall a c : rvec3, vadd a (vsub c a) = c) by lin.
  split; [|split].
  - apply K0.
  - apply K, E1.
  - apply K, E2.
Qed.

(** A pose that aligns the points is the one the solver computes from the depths. *)
Lemma pose_of_depths_unique (B : rmat3) (q : riso) (w1 w2 w3 y1 y2 y3 l : rvec3) :
  mmul B (frame (vsub w1 w2) (vsub w1 w3)) = mid -> rigid q -> aligns q w1 w2 w3 y1 y2 y3 l ->
  pose_of_depths B w1 y1 y2 y3 l = (rot q, trans q).
Proof.
  intros HB Hq (A1 & A2 & A3). pose proof (inverse_right _ _ HB) as HB'. unfold pose_of_depths. rewrite <- A1, <- A2, <- A3.
  unfold iso_point.
  assert (S : forall a b c : rvec3, vsub (vadd a c) (vadd b c) = vsub a b) by lin.
  rewrite !S, <- !mvec_sub. fold (frame (mvec (rot q) (vsub w1 w2)) (mvec (rot q) (vsub w1 w3))).
  assert (F : forall u v, frame (mvec (rot q) u) (mvec (rot q) v) = mmul (rot q) (frame u v)).
  { intros u v. unfold frame. rewrite <- rotation_cross by exact Hq. generalize (cross u v) (rot q). lin. }
  rewrite F, <- mmul_assoc, HB', mmul_id_r. f_equal.
  assert (K0 : forall a c : rvec3, vsub (vadd a c) a = c) by lin. apply K0.
Qed.
Lemma aligns_congruent (q : riso) (w1 w2 w3 y1 y2 y3 l : rvec3) : rigid q -> aligns q w1 w2 w3 y1 y2 y3 l -> congruent w1 w2 w3 y1 y2 y3 l.
Proof. intros Hq (A1 & A2 & A3). unfold congruent. rewrite <- A1, <- A2, <- A3, !iso_distance by exact Hq. auto. Qed.

(** ** The whole solver *)
Section whole.
Variables (root : R -> R -> R -> R) (n : nat) (inverse : rmat3 -> option rmat3) (from_matrix : rmat3 -> rmat3).
Variables (y1 y2 y3 w1 w2 w3 : rvec3) (h1 h2 h3 : rvec4).
Hypothesis points : point h1 = Some w1 /\ point h2 = Some w2 /\ point h3 = Some w3.
Hypothesis units : unit_vec y1 /\ unit_vec y2 /\ unit_vec y3.

Definition root_of : R :=
  let '(p3, p2, p1, p0) := cubic_coefficients (N := RNum) (norm2 (vsub w1 w2)) (norm2 (vsub w1 w3)) (norm2 (vsub w2 w3)) (dot y1 y2) (dot y2 y3) (dot y3 y1) in
  root (p2 / p3) (p1 / p3) (p0 / p3).

Lemma solve_unfold : solve_three_with (N := RNum) root n inverse from_matrix (y1, h1) (y2, h2) (y3, h3) =
  match inverse (frame (vsub w1 w2) (vsub w1 w3)) with
  | None => []
  | Some B => map (fun l => let '(r, t) := pose_of_depths B w1 y1 y2 y3
        (refine (N := RNum) (norm2 (vsub w1 w2)) (norm2 (vsub w1 w3)) (norm2 (vsub w2 w3)) (-2 * dot y1 y2) (-2 * dot y3 y1) (-2 * dot y2 y3) n l) in Iso (from_matrix r) t)
      (depths (N := RNum) (norm2 (vsub w1 w2)) (norm2 (vsub w1 w3)) (norm2 (vsub w2 w3)) (dot y1 y2) (dot y2 y3) (dot y3 y1) root_of)
  end.
Proof. destruct points as (P1 & P2 & P3). unfold solve_three_with. cbn [fst snd]. rewrite P1, P2, P3. reflexivity. Qed.

Lemma solve_three_exact (B : rmat3) :
  inverse (frame (vsub w1 w2) (vsub w1 w3)) = Some B -> mmul B (frame (vsub w1 w2) (vsub w1 w3)) = mid ->
  (forall r, rotation r -> from_matrix r = r) ->
  regular (norm2 (vsub w1 w2)) (norm2 (vsub w1 w3)) (norm2 (vsub w2 w3)) (dot y1 y2) (dot y2 y3) (dot y3 y1) root_of ->
  w2 <> w3 ->
  forall q, In q (solve_three_with (N := RNum) root n inverse from_matrix (y1, h1) (y2, h2) (y3, h3)) <->
    rigid q /\ exists l, 0 <= vx l /\ 0 < vy l /\ 0 < vz l /\ aligns q w1 w2 w3 y1 y2 y3 l.
Proof.
  intros HI HB HF HR HW q. rewrite solve_unfold, HI, in_map_iff.
  assert (PA : 0 < norm2 (vsub w2 w3)) by (apply norm2_pos; intro Q; apply HW, vsub_zero, Q).
  destruct units as (U1 & U2 & U3). split.
  - intros (l & E & Hl). apply (depths_exact _ _ _ _ _ _ _ PA HR) in Hl. destruct Hl as (L1 & L2 & L3 & HZ).
    rewrite refine_zero in E by exact HZ. apply (law_congruent w1 w2 w3 y1 y2 y3 l U1 U2 U3) in HZ.
    pose proof (pose_of_depths_correct B w1 w2 w3 y1 y2 y3 l HB HZ) as K.
    destruct (pose_of_depths B w1 y1 y2 y3 l) as [r t]. destruct K as [K1 K2]. rewrite HF in E by exact K1. subst q.
    split; [exact K1|]. exists l. auto.
  - intros (Hq & l & L1 & L2 & L3 & HA). exists l.
    assert (HZ := aligns_congruent q w1 w2 w3 y1 y2 y3 l Hq HA). apply (law_congruent w1 w2 w3 y1 y2 y3 l U1 U2 U3) in HZ.
    split; [|apply (depths_exact _ _ _ _ _ _ _ PA HR); auto].
    rewrite refine_zero by exact HZ. rewrite (pose_of_depths_unique B q w1 w2 w3 y1 y2 y3 l HB Hq HA), HF by exact Hq. destruct q; reflexivity.
Qed.
End whole.

(** ** Counts and degenerate samples, for any number type *)
Lemma push_solution_length {N : Num} (a23 b23 tau w0 w1 : N) : (length (push_solution a23 b23 tau w0 w1) <= 1)%nat.
Proof. unfold push_solution. repeat match goal with |- context [if ?x then _ else _] => destruct x end; cbn; lia. Qed.
Lemma push_solutions_length {N : Num} (a12 a13 a23 b12 b13 b23 : N) v1 v2 s : (length (push_solutions a12 a13 a23 b12 b13 b23 v1 v2 s) <= 2)%nat.
Proof.
  unfold push_solutions. destruct (quadratic_coefficients _ _ _ _ _ _ _) as [[[w0 w1] b] c]. destruct (leb _ _); [|cbn; lia].
  destruct (root2real b c) as [[x t1] t2]. rewrite app_length.
  pose proof (push_solution_length a23 b23 t1 w0 w1). pose proof (push_solution_length a23 b23 t2 w0 w1). lia.
Qed.
Lemma solve_three_length {N : Num} (root : N -> N -> N -> N) n inverse from_matrix s1 s2 s3 :
  (length (solve_three_with root n inverse from_matrix s1 s2 s3) <= 4)%nat.
Proof.
  unfold solve_three_with. destruct (point (snd s1)), (point (snd s2)), (point (snd s3)); try (cbn; lia).
  destruct (cubic_coefficients _ _ _ _ _ _) as [[[p3 p2] p1] p0]. destruct (inverse _); [|cbn; lia]. rewrite map_length.
  unfold depths. destruct (eigen_singular _) as [[[[v1' v2'] v3'] e1] e2]. rewrite app_length.
  match goal with |- (length ?a + length ?b <= 4)%nat => assert (length a <= 2)%nat by apply push_solutions_length; assert (length b <= 2)%nat by apply push_solutions_length end. lia.
Qed.
Lemma solve_three_infinity {N : Num} (root : N -> N -> N -> N) n inverse from_matrix s1 s2 s3 :
  point (snd s1) = None \/ point (snd s2) = None \/ point (snd s3) = None -> solve_three_with root n inverse from_matrix s1 s2 s3 = [].
Proof. unfold solve_three_with. intros [H|[H|H]]; rewrite H; [reflexivity| |]; destruct (point (snd s1)); try reflexivity. destruct (point (snd s2)); reflexivity. Qed.
(** Every pose returned has the given translation type of rotation: whatever [from_matrix] returns. *)
Lemma solve_three_rigid (root : R -> R -> R -> R) n inverse from_matrix s1 s2 s3 : (forall r, rotation (from_matrix r)) ->
  forall q, In q (solve_three_with (N := RNum) root n inverse from_matrix s1 s2 s3) -> rigid q.
Proof.
  intros H q. unfold solve_three_with. destruct (point (snd s1)), (point (snd s2)), (point (snd s3)); try (intros []).
  destruct (cubic_coefficients _ _ _ _ _ _) as [[[p3 p2] p1] p0]. destruct (inverse _); [|intros []]. rewrite in_map_iff. intros (l & E & _).
  destruct (pose_of_depths _ _ _ _ _ _) as [r t]. subst q. apply H.
Qed.
(** World points on a line have no solution. *)
Lemma collinear_none (root : R -> R -> R -> R) n inverse from_matrix (y1 y2 y3 w1 w2 w3 : rvec3) (h1 h2 h3 : rvec4) :
  point h1 = Some w1 -> point h2 = Some w2 -> point h3 = Some w3 -> ~ triangle w1 w2 w3 ->
  (forall X B, inverse X = Some B -> mmul B X = mid) -> solve_three_with (N := RNum) root n inverse from_matrix (y1, h1) (y2, h2) (y3, h3) = [].
Proof.
  intros P1 P2 P3 T HI. rewrite (solve_unfold root n inverse from_matrix y1 y2 y3 w1 w2 w3 h1 h2 h3 (conj P1 (conj P2 P3))).
  destruct (inverse _) as [B|] eqn:E; [|reflexivity]. exfalso. apply HI in E. apply T. intro Z.
  pose proof (det_mmul B (frame (vsub w1 w2) (vsub w1 w3))) as K. rewrite E, det_id, frame_det_cross, Z in K.
  replace (norm2 (vzero : rvec3)) with 0 in K by lin. rnum_eq. lra.
Qed.
Lemma p3p_estimate_spec {N : Num} n inverse from_matrix (samples : list (vec3 N * vec4 N)) :
  (length samples < 3 -> p3p_estimate n inverse from_matrix samples = Panic)%nat /\
  (3 <= length samples -> p3p_estimate n inverse from_matrix samples = p3p_estimate n inverse from_matrix (firstn 3 samples) /\
    exists l, p3p_estimate n inverse from_matrix samples = Ok l /\ length l <= 4)%nat.
Proof.
  destruct samples as [|s1 [|s2 [|s3 samples]]]; cbn [length]; (split; [intros; try lia; reflexivity|]); intros; try lia.
  split; [reflexivity|]. eexists. split; [reflexivity|]. apply solve_three_length.
Qed.
