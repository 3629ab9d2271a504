(** Model of the perspective-three-point solver: lambda-twist/src/lib.rs.
    nalgebra's [try_inverse] and [Rotation3::from_matrix_eps] are oracles. *)
From Coq Require Import List Arith BinInt Bool.
From Verif Require Import Num Outcome Lin Core.
Import ListNotations.
Open Scope nat_scope.
Open Scope num_scope.

Section p3p.
Context {N : Num}.

Definition three : N := ofZ 3.
Definition four : N := ofZ 4.

(** Lines 416-419 [l1_norm]. *)
Definition l1_norm (v : vec3 N) : N := abs_ (vx v) + abs_ (vy v) + abs_ (vz v).

(** Lines 421-435 [root2real]: roots of [r^2 + b r + c]. *)
Definition root2real (b c : N) : bool * N * N :=
  let discriminant := b * b - four * c in
  if discriminant <? zero then (false, half * b, half * b)
  else if b <? zero then
    let y := sqrt_ discriminant in
    (true, half * (- b + y), half * (- b - y))
  else
    let y := sqrt_ discriminant in
    (true, two * c / (- b + y), two * c / (- b - y)).

(** Lines 492 and 493: the cubic [r^3 + b r^2 + c r + d] and its derivative as they are evaluated. *)
Definition cubic_at (b c d r : N) : N := ((r + b) * r + c) * r + d.
Definition slope_at (b c r : N) : N := (three * r + two * b) * r + c.

(** Lines 459-486 of [cube_root]: the initial solution. *)
Definition cube_root_start (b c d : N) : N :=
  if three * c <=? b * b then
    let v := sqrt_ (b * b - three * c) in
    let t1 := (- b - v) / three in
    let k := cubic_at b c d t1 in
    if zero <? k then t1 - sqrt_ (- k / (three * t1 + b))
    else
      let t2 := (- b + v) / three in
      t2 + sqrt_ (- cubic_at b c d t2 / (three * t2 + b))
  else
    let r0 := - b / three in
    if abs_ (slope_at b c r0) <? lit 1 10000 then r0 + one else r0.

(** Lines 492-494: one step. *)
Definition newton (b c d r : N) : N := r - cubic_at b c d r / slope_at b c r.

(** Lines 496-504: at most [n] further steps. *)
Fixpoint newton_until (b c d : N) (n : nat) (r : N) : N :=
  match n with
  | O => r
  | S n => if lit 1 10000000000000 <? abs_ (cubic_at b c d r) then newton_until b c d n (newton b c d r) else r
  end.

(** Lines 458-506 [cube_root]. *)
Definition cube_root (b c d : N) : N :=
  newton_until b c d 43 (Nat.iter 7 (newton b c d) (cube_root_start b c d)).

(** Lines 534-542: eigenvector of the symmetric matrix [x] for the eigenvalue [e]. *)
Definition eigen_vector (x : mat3 N) (e : N) : vec3 N :=
  let m11 := vx (row1 x) in let m12 := vy (row1 x) in let m13 := vz (row1 x) in
  let m22 := vy (row2 x) in let m23 := vz (row2 x) in
  let x12_sqr := m12 * m12 in
  let mx0011 := - m11 * m22 in
  let prec_0 := m12 * m23 - m13 * m22 in
  let prec_1 := m12 * m13 - m11 * m23 in
  let tmp := one / (e * (m11 + m22) + mx0011 - e * e + x12_sqr) in
  let a1 := - (e * m13 + prec_0) * tmp in
  let a2 := - (e * m23 + prec_1) * tmp in
  let rnorm := one / sqrt_ (a1 * a1 + a2 * a2 + one) in
  V3 (a1 * rnorm) (a2 * rnorm) rnorm.

(** Lines 508-554 [eigen_decomposition_singular]: the three eigenvectors (the columns of the matrix)
    and the first two eigenvalues; the third is zero. *)
Definition eigen_singular (x : mat3 N) : vec3 N * vec3 N * vec3 N * N * N :=
  let m11 := vx (row1 x) in let m12 := vy (row1 x) in let m13 := vz (row1 x) in
  let m21 := vx (row2 x) in let m22 := vy (row2 x) in let m23 := vz (row2 x) in
  let m31 := vx (row3 x) in let m32 := vy (row3 x) in let m33 := vz (row3 x) in
  let v3 := normalize (V3 (m21 * m32 - m31 * m22) (m31 * m12 - m32 * m11) (m22 * m11 - m21 * m12)) in
  let b := - m11 - m22 - m33 in
  let c := - (m12 * m12) - m13 * m13 - m23 * m23 + m11 * (m22 + m33) + m22 * m33 in
  let '(_, r1, r2) := root2real b c in
  let '(e1, e2) := if abs_ r1 <? abs_ r2 then (r2, r1) else (r1, r2) in
  (eigen_vector x e1, eigen_vector x e2, v3, e1, e2).

(** The squared side lengths of the triangle of world points and minus twice the cosines between the
    bearings (lines 146-165). *)
Section lengths.
Variables a12 a13 a23 b12 b13 b23 : N.

(** Lines 371-379 [compute_residual]. *)
Definition residual (l : vec3 N) : vec3 N :=
  let l1 := vx l in let l2 := vy l in let l3 := vz l in
  V3 (l1 * l1 + l2 * l2 + b12 * l1 * l2 - a12)
     (l1 * l1 + l3 * l3 + b13 * l1 * l3 - a13)
     (l2 * l2 + l3 * l3 + b23 * l2 * l3 - a23).

(** Lines 386-400: the next iterate. *)
Definition refine_step (l : vec3 N) : vec3 N :=
  let l1 := vx l in let l2 := vy l in let l3 := vz l in
  let dr1dl1 := two * l1 + b12 * l2 in
  let dr1dl2 := two * l2 + b12 * l1 in
  let dr2dl1 := two * l1 + b13 * l3 in
  let dr2dl3 := two * l3 + b13 * l1 in
  let dr3dl2 := two * l2 + b23 * l3 in
  let dr3dl3 := two * l3 + b23 * l2 in
  let det := one / (- dr1dl1 * dr2dl3 * dr3dl2 - dr1dl2 * dr2dl1 * dr3dl3) in
  let jacobian := M3
    (V3 (- dr2dl3 * dr3dl2) (- dr1dl2 * dr3dl3) (dr1dl2 * dr2dl3))
    (V3 (- dr2dl1 * dr3dl3) (dr1dl1 * dr3dl3) (- dr1dl1 * dr2dl3))
    (V3 (dr2dl1 * dr3dl2) (- dr1dl1 * dr3dl2) (- dr1dl2 * dr2dl1)) in
  vsub l (vscale det (mvec jacobian (residual l))).

(** Lines 361-412 [gauss_newton_refine_lambda]. *)
Fixpoint refine (iterations : nat) (l : vec3 N) : vec3 N :=
  match iterations with
  | O => l
  | S n =>
    if l1_norm (residual l) <? lit 1 10000000000 then l
    else
      let l' := refine_step l in
      if l1_norm (residual l) <? l1_norm (residual l') then l else refine n l'
  end.

(** Lines 207-216 [quadratic_coefficients], given the first two eigenvectors. *)
Definition quadratic_coefficients (v1 v2 : vec3 N) (ratio : N) : N * N * N * N :=
  let w2 := one / (ratio * vx v2 - vx v1) in
  let w0 := w2 * (vy v1 - ratio * vy v2) in
  let w1 := w2 * (vz v1 - ratio * vz v2) in
  let a := one / ((a13 - a12) * w1 * w1 - a12 * b13 * w1 - a12) in
  let b := a * (a13 * b12 * w1 - a12 * b13 * w0 - two * w0 * w1 * (a12 - a13)) in
  let c := a * ((a13 - a12) * w0 * w0 + a13 * b12 * w0 + a13) in
  (w0, w1, b, c).

(** Lines 220-240 [possible_depths] and [push_solution]: the triples pushed for one root. *)
Definition push_solution (tau w0 w1 : N) : list (vec3 N) :=
  if zero <? tau then
    let d := a23 / (tau * (b23 + tau) + one) in
    if zero <? d then
      let l2 := sqrt_ d in
      let l3 := tau * l2 in
      let l1 := w0 * l2 + w1 * l3 in
      if zero <=? l1 then [V3 l1 l2 l3] else []
    else []
  else [].

(** Lines 244-251 [push_solutions_to_lambdas]. *)
Definition push_solutions (v1 v2 : vec3 N) (ratio : N) : list (vec3 N) :=
  let '(w0, w1, b, c) := quadratic_coefficients v1 v2 ratio in
  if zero <=? b * b - four * c then
    let '(_, tau1, tau2) := root2real b c in
    push_solution tau1 w0 w1 ++ push_solution tau2 w0 w1
  else [].
End lengths.

(** Lines 167-193: the coefficients of the cubic and the matrix called D0 in the paper. *)
Definition cubic_coefficients (a12 a13 a23 c12 c23 c31 : N) : N * N * N * N :=
  let blob := c12 * c23 * c31 - one in
  let s12_sqr := one - c12 * c12 in
  let s23_sqr := one - c23 * c23 in
  let s31_sqr := one - c31 * c31 in
  let p3 := a13 * (a23 * s31_sqr - a13 * s23_sqr) in
  let p2 := two * blob * a23 * a13 + a13 * (two * a12 + a13) * s23_sqr + a23 * (a23 - a12) * s31_sqr in
  let p1 := a23 * (a13 - a23) * s12_sqr - a12 * a12 * s23_sqr - two * a12 * (blob * a23 + a13 * s23_sqr) in
  let p0 := a12 * (a12 * s23_sqr - a23 * s12_sqr) in
  (p3, p2, p1, p0).
Definition d0_matrix (a12 a13 a23 c12 c23 c31 g : N) : mat3 N :=
  let d0_00 := a23 * (one - g) in
  let d0_01 := - (a23 * c12) in
  let d0_02 := a23 * c31 * g in
  let d0_11 := a23 - a12 + a13 * g in
  let d0_12 := - c23 * (a13 * g - a12) in
  let d0_22 := g * (a13 - a23) - a12 in
  M3 (V3 d0_00 d0_01 d0_02) (V3 d0_01 d0_11 d0_12) (V3 d0_02 d0_12 d0_22).

(** Lines 195-254: the triples of depths for a value [g] of the root ([f64::max] ignores NaN). *)
Definition depths (a12 a13 a23 c12 c23 c31 g : N) : list (vec3 N) :=
  let '(v1, v2, _, e1, e2) := eigen_singular (d0_matrix a12 a13 a23 c12 c23 c31 g) in
  let b12 := - two * c12 in let b13 := - two * c31 in let b23 := - two * c23 in
  let q := - e2 / e1 in
  let ratio := sqrt_ (if zero <? q then q else zero) in
  push_solutions a12 a13 a23 b12 b13 b23 v1 v2 ratio ++ push_solutions a12 a13 a23 b12 b13 b23 v1 v2 (- ratio).

(** Lines 287-303: rotation matrix and translation for one triple of depths; [x_inverse] is the
    inverse of the matrix of the differences of the world points. *)
Definition pose_of_depths (x_inverse : mat3 N) (w1 y1 y2 y3 l : vec3 N) : mat3 N * vec3 N :=
  let ry1 := vscale (vx l) y1 in
  let ry2 := vscale (vy l) y2 in
  let ry3 := vscale (vz l) y3 in
  let yd1 := vsub ry1 ry2 in
  let yd2 := vsub ry1 ry3 in
  let y_mat := mtrans (M3 yd1 yd2 (cross yd1 yd2)) in
  let rot := mmul y_mat x_inverse in
  (rot, vsub ry1 (mvec rot w1)).

(** Lines 110-317 [compute_poses_nordberg], for any routine that finds a root of a cubic.  A sample is a
    bearing and a homogeneous world point.  [try_inverse] and [from_matrix_eps] (lines 266 and 308) are
    oracles. *)
Definition solve_three_with (root : N -> N -> N -> N) (iterations : nat) (try_inverse : mat3 N -> option (mat3 N)) (from_matrix : mat3 N -> mat3 N)
    (s1 s2 s3 : vec3 N * vec4 N) : list (iso N) :=
  match point (snd s1), point (snd s2), point (snd s3) with
  | Some w1, Some w2, Some w3 =>
    let y1 := fst s1 in let y2 := fst s2 in let y3 := fst s3 in
    let d12 := vsub w1 w2 in
    let d13 := vsub w1 w3 in
    let d23 := vsub w2 w3 in
    let a12 := norm2 d12 in let a13 := norm2 d13 in let a23 := norm2 d23 in
    let c12 := dot y1 y2 in let c23 := dot y2 y3 in let c31 := dot y3 y1 in
    let '(p3, p2, p1, p0) := cubic_coefficients a12 a13 a23 c12 c23 c31 in
    let g := root (p2 / p3) (p1 / p3) (p0 / p3) in
    let lambdas := depths a12 a13 a23 c12 c23 c31 g in
    match try_inverse (mtrans (M3 d12 d13 (cross d12 d13))) with
    | None => []
    | Some x_inverse =>
      map (fun l =>
        let l' := refine a12 a13 a23 (- two * c12) (- two * c31) (- two * c23) iterations l in
        let '(r, t) := pose_of_depths x_inverse w1 y1 y2 y3 l' in
        Iso (from_matrix r) t) lambdas
    end
  | _, _, _ => []
  end.

(** Line 179: with [cube_root]. *)
Definition solve_three := solve_three_with cube_root.

(** Lines 334-346 [estimate]: the first three samples; fewer panic. *)
Definition p3p_estimate (iterations : nat) try_inverse from_matrix (samples : list (vec3 N * vec4 N)) : outcome (list (iso N)) :=
  match samples with
  | s1 :: s2 :: s3 :: _ => Ok (solve_three iterations try_inverse from_matrix s1 s2 s3)
  | _ => Panic
  end.
End p3p.
