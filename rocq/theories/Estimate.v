(** Model of the two-view estimators: eight-point/src/lib.rs and nister-stewenius/src/lib.rs.
    Small dense vectors and matrices of sizes other than 3 and 4 are functions from indices
    (row first); nalgebra's decompositions are oracles. *)
From Coq Require Import List Arith BinInt Bool.
From Verif Require Import Num Outcome Lin Pinhole.
Import ListNotations.
Open Scope nat_scope.
Open Scope num_scope.

Section estimate.
Context {N : Num}.

Notation vector := (nat -> N).
Notation matrix := (nat -> nat -> N).

(** [f 0 + ... + f (n - 1)]. *)
Definition sum (n : nat) (f : vector) : N := fold_left (fun s i => s + f i) (seq 0 n) zero.
(** Product of a matrix with a vector with [n] entries. *)
Definition mat_vec (n : nat) (m : matrix) (v : vector) : vector := fun i => sum n (fun k => m i k * v k).
(** [m.transpose() * m] for a matrix with [rows] rows. *)
Definition gram (rows : nat) (m : matrix) : matrix := fun j k => sum rows (fun i => m i j * m i k).
(** Entry of a 3-vector by index. *)
Definition coord (v : vec3 N) (i : nat) : N := match i with O => vx v | S O => vy v | _ => vz v end.
(** [Matrix3::from_iterator] of the nine entries of a vector: column by column. *)
Definition of_columns (v : vector) : mat3 N :=
  M3 (V3 (v 0) (v 3) (v 6)) (V3 (v 1) (v 4) (v 7)) (V3 (v 2) (v 5) (v 8)).

(** A feature match: the bearings in the two views. *)
Definition bearings : Type := (vec3 N * vec3 N)%type.

(** The result of [try_symmetric_eigen]: the eigenvalue with each index, and the entries of the
    eigenvector with each index (nalgebra: column).  [None]: did not converge. *)
Definition eigen_solver : Type := matrix -> option (vector * matrix).

(** ** eight-point/src/lib.rs *)

(** Lines 11-24 [encode_epipolar_equation]: rows of missing matches stay zero, matches after the
    eighth are ignored; both bearings are divided by the depth of the first. *)
Definition encode8 (ms : list bearings) : matrix := fun i k =>
  match nth_error (firstn 8 ms) i with
  | Some (a, b) => coord (vdiv a (vz a)) (k / 3) * coord (vdiv b (vz a)) (k mod 3)
  | None => zero
  end.

(** Lines 50-54: [min_by_key] with [FloatOrd], which keeps the first of several minima.
    [FloatOrd] is modelled by [<], with which it agrees except on NaN and zeros of different sign. *)
Definition argmin (n : nat) (v : vector) : nat :=
  fold_left (fun best i => if v i <? v best then i else best) (seq 1 (n - 1)) O.

(** Lines 43-58 [from_matches]. *)
Definition eight_point (eigen : eigen_solver) (ms : list bearings) : option (mat3 N) :=
  match eigen (gram 8 (encode8 ms)) with
  | None => None
  | Some (values, vectors) => Some (of_columns (vectors (argmin 9 values)))
  end.

(** Lines 75-83 [estimate]. *)
Definition eight_point_estimate (eigen : eigen_solver) (try_svd : mat3 N -> option (svd N)) (ms : list bearings) : list (iso N) :=
  match eight_point eigen ms with
  | None => []
  | Some e => match possible_unscaled_poses try_svd e with Some l => l | None => [] end
  end.

(** ** nister-stewenius/src/lib.rs *)

(** Lines 50-66 [encode_epipolar_equation]. *)
Definition encode5 (ms : list bearings) : matrix := fun i k =>
  match nth_error ms i with
  | Some (a, b) => coord a (k / 3) * coord b (k mod 3)
  | None => zero
  end.

(** Lines 36-43. *)
Definition eigen_threshold : N := lit 1%Z 1000000000000%Z.
Definition svd_null_threshold : N := lit 1%Z 1000000000000%Z.

(** Lines 77-78: [sort_unstable_by_key] of nine indices by eigenvalue.  For fewer than twenty
    elements the standard library's sort is an insertion sort, which keeps the order of equal keys. *)
Fixpoint insert_key (v : vector) (i : nat) (l : list nat) : list nat :=
  match l with
  | [] => [i]
  | j :: l' => if v i <? v j then i :: l else j :: insert_key v i l'
  end.
Definition sort_by_key (v : vector) (l : list nat) : list nat := fold_left (fun s i => insert_key v i s) l [].

(** Lines 81-86: the position of the first eigenvalue above the threshold. *)
Fixpoint first_above (v : vector) (t : N) (l : list nat) : option nat :=
  match l with
  | [] => None
  | i :: l' => if t <? v i then Some O else option_map S (first_above v t l')
  end.

(** Lines 68-96 [five_points_nullspace_basis]: column [j] of the basis is the eigenvector of the
    [j]-th smallest eigenvalue.  The result is indexed by row and column. *)
Definition nullspace_basis (eigen : eigen_solver) (ms : list bearings) : option matrix :=
  match eigen (gram 5 (encode5 ms)) with
  | None => None
  | Some (values, vectors) =>
      let sources := sort_by_key values (seq 0 9) in
      match first_above values eigen_threshold sources with
      | Some 4 => Some (fun row column => vectors (nth column sources O) row)
      | _ => None
      end
  end.

(** A polynomial of degree at most three in x, y, z: its coefficients in the order of lines 15-34
    XXX, XXY, XYY, YYY, XXZ, XYZ, YYZ, XZZ, YZZ, ZZZ, XX, XY, YY, XZ, YZ, ZZ, X, Y, Z, 1. *)
Definition poly : Type := list N.
Definition coeff (p : poly) (i : nat) : N := nth i p zero.
Definition b_xx := 10%nat. Definition b_xy := 11%nat. Definition b_yy := 12%nat. Definition b_xz := 13%nat. Definition b_yz := 14%nat.
Definition b_zz := 15%nat. Definition b_x := 16%nat. Definition b_y := 17%nat. Definition b_z := 18%nat. Definition b_1 := 19%nat.
Definition padd (p q : poly) : poly := map (fun i => coeff p i + coeff q i) (seq 0 20).
Definition psub (p q : poly) : poly := map (fun i => coeff p i - coeff q i) (seq 0 20).
Definition pscale (s : N) (p : poly) : poly := map (fun i => s * coeff p i) (seq 0 20).

(** Lines 98-111 [o1]: the product of two linear polynomials given as (x, y, z, 1) coefficients. *)
Definition o1 (a b : vec4 N) : poly :=
  [zero; zero; zero; zero; zero; zero; zero; zero; zero; zero;
   hx a * hx b;
   hx a * hy b + hy a * hx b;
   hy a * hy b;
   hx a * hz b + hz a * hx b;
   hy a * hz b + hz a * hy b;
   hz a * hz b;
   hx a * hw b + hw a * hx b;
   hy a * hw b + hw a * hy b;
   hz a * hw b + hw a * hz b;
   hw a * hw b].

(** Lines 113-136 [o2]: the product of a quadratic polynomial with a linear one. *)
Definition o2 (a : poly) (b : vec4 N) : poly :=
  let a := coeff a in
  [a b_xx * hx b;
   a b_xx * hy b + a b_xy * hx b;
   a b_xy * hy b + a b_yy * hx b;
   a b_yy * hy b;
   a b_xx * hz b + a b_xz * hx b;
   a b_xy * hz b + a b_yz * hx b + a b_xz * hy b;
   a b_yy * hz b + a b_yz * hy b;
   a b_xz * hz b + a b_zz * hx b;
   a b_yz * hz b + a b_zz * hy b;
   a b_zz * hz b;
   a b_xx * hw b + a b_x * hx b;
   a b_xy * hw b + a b_x * hy b + a b_y * hx b;
   a b_yy * hw b + a b_y * hy b;
   a b_xz * hw b + a b_x * hz b + a b_z * hx b;
   a b_yz * hw b + a b_y * hz b + a b_z * hy b;
   a b_zz * hw b + a b_z * hz b;
   a b_x * hw b + a b_1 * hx b;
   a b_y * hw b + a b_1 * hy b;
   a b_z * hw b + a b_1 * hz b;
   a b_1 * hw b].

(** Lines 140-149: an entry of E as a linear form. *)
Definition e_poly (basis : matrix) (i j : nat) : vec4 N :=
  V4 (basis (3 * i + j)%nat 0%nat) (basis (3 * i + j)%nat 1%nat) (basis (3 * i + j)%nat 2%nat) (basis (3 * i + j)%nat 3%nat).
(** Lines 153-166: the determinant. *)
Definition det_row (e : nat -> nat -> vec4 N) : poly :=
  padd (padd (o2 (psub (o1 (e 0 1) (e 1 2)) (o1 (e 0 2) (e 1 1))) (e 2 0))
             (o2 (psub (o1 (e 0 2) (e 1 0)) (o1 (e 0 0) (e 1 2))) (e 2 1)))
       (o2 (psub (o1 (e 0 0) (e 1 1)) (o1 (e 0 1) (e 1 0))) (e 2 2)).
(** Lines 170-183: E E^T, of which the upper triangle is computed. *)
Definition eet_upper (e : nat -> nat -> vec4 N) (i j : nat) : poly :=
  padd (padd (o1 (e i 0) (e j 0)) (o1 (e i 1) (e j 1))) (o1 (e i 2) (e j 2)).
Definition eet (e : nat -> nat -> vec4 N) (i j : nat) : poly := if (i <=? j)%nat then eet_upper e i j else eet_upper e j i.
(** Lines 186-191. *)
Definition half_trace (e : nat -> nat -> vec4 N) : poly := pscale half (padd (padd (eet e 0 0) (eet e 1 1)) (eet e 2 2)).
Definition eet_less (e : nat -> nat -> vec4 N) (i j : nat) : poly := if (i =? j)%nat then psub (eet e i j) (half_trace e) else eet e i j.
(** Lines 197-198. *)
Definition cubic_row (e : nat -> nat -> vec4 N) (i j : nat) : poly :=
  padd (padd (o2 (eet_less e i 0) (e 0 j)) (o2 (eet_less e i 1) (e 1 j))) (o2 (eet_less e i 2) (e 2 j)).
(** Lines 138-204 [five_points_polynomial_constraints]; the rows in order. *)
Definition constraints (basis : matrix) : list poly :=
  let e := e_poly basis in
  det_row e :: map (fun '(i, j) => cubic_row e i j) [(0, 0); (0, 1); (0, 2); (1, 0); (1, 1); (1, 2); (2, 0); (2, 1); (2, 2)].
Definition constraint_matrix (basis : matrix) : matrix := fun i j => coeff (nth i (constraints basis) []) j.

(** The part of [try_svd] of a 10x10 matrix that is used: the last singular value and the last
    row of [V^T]. *)
Definition null_solver : Type := matrix -> option (N * vector).
(** [complex_eigenvalues] of a 10x10 matrix: real and imaginary part of each eigenvalue. *)
Definition eigenvalue_solver : Type := matrix -> nat -> N * N.
(** [full_piv_lu] and [solve] of 10x10 matrices. *)
Definition lu_solver : Type := matrix -> matrix -> option matrix.

(** Lines 206-217 [compute_eigenvector]. *)
Definition compute_eigenvector (null : null_solver) (m : matrix) (lambda : N) : option vector :=
  match null (fun i j => m i j - (if (i =? j)%nat then lambda else zero)) with
  | None => None
  | Some (s, v) => if s <? svd_null_threshold then Some v else None
  end.

(** Lines 219-237 [essentials_from_action_ebasis]; note rows 5 to 8 of the eigenvector. *)
Definition from_action (eigenvalues : eigenvalue_solver) (null : null_solver) (action basis : matrix) : list (mat3 N) :=
  flat_map (fun i =>
    let '(re, im) := eigenvalues action i in
    if (im =? zero)%num then
      match compute_eigenvector null action re with
      | Some v => [of_columns (fun row => sum 4 (fun j => basis row j * v (5 + j)%nat))]
      | None => []
      end
    else []) (seq 0 10).

(** Lines 267-277: the action matrix. *)
Definition action_matrix (m : matrix) : matrix := fun i j =>
  match i with
  | 0 | 1 | 2 => m i j
  | 3 => m 4 j
  | 4 => m 5 j
  | 5 => m 7 j
  | 6 => if (j =? 0)%nat then - one else zero
  | 7 => if (j =? 1)%nat then - one else zero
  | 8 => if (j =? 3)%nat then - one else zero
  | 9 => if (j =? 6)%nat then - one else zero
  | _ => zero
  end.

(** Lines 241-280 [five_points_relative_pose], split after the extraction of the null space. *)
Definition zero_matrix : matrix := fun _ _ => zero.
Definition five_points_from_basis (eigenvalues : eigenvalue_solver) (null : null_solver) (solve : lu_solver) (basis : matrix) : list (mat3 N) :=
  let c := constraint_matrix basis in
  match solve c (fun i j => c i (10 + j)%nat) with
  | None => from_action eigenvalues null zero_matrix zero_matrix
  | Some m => from_action eigenvalues null (action_matrix m) basis
  end.
Definition five_points_relative_pose (eigen : eigen_solver) eigenvalues null solve (ms : list bearings) : list (mat3 N) :=
  match nullspace_basis eigen ms with
  | None => from_action eigenvalues null zero_matrix zero_matrix
  | Some basis => five_points_from_basis eigenvalues null solve basis
  end.

(** Lines 310-329 [estimate]: only the first five matches are taken, fewer are an assertion
    failure, and collecting more than 40 poses would panic. *)
Definition five_point_estimate (eigen : eigen_solver) eigenvalues null solve (try_svd : mat3 N -> option (svd N)) (ms : list bearings) : outcome (list (iso N)) :=
  let ms := firstn 5 ms in
  if (length ms =? 5)%nat then
    let poses := flat_map (fun e => match possible_unscaled_poses try_svd e with Some l => l | None => [] end)
                          (five_points_relative_pose eigen eigenvalues null solve ms) in
    if (length poses <=? 40)%nat then Ok poses else Panic
  else Panic.
End estimate.
Arguments poly : clear implicits.
Arguments bearings : clear implicits.
Arguments eigen_solver : clear implicits.
Arguments null_solver : clear implicits.
Arguments eigenvalue_solver : clear implicits.
Arguments lu_solver : clear implicits.
