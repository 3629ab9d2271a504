(** Specification vocabulary for the two-view estimators (C43, C44, C50), over the reals. *)
From Coq Require Import Reals List Arith.
From Verif Require Import Num Lin LinSpec Pinhole PinholeSpec Estimate.
Import ListNotations.
Open Scope R_scope.

Notation rmatch := (bearings RNum) (only parsing).
Notation rvector := (nat -> R) (only parsing).
Notation rmatrix := (nat -> nat -> R) (only parsing).

(** [f 0 + ... + f (n - 1)]. *)
Fixpoint total (n : nat) (f : nat -> R) : R :=
  match n with O => 0 | S n => total n f + f n end.
Definition inner (n : nat) (u v : rvector) : R := total n (fun k => u k * v k).
Definition apply (n : nat) (A : rmatrix) (v : rvector) : rvector := fun i => inner n (A i) v.
Definition delta (i j : nat) : R := if (i =? j)%nat then 1 else 0.

(** The entries of a matrix, column after column. *)
Definition columns (E : rmat3) : rvector := fun k =>
  match k with
  | 0 => vx (row1 E) | 1 => vx (row2 E) | 2 => vx (row3 E)
  | 3 => vy (row1 E) | 4 => vy (row2 E) | 5 => vy (row3 E)
  | 6 => vz (row1 E) | 7 => vz (row2 E) | _ => vz (row3 E)
  end%nat.

(** The epipolar constraint: both rays and the translation lie in a plane. *)
Definition epipolar (E : rmat3) (m : rmatch) : Prop := dot (snd m) (mvec E (fst m)) = 0.
(** The two bearings observe one point from the two cameras. *)
Definition observes (p : riso) (m : rmatch) : Prop :=
  exists q s t, fst m = vscale s q /\ snd m = vscale t (iso_point p q).

(** What the eight-point algorithm asks of the eigensolver: unit eigenvectors, and no vector has a
    smaller Rayleigh quotient than all eigenvalues. *)
Definition lowest_correct (n : nat) (A : rmatrix) (d : rvector * rmatrix) : Prop :=
  let '(values, vectors) := d in
  (forall i j, (i < n)%nat -> (j < n)%nat -> apply n A (vectors i) j = values i * vectors i j) /\
  (forall i, (i < n)%nat -> inner n (vectors i) (vectors i) = 1) /\
  (forall x c, (forall i, (i < n)%nat -> c <= values i) -> c * inner n x x <= inner n x (apply n A x)).
(** A full orthonormal system of eigenvectors. *)
Definition eigen_correct (n : nat) (A : rmatrix) (d : rvector * rmatrix) : Prop :=
  let '(values, vectors) := d in
  (forall i j, (i < n)%nat -> (j < n)%nat -> apply n A (vectors i) j = values i * vectors i j) /\
  (forall i j, (i < n)%nat -> (j < n)%nat -> inner n (vectors i) (vectors j) = delta i j) /\
  (forall i j, (i < n)%nat -> (j < n)%nat -> total n (fun k => vectors k i * vectors k j) = delta i j).

(** ** Polynomials of the five-point algorithm *)

(** The monomials, in the order of the code. *)
Definition cubic_monomials (x y z : R) : list R :=
  [x * x * x; x * x * y; x * y * y; y * y * y; x * x * z; x * y * z; y * y * z; x * z * z; y * z * z; z * z * z].
Definition lower_monomials (x y z : R) : list R :=
  [x * x; x * y; y * y; x * z; y * z; z * z; x; y; z; 1].
Definition monomials (x y z : R) : list R := cubic_monomials x y z ++ lower_monomials x y z.
(** The value of a polynomial and of a linear form. *)
Definition peval (p : poly RNum) (x y z : R) : R := total 20 (fun i => coeff p i * nth i (monomials x y z) 0).
Definition leval (a : rvec4) (x y z : R) : R := hx a * x + hy a * y + hz a * z + hw a.
(** Polynomials of degree at most two. *)
Definition quadratic (p : poly RNum) : Prop := forall i, (i < 10)%nat -> coeff p i = 0.

(** The matrix whose entries (row after row) are a combination of the columns of a basis. *)
Definition combine (basis : rmatrix) (x y z w : R) : rvector := fun k => x * basis k 0%nat + y * basis k 1%nat + z * basis k 2%nat + w * basis k 3%nat.
(** Independent columns. *)
Definition independent (basis : rmatrix) : Prop :=
  forall a b c d, (forall k, (k < 9)%nat -> combine basis a b c d k = 0) -> a = 0 /\ b = 0 /\ c = 0 /\ d = 0.

(** A correct solver of [A m = B] that succeeds only when the solution is unique. *)
Definition lu_correct (A B m : rmatrix) : Prop :=
  (forall i j, (i < 10)%nat -> (j < 10)%nat -> apply 10 A (fun k => m k j) i = B i j) /\
  (forall x, (forall i, (i < 10)%nat -> apply 10 A x i = 0) -> forall i, (i < 10)%nat -> x i = 0).
(** The last singular value and right singular vector of a matrix: a unit vector on which the
    matrix is shortest. *)
Definition null_correct (A : rmatrix) (d : R * rvector) : Prop :=
  let '(s, v) := d in
  0 <= s /\ inner 10 v v = 1 /\ inner 10 (apply 10 A v) (apply 10 A v) = s * s /\
  (forall x, inner 10 x x = 1 -> s * s <= inner 10 (apply 10 A x) (apply 10 A x)).
(** Every real eigenvalue is listed, with imaginary part zero. *)
Definition eigenvalues_correct (A : rmatrix) (e : nat -> R * R) : Prop :=
  forall lambda x, (exists i, (i < 10)%nat /\ x i <> 0) -> (forall i, (i < 10)%nat -> apply 10 A x i = lambda * x i) ->
    exists i, (i < 10)%nat /\ e i = (lambda, 0).

(** The matrix with the given entries, row after row. *)
Definition by_rows (v : rvector) : rmat3 :=
  M3 (V3 (v 0%nat) (v 1%nat) (v 2%nat)) (V3 (v 3%nat) (v 4%nat) (v 5%nat)) (V3 (v 6%nat) (v 7%nat) (v 8%nat)).
Definition entries (A : rmat3) : list R :=
  [vx (row1 A); vy (row1 A); vz (row1 A); vx (row2 A); vy (row2 A); vz (row2 A); vx (row3 A); vy (row3 A); vz (row3 A)].
(** The left-hand sides of the constraints on essential matrices: the determinant and the nine
    entries of [E E^T E - tr(E E^T)/2 E]. *)
Definition essential_constraints (E : rmat3) : list R :=
  det E :: entries (msub (mmul (mmul E (mtrans E)) E) (mscale (trace (mmul E (mtrans E)) / 2) E)).
