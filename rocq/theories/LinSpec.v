(** Specification vocabulary for exact linear algebra over the reals. *)
From Coq Require Import Reals.
From Verif Require Import Num Lin.
Open Scope R_scope.

(** Lets a real number be used where a number of type [RNum] is expected. *)
Canonical Structure RNum.

Notation rvec3 := (vec3 RNum) (only parsing).
Notation rvec4 := (vec4 RNum) (only parsing).
Notation rmat3 := (mat3 RNum) (only parsing).
Notation riso := (iso RNum) (only parsing).

(** A proper rotation: columns orthonormal, determinant one. *)
Definition rotation (A : rmat3) : Prop := mmul (mtrans A) A = mid /\ det A = 1.

(** A rigid motion. *)
Definition rigid (p : riso) : Prop := rotation (rot p).

(** Unit length. *)
Definition unit_vec (u : rvec3) : Prop := norm2 u = 1.

(** Euclidean distance. *)
Definition distance (a b : rvec3) : R := norm (vsub a b).
