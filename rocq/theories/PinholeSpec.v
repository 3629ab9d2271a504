(** Specification vocabulary for cv-pinhole (C33-C37), over the reals. *)
From Coq Require Import Reals.
From Verif Require Import Num Lin LinSpec Pinhole.
Open Scope R_scope.

Notation rvec2 := (vec2 RNum) (only parsing).

(** Intrinsics which can be inverted. *)
Definition regular (k : intrinsics RNum) : Prop := px (focals k) <> 0 /\ py (focals k) <> 0.

(** The homogeneous pixel [(x, y, 1)]. *)
Definition pixel_h (p : rvec2) : rvec3 := V3 (px p) (py p) 1.

(** The pixel onto which the matrix of the intrinsics projects a direction. *)
Definition projects (k : intrinsics RNum) (b : rvec3) (p : rvec2) : Prop :=
  exists depth, depth <> 0 /\ mvec (intrinsic_matrix k) b = vscale depth (pixel_h p).

(** Orthogonal matrices. *)
Definition orthogonal (A : rmat3) : Prop := mmul (mtrans A) A = mid.

(** A correct, ordered singular value decomposition. *)
Definition svd_correct (E : rmat3) (d : svd RNum) : Prop :=
  let '(u, s, vt) := d in
  orthogonal u /\ orthogonal vt /\ E = mmul (mmul u (mdiag s)) vt /\ 0 <= vz s <= vy s /\ vy s <= vx s.

(** The algebraic characterisation of essential matrices. *)
Definition essential (E : rmat3) : Prop :=
  det E = 0 /\
  mscale 2 (mmul (mmul E (mtrans E)) E) = mscale (trace (mmul E (mtrans E))) E.
