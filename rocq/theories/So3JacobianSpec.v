(** Specification for the Jacobians of rotations (C31): derivatives of curves of vectors, and
    columns of matrices. *)
From Coq Require Import Reals.
From Verif Require Import Num Lin LinSpec.
Open Scope R_scope.

(** The derivative at 0 of a curve of vectors. *)
Definition derivative3 (f : R -> rvec3) (l : rvec3) : Prop :=
  derivable_pt_lim (fun s => vx (f s)) 0 (vx l) /\ derivable_pt_lim (fun s => vy (f s)) 0 (vy l) /\
  derivable_pt_lim (fun s => vz (f s)) 0 (vz l).

Definition column3 (M : rmat3) (i : nat) : rvec3 :=
  match i with
  | 0%nat => V3 (vx (row1 M)) (vx (row2 M)) (vx (row3 M))
  | 1%nat => V3 (vy (row1 M)) (vy (row2 M)) (vy (row3 M))
  | _ => V3 (vz (row1 M)) (vz (row2 M)) (vz (row3 M))
  end.
Definition row_of (M : rmat3) (i : nat) : rvec3 := match i with 0%nat => row1 M | 1%nat => row2 M | _ => row3 M end.
