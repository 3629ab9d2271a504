(** Specification vocabulary for cv-core (C27-C32), over the reals. *)
From Coq Require Import Reals List.
From Verif Require Import Num Lin LinSpec Core.
Import ListNotations.
Open Scope R_scope.

(** What [Projective::homogeneous] promises: unit direction, non-negative last coordinate. *)
Definition canonical (p : rvec4) : Prop := unit_vec (xyz p) /\ 0 <= hw p.

(** The transformed point is not the origin of the target frame (the optical centre). *)
Definition off_centre (p : riso) (x : rvec4) : Prop := xyz (pose_output p x) <> vzero.

(** Real sine, cosine and arc cosine; any nearest-rotation routine and any threshold. *)
Definition real_trig (nearest : rmat3 -> rmat3) (eps : R) : trig RNum := Trig sin cos acos nearest eps.

(** The exponential of a skew matrix by Rodrigues' formula. *)
Definition rodrigues (w : rvec3) : rmat3 :=
  let th := norm w in
  madd (madd mid (mscale (sin th / th) (cross_matrix w)))
       (mscale ((1 - cos th) / (th * th)) (mmul (cross_matrix w) (cross_matrix w))).

(** The derivative at 0 of a curve of homogeneous points. *)
Definition derivative4 (f : R -> rvec4) (l : rvec4) : Prop :=
  derivable_pt_lim (fun s => hx (f s)) 0 (hx l) /\ derivable_pt_lim (fun s => hy (f s)) 0 (hy l) /\
  derivable_pt_lim (fun s => hz (f s)) 0 (hz l) /\ derivable_pt_lim (fun s => hw (f s)) 0 (hw l).

(** Moving a point along a direction, translating a pose along an axis, turning the rotation
    of a pose about an axis (on the left, the translation stays). *)
Definition moved (x d : rvec4) (s : R) : rvec4 := hadd x (hscale s d).
Definition translated (p : riso) (d : rvec3) (s : R) : riso := Iso (rot p) (vadd (trans p) (vscale s d)).
Definition turned (p : riso) (axis : rvec3) (s : R) : riso := Iso (mmul (axis_angle axis (sin s) (cos s)) (rot p)) (trans p).

Definition axis3 (i : nat) : rvec3 := match i with 0%nat => V3 1 0 0 | 1%nat => V3 0 1 0 | _ => V3 0 0 1 end.
Definition axis4 (i : nat) : rvec4 := match i with 0%nat => V4 1 0 0 0 | 1%nat => V4 0 1 0 0 | 2%nat => V4 0 0 1 0 | _ => V4 0 0 0 1 end.
Definition column4 (M : mat4 RNum) (i : nat) : rvec4 :=
  match i with 0%nat => hcol1 M | 1%nat => hcol2 M | 2%nat => hcol3 M | _ => hcol4 M end.

(** A correct symmetric eigendecomposition of a 4x4 matrix: unit eigenvectors which no
    non-zero vector is orthogonal to. *)
Definition eigen_correct (M : mat4 RNum) (l : list (eigenpair RNum)) : Prop :=
  l <> [] /\
  (forall lam v, In (lam, v) l -> hmvec M v = hscale lam v /\ hdot v v = 1) /\
  (forall x, (forall lam v, In (lam, v) l -> hdot v x = 0) -> x = hzero).
