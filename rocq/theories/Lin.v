(** Fixed-size linear algebra as the code uses it from nalgebra (an external crate, not part
    of /repo): 3- and 4-vectors, 3x3 and 4x4 matrices, rotations and isometries.  Everything is
    generic over the number type.  Sums are taken left to right. *)
From Coq Require Import ZArith List Bool.
From Verif Require Import Num.
Import ListNotations.
Open Scope num_scope.

Record vec3 (N : Num) : Type := V3 { vx : N; vy : N; vz : N }.
Arguments V3 {N}. Arguments vx {N}. Arguments vy {N}. Arguments vz {N}.

Record vec4 (N : Num) : Type := V4 { hx : N; hy : N; hz : N; hw : N }.
Arguments V4 {N}. Arguments hx {N}. Arguments hy {N}. Arguments hz {N}. Arguments hw {N}.

(** Rows of a 3x3 matrix. *)
Record mat3 (N : Num) : Type := M3 { row1 : vec3 N; row2 : vec3 N; row3 : vec3 N }.
Arguments M3 {N}. Arguments row1 {N}. Arguments row2 {N}. Arguments row3 {N}.

(** Rows of a 4x4 matrix. *)
Record mat4 (N : Num) : Type := M4 { hrow1 : vec4 N; hrow2 : vec4 N; hrow3 : vec4 N; hrow4 : vec4 N }.
Arguments M4 {N}. Arguments hrow1 {N}. Arguments hrow2 {N}. Arguments hrow3 {N}. Arguments hrow4 {N}.

(** nalgebra [IsometryMatrix3]: a rotation matrix followed by a translation. *)
Record iso (N : Num) : Type := Iso { rot : mat3 N; trans : vec3 N }.
Arguments Iso {N}. Arguments rot {N}. Arguments trans {N}.

Section ops.
Context {N : Num}.
Implicit Types (u v w : vec3 N) (h k : vec4 N) (A B : mat3 N) (s : N).

Definition vzero : vec3 N := V3 zero zero zero.
Definition vadd u v : vec3 N := V3 (vx u + vx v) (vy u + vy v) (vz u + vz v).
Definition vsub u v : vec3 N := V3 (vx u - vx v) (vy u - vy v) (vz u - vz v).
Definition vneg u : vec3 N := V3 (- vx u) (- vy u) (- vz u).
Definition vscale s u : vec3 N := V3 (vx u * s) (vy u * s) (vz u * s).
Definition vdiv u s : vec3 N := V3 (vx u / s) (vy u / s) (vz u / s).
Definition dot u v : N := vx u * vx v + vy u * vy v + vz u * vz v.
Definition cross u v : vec3 N :=
  V3 (vy u * vz v - vz u * vy v) (vz u * vx v - vx u * vz v) (vx u * vy v - vy u * vx v).
Definition norm2 u : N := dot u u.
Definition norm u : N := sqrt_ (norm2 u).
Definition normalize u : vec3 N := vdiv u (norm u).
Definition v_any_nan u : bool := isnan (vx u) || isnan (vy u) || isnan (vz u).
Definition v_finite u : bool := isfin (vx u) && isfin (vy u) && isfin (vz u).

Definition hzero : vec4 N := V4 zero zero zero zero.
Definition hneg h : vec4 N := V4 (- hx h) (- hy h) (- hz h) (- hw h).
Definition hscale s h : vec4 N := V4 (hx h * s) (hy h * s) (hz h * s) (hw h * s).
Definition hadd h k : vec4 N := V4 (hx h + hx k) (hy h + hy k) (hz h + hz k) (hw h + hw k).
Definition hdiv h s : vec4 N := V4 (hx h / s) (hy h / s) (hz h / s) (hw h / s).
Definition hdot h k : N := hx h * hx k + hy h * hy k + hz h * hz k + hw h * hw k.
Definition xyz h : vec3 N := V3 (hx h) (hy h) (hz h).
Definition h_finite h : bool := isfin (hx h) && isfin (hy h) && isfin (hz h) && isfin (hw h).
(** [Point3::to_homogeneous]. *)
Definition of_point u : vec4 N := V4 (vx u) (vy u) (vz u) one.

Definition mzero : mat3 N := M3 vzero vzero vzero.
Definition mid : mat3 N := M3 (V3 one zero zero) (V3 zero one zero) (V3 zero zero one).
Definition col1 A : vec3 N := V3 (vx (row1 A)) (vx (row2 A)) (vx (row3 A)).
Definition col2 A : vec3 N := V3 (vy (row1 A)) (vy (row2 A)) (vy (row3 A)).
Definition col3 A : vec3 N := V3 (vz (row1 A)) (vz (row2 A)) (vz (row3 A)).
Definition mtrans A : mat3 N := M3 (col1 A) (col2 A) (col3 A).
Definition mvec A v : vec3 N := V3 (dot (row1 A) v) (dot (row2 A) v) (dot (row3 A) v).
Definition mmul A B : mat3 N :=
  let vm r := V3 (dot r (col1 B)) (dot r (col2 B)) (dot r (col3 B)) in
  M3 (vm (row1 A)) (vm (row2 A)) (vm (row3 A)).
Definition madd A B : mat3 N := M3 (vadd (row1 A) (row1 B)) (vadd (row2 A) (row2 B)) (vadd (row3 A) (row3 B)).
Definition msub A B : mat3 N := M3 (vsub (row1 A) (row1 B)) (vsub (row2 A) (row2 B)) (vsub (row3 A) (row3 B)).
Definition mscale s A : mat3 N := M3 (vscale s (row1 A)) (vscale s (row2 A)) (vscale s (row3 A)).
Definition mneg A : mat3 N := M3 (vneg (row1 A)) (vneg (row2 A)) (vneg (row3 A)).
Definition trace A : N := vx (row1 A) + vy (row2 A) + vz (row3 A).
Definition det A : N := dot (row1 A) (cross (row2 A) (row3 A)).
Definition outer u v : mat3 N := M3 (vscale (vx u) v) (vscale (vy u) v) (vscale (vz u) v).
Definition mdiag u : mat3 N := M3 (V3 (vx u) zero zero) (V3 zero (vy u) zero) (V3 zero zero (vz u)).

(** [Vector3::cross_matrix]: multiplying by it is the cross product from the left. *)
Definition cross_matrix u : mat3 N :=
  M3 (V3 zero (- vz u) (vy u)) (V3 (vz u) zero (- vx u)) (V3 (- vy u) (vx u) zero).

Definition hid : mat4 N :=
  M4 (V4 one zero zero zero) (V4 zero one zero zero) (V4 zero zero one zero) (V4 zero zero zero one).
Definition hmvec (M : mat4 N) h : vec4 N := V4 (hdot (hrow1 M) h) (hdot (hrow2 M) h) (hdot (hrow3 M) h) (hdot (hrow4 M) h).
Definition hcol1 (M : mat4 N) : vec4 N := V4 (hx (hrow1 M)) (hx (hrow2 M)) (hx (hrow3 M)) (hx (hrow4 M)).
Definition hcol2 (M : mat4 N) : vec4 N := V4 (hy (hrow1 M)) (hy (hrow2 M)) (hy (hrow3 M)) (hy (hrow4 M)).
Definition hcol3 (M : mat4 N) : vec4 N := V4 (hz (hrow1 M)) (hz (hrow2 M)) (hz (hrow3 M)) (hz (hrow4 M)).
Definition hcol4 (M : mat4 N) : vec4 N := V4 (hw (hrow1 M)) (hw (hrow2 M)) (hw (hrow3 M)) (hw (hrow4 M)).
Definition hmmul (M K : mat4 N) : mat4 N :=
  let vm r := V4 (hdot r (hcol1 K)) (hdot r (hcol2 K)) (hdot r (hcol3 K)) (hdot r (hcol4 K)) in
  M4 (vm (hrow1 M)) (vm (hrow2 M)) (vm (hrow3 M)) (vm (hrow4 M)).
Definition hmadd (M K : mat4 N) : mat4 N :=
  M4 (hadd (hrow1 M) (hrow1 K)) (hadd (hrow2 M) (hrow2 K)) (hadd (hrow3 M) (hrow3 K)) (hadd (hrow4 M) (hrow4 K)).
Definition hmzero : mat4 N := M4 hzero hzero hzero hzero.
(** [Matrix3::to_homogeneous] and [Translation3::to_homogeneous]. *)
Definition mat_homogeneous A : mat4 N :=
  let up r := V4 (vx r) (vy r) (vz r) zero in
  M4 (up (row1 A)) (up (row2 A)) (up (row3 A)) (V4 zero zero zero one).
Definition trans_homogeneous u : mat4 N :=
  M4 (V4 one zero zero (vx u)) (V4 zero one zero (vy u)) (V4 zero zero one (vz u)) (V4 zero zero zero one).

(** [IsometryMatrix3]: identity, product, inverse, homogeneous matrix, action on points. *)
Definition iso_id : iso N := Iso mid vzero.
Definition iso_mul (a b : iso N) : iso N :=
  Iso (mmul (rot a) (rot b)) (vadd (trans a) (mvec (rot a) (trans b))).
Definition iso_inv (a : iso N) : iso N :=
  Iso (mtrans (rot a)) (mvec (mtrans (rot a)) (vneg (trans a))).
Definition iso_homogeneous (a : iso N) : mat4 N :=
  let up r t := V4 (vx r) (vy r) (vz r) t in
  M4 (up (row1 (rot a)) (vx (trans a))) (up (row2 (rot a)) (vy (trans a))) (up (row3 (rot a)) (vz (trans a)))
     (V4 zero zero zero one).
Definition iso_point (a : iso N) v : vec3 N := vadd (mvec (rot a) v) (trans a).

(** [Rotation3::from_axis_angle] (Rodrigues); sine and cosine are given. *)
Definition axis_angle (axis : vec3 N) (sin cos : N) : mat3 N :=
  let ux := vx axis in let uy := vy axis in let uz := vz axis in
  let sqx := ux * ux in let sqy := uy * uy in let sqz := uz * uz in
  let one_m_cos := one - cos in
  M3 (V3 (sqx + (one - sqx) * cos) (ux * uy * one_m_cos - uz * sin) (ux * uz * one_m_cos + uy * sin))
     (V3 (ux * uy * one_m_cos + uz * sin) (sqy + (one - sqy) * cos) (uy * uz * one_m_cos - ux * sin))
     (V3 (ux * uz * one_m_cos - uy * sin) (uy * uz * one_m_cos + ux * sin) (sqz + (one - sqz) * cos)).

(** [|a|.to_bits() < |b|.to_bits()]: the order of absolute values, NaN last. *)
Definition abs_bits_ltb (a b : N) : bool :=
  if isnan b then negb (isnan a) else abs_ a <? abs_ b.

(** Iterator [min_by_key] with such keys: the first of the smallest. *)
Fixpoint min_abs_by {X : Type} (key : X -> N) (best : X) (l : list X) : X :=
  match l with
  | [] => best
  | x :: l' => min_abs_by key (if abs_bits_ltb (key x) (key best) then x else best) l'
  end.
End ops.

Arguments vzero {N}. Arguments mzero {N}. Arguments mid {N}. Arguments hid {N}. Arguments iso_id {N}.
Arguments hzero {N}. Arguments hmzero {N}.
