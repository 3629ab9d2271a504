(** Specification of the perspective-three-point problem, over the reals. *)
From Coq Require Import Reals List.
From Verif Require Import Num Lin LinSpec.
Open Scope R_scope.

(** The points at the distances [l] along the bearings [y1 y2 y3] form a triangle congruent to the one
    of the world points [w1 w2 w3]: the three cosine laws. *)
Definition congruent (w1 w2 w3 y1 y2 y3 l : rvec3) : Prop :=
  distance (vscale (vx l) y1) (vscale (vy l) y2) = distance w1 w2 /\
  distance (vscale (vx l) y1) (vscale (vz l) y3) = distance w1 w3 /\
  distance (vscale (vy l) y2) (vscale (vz l) y3) = distance w2 w3.

(** The pose maps the world points onto the bearings, at the distances [l]. *)
Definition aligns (p : riso) (w1 w2 w3 y1 y2 y3 l : rvec3) : Prop :=
  iso_point p w1 = vscale (vx l) y1 /\ iso_point p w2 = vscale (vy l) y2 /\ iso_point p w3 = vscale (vz l) y3.

(** Every distance is positive: the points are in front of the camera. *)
Definition in_front (l : rvec3) : Prop := 0 < vx l /\ 0 < vy l /\ 0 < vz l.

(** The world points are not on a line. *)
Definition triangle (w1 w2 w3 : rvec3) : Prop := cross (vsub w1 w2) (vsub w1 w3) <> vzero.

(** The value of [r^3 + b r^2 + c r + d] and of its derivative. *)
Definition cubic_value (b c d r : R) : R := r * r * r + b * r * r + c * r + d.
Definition cubic_slope (b c r : R) : R := 3 * r * r + 2 * b * r + c.

(** [A] is symmetric. *)
Definition symmetric3 (A : rmat3) : Prop := mtrans A = A.

(** The residuals of the three cosine laws for squared side lengths [a] and minus twice the cosines [b],
    and their Jacobian applied to a displacement. *)
Definition law_residual (a12 a13 a23 b12 b13 b23 : R) (l : rvec3) : rvec3 :=
  V3 (vx l * vx l + vy l * vy l + b12 * (vx l * vy l) - a12)
     (vx l * vx l + vz l * vz l + b13 * (vx l * vz l) - a13)
     (vy l * vy l + vz l * vz l + b23 * (vy l * vz l) - a23).
Definition law_jacobian (b12 b13 b23 : R) (l : rvec3) : rmat3 :=
  M3 (V3 (2 * vx l + b12 * vy l) (2 * vy l + b12 * vx l) 0)
     (V3 (2 * vx l + b13 * vz l) 0 (2 * vz l + b13 * vx l))
     (V3 0 (2 * vy l + b23 * vz l) (2 * vz l + b23 * vy l)).
(** The sum of the absolute values. *)
Definition manhattan (v : rvec3) : R := Rabs (vx v) + Rabs (vy v) + Rabs (vz v).

(** [l'] is the Newton iterate after [l]: the displacement solves the linearised laws. *)
Definition newton_step (a12 a13 a23 b12 b13 b23 : R) (l l' : rvec3) : Prop :=
  mvec (law_jacobian b12 b13 b23 l) (vsub l' l) = vneg (law_residual a12 a13 a23 b12 b13 b23 l).

(** A sequence of Newton iterates from [l], each with no larger residual than the one before. *)
Inductive descends (a12 a13 a23 b12 b13 b23 : R) : nat -> rvec3 -> rvec3 -> Prop :=
  | Descends0 l : descends a12 a13 a23 b12 b13 b23 0 l l
  | DescendsS n l l' l'' :
      (det (law_jacobian b12 b13 b23 l) <> 0 -> newton_step a12 a13 a23 b12 b13 b23 l l') ->
      manhattan (law_residual a12 a13 a23 b12 b13 b23 l') <= manhattan (law_residual a12 a13 a23 b12 b13 b23 l) ->
      descends a12 a13 a23 b12 b13 b23 n l' l'' -> descends a12 a13 a23 b12 b13 b23 (S n) l l''.

(** The squares of the sides of the triangle at distances [l], for cosines [c]. *)
Definition side (c x y : R) : R := x * x + y * y - 2 * c * (x * y).

(** ** The pencil of cones behind the cubic.  Congruent triangles satisfy the homogeneous equations
    [a23 side12 = a12 side23] and [a23 side13 = a13 side23]; the cone with parameter [g] is the difference of the
    first and [g] times the second, as a symmetric matrix. *)
Definition pencil (a12 a13 a23 c12 c23 c31 g : R) : rmat3 :=
  M3 (V3 (a23 * (1 - g)) (- (a23 * c12)) (a23 * c31 * g))
     (V3 (- (a23 * c12)) (a23 - a12 + a13 * g) (c23 * (a12 - a13 * g)))
     (V3 (a23 * c31 * g) (c23 * (a12 - a13 * g)) (g * (a13 - a23) - a12)).
(** The value of the quadratic form of a matrix. *)
Definition form (A : rmat3) (l : rvec3) : R := dot l (mvec A l).

(** What the solver relies on: [g] makes the cone a pair of planes that cross ([form] takes both signs), and none of
    the quantities it divides by is zero. *)
Record regular (a12 a13 a23 c12 c23 c31 g : R) : Prop := {
  singular : det (pencil a12 a13 a23 c12 c23 c31 g) = 0;
  saddle : exists u v, form (pencil a12 a13 a23 c12 c23 c31 g) u < 0 < form (pencil a12 a13 a23 c12 c23 c31 g) v;
  not_one : g <> 1;
  not_ratio : g * a13 <> a12;
  tilted : forall e v, e <> 0 -> v <> vzero -> mvec (pencil a12 a13 a23 c12 c23 c31 g) v = vscale e v -> vz v <> 0;
  proper : forall l, form (pencil a12 a13 a23 c12 c23 c31 g) l = 0 -> a13 * side c12 (vx l) (vy l) = a12 * side c31 (vx l) (vz l) ->
    vy l = 0 \/ vz l = 0 -> vy l = 0 /\ vz l = 0
}.
