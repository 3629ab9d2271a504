(** Specification vocabulary for cv-geom (C38-C41, C48, C49), over the reals. *)
From Coq Require Import Reals List.
From Verif Require Import Num Lin LinSpec Core CoreSpec Geom.
Import ListNotations.
Open Scope R_scope.

(** The optical centre of a camera, in the frame the pose starts from. *)
Definition centre (p : riso) : rvec3 := mvec (mtrans (rot p)) (vneg (trans p)).

(** The direction of an observed bearing in that frame. *)
Definition direction (o : riso * rvec3) : rvec3 := mvec (mtrans (rot (fst o))) (snd o).

(** A noise-free observation of a point: the bearing is the direction of the point as the camera
    sees it, so the point is in front of the camera. *)
Definition sees (p : riso) (q b : rvec3) : Prop := iso_point p q <> vzero /\ b = normalize (iso_point p q).

(** The same up to sign: the point is on the line of the ray, in front or behind. *)
Definition on_line (p : riso) (q b : rvec3) : Prop := exists s : R, iso_point p q = vscale s b.

(** The point does not lie on the line through the two optical centres. *)
Definition off_baseline (p : riso) (q : rvec3) : Prop := cross q (centre p) <> vzero.

(** The rays to the point from the two optical centres are at most 90 degrees apart. *)
Definition acute (p : riso) (q : rvec3) : Prop := 0 <= dot q (vsub q (centre p)).

(** The sine of the angle between the planes of [a] and [b] through the baseline [t], with its sign, per
    length of the baseline: to turn [b]'s plane into [a]'s is to turn about [t] by this. *)
Definition turning (t a b : rvec3) : R := - dot a (cross b t) / (norm (cross a t) * norm (cross b t)).
(** Two rays of the same space, from the origin and from [t], which meet in front of both. *)
Definition meet_at (t a b q : rvec3) : Prop :=
  exists lam mu : R, 0 < lam /\ 0 < mu /\ q = vscale lam a /\ q = vadd t (vscale mu b).

(** The part of [q] across the line of a bearing through the origin: the shortest way from the line
    to [q]. *)
Definition offset (q b : rvec3) : rvec3 := vsub q (vscale (dot q b) b).

(** A correct singular value decomposition of a 4x4 matrix, as far as its right vectors go: they
    are eigenvectors of [M^T M] for the squares of the singular values, in descending order. *)
Definition hgram (M : mat4 RNum) : mat4 RNum :=
  M4 (V4 (hdot (hcol1 M) (hcol1 M)) (hdot (hcol1 M) (hcol2 M)) (hdot (hcol1 M) (hcol3 M)) (hdot (hcol1 M) (hcol4 M)))
     (V4 (hdot (hcol2 M) (hcol1 M)) (hdot (hcol2 M) (hcol2 M)) (hdot (hcol2 M) (hcol3 M)) (hdot (hcol2 M) (hcol4 M)))
     (V4 (hdot (hcol3 M) (hcol1 M)) (hdot (hcol3 M) (hcol2 M)) (hdot (hcol3 M) (hcol3 M)) (hdot (hcol3 M) (hcol4 M)))
     (V4 (hdot (hcol4 M) (hcol1 M)) (hdot (hcol4 M) (hcol2 M)) (hdot (hcol4 M) (hcol3 M)) (hdot (hcol4 M) (hcol4 M))).
Definition svd4_correct (M vt : mat4 RNum) : Prop :=
  exists s1 s2 s3 s4 : R, 0 <= s4 <= s3 /\ s3 <= s2 <= s1 /\
    eigen_correct (hgram M) [(s1 * s1, hrow1 vt); (s2 * s2, hrow2 vt); (s3 * s3, hrow3 vt); (s4 * s4, hrow4 vt)].

(** The sum of the squared distances of a point to the rays. *)
Definition square_error (l : list (riso * rvec3)) (q : rvec3) : R :=
  fold_right (fun o s => norm2 (cross (vsub q (centre (fst o))) (direction o)) + s) 0 l.

(** ** Angles (C59) *)
Definition angle (u v : rvec3) : R := acos (dot u v).

(** The angles between the observed bearings and the directions in which two cameras, the first
    at the origin, would see the point [q]. *)
Definition first_error (a q : rvec3) : R := angle a (normalize q).
Definition second_error (p : riso) (b q : rvec3) : R := angle b (normalize (iso_point p q)).

