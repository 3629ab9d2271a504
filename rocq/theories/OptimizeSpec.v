(** Specification vocabulary for cv-optimize (C42), over the reals. *)
From Coq Require Import Reals List.
From Verif Require Import Num Lin LinSpec Core CoreSpec Geom GeomSpec Optimize.
Import ListNotations.
Open Scope R_scope.

(** Sums over a list. *)
Definition Rtotal {A} (f : A -> R) (l : list A) : R := fold_right (fun a s => f a + s) 0 l.
Definition vtotal {A} (f : A -> rvec3) (l : list A) : rvec3 := fold_right (fun a s => vadd (f a) s) vzero l.

(** The step along the mean gradient. *)
Definition mean_step (rate : R) (n : nat) (gs : list (se3 RNum)) : se3 RNum :=
  Se3 (vscale (rate / INR n) (vtotal se_t gs)) (vscale (rate / INR n) (vtotal se_r gs)).

(** A step of Weiszfeld's algorithm: the unit gradients, summed and multiplied with the reciprocal of the sum of
    the reciprocal lengths; [kt] and [kr] keep the lengths away from zero. *)
Definition weiszfeld_step (rate kt kr : R) (gs : list (se3 RNum)) : se3 RNum :=
  Se3 (vscale (rate / Rtotal (fun g => 1 / (norm (se_t g) + kt)) gs) (vtotal (fun g => normalize (se_t g)) gs))
      (vscale (rate / Rtotal (fun g => 1 / (norm (se_r g) + kr)) gs) (vtotal (fun g => normalize (se_r g)) gs)).

(** The mean gradient times the ratio of its length and the mean length. *)
Definition shortened_step (n : nat) (gs : list (se3 RNum)) : se3 RNum :=
  let t := vscale (1 / INR n) (vtotal se_t gs) in
  let r := vscale (1 / INR n) (vtotal se_r gs) in
  Se3 (vscale (norm t / (Rtotal (fun g => norm (se_t g)) gs / INR n)) t)
      (vscale (norm r / (Rtotal (fun g => norm (se_r g)) gs / INR n)) r).

(** When a run stops early.  [gs j] are the summed gradients, one per pose, at iteration [j].  An
    iteration makes progress when a translation or a rotation is shorter than in every iteration before; a run stalls at
    iteration [k] when the fifty iterations up to [k] make none. *)
Definition new_low (f : nat -> R) (j : nat) : Prop := forall i, (i < j)%nat -> f j < f i.
Definition progress (gs : nat -> list (se3 RNum)) (j : nat) : Prop :=
  exists a, (a < length (gs j))%nat /\
    (new_low (fun i => norm (se_t (nth a (gs i) se3_id))) j \/ new_low (fun i => norm (se_r (nth a (gs i) se3_id))) j).
Definition stalled (gs : nat -> list (se3 RNum)) (k : nat) : Prop :=
  (50 <= k)%nat /\ forall j, (k < j + 50)%nat -> (j <= k)%nat -> ~ progress gs j.

(** [result] is what is reached from [start] in at most [n] steps, stopping at the first stall. *)
Definition run {S : Type} (sums : S -> list (se3 RNum)) (step : S -> S) (n : nat) (start result : S) : Prop :=
  exists k, (k <= n)%nat /\ result = Nat.iter k step start /\
    (forall k', (k' < k)%nat -> ~ stalled (fun j => sums (Nat.iter j step start)) k') /\
    ((k < n)%nat -> stalled (fun j => sums (Nat.iter j step start)) k).

(** A landmark gives the single-view optimisers the gradient of its point, unless the point is at infinity. *)
Definition gives (pose : riso) (l : rvec3 * rvec4) (g : se3 RNum) : Prop :=
  exists q, point (transform pose (snd l)) = Some q /\ g = world_pose_gradient q (fst l).

(** The landmark is where its bearing says, as the camera sees it: a point in front of the camera, or one
    at infinity (for which the optimisers use no bearing). *)
Definition agrees (pose : riso) (l : rvec3 * rvec4) : Prop :=
  (exists q, q <> vzero /\ snd l = from_point q /\ sees pose q (fst l)) \/ point (transform pose (snd l)) = None.

(** Bearings of one point in three views; the poses lead from the first camera to the others. *)
Definition three_agree (poses : riso * riso) (o : rvec3 * rvec3 * rvec3) : Prop :=
  exists q, sees iso_id q (fst (fst o)) /\ sees (fst poses) q (snd (fst o)) /\ sees (snd poses) q (snd o).

(** The summed unit gradients, and the summed gradients. *)
Definition unit_sums (gl : list (se3 RNum)) : se3 RNum := Se3 (vtotal (fun g => normalize (se_t g)) gl) (vtotal (fun g => normalize (se_r g)) gl).
Definition plain_sums (gl : list (se3 RNum)) : se3 RNum := Se3 (vtotal se_t gl) (vtotal se_r gl).
(** The gradients of the two poses, one per landmark. *)
Definition firsts (poses : riso * riso) (ls : list (three_bearings (N := RNum))) : list (se3 RNum) := map (fun o => fst (landmark_gradients poses o)) ls.
Definition seconds (poses : riso * riso) (ls : list (three_bearings (N := RNum))) : list (se3 RNum) := map (fun o => snd (landmark_gradients poses o)) ls.
Definition both_lengths (poses : riso * riso) : R := norm (trans (fst poses)) + norm (trans (snd poses)).
Definition rigid2 (p : riso * riso) : Prop := rigid (fst p) /\ rigid (snd p).

(** All components of a vector of floats are zeros (of either sign). *)
Definition at_rest (v : vec3 F64) : Prop := eqb (vx v) zero = true /\ eqb (vy v) zero = true /\ eqb (vz v) zero = true.
