(** Specification vocabulary for images mirrored, turned upside down or turned by right angles. *)
From Coq Require Import List Arith Reals.
From Verif Require Import Num Outcome Gray GraySpec Diffuse Akaze AkazeSpec.
Import ListNotations.
Open Scope R_scope.

(** The eight symmetries of a rectangle with its sides: rows and columns may be exchanged, and the old columns and the
    old rows may be read backwards. *)
Record turn := Turn { swapped : bool; columns_reversed : bool; rows_reversed : bool }.
(** Where the pixel (x, y) of the turned image was in the image of [w] by [h] pixels. *)
Definition source_x (t : turn) (w x y : nat) : nat := let u := if swapped t then y else x in if columns_reversed t then (w - 1 - u)%nat else u.
Definition source_y (t : turn) (h x y : nat) : nat := let v := if swapped t then x else y in if rows_reversed t then (h - 1 - v)%nat else v.
(** The sides of the turned image. *)
Definition new_width (t : turn) (w h : nat) : nat := if swapped t then h else w.
Definition new_height (t : turn) (w h : nat) : nat := if swapped t then w else h.
Definition turned (t : turn) (g g' : gray RNum) : Prop :=
  image_of (N := RNum) (new_width t (g_width g) (g_height g)) (new_height t (g_width g) (g_height g))
    (fun x y => pixel g (source_x t (g_width g) x y) (source_y t (g_height g) x y)) g'.
(** Both computations succeed with related results, or both panic, or neither ends. *)
Definition alike {A} (R : A -> A -> Prop) (m m' : outcome A) : Prop :=
  match m, m' with Ok a, Ok b => R a b | Panic, Panic => True | Fuel, Fuel => True | _, _ => False end.
(** A side that is halved until the last octave without a remainder. *)
Definition halves_evenly (o : rsettings) (side : nat) : Prop := exists k, side = (k * 2 ^ (max_octave_evolution o - 1))%nat.
(** Levels of the scale space. *)
Definition turned_level (t : turn) (e e' : rlevel) : Prop := same_place e e' /\ turned t (Lt e) (Lt e') /\ turned t (Lsmooth e) (Lsmooth e').
(** The responses agree at the pixels at least [m] from the border. *)
Definition turned_inside (t : turn) (m : nat) (g g' : gray RNum) : Prop :=
  sized (new_width t (g_width g) (g_height g)) (new_height t (g_width g) (g_height g)) g' /\
  forall x y, (m <= x)%nat -> (x + m < g_width g')%nat -> (m <= y)%nat -> (y + m < g_height g')%nat ->
    pixel g' x y = pixel g (source_x t (g_width g) x y) (source_y t (g_height g) x y).
(** The same with the responses: of all pixels unless rows and columns are exchanged, and then of the pixels at least
    the scale of the derivatives from the border. *)
Definition turned_response (t : turn) (o : rsettings) (e e' : rlevel) : Prop :=
  turned_level t e e' /\ forall s, integer_scale o e s -> turned_inside t (if swapped t then s else 0) (Ldet e) (Ldet e').

(** The scale space of an image and its responses, with the schedule for its size. *)
Definition space_of (fed : R -> outcome (list R)) (o : rsettings) (g : gray RNum) : outcome (list rlevel) :=
  bind (rallocate fed o (g_width g) (g_height g)) (fun l => rspace o l g).
Definition responses_of (fed : R -> outcome (list R)) (o : rsettings) (g : gray RNum) : outcome (list rlevel) :=
  bind (space_of fed o g) (rresponse o).
(** The same keypoint at the place it had before an image of [w] by [h] pixels was turned. *)
Definition turned_keypoint (t : turn) (w h : nat) (kp kp' : rkeypoint) : Prop :=
  kp_x kp = (let u := if swapped t then kp_y kp' else kp_x kp' in if columns_reversed t then INR w - 1 - u else u) /\
  kp_y kp = (let v := if swapped t then kp_x kp' else kp_y kp' in if rows_reversed t then INR h - 1 - v else v) /\
  kp_response kp = kp_response kp' /\ kp_size kp = kp_size kp' /\ kp_octave kp = kp_octave kp' /\ kp_class kp = kp_class kp'.
(** No maximum rivals another one. *)
Definition apart (o : rsettings) (l : list rlevel) : Prop := forall c e x y c' e' x' y', maximum_of o l c e x y -> maximum_of o l c' e' x' y' -> (c', (x', y')) <> (c, (x, y)) -> ~ rivals o c e x y c' e' x' y'.
