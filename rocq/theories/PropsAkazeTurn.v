(** C81: images mirrored, turned upside down or turned by right angles (akaze/src/lib.rs 193-258, evolution.rs,
    nonlinear_diffusion.rs, contrast_factor.rs, image.rs, derivatives.rs and detector_response.rs). *)
From Coq Require Import Reals List Arith Lia Lra.
From Verif Require Import Num Outcome Gray GraySpec GrayFacts Diffuse Akaze AkazeSpec AkazeDemo AkazeWhole AkazeTurnSpec AkazeTurnProps AkazeTurnTie AkazeTurnKept.
Import ListNotations.
Open Scope R_scope.

(** The scale space of a turned image is the turned scale space, and it fails for the one if it fails for the other. Sides
    that are read backwards have to be halved without a remainder. *)

Theorem C81_scale_space :
  forall (fed : R -> outcome (list R)) (o : rsettings) (t : turn) (w h : nat) (g g' : gray RNum), usable o -> sized w h g -> turned t g g' ->
    (columns_reversed t = true -> halves_evenly o w) -> (rows_reversed t = true -> halves_evenly o h) ->
    alike (Forall2 (turned_level t)) (space_of fed o g) (space_of fed o g').
Proof. exact space_turned. Qed.
Print Assumptions C81_scale_space.

(** So are the responses: everywhere, or at the pixels not close to the border if rows and columns are exchanged. *)

Theorem C81_responses :
  forall (fed : R -> outcome (list R)) (o : rsettings) (t : turn) (w h : nat) (g g' : gray RNum), usable o -> sized w h g -> turned t g g' ->
    (columns_reversed t = true -> halves_evenly o w) -> (rows_reversed t = true -> halves_evenly o h) ->
    alike (Forall2 (turned_response t o)) (responses_of fed o g) (responses_of fed o g').
Proof. exact responses_turned. Qed.
Print Assumptions C81_responses.

(** So are the maxima that detection considers, with the places, strengths, sizes, octaves and levels of their keypoints. *)

Theorem C81_maxima :
  forall (fed : R -> outcome (list R)) (o : rsettings) (t : turn) (w h : nat) (g g' : gray RNum), usable o -> sized w h g -> turned t g g' ->
    (columns_reversed t = true -> halves_evenly o w) -> (rows_reversed t = true -> halves_evenly o h) ->
    forall l l', responses_of fed o g = Ok l -> responses_of fed o g' = Ok l' ->
    forall class e e' x y, nth_error l class = Some e -> nth_error l' class = Some e' -> (x < g_width (Ldet e'))%nat -> (y < g_height (Ldet e'))%nat ->
    let X := source_x t (g_width (Ldet e)) x y in let Y := source_y t (g_height (Ldet e)) x y in
    (maximum_of o l' class e' x y <-> maximum_of o l class e X Y) /\
    (maximum_of o l' class e' x y -> turned_keypoint t w h (keypoint_at o class e X Y) (keypoint_at o class e' x y)).
Proof. exact maxima_turned. Qed.
Print Assumptions C81_maxima.

(** Halving a side of odd length does prefer one end: the last column of the result is the last column
    of the image alone. *)

Theorem C81_odd_side_refuted :
  exists g g' out out' : gray RNum, sized 3 2 g /\ turned (Turn false true false) g g' /\
    half_size (N := RNum) g = Ok out /\ half_size (N := RNum) g' = Ok out' /\ ~ turned (Turn false true false) out out'.
Proof. exact odd_side. Qed.
Print Assumptions C81_odd_side_refuted.

(** So are the keypoints that are kept if no maximum rivals another one (C24), for any levels with turned responses. *)

Theorem C81_kept :
  forall (o : rsettings) (t : turn) (w h : nat) (l l' : list rlevel),
    (columns_reversed t = true -> halves_evenly o w) -> (rows_reversed t = true -> halves_evenly o h) ->
    Forall2 (turned_response t o) l l' ->
    (forall e, In e l -> well_sized e /\ octave_sized w h (octave e) (Ldet e) /\ (octave e < max_octave_evolution o)%nat /\ exists s, integer_scale o e s /\ (1 <= s)%nat) ->
    forall kps kps', apart o l -> apart o l' -> rextrema o l = Ok kps -> rextrema o l' = Ok kps' ->
    (forall kp', In kp' kps' -> exists kp, In kp kps /\ turned_keypoint t w h kp kp') /\
    (forall kp, In kp kps -> exists kp', In kp' kps' /\ turned_keypoint t w h kp kp').
Proof. exact keypoints_turned. Qed.
Print Assumptions C81_kept.
Example C81_kept_example : halves_evenly demo_settings 64 /\ Forall2 (turned_response (Turn false true false) demo_settings) [spot_at 31] [spot_at 32] /\
  (forall e, In e [spot_at 31] -> well_sized e /\ octave_sized 64 64 (octave e) (Ldet e) /\ (octave e < max_octave_evolution demo_settings)%nat /\ exists s, integer_scale demo_settings e s /\ (1 <= s)%nat) /\
  apart demo_settings [spot_at 31] /\ apart demo_settings [spot_at 32] /\
  (exists kps, rextrema demo_settings [spot_at 31] = Ok kps /\ kps <> []) /\ exists kps', rextrema demo_settings [spot_at 32] = Ok kps' /\ kps' <> [].
Proof. exact kept_example. Qed.

(** Which of these maxima are kept is not always symmetric: of two equally strong ones near to each other
    the one met first is kept, so a response which is its own mirror image can give a single keypoint
    beside the axis. *)

Theorem C81_ties_refuted :
  exists (e : rlevel) (kps : list rkeypoint), sized 100 100 (Ldet e) /\ turned (Turn false true false) (Ldet e) (Ldet e) /\
    rextrema demo_settings [e] = Ok kps /\ ~ (forall kp, In kp kps -> exists kp', In kp' kps /\ turned_keypoint (Turn false true false) 100 100 kp kp').
Proof. exact ties_break_symmetry. Qed.
Print Assumptions C81_ties_refuted.

(** An image that no turn but the identity keeps, its turned images, and responses of each. *)
Example C81_example : forall t : turn, usable (default_settings 7) /\ sized 64 48 slope /\ turned t slope (turn_image t slope) /\
  halves_evenly (default_settings 7) 64 /\ halves_evenly (default_settings 7) 48 /\
  pixel slope 0 0 <> pixel slope 63 0 /\ pixel slope 0 0 <> pixel slope 0 47 /\ pixel slope 1 0 <> pixel slope 0 1 /\
  exists l l', responses_of (fun s => Ok [s]) (default_settings 7) slope = Ok l /\ responses_of (fun s => Ok [s]) (default_settings 7) (turn_image t slope) = Ok l' /\ l <> [] /\
    Forall2 (turned_response t (default_settings 7)) l l'.
Proof. exact slope_turns. Qed.
