(** C70: features under changes of brightness and contrast (akaze/src/lib.rs and all it calls). *)
From Coq Require Import Reals List Arith Lia Lra.
From Verif Require Import Num Outcome Gray GraySpec Diffuse Akaze AkazeSpec AkazeDemo AkazeWhole AkazeToneSpec AkazeToneFeat.
Import ListNotations.
Open Scope R_scope.

(** Adding the same value to all pixels changes nothing: neither the keypoints, nor the descriptors, nor a failure; whatever
    the angle functions, the step routine, the order of responses and the sorting routine. *)

Theorem C70_brightness :
  forall (o : rsettings) (A : angles RNum) (fed : R -> outcome (list R)) float_ord sort (c : R) (g g' : gray RNum),
    usable o -> (4 <= descriptor_pattern_size o)%nat -> sized (g_width g) (g_height g) g -> retoned 1 c g g' ->
    extract Rwidths Rmath Rmath A Rexp2 fed o float_ord sort g' = extract Rwidths Rmath Rmath A Rexp2 fed o float_ord sort g.
Proof. exact brightness_change. Qed.
Print Assumptions C70_brightness.

(** Multiplying all pixels by [a] > 0 as well multiplies the responses by [a * a] and changes nothing else, if the detector
    threshold is multiplied by [a * a]. *)

Theorem C70_contrast :
  forall (o : rsettings) (A : angles RNum) (fed : R -> outcome (list R)) float_ord sort (a c : R) (g g' : gray RNum),
    usable o -> (4 <= descriptor_pattern_size o)%nat -> directional A -> unitless float_ord -> compares sort ->
    0 < a -> sized (g_width g) (g_height g) g -> retoned a c g g' ->
    extract Rwidths Rmath Rmath A Rexp2 fed (with_threshold (a * a) o) float_ord sort g' = stronger (a * a) (extract Rwidths Rmath Rmath A Rexp2 fed o float_ord sort g).
Proof. exact contrast_change. Qed.
Print Assumptions C70_contrast.

Example C70_example : usable (default_settings 7) /\ (4 <= descriptor_pattern_size (default_settings 7))%nat /\ directional Rangles /\ unitless (@leb RNum) /\ compares (@insertion rkeypoint) /\ sorts (@insertion rkeypoint) /\
  sized (g_width spot) (g_height spot) spot /\ retoned 2 3 spot brighter /\ exists x y, pixel brighter x y <> pixel spot x y.
Proof. split; [exact (default_usable 7)|]. split; [cbn; lia|]. split; [exact Rangles_directional|]. split; [exact leb_unitless|]. split; [exact insertion_compares|]. split; [exact insertion_sorts|exact brighter_retoned]. Qed.
(** ... and both extractions return. *)
Example C70_returns : exists r, extract Rwidths Rmath Rmath Rangles Rexp2 (fun t => Ok [t]) (default_settings 7) (@leb RNum) insertion spot = Ok r.
Proof. destruct (allocate_some (fun t => Ok [t]) (default_settings 7) 60 60) as (l & E); [eauto|].
  apply (extract_total (default_settings 7) Rangles 60 60 spot (fun t => Ok [t]) l (@leb RNum) insertion (default_usable 7) ltac:(lia) ltac:(lia) spot_sized E insertion_sorts). Qed.
