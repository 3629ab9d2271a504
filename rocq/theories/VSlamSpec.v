(** Specification vocabulary for C77: the mapping program from image files and settings on, over the reals. *)
From stdpp Require Import gmap list.
From Coq Require Import Reals ZArith Sorted.
From Verif Require Import Outcome Num Lin LinSpec Core GraySpec Diffuse Akaze AkazeSpec Bicubic BicubicSpec Pinhole Frame FrameSpec Sfm SfmSpec SfmUse SfmGeom SfmGeomSpec Sandbox VSlam.
Open Scope nat_scope.

Notation described := (list N * feature Rwidths)%type.
Notation rphoto := (photo Rwidths).

(** An image file the program can work on: of a kind that can be loaded, and at least 40 pixels wide and high. *)
Definition loadable (p : rphoto) : Prop := (exists w h, sides (ph_gray Rwidths p) = Some (w, h) /\ 40 <= w /\ 40 <= h) /\ u32_image (ph_rgb Rwidths p).
(** The external routines keep their contracts, and none gives up before it has tried all [n] features. *)
Record routines_ok (n : nat) (p : rphoto) : Prop := {
  ro_tools : forall a b : R, tools_ok (ph_tools Rwidths p a b);
  ro_orders : orders_ok (ph_orders Rwidths p);
  ro_similar : forall d k m, NoDup (ph_similar Rwidths p d k m) /\ ph_similar Rwidths p d k m ⊆ d_lsh d;
  ro_knn : forall fs f m, length (ph_knn Rwidths p fs f m) = Nat.min m (length fs) /\ NoDup (ph_knn Rwidths p fs f m).*1 /\ forall i x, (i, x) ∈ ph_knn Rwidths p fs f m -> i < length fs;
  ro_sort : forall l, ph_sort Rwidths p l ≡ₚ l;
  ro_fuel : n < ph_fuel Rwidths p
}.
(** The settings with other limits for the optimisation of two views: [a] matches and [b] iterations. *)
Definition set_two_view {N : Num} (a b : nat) (v : vslam_settings N) : vslam_settings N :=
  match v with VSlamSettings x1 x2 x3 x4 x5 x6 x7 x8 x9 x10 x11 x12 x13 x14 x15 x16 x17 x18 x19 x20 _ _ x23 x24 x25 x26 x27 x28 x29 x30 x31 x32 x33 x34 x35 x36 x37 x38 x39 x40 x41 =>
    VSlamSettings x1 x2 x3 x4 x5 x6 x7 x8 x9 x10 x11 x12 x13 x14 x15 x16 x17 x18 x19 x20 a b x23 x24 x25 x26 x27 x28 x29 x30 x31 x32 x33 x34 x35 x36 x37 x38 x39 x40 x41 end.
(** Features as they are stored: seen in a direction in front of the camera, with a colour of eight bits. *)
Definition proper (x : described) : Prop :=
  unit_vec (f_bearing x.2) /\ (0 < vz (f_bearing x.2))%R /\ u8 (fst (fst (f_color x.2))) /\ u8 (snd (fst (f_color x.2))) /\ u8 (snd (f_color x.2)).
(** The features of a frame: proper, at most [maximum], the strongest first. *)
Definition proper_features (float_ord : R -> R -> bool) (maximum : nat) (l : list described) : Prop :=
  Forall proper l /\ length l <= maximum /\ StronglySorted (fun a b : described => float_ord (f_response b.2) (f_response a.2) = true) l.
