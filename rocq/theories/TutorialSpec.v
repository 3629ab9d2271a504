(** What the tutorial's programs are to show, independently of how they compute it. *)
From stdpp Require Import list.
From Coq Require Import ZArith Reals.
From Verif Require Import Num Lin LinSpec Diffuse Akaze Frame MatchingSpec Tutorial.

(** The search goes through all descriptors: it answers with the two nearest, or with all there are. *)
Definition linear_search {D : Type} (knn : list D -> D -> nat -> list (nat * nat)) (dist : D -> D -> nat) : Prop :=
  knn_exact knn dist /\ forall fs d, length fs < 2 -> length (knn fs d 2) < 2.
(** [fs] has at [j] the descriptor closest to [d], and all others are more than 24 bits further away. *)
Definition stands_out {D : Type} (dist : D -> D -> nat) (fs : list D) (d : D) (j : nat) : Prop :=
  exists f, fs !! j = Some f /\ forall k g, fs !! k = Some g -> k <> j -> dist d f + 24 < dist d g.
(** Features [i] and [j] stand out to each other. *)
Definition symmetric_match {D : Type} (dist : D -> D -> nat) (a b : list D) (ij : nat * nat) : Prop :=
  (exists d, a !! ij.1 = Some d /\ stands_out dist b d ij.2) /\ (exists d, b !! ij.2 = Some d /\ stands_out dist a d ij.1).
(** These are the matches, each once, in the order of the first features. *)
Definition all_matches {D : Type} (dist : D -> D -> nat) (a b : list D) (ms : list (nat * nat)) : Prop :=
  (forall ij, ij ∈ ms <-> symmetric_match dist a b ij) /\ (forall i j p q, i < j -> ms !! i = Some p -> ms !! j = Some q -> p.1 < q.1).

(** The two pictures next to each other, black where there is neither. *)
Definition shows_both (a b c : picture) : Prop :=
  b_width c = b_width a + b_width b /\ b_height c = b_height a `max` b_height b /\
  (forall x y, x < b_width a -> y < b_height a -> b_at c x y = b_at a x y) /\
  (forall x y, x < b_width b -> y < b_height b -> b_at c (b_width a + x) y = b_at b x y) /\
  (forall x y, x < b_width a -> b_height a <= y -> b_at c x y = (0, 0, 0, 255)%Z) /\
  (forall x y, b_width a <= x -> b_height b <= y -> b_at c x y = (0, 0, 0, 255)%Z).

(** The pixel a point lies in. *)
Definition in_pixel (x y : R) (p : Z * Z) : Prop := (IZR p.1 <= x < IZR p.1 + 1)%R /\ (IZR p.2 <= y < IZR p.2 + 1)%R.
Notation rkeypoint := (keypoint RNum).
(** The keypoint lies in the picture. *)
Definition within (p : picture) (kp : rkeypoint) : Prop := (0 <= kp_x kp < INR (b_width p))%R /\ (0 <= kp_y kp < INR (b_height p))%R.
(** The line joins the two features of the match, the second one in the picture on the right. *)
Definition joins (width_a : nat) (kps_a kps_b : list rkeypoint) (m : nat * nat) (s : segment) : Prop :=
  exists ka kb, kps_a !! m.1 = Some ka /\ kps_b !! m.2 = Some kb /\ in_pixel (kp_x ka) (kp_y ka) (s_from s) /\ in_pixel (INR width_a + kp_x kb) (kp_y kb) (s_to s).
(** Its colour: the given one of the colour wheel, opaque, to 8 bits. *)
Definition colored (rgb : R * R * R) (s : segment) : Prop :=
  let '(r, g, b) := rgb in exists cr cg cb, s_color s = (cr, cg, cb, 255)%Z /\
    (IZR cr <= 255 * r < IZR cr + 1)%R /\ (IZR cg <= 255 * g < IZR cg + 1)%R /\ (IZR cb <= 255 * b < IZR cb + 1)%R.
(** Colours are within range. *)
Definition wheel (hue : R -> R * R * R) : Prop := forall x r g b, hue x = (r, g, b) -> (0 <= r <= 1 /\ 0 <= g <= 1 /\ 0 <= b <= 1)%R.
(** The lines of the matches, the colour turning by a tenth of a radian from one to the next. *)
Definition lines_of (hue : R -> R * R * R) (width_a : nat) (kps_a kps_b : list rkeypoint) (ms : list (nat * nat)) (l : list segment) : Prop :=
  length l = length ms /\ forall ix m s, ms !! ix = Some m -> l !! ix = Some s -> joins width_a kps_a kps_b m s /\ colored (hue (INR ix / 10)%R) s.
