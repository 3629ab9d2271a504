(** C71 and C72: loading images (akaze/src/image.rs, akaze/src/lib.rs) and the features of a frame (cv-sfm/src/lib.rs). *)
From Coq Require Import Reals ZArith List Arith Lia Lra Permutation Sorted.
From Verif Require Import Num Outcome Lin LinSpec Gray GraySpec Diffuse Akaze AkazeSpec AkazeDemo AkazeToneSpec Bicubic BicubicSpec Pinhole Frame FrameSpec FrameFacts.
Import ListNotations.
Open Scope R_scope.

(** In binary32, whatever the image crate's conversions of colours: all grey levels become finite numbers in [0, 1], within
    half an ulp of 1 of their fraction of white; black is 0, white is 1, and different levels stay different and in order. *)

Theorem C71_eight_bits :
  forall luma lumaa (b : buffer Z), (forall x y, (x < b_width b)%nat -> (y < b_height b)%nat -> (0 <= b_at b x y <= 255)%Z) ->
    exists g, from_dynamic (F := F32) luma lumaa (Luma8 b) = Ok g /\ faithful 255 (b_width b) (b_height b) (b_at b) g.
Proof. exact load_8. Qed.
Print Assumptions C71_eight_bits.

Theorem C71_sixteen_bits :
  forall luma lumaa (b : buffer Z), (forall x y, (x < b_width b)%nat -> (y < b_height b)%nat -> (0 <= b_at b x y <= 65535)%Z) ->
    exists g, from_dynamic (F := F32) luma lumaa (Luma16 b) = Ok g /\ faithful 65535 (b_width b) (b_height b) (b_at b) g.
Proof. exact load_16. Qed.
Print Assumptions C71_sixteen_bits.

(** Transparency is ignored, for any arithmetic. *)

Theorem C71_transparency :
  forall (F : Num) luma lumaa (b : buffer (Z * Z)),
    from_dynamic (F := F) luma lumaa (LumaA8 b) = from_dynamic luma lumaa (Luma8 (mapped fst b)) /\
    from_dynamic (F := F) luma lumaa (LumaA16 b) = from_dynamic luma lumaa (Luma16 (mapped fst b)).
Proof. exact (@load_alpha). Qed.
Print Assumptions C71_transparency.

(** In binary32 and binary64, whatever the functions of the mathematical library: an image widened to sixteen bits has the
    same features, bit for bit. *)

Theorem C71_depth :
  forall M32 M64 A exp2 fed luma lumaa float_ord sort o (b : buffer Z), (forall x y, (x < b_width b)%nat -> (y < b_height b)%nat -> (0 <= b_at b x y <= 255)%Z) ->
    extract_image Fwidths M32 M64 A exp2 fed luma lumaa float_ord sort o (Luma16 (mapped (Z.mul 257) b)) = extract_image Fwidths M32 M64 A exp2 fed luma lumaa float_ord sort o (Luma8 b).
Proof. exact extract_same. Qed.
Print Assumptions C71_depth.

Definition ramp : buffer Z := Buffer 16 16 (fun x y => Z.of_nat (16 * y + x)).
Example C71_example : (forall x y, (x < b_width ramp)%nat -> (y < b_height ramp)%nat -> (0 <= b_at ramp x y <= 255)%Z) /\ b_at ramp 0 0 = 0%Z /\ b_at ramp 15 15 = 255%Z.
Proof. split; [cbn [b_width b_height b_at ramp]; lia|]. split; reflexivity. Qed.

(** For any arithmetic, every total order of the responses and every routine that sorts: the features of a frame are the
    keypoints that extraction finds with the configured threshold and number, each with its own descriptor, strongest first. *)

Theorem C72_features :
  forall (P : widths) (M32 : math (single P)) (M64 : math (double P)) (A : angles (single P)) (K : casts (single P)) exp2 fed luma lumaa float_ord (sort : forall T : Type, (T -> T -> bool) -> list T -> list T)
    maximum threshold k k1 img rgb feats,
    (forall T, sorts (sort T)) -> (forall a b, float_ord a b = true \/ float_ord b a = true) -> (forall a b c, float_ord a b = true -> float_ord b c = true -> float_ord a c = true) ->
    kps_descriptors P M32 M64 A K exp2 fed luma lumaa float_ord sort maximum threshold k k1 img rgb = Ok feats ->
    exists kps ds unsorted, extract_image P M32 M64 A exp2 fed luma lumaa float_ord sort (akaze_new P maximum threshold) img = Ok (kps, ds) /\
      length kps = length ds /\ length unsorted = length kps /\ (length feats <= maximum)%nat /\ Permutation unsorted feats /\
      StronglySorted (fun a b => float_ord (f_response (snd b)) (f_response (snd a)) = true) feats /\
      forall i kp d, nth_error kps i = Some kp -> nth_error ds i = Some d -> exists f, nth_error unsorted i = Some (d, f) /\ seen_as K k k1 rgb kp f.
Proof. exact frame_features. Qed.
Print Assumptions C72_features.

(** Over the reals, every image that can be loaded and is at least 40 pixels wide and high has features: extraction ends, all
    bearings are unit vectors in front of the camera, and all colours have eight bits, whatever the camera and the picture. *)

Theorem C72_returns :
  forall checks maximum (threshold : R) k (k1 : R) luma lumaa (A : angles RNum) float_ord (sort : forall T : Type, (T -> T -> bool) -> list T -> list T) img rgb w h,
    sides img = Some (w, h) -> (40 <= w)%nat -> (40 <= h)%nat -> u32_image rgb -> (forall T, sorts (sort T)) ->
    exists fuel0, forall fuel, (fuel0 <= fuel)%nat -> exists feats,
      kps_descriptors Rwidths Rmath Rmath A Rcasts Rexp2 (fed_quarter checks fuel) luma lumaa float_ord sort maximum threshold k k1 img rgb = Ok feats /\
      forall d f, In (d, f) feats -> unit_vec (f_bearing f) /\ 0 < vz (f_bearing f) /\ u8 (fst (fst (f_color f))) /\ u8 (snd (fst (f_color f))) /\ u8 (snd (f_color f)).
Proof. exact frame_returns. Qed.
Print Assumptions C72_returns.

(** All other images panic. *)

Theorem C72_others_panic :
  forall maximum (threshold : R) k (k1 : R) luma lumaa (A : angles RNum) (fed : R -> outcome (list R)) float_ord (sort : forall T : Type, (T -> T -> bool) -> list T -> list T) img rgb,
    (sides img = None \/ exists w h, sides img = Some (w, h) /\ ((w < 40)%nat \/ (h < 40)%nat)) ->
    kps_descriptors Rwidths Rmath Rmath A Rcasts Rexp2 fed luma lumaa float_ord sort maximum threshold k k1 img rgb = Panic.
Proof. exact frame_panics. Qed.
Print Assumptions C72_others_panic.

Definition picture : image (Z * Z * Z) := Image 60 50 (fun x y => (x, y, x + y)%Z).
Example C72_example : sides (F := RNum) (Luma8 (Buffer 60 50 (fun x y => Z.of_nat (x + y)))) = Some (60, 50)%nat /\ u32_image picture /\ (forall T, sorts (@insertion T)) /\
  exists fuel feats, kps_descriptors Rwidths Rmath Rmath Rangles Rcasts Rexp2 (fed_quarter true fuel) (fun p => fst (fst p)) (fun p => fst (fst (fst p))) (@leb RNum) (@insertion) 50 (1 / 1000)
    (Intrinsics (N := RNum) (V2 (N := RNum) 500 500) (V2 (N := RNum) 30 25) 0) (1 / 10) (Luma8 (Buffer 60 50 (fun x y => Z.of_nat (x + y)))) picture = Ok feats.
Proof.
  assert (U : u32_image picture) by (unfold u32_image, u32_max; cbn; lia). split; [reflexivity|]. split; [exact U|]. split; [intros T; exact insertion_sorts|].
  destruct (frame_returns true 50 (1 / 1000) (Intrinsics (N := RNum) (V2 (N := RNum) 500 500) (V2 (N := RNum) 30 25) 0) (1 / 10) (fun p => fst (fst p)) (fun p => fst (fst (fst p))) Rangles (@leb RNum) (@insertion)
    (Luma8 (Buffer 60 50 (fun x y => Z.of_nat (x + y)))) picture 60 50 eq_refl ltac:(lia) ltac:(lia) U (fun T => insertion_sorts)) as (f & H).
  destruct (H f (le_n f)) as (feats & E & _). exists f, feats. exact E.
Qed.
