(** Specification vocabulary for C80: the data file of the mapping program. *)
From stdpp Require Import gmap list.
From Coq Require Import Reals.
From Verif Require Import Outcome Num Lin LinSpec Core Geom GeomSpec Sfm SfmSpec SfmUse SfmPoseSpec SfmGeom SfmGeomSpec Bicubic SfmExport Sandbox SandboxSpec DataFile.
Open Scope nat_scope.

Section spec.
Context (T : trig RNum) {F : Type} (colour_of : F -> colour) {B : Type}.
Context (encode : vdata riso F -> list B) (decode : list B -> option (vdata riso F)).

(** What is assumed of the encoding: what was encoded can be decoded, and nothing is an encoding that breaks off early. *)
Record encoding_ok : Prop := {
  en_decode : forall d, decode (encode d) = Some d;
  en_prefix : forall d n, n < length (encode d) -> decode (take n (encode d)) = None;
  en_some : forall d, encode d <> []
}.
(** What keeps the runs from panicking (C03): the same as for C75, for all images of all runs. *)
Record runs_ok (rs : list (run RNum F)) : Prop := {
  ro_pictures : forall r, r ∈ rs -> pictures_ok T (r_settings r) (r_geometry r) vdata_init (r_pictures r);
  ro_features : forall r p r' q, r ∈ rs -> p ∈ r_pictures r -> r' ∈ rs -> q ∈ r_pictures r' -> 3 <= length (p_features q) < p_fuel p
}.
(** The run finds the file if there is one, and is not interrupted while it writes it. *)
Definition undisturbed (r : run RNum F) : Prop := r_opened r = true /\ forall n, r_ending r <> Interrupted_after n.
(** The images of the runs that came to their end and could write the file. *)
Definition kept (r : run RNum F) : list (picture RNum F) :=
  match r_created r, r_ending r with true, Completed => r_pictures r | _, _ => [] end.
(** The file is a consistent map with a frame for each of these images, in order; without images there is no file. *)
Definition stored (f : disk B) (ps : list (picture RNum F)) : Prop :=
  (ps = [] /\ f = None) \/
  (ps <> [] /\ exists d, f = Some (encode d) /\ decode (encode d) = Some d /\ data_ok d /\
    forall k, f_feats <$> sm_map (d_frames d) !! k = p_features <$> ps !! k).
(** Every run fails to start, and leaves the file as it is. *)
Definition useless (f : disk B) : Prop := forall r : run RNum F, r_opened r = true ->
  work T colour_of decode f r = Panic /\ file_after T colour_of encode decode f r = f.
End spec.
