(** Specifications for pinhole cameras in binary64. *)
From Coq Require Import Reals ZArith SpecFloat List.
From Flocq Require Import Core BinarySingleNaN.
From Verif Require Import Num Pinhole.
Import ListNotations.
Open Scope R_scope.

(** The value of a finite float. *)
Notation value := (SF2R radix2).
(** A finite binary64 number. *)
Definition finite_double (x : F64) : Prop := valid_binary 53 1024 x = true /\ isfin x = true.
(** Pixel coordinates and intrinsics of any practical size: nothing above [2 ^ 100], focal lengths not below [2 ^ -100], and a
    skew no greater than the focal length. *)
Definition practical (k : intrinsics F64) (p : vec2 F64) : Prop :=
  (forall x, In x [px p; py p; px (principal_point k); py (principal_point k); skew k; px (focals k); py (focals k)] -> finite_double x /\ Rabs (value x) <= 2 ^ 100) /\
  (forall f, In f [px (focals k); py (focals k)] -> / 2 ^ 100 <= Rabs (value f)) /\ Rabs (value (skew k)) <= Rabs (value (py (focals k))).
