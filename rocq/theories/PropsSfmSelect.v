(** Property C73: which three-view constraints are recorded for a view.
    Definitions used in the statements come from the model (Sfm.v) and from the
    specifications SfmSpec.v and SfmSelectSpec.v. *)
From Coq Require Import ZArith.
From stdpp Require Import gmap list.
From Verif Require Import Outcome Sfm SfmSpec SfmDemo SfmSelectSpec SfmSelect SfmSelectDemo.
Open Scope nat_scope.

(** [cs] are the constraints generated for view [v]; [selected] says that none is missing while
    there is room for more, that no view is left out in favour of others which already have a
    constraint, and that the three views with the most common landmarks are never left out.
    They are recorded exactly if there are enough of them, or one for each other view. *)
Theorem C73_constraints_selected :
  forall (P F : Type) (e : env P F) (s : settings) (d : vdata P F) (r : key) (rc : recon P) (v : key) (w : view P),
    env_ok e -> data_ok d -> has_recon d r rc -> has_view rc v w -> 1 <= optimization_robust_covisibility_minimum_landmarks s ->
    exists d' b cs rc', record_view_constraints e s d r v = Ok (d', b) /\ has_recon d' r rc' /\ selected e s d r rc v cs /\
      (b = true <-> optimization_minimum_new_constraints s <= length cs \/ sm_size (r_views rc) <= length cs + 1) /\
      forall c, (exists k, has_constraint rc' k c) <-> (exists k, has_constraint rc k c) \/ b = true /\ c ∈ cs.
Proof. exact @record_selected. Qed.
Print Assumptions C73_constraints_selected.

(** A map of six views with room for four constraints: all views get one. *)
Example C73_six_views :
  env_ok demo_e /\ data_ok demo_data /\ has_recon demo_data 0 demo_rc /\ (exists w, has_view demo_rc 0 w) /\
  eligible demo_e (demo_settings 10 1) demo_data 0 demo_rc 0 1 2 /\
  match generate_view_constraints demo_e (demo_settings 10 1) demo_data 0 0 with
  | Ok cs => map (@c_views _) cs = [(0, 1, 3); (0, 1, 5); (0, 1, 2); (0, 1, 4)] | _ => False end.
Proof. exact demo_selected. Qed.
