(** A concrete case for C73. *)
From Coq Require Import ZArith.
From stdpp Require Import gmap list.
From Verif Require Import Outcome Sfm SfmSpec SfmThms SfmDemo SfmProps SfmSelectSpec.
Open Scope nat_scope.

Lemma demo_eligible : eligible demo_e (demo_settings 10 1) demo_data 0 demo_rc 0 1 2.
Proof.
  split; [lia|]. split; [lia|]. split; [lia|]. exists [0; 1; 2]. split; [|cbn; lia]. split; [repeat constructor; set_solver|].
  assert (V : forall u, u ∈ [0; 1; 2] -> exists w, has_view demo_rc u w /\ v_lms w = [0; 1; 2]).
  { intros u Hu. rewrite !elem_of_cons, elem_of_nil in Hu. destruct Hu as [-> | [-> | [-> | []]]].
    - exists (View 2 0%Z [0; 1; 2]). split; [vm_compute; reflexivity|reflexivity].
    - exists (View 0 (-2)%Z [0; 1; 2]). split; [vm_compute; reflexivity|reflexivity].
    - exists (View 1 (-1)%Z [0; 1; 2]). split; [vm_compute; reflexivity|reflexivity]. }
  intros l. split.
  - intros Hl. split; [reflexivity|]. intros u Hu. destruct (V u Hu) as (w & Hw & E). apply elem_of_list_lookup in Hl as [f Hf]. exists f, w. split; [exact Hw|]. rewrite E. exact Hf.
  - intros [_ H]. destruct (H 0) as (f & w & Hw & Hf); [left|]. destruct (V 0) as (w' & Hw' & E); [left|]. assert (w = w') as -> by (unfold has_view in *; congruence). rewrite E in Hf. eapply elem_of_list_lookup_2. exact Hf.
Qed.

Lemma demo_selected :
  env_ok demo_e /\ data_ok demo_data /\ has_recon demo_data 0 demo_rc /\ (exists w, has_view demo_rc 0 w) /\
  eligible demo_e (demo_settings 10 1) demo_data 0 demo_rc 0 1 2 /\
  match generate_view_constraints demo_e (demo_settings 10 1) demo_data 0 0 with
  | Ok cs => map (@c_views _) cs = [(0, 1, 3); (0, 1, 5); (0, 1, 2); (0, 1, 4)] | _ => False end.
Proof.
  split; [apply demo_env_ok|]. split; [apply demo_links|]. split; [apply demo_has_recon|]. split; [exists (View 2 0%Z [0; 1; 2]); vm_compute; reflexivity|]. split; [exact demo_eligible|]. vm_compute. reflexivity.
Qed.
