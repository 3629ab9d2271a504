(** Specification of how the public mapping operations may be used (C01, C02, C03, C05): the
    preconditions under which they keep the database consistent, and the ones under which
    they complete without panicking. *)
From stdpp Require Import gmap list.
From Verif Require Import Outcome Sfm SfmSpec.

Section spec.
Context {P F : Type}.
Implicit Types (rc : recon P) (d : vdata P F) (e : env P F).

(** A landmark map sends different landmarks to different landmarks, all of which exist. *)
Definition injective (lmap : gmap key key) : Prop := forall a b l, lmap !! a = Some l -> lmap !! b = Some l -> a = b.
Definition targets_live (lmap : gmap key key) rc : Prop := forall a l, lmap !! a = Some l -> exists m, has_landmark rc l m.

(** The (center, other) feature pairs handed to [add_reconstruction]. *)
Definition first_matches (combined : list (nat * nat * nat)) (firsts : list (nat * nat)) : list (nat * nat) :=
  firsts ++ ((fun t => (t.1.1, t.1.2)) <$> combined).
Definition second_matches (combined : list (nat * nat * nat)) (seconds : list (nat * nat)) : list (nat * nat) :=
  seconds ++ ((fun t => (t.1.1, t.2)) <$> combined).

(** No center feature is matched to two features of the other frame. *)
Definition one_other (ms : list (nat * nat)) : Prop := forall c f f', (c, f) ∈ ms -> (c, f') ∈ ms -> f = f'.

(** Every feature occurs in at most one match. *)
Definition one_to_one (ms : list (nat * nat)) : Prop := forall c f c' f', (c, f) ∈ ms -> (c', f') ∈ ms -> (c = c' <-> f = f').

(** Frame [k] exists and is in no reconstruction. *)
Definition free_frame d (k : key) : Prop := (exists fr, has_frame d k fr) /\ forall r v, ~ is_view_of d r v k.

Definition op_env (x : op P F) : option (env P F) :=
  match x with
  | OpAddFeed => None
  | OpAddFrame e _ _ | OpOptimize e _ | OpApplyConstraints e _ | OpRegenerate e _
  | OpFilterObservations e _ | OpFilterLandmarks e _ | OpNormalize e _ | OpMergeDedup e _ _ _
  | OpMerge e _ _ _ | OpIncorporate e _ _ _ _ | OpAddReconstruction e _ _ _ _ _ _ _ _ => Some e
  end.

(** What a caller owes. Only the two operations taking caller-made matches ask for anything:
    the others may be called with any keys. *)
Definition op_args d (x : op P F) : Prop :=
  match x with
  | OpIncorporate _ src dest _ lmap =>
      src <> dest /\ injective lmap /\ exists rc, has_recon d dest rc /\ targets_live lmap rc
  | OpAddReconstruction _ c f s _ _ combined firsts seconds =>
      c <> f /\ c <> s /\ f <> s /\ free_frame d c /\ free_frame d f /\ free_frame d s /\
      one_other (first_matches combined firsts) /\ one_other (second_matches combined seconds)
  | _ => True
  end.

Definition op_allowed d (x : op P F) : Prop := (forall e, op_env x = Some e -> env_ok e) /\ op_args d x.

(** The pose update never drops a view. *)
Definition update_total e : Prop := forall p es, e_update e p es <> None.

(** What keeps a whole run from panicking: every frame has at least three features (and fewer
    than the fuel the model gives to the window loop), the window starts with at least one
    feature, and pose updates do not drop views in the middle of an optimisation. *)
Record ready e (s : settings) d : Prop := {
  rd_frames : forall k fr, has_frame d k fr -> 3 <= length (f_feats fr) < e_fuel e;
  rd_window : 0 < single_view_initial_features s;
  rd_updates : optimization_iterations s <= 1 \/ update_total e
}.

(** When an operation completes. *)
Definition op_ready (s : settings) d (x : op P F) : Prop :=
  match x with
  | OpAddFeed => True
  | OpAddFrame e feed fs => (exists old, has_feed d feed old) /\ ready e s d /\ 3 <= length fs < e_fuel e
  | OpOptimize e r | OpApplyConstraints e r | OpRegenerate e r =>
      (exists rc, has_recon d r rc) /\ (optimization_iterations s <= 1 \/ update_total e)
  | OpFilterObservations _ r | OpFilterLandmarks _ r => exists rc, has_recon d r rc
  | OpNormalize _ r => exists rc v w, has_recon d r rc /\ has_view rc v w
  | OpMergeDedup _ r a b => exists rc ma mb, has_recon d r rc /\ has_landmark rc a ma /\ has_landmark rc b mb
  | OpMerge _ r a b => exists rc ma mb, has_recon d r rc /\ a <> b /\ has_landmark rc a ma /\ has_landmark rc b mb /\
      forall v, ma !! v = None \/ mb !! v = None
  | OpIncorporate _ src _ _ _ => exists rc, has_recon d src rc
  | OpAddReconstruction _ c _ _ _ _ combined firsts seconds =>
      exists fr, has_frame d c fr /\ forall i j,
        (i, j) ∈ first_matches combined firsts \/ (i, j) ∈ second_matches combined seconds -> i < length (f_feats fr)
  end.

(** Every operation of a history meets its precondition in the state it is applied to. *)
Fixpoint used_well (one : P) (mul : P -> P -> P) (inv : P -> P) (s : settings) d (ops : list (op P F)) : Prop :=
  match ops with
  | [] => True
  | x :: rest => op_allowed d x /\ forall d', step one mul inv s d x = Ok d' -> used_well one mul inv s d' rest
  end.
End spec.
