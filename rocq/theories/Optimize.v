(** Model of cv-optimize: single_view_optimizer.rs and three_view_optimizer.rs. *)
From Coq Require Import List ZArith Bool.
From Verif Require Import Num Lin Core Geom.
Import ListNotations.
Open Scope num_scope.

Section optimize.
Context {N : Num} (T : trig N).

(** single_view_optimizer.rs 4-14 [landmark_delta]: a bearing with the world point it observes. *)
Definition landmark_delta (pose : iso N) (l : vec3 N * vec4 N) : option (se3 N) :=
  match point (transform pose (snd l)) with
  | None => None
  | Some q => Some (world_pose_gradient q (fst l))
  end.

(** The control flow shared by the loops of single_view_optimizer.rs 26-77 and 90-134 and
    three_view_optimizer.rs 32-123 and 135-199.  [sums] gives the summed gradient of each pose and
    [update] the poses after one step.  [bests] holds the smallest lengths of translation and rotation seen so
    far; [None] is the initial infinity, below which every finite length is (a length is never
    minus infinity).  [no_improve] counts the iterations since the last improvement. *)
Definition below (t : N) (best : option N) : bool := match best with None => isfin t | Some b => t <? b end.
Definition better (t : N) (best : option N) : option N := if below t best then Some t else best.
Definition improved (best : option N * option N) (g : se3 N) : bool := below (norm (se_t g)) (fst best) || below (norm (se_r g)) (snd best).
Definition keep_best (best : option N * option N) (g : se3 N) : option N * option N :=
  (better (norm (se_t g)) (fst best), better (norm (se_r g)) (snd best)).
Fixpoint descend {S : Type} (sums : S -> list (se3 N)) (update : S -> S) (iterations : nat)
    (bests : list (option N * option N)) (no_improve : nat) (s : S) : S :=
  match iterations with
  | O => s
  | Datatypes.S iterations =>
      let gs := sums s in
      let no_improve :=
        if existsb (fun bg => improved (fst bg) (snd bg)) (combine bests gs) then O else Datatypes.S no_improve in
      let bests := map (fun bg => keep_best (fst bg) (snd bg)) (combine bests gs) in
      if Nat.leb 50 no_improve then s
      else descend sums update iterations bests no_improve (update s)
  end.

(** One term of single_view_optimizer.rs 34-40 and three_view_optimizer.rs 51-55: the unit
    gradients are summed, together with the inverse lengths whose reciprocal scales the sum. *)
Definition l1_term (tscale epsilon : N) (acc : se3 N * N * N) (g : se3 N) : se3 N * N * N :=
  let '(sum, ts, rs) := acc in
  (se3_add sum (se3_l1 g), ts + one / (norm (se_t g) + tscale * epsilon), rs + one / (norm (se_r g) + epsilon)).
(** single_view_optimizer.rs 43-46, three_view_optimizer.rs 61-66. *)
Definition l1_delta (rate : N) (acc : se3 N * N * N) : se3 N :=
  let '(sum, ts, rs) := acc in
  se3_scale_rotation (se3_scale_translation (se3_scale sum rate) (one / ts)) (one / rs).

(** single_view_optimizer.rs 30-41: landmarks at infinity are skipped. *)
Definition deltas (pose : iso N) (ls : list (vec3 N * vec4 N)) : list (se3 N) :=
  flat_map (fun l => match landmark_delta pose l with Some g => [g] | None => [] end) ls.
Definition single_l1_net (epsilon : N) (ls : list (vec3 N * vec4 N)) (pose : iso N) : se3 N * N * N :=
  fold_left (l1_term (norm (trans pose)) epsilon) (deltas pose ls) (se3_id, zero, zero).
(** single_view_optimizer.rs 16-78 [single_view_simple_optimize_l1]. *)
Definition single_view_l1 (pose : iso N) (epsilon rate : N) (iterations : nat) (ls : list (vec3 N * vec4 N)) : iso N :=
  match ls with
  | [] => pose
  | _ =>
      descend (fun pose => [fst (fst (single_l1_net epsilon ls pose))])
        (fun pose => iso_mul (se3_isometry T (l1_delta rate (single_l1_net epsilon ls pose))) pose)
        iterations [(None, None)] O pose
  end.

(** single_view_optimizer.rs 80-135 [single_view_simple_optimize_l2]. *)
Definition inverse_length {A} (l : list A) : N := one / ofZ (Z.of_nat (length l)).
Definition single_view_l2 (pose : iso N) (rate : N) (iterations : nat) (ls : list (vec3 N * vec4 N)) : iso N :=
  match ls with
  | [] => pose
  | _ =>
      descend (fun pose => [se3_sum (deltas pose ls)])
        (fun pose => iso_mul (se3_isometry T (se3_scale (se3_scale (se3_sum (deltas pose ls)) (inverse_length ls)) rate)) pose)
        iterations [(None, None)] O pose
  end.

(** three_view_optimizer.rs 7-21 [landmark_gradients]: an isometry times a unit vector rotates it. *)
Definition three_bearings : Type := (vec3 N * vec3 N * vec3 N)%type.
Definition landmark_gradients (poses : iso N * iso N) (o : three_bearings) : se3 N * se3 N :=
  let '(c, f, s) := o in
  three_view_gradients c (mvec (rot (fst poses)) f) (trans (fst poses)) (mvec (rot (snd poses)) s) (trans (snd poses)).
Definition gradients_of (poses : iso N * iso N) (ls : list three_bearings) : list (se3 N) * list (se3 N) :=
  let gs := map (landmark_gradients poses) ls in (map fst gs, map snd gs).
Definition move (poses : iso N * iso N) (d : se3 N * se3 N) : iso N * iso N :=
  (iso_mul (se3_isometry T (fst d)) (fst poses), iso_mul (se3_isometry T (snd d)) (snd poses)).
Definition invert (poses : iso N * iso N) : iso N * iso N := (iso_inv (fst poses), iso_inv (snd poses)).

(** three_view_optimizer.rs 23-124 [three_view_simple_optimize_l1].  Summing the two lengths
    starts from zero. *)
Definition three_l1_nets (epsilon : N) (ls : list three_bearings) (poses : iso N * iso N) : (se3 N * N * N) * (se3 N * N * N) :=
  let tscale := zero + norm (trans (fst poses)) + norm (trans (snd poses)) in
  let (fs, ss) := gradients_of poses ls in
  (fold_left (l1_term tscale epsilon) fs (se3_id, zero, zero), fold_left (l1_term tscale epsilon) ss (se3_id, zero, zero)).
Definition three_view_l1 (poses : iso N * iso N) (epsilon rate : N) (iterations : nat) (ls : list three_bearings) : iso N * iso N :=
  match ls with
  | [] => poses
  | _ =>
      invert (descend (fun poses => let nets := three_l1_nets epsilon ls poses in [fst (fst (fst nets)); fst (fst (snd nets))])
        (fun poses => let nets := three_l1_nets epsilon ls poses in move poses (l1_delta rate (fst nets), l1_delta rate (snd nets)))
        iterations [(None, None); (None, None)] O (invert poses))
  end.

(** three_view_optimizer.rs 126-200 [three_view_simple_optimize_l2]. *)
Definition three_l2_nets (ls : list three_bearings) (poses : iso N * iso N) : se3 N * se3 N :=
  let (fs, ss) := gradients_of poses ls in (se3_sum fs, se3_sum ss).
Definition three_view_l2 (poses : iso N * iso N) (rate : N) (iterations : nat) (ls : list three_bearings) : iso N * iso N :=
  match ls with
  | [] => poses
  | _ =>
      let scale := inverse_length ls * rate in
      invert (descend (fun poses => let nets := three_l2_nets ls poses in [fst nets; snd nets])
        (fun poses => let nets := three_l2_nets ls poses in move poses (se3_scale (fst nets) scale, se3_scale (snd nets) scale))
        iterations [(None, None); (None, None)] O (invert poses))
  end.

(** three_view_optimizer.rs 228-260: the mean gradient, shortened by how much the gradients
    disagree. *)
Definition adaptive_gradient (inv : N) (gs : list (se3 N)) : se3 N :=
  let sum := se3_sum gs in
  let tv := fold_left (fun acc g => acc + norm (se_t g)) gs zero in
  let rv := fold_left (fun acc g => acc + norm (se_r g)) gs zero in
  let l2 := se3_scale sum inv in
  let finite x := if isfin x then x else zero in
  let trate := finite (norm (se_t l2) / (tv * inv)) in
  let rrate := finite (norm (se_r l2) / (rv * inv)) in
  se3_scale_rotation (se3_scale_translation l2 trate) rrate.
Definition adaptive_step (ls : list three_bearings) (poses : iso N * iso N) : iso N * iso N :=
  let (fs, ss) := gradients_of poses ls in
  move poses (adaptive_gradient (inverse_length ls) fs, adaptive_gradient (inverse_length ls) ss).
(** three_view_optimizer.rs 203-272 [three_view_adaptive_optimize_l2]. *)
Definition three_view_adaptive (poses : iso N * iso N) (iterations : nat) (ls : list three_bearings) : iso N * iso N :=
  match ls with
  | [] => poses
  | _ => invert (Nat.iter iterations (adaptive_step ls) (invert poses))
  end.
End optimize.
