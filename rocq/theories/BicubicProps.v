(** The proofs of the statements of C13 and C14. *)
From Coq Require Import Reals ZArith List Lia Lra Psatz Bool.
From Verif Require Import Num Lin LinSpec LinFacts Core CoreSpec CoreFacts Bicubic BicubicSpec BicubicFacts GeomProps.
Import ListNotations.
Open Scope R_scope.

(** ** export.rs *)
Section export.
Context {N : Num}.
Lemma cameras_fold (b : bool) (cs : list (export_camera N)) : forall k vs fs, length vs = (5 * k)%nat ->
  fold_left (add_camera b) cs (vs, fs) =
    (vs ++ flat_map camera_vertices cs, fs ++ if b then flat_map camera_triangles (seq k (length cs)) else []).
Proof.
  induction cs as [|c cs IH]; intros k vs fs E; [cbn; rewrite app_nil_r; destruct b; cbn; now rewrite app_nil_r|].
  cbn [fold_left]. unfold add_camera at 2, add_vertex. rewrite !app_length, E. cbn [length].
  erewrite (IH (S k)) by (rewrite !app_length, E; cbn [length]; lia).
  f_equal.
  - cbn [flat_map]. unfold camera_vertices at 2. rewrite <- !app_assoc. reflexivity.
  - destruct b; [|now rewrite ?app_nil_r]. cbn [length seq flat_map]. rewrite <- !app_assoc. f_equal. unfold camera_triangles at 2. cbn [app].
    replace (5 * k + 1 + 1)%nat with (5 * k + 2)%nat by lia. replace (5 * k + 2 + 1)%nat with (5 * k + 3)%nat by lia.
    replace (5 * k + 3 + 1)%nat with (5 * k + 4)%nat by lia. reflexivity.
Qed.
Lemma points_fold (ps vs : list (vertex N)) : fold_left (fun vs v => fst (add_vertex vs v)) ps vs = vs ++ ps.
Proof. revert vs. induction ps as [|p ps IH]; intros vs; [now rewrite app_nil_r|]. cbn [fold_left]. rewrite IH. cbn. now rewrite <- app_assoc. Qed.
Lemma export_value (ps : list (vertex N)) cs b : export ps cs b =
  Ply (flat_map camera_vertices cs ++ ps) (if b then Some (flat_map camera_triangles (seq 0 (length cs))) else None).
Proof.
  unfold export. rewrite (cameras_fold b cs 0) by reflexivity. cbn [app]. rewrite points_fold. now destruct b.
Qed.
Lemma vertices_length (cs : list (export_camera N)) : length (flat_map camera_vertices cs) = (5 * length cs)%nat.
Proof. induction cs as [|c cs IH]; [reflexivity|]. cbn [flat_map length]. rewrite app_length, IH. cbn. lia. Qed.
Lemma triangles_length (l : list nat) : length (flat_map camera_triangles l) = (4 * length l)%nat.
Proof. induction l as [|c cs IH]; [reflexivity|]. cbn [flat_map length]. rewrite app_length, IH. cbn. lia. Qed.

Lemma export_counts (ps : list (vertex N)) cs b :
  length (vertices (export ps cs b)) = (5 * length cs + length ps)%nat /\
  (forall fs, faces (export ps cs b) = Some fs -> length fs = (4 * length cs)%nat) /\ (faces (export ps cs b) = None <-> b = false).
Proof.
  rewrite export_value. cbn [vertices faces]. rewrite app_length, vertices_length. split; [reflexivity|]. split.
  - intros fs. destruct b; [|discriminate]. intros [= <-]. now rewrite triangles_length, seq_length.
  - destruct b; split; congruence.
Qed.
Lemma export_faces (ps : list (vertex N)) cs b fs f : faces (export ps cs b) = Some fs -> In f fs ->
  exists i, (i < length cs)%nat /\ In f (camera_triangles i).
Proof.
  rewrite export_value. cbn [faces]. destruct b; [|discriminate]. intros [= <-] H. apply in_flat_map in H as (i & A & B).
  exists i. apply in_seq in A. split; [lia|exact B].
Qed.
Lemma export_indices (ps : list (vertex N)) cs b fs x y z : faces (export ps cs b) = Some fs -> In (x, y, z) fs ->
  x <> y /\ y <> z /\ x <> z /\ exists i, (i < length cs)%nat /\
    forall j, In j [x; y; z] -> (5 * i <= j < 5 * i + 5)%nat /\ (j < length (vertices (export ps cs b)))%nat.
Proof.
  intros H I. destruct (export_faces _ _ _ _ _ H I) as (i & A & B). cbn in B.
  repeat (destruct B as [B|B]); try contradiction; injection B as <- <- <-; (split; [lia|]; split; [lia|]; split; [lia|]; exists i; split; [exact A|];
    intros j J; split; [|rewrite (proj1 (export_counts ps cs b))]; repeat (destruct J as [J|J]); try contradiction; lia).
Qed.
Lemma nth_flat_map5 (cs : list (export_camera N)) : forall i k c, (k < 5)%nat -> nth_error cs i = Some c ->
  nth_error (flat_map camera_vertices cs) (5 * i + k) = nth_error (camera_vertices c) k.
Proof.
  induction cs as [|d cs IH]; intros i k c K E; [destruct i; discriminate|]. cbn [flat_map]. destruct i as [|i].
  - injection E as <-. replace (5 * 0 + k)%nat with k by lia. apply nth_error_app1. exact K.
  - rewrite nth_error_app2 by (cbn [length camera_vertices]; lia). cbn [length camera_vertices].
    replace (5 * S i + k - 5)%nat with (5 * i + k)%nat by lia. now apply IH.
Qed.
Lemma export_camera_points (ps : list (vertex N)) cs b i c : nth_error cs i = Some c ->
  forall k, (k < 5)%nat -> nth_error (vertices (export ps cs b)) (5 * i + k) = nth_error (camera_vertices c) k.
Proof.
  intros E k K. rewrite export_value. cbn [vertices].
  assert (i < length cs)%nat by (apply nth_error_Some; congruence).
  rewrite nth_error_app1 by (rewrite vertices_length; lia). now apply nth_flat_map5.
Qed.
Lemma export_points (ps : list (vertex N)) cs b i : nth_error (vertices (export ps cs b)) (5 * length cs + i) = nth_error ps i.
Proof.
  rewrite export_value. cbn [vertices]. rewrite nth_error_app2 by (rewrite vertices_length; lia). rewrite vertices_length. f_equal. lia.
Qed.
End export.

(** The corners as the camera sees them. *)
Lemma view_corner (p : riso) (m : R) (u r : Z) : rigid p ->
  iso_point p (corner (camera_of_view p m) u r) = V3 (IZR r * (m / 100)) (- (IZR u * (m / 100))) (m / 100).
Proof.
  intros Hp. rewrite <- (iso_point_inv_r p (V3 (IZR r * (m / 100)) (- (IZR u * (m / 100))) (m / 100) : rvec3) Hp). f_equal.
  unfold corner, camera_of_view. cbn [optical_center up_direction forward_direction focal_length].
  assert (RI : rotation (rot (iso_inv p))) by (apply rotation_mtrans; exact Hp).
  rewrite <- (rotation_cross _ _ _ RI). generalize (iso_inv p). clear. intros [B t].
  replace (cross (V3 zero zero one : rvec3) (vneg (V3 zero one zero))) with (V3 1 0 0 : rvec3) by (lin_unfold; lin_split; rring).
  unfold lit. lin_destruct. lin_unfold. lin_split; rnum_eq; field.
Qed.
Lemma view_centre (p : riso) (m : R) : rigid p -> iso_point p (optical_center (camera_of_view p m)) = vzero.
Proof. intros Hp. cbn [optical_center camera_of_view]. now apply iso_point_inv_r. Qed.

(** ** bicubic.rs *)
Lemma last_window_rejected : exists (im : image Z) (x y : R) (z r : Z), u32_image im /\ floor_of x z /\ floor_of y r /\
  window_inside z (i_width im) /\ window_inside r (i_height im) /\ (forall i j, i_pixel im i j <> 0%Z) /\
  interpolate_bicubic Rcasts (u8_to_float : Z -> RNum) (u8_clamp Rcasts) im x y 0%Z = Colour 0%Z.
Proof.
  exists (Image 4%Z 4%Z (fun _ _ => 9%Z)), (3 / 2), (3 / 2), 1%Z, 1%Z. unfold u32_image, u32_max, window_inside. cbn [i_width i_height i_pixel].
  split; [lia|]. split; [unfold floor_of; lra|]. split; [unfold floor_of; lra|]. split; [lia|]. split; [lia|]. split; [lia|].
  apply (interpolate_default (u8_to_float : Z -> RNum) (u8_clamp Rcasts) _ _ _ 1 1); [unfold floor_of; lra|unfold floor_of; lra|].
  unfold window_accepted. cbn. lia.
Qed.
Definition ramp : image Z := Image 6%Z 6%Z (fun i j => i + j)%Z.
Lemma ramp_u8 i j : (0 <= i < 6)%Z -> (0 <= j < 6)%Z -> u8 (i_pixel ramp i j).
Proof. unfold u8. cbn. lia. Qed.
Lemma ramp_value : interpolate_bicubic Rcasts (u8_to_float : Z -> RNum) (u8_clamp Rcasts) ramp (3 / 2) (3 / 2) 0%Z = Colour 2%Z.
Proof.
  rewrite (interpolate_value (u8_to_float : Z -> RNum) (u8_clamp Rcasts) ramp _ _ 1 1);
    [|unfold u32_image, u32_max; cbn; lia|unfold floor_of; lra|unfold floor_of; lra|unfold window_accepted; cbn; lia|unfold window_accepted; cbn; lia].
  f_equal. unfold window_value, row_value. cbn [i_pixel ramp].
  replace (3 / 2 - IZR 1) with (/ 2) by lra.
  assert (B : forall p, u8 (p + 1)%Z -> u8 (p + 2)%Z -> blend_cubic (u8_to_float : Z -> RNum) (u8_clamp Rcasts) p (p + 1)%Z (p + 2)%Z (p + 3)%Z (/ 2) = (p + 1)%Z).
  { intros p U V. destruct (u8_blend_affine p (p + 1)%Z (p + 2)%Z (p + 3)%Z (/ 2) (IZR p + 1) 1) as (_ & _ & K); try assumption; try (rewrite ?plus_IZR; lra); try lra.
    cbv zeta in K. set (c := blend_cubic _ _ _ _ _ _ _) in *. clearbody c.
    assert (p < c)%Z by (apply lt_IZR; lra). assert (c < p + 2)%Z by (apply lt_IZR; rewrite plus_IZR; lra). lia. }
  cbn [Z.add Z.sub Z.opp Z.pos_sub Pos.pred_double Pos.add Pos.succ].
  assert (Row : forall p, (0 <= p <= 10)%Z -> blend_cubic (u8_to_float : Z -> RNum) (u8_clamp Rcasts) p (p + 1)%Z (p + 2)%Z (p + 3)%Z (/ 2) = (p + 1)%Z)
    by (intros; apply B; unfold u8; lia).
  pose proof (Row 0%Z ltac:(lia)) as R0. pose proof (Row 1%Z ltac:(lia)) as R1. pose proof (Row 2%Z ltac:(lia)) as R2. pose proof (Row 3%Z ltac:(lia)) as R3.
  cbn [Z.add Pos.add Pos.succ] in R0, R1, R2, R3. rewrite R0, R1, R2, R3. exact R1.
Qed.
Lemma u8_affine_wrong : exists (im : image Z) (x y a b c : R) (z r : Z), u32_image im /\ floor_of x z /\ floor_of y r /\
  window_accepted z (i_width im) /\ window_accepted r (i_height im) /\
  (forall i j, (0 <= i < i_width im)%Z -> (0 <= j < i_height im)%Z -> u8 (i_pixel im i j) /\ IZR (i_pixel im i j) = a + b * IZR i + c * IZR j) /\
  a + b * x + c * y = 3 /\ interpolate_bicubic Rcasts (u8_to_float : Z -> RNum) (u8_clamp Rcasts) im x y 0%Z = Colour 2%Z.
Proof.
  exists ramp, (3 / 2), (3 / 2), 0, 1, 1, 1%Z, 1%Z. split; [unfold u32_image, u32_max; cbn; lia|]. split; [unfold floor_of; lra|]. split; [unfold floor_of; lra|].
  split; [unfold window_accepted; cbn; lia|]. split; [unfold window_accepted; cbn; lia|]. split; [|split; [lra|exact ramp_value]].
  intros i j A B. split; [now apply ramp_u8|]. cbn [i_pixel ramp]. rewrite plus_IZR. ring.
Qed.
Lemma interpolate_spec {C} (to_float : C -> R) (clamp : R -> C) (im : image C) (x y : R) (z r : Z) default : u32_image im -> floor_of x z -> floor_of y r ->
  (window_accepted z (i_width im) /\ window_accepted r (i_height im) ->
    interpolate_bicubic Rcasts (to_float : C -> RNum) clamp im x y default = Colour (window_value (to_float : C -> RNum) clamp im z r (x - IZR z) (y - IZR r))) /\
  (~ (window_accepted z (i_width im) /\ window_accepted r (i_height im)) -> interpolate_bicubic Rcasts (to_float : C -> RNum) clamp im x y default = Colour default).
Proof.
  intros U A B. split; [intros [W V]; now apply interpolate_value|]. now apply (interpolate_default to_float clamp _ _ _ z r).
Qed.
Lemma stored_u8 (im : image Z) (i j : Z) default : u32_image im ->
  (forall i j, (0 <= i < i_width im)%Z -> (0 <= j < i_height im)%Z -> u8 (i_pixel im i j)) ->
  window_accepted i (i_width im) -> window_accepted j (i_height im) ->
  interpolate_bicubic Rcasts (u8_to_float : Z -> RNum) (u8_clamp Rcasts) im (IZR i) (IZR j) default = Colour (i_pixel im i j).
Proof. intros U P A B. apply (interpolate_pixel (u8_to_float : Z -> RNum)); try assumption. now apply u8_channels. Qed.
Lemma constant_u8 (im : image Z) (x y : R) z r k default : u32_image im -> u8 k ->
  (forall i j, (0 <= i < i_width im)%Z -> (0 <= j < i_height im)%Z -> i_pixel im i j = k) -> floor_of x z -> floor_of y r ->
  window_accepted z (i_width im) -> window_accepted r (i_height im) ->
  interpolate_bicubic Rcasts (u8_to_float : Z -> RNum) (u8_clamp Rcasts) im x y default = Colour k.
Proof.
  intros U K P Fx Fy A B. rewrite (interpolate_value (u8_to_float : Z -> RNum) (u8_clamp Rcasts) im x y z r) by assumption. f_equal.
  unfold window_accepted in *. unfold window_value, row_value. rewrite !P by lia.
  rewrite !(blend_constant (u8_to_float : Z -> RNum) (u8_clamp Rcasts)). now rewrite !u8_clamp_exact by now rewrite ?u8_clamp_exact.
Qed.
