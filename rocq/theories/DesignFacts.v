(** The least squares design matrix of linear triangulation and its kernel; correct symmetric
    eigendecompositions; residuals of poses. *)
From Coq Require Import Reals Lra Psatz List.
From Verif Require Import Num Lin LinSpec LinFacts Core CoreSpec CoreFacts.
Import ListNotations.
Open Scope R_scope.
Implicit Types (x y v : rvec4) (q b : rvec3) (p : riso).

Lemma hdot_comm x y : hdot x y = hdot y x. Proof. lin. Qed.
Lemma hdot_add_r x y v : hdot x (hadd y v) = hdot x y + hdot x v. Proof. lin. Qed.
Lemma hdot_zero_r x : hdot x (hzero : rvec4) = 0. Proof. lin. Qed.
Lemma hdot_scale_r (s : R) x y : hdot x (hscale s y) = s * hdot x y. Proof. lin. Qed.
Lemma hdot_scale_l (s : R) x y : hdot (hscale s x) y = s * hdot x y. Proof. lin. Qed.
Lemma hdot_self x : 0 <= hdot x x /\ (hdot x x = 0 -> x = hzero).
Proof. destruct x as [a b c d]. lin_unfold. split; [nra|]. intros H. lin_split; rnra. Qed.
Lemma hadd_zero_r x : hadd x hzero = x. Proof. lin. Qed.
Lemma hadd_zero_l x : hadd hzero x = x. Proof. lin. Qed.
Lemma hmvec_add (M K : mat4 RNum) x : hmvec (hmadd M K) x = hadd (hmvec M x) (hmvec K x). Proof. lin. Qed.
Lemma hmvec_zero x : hmvec (hmzero : mat4 RNum) x = hzero. Proof. lin. Qed.

(** What one observation contributes: the part of the transformed point across the bearing. *)
Definition off_ray (p : riso) (b : rvec3) (x : rvec4) : rvec3 :=
  let y := xyz (pose_output p x) in vsub y (vscale (dot b y) b).

Lemma gram_mvec p b x :
  let '(c1, c2, c3, c4) := term_columns p b in
  hmvec (gram (term_columns p b)) x = V4 (dot c1 (off_ray p b x)) (dot c2 (off_ray p b x)) (dot c3 (off_ray p b x)) (dot c4 (off_ray p b x)).
Proof.
  unfold term_columns. assert (vadd (vadd (vadd (vscale (hx x) (vsub (col1 (rot p)) (mvec (outer b b) (col1 (rot p))))) (vscale (hy x) (vsub (col2 (rot p)) (mvec (outer b b) (col2 (rot p))))))
     (vscale (hz x) (vsub (col3 (rot p)) (mvec (outer b b) (col3 (rot p)))))) (vscale (hw x) (vsub (trans p) (mvec (outer b b) (trans p)))) = off_ray p b x) as E.
  { unfold off_ray, pose_output. lin. }
  rewrite <- E. unfold gram. clear E. set (a1 := vsub _ _). set (a2 := vsub (col2 _) _). set (a3 := vsub (col3 _) _). set (a4 := vsub (trans _) _).
  generalize a1 a2 a3 a4. clear. intros. lin.
Qed.
Lemma gram_quadratic p b x : hdot x (hmvec (gram (term_columns p b)) x) = norm2 (off_ray p b x).
Proof.
  pose proof (gram_mvec p b x) as H. unfold term_columns in *. rewrite H. clear H. set (z := off_ray p b x).
  assert (vadd (vadd (vadd (vscale (hx x) (vsub (col1 (rot p)) (mvec (outer b b) (col1 (rot p))))) (vscale (hy x) (vsub (col2 (rot p)) (mvec (outer b b) (col2 (rot p))))))
     (vscale (hz x) (vsub (col3 (rot p)) (mvec (outer b b) (col3 (rot p)))))) (vscale (hw x) (vsub (trans p) (mvec (outer b b) (trans p)))) = z) as E.
  { unfold z, off_ray, pose_output. lin. }
  rewrite norm2_dot. rewrite <- E at 5. set (a1 := vsub (col1 _) _). set (a2 := vsub (col2 _) _). set (a3 := vsub (col3 _) _). set (a4 := vsub (trans _) _).
  generalize a1 a2 a3 a4 z. clear. intros. lin.
Qed.
Lemma gram_kernel p b x : off_ray p b x = vzero -> hmvec (gram (term_columns p b)) x = hzero.
Proof. intros E. pose proof (gram_mvec p b x) as H. unfold term_columns in *. rewrite H, E, !dot_zero_r. reflexivity. Qed.
Lemma gram_symmetric p b x y : hdot x (hmvec (gram (term_columns p b)) y) = hdot (hmvec (gram (term_columns p b)) x) y.
Proof. unfold term_columns, gram. generalize (vsub (col1 (rot p)) (mvec (outer b b) (col1 (rot p)))) (vsub (col2 (rot p)) (mvec (outer b b) (col2 (rot p)))) (vsub (col3 (rot p)) (mvec (outer b b) (col3 (rot p)))) (vsub (trans p) (mvec (outer b b) (trans p))). clear. lin. Qed.

Definition Rsum {A} (f : A -> R) (l : list A) : R := fold_right (fun a s => f a + s) 0 l.

Lemma design_acc (l : list (riso * rvec3)) m x y :
  hdot y (hmvec (fold_left (fun m pb => hmadd m (gram (term_columns (fst pb) (snd pb)))) l m) x)
  = hdot y (hmvec m x) + Rsum (fun pb => hdot y (hmvec (gram (term_columns (fst pb) (snd pb))) x)) l.
Proof.
  revert m. induction l as [|a l IH]; intros m; cbn [fold_left Rsum fold_right]; [rring|]. rewrite IH, hmvec_add, hdot_add_r. unfold Rsum. rring.
Qed.
Lemma design_form (l : list (riso * rvec3)) x y : hdot y (hmvec (design l) x) = Rsum (fun pb => hdot y (hmvec (gram (term_columns (fst pb) (snd pb))) x)) l.
Proof. unfold design. rewrite design_acc, hmvec_zero, hdot_zero_r. rring. Qed.
Lemma Rsum_ext {A} (f g : A -> R) l : (forall a, In a l -> f a = g a) -> Rsum f l = Rsum g l.
Proof. intros H. induction l as [|a l IH]; [reflexivity|]. cbn [Rsum fold_right]. rewrite (H a (or_introl eq_refl)). f_equal. apply IH. intros; apply H; right; assumption. Qed.
Lemma Rsum_nonneg {A} (f : A -> R) l : (forall a, In a l -> 0 <= f a) -> 0 <= Rsum f l /\ (Rsum f l = 0 -> forall a, In a l -> f a = 0).
Proof.
  intros H. induction l as [|a l IH]; cbn; [split; [lra|]; intros _ ? []|]. destruct IH as [IH1 IH2]; [intros; apply H; right; assumption|].
  pose proof (H a (or_introl eq_refl)). split; [unfold Rsum in *; lra|]. intros E c [<-|Hc]; [unfold Rsum in *; lra|apply IH2; [unfold Rsum in *; lra|exact Hc]].
Qed.

Lemma design_quadratic (l : list (riso * rvec3)) x : hdot x (hmvec (design l) x) = Rsum (fun pb => norm2 (off_ray (fst pb) (snd pb) x)) l.
Proof. rewrite design_form. apply Rsum_ext. intros a _. apply gram_quadratic. Qed.
Lemma design_positive (l : list (riso * rvec3)) x : 0 <= hdot x (hmvec (design l) x).
Proof. rewrite design_quadratic. apply Rsum_nonneg. intros a _. apply norm2_nonneg. Qed.
Lemma design_symmetric (l : list (riso * rvec3)) x y : hdot x (hmvec (design l) y) = hdot (hmvec (design l) x) y.
Proof. rewrite (hdot_comm (hmvec _ x)), !design_form. apply Rsum_ext. intros a _. rewrite gram_symmetric. apply hdot_comm. Qed.
Lemma design_kernel (l : list (riso * rvec3)) x : hmvec (design l) x = hzero <-> forall p b, In (p, b) l -> off_ray p b x = vzero.
Proof.
  split.
  - intros E p b Hin. apply norm2_zero. pose proof (design_quadratic l x) as H. rewrite E, hdot_zero_r in H. symmetry in H.
    apply (Rsum_nonneg (fun pb => norm2 (off_ray (fst pb) (snd pb) x)) l (fun a _ => norm2_nonneg _)) with (a := (p, b)) in H; assumption.
  - intros H. apply hdot_self. rewrite design_form. set (y := hmvec (design l) x). rewrite (Rsum_ext _ (fun _ => 0)).
    + clear. induction l as [|a l IH]; cbn; [reflexivity|]. unfold Rsum in IH. rewrite IH. ring.
    + intros [p b] Hin. cbn [fst snd]. rewrite (gram_kernel p b x (H p b Hin)). apply hdot_zero_r.
Qed.

Lemma off_ray_zero p b x : off_ray p b x = vzero <-> xyz (pose_output p x) = vscale (dot b (xyz (pose_output p x))) b.
Proof. unfold off_ray. split; [apply vsub_zero|]. intros E. rewrite E at 1. generalize (vscale (dot b (xyz (pose_output p x))) b). lin. Qed.
(** A multiple of a unit bearing lies on its ray. *)
Lemma off_ray_along p b x (s : R) : unit_vec b -> xyz (pose_output p x) = vscale s b -> off_ray p b x = vzero.
Proof. intros Hb E. apply off_ray_zero. rewrite E, dot_scale_r. unfold unit_vec in Hb. rewrite norm2_dot in Hb. rewrite Hb. f_equal. rring. Qed.

(** ** Smallest eigenvector *)
Lemma abs_bits_ltb_R (a b : R) : abs_bits_ltb (N := RNum) a b = Rltb (Rabs a) (Rabs b).
Proof. reflexivity. Qed.
Lemma min_abs_by_spec {X} (key : X -> R) l : forall best,
  (min_abs_by (N := RNum) key best l = best \/ In (min_abs_by (N := RNum) key best l) l) /\
  Rabs (key (min_abs_by (N := RNum) key best l)) <= Rabs (key best) /\ forall z, In z l -> Rabs (key (min_abs_by (N := RNum) key best l)) <= Rabs (key z).
Proof.
  induction l as [|a l IH]; intros best; cbn [min_abs_by]; [split; [left; reflexivity|]; split; [lra|intros _ []]|].
  rewrite abs_bits_ltb_R. destruct (Rltb (Rabs (key a)) (Rabs (key best))) eqn:E; [apply Rltb_spec in E|apply Rltb_false in E].
  - destruct (IH a) as (H1 & H2 & H3). split; [|split].
    + right. destruct H1 as [->|H1]; [left; reflexivity|right; exact H1].
    + lra.
    + intros z [<-|Hz]; [exact H2|apply H3, Hz].
  - destruct (IH best) as (H1 & H2 & H3). split; [|split].
    + destruct H1 as [H1|H1]; [left; exact H1|right; right; exact H1].
    + exact H2.
    + intros z [<-|Hz]; [lra|apply H3, Hz].
Qed.
Lemma smallest_spec (l : list (eigenpair RNum)) : l <> [] -> exists lam v, smallest l = Some v /\ In (lam, v) l /\ forall lam' v', In (lam', v') l -> Rabs lam <= Rabs lam'.
Proof.
  destruct l as [|e l]; [congruence|]. intros _. cbn [smallest]. destruct (min_abs_by_spec (X := eigenpair RNum) fst l e) as (H1 & H2 & H3).
  set (r := @min_abs_by RNum (eigenpair RNum) fst e l) in *. exists (fst r), (snd r). split; [reflexivity|].
  split; [destruct H1 as [E|H1]; [left; rewrite <- E; destruct r; reflexivity|right; destruct r; exact H1]|].
  intros lam' v' [->|Hin]; [exact H2|apply (H3 _ Hin)].
Qed.

Lemma smallest_kernel (M : mat4 RNum) (l : list (eigenpair RNum)) x0 :
  (forall x y, hdot x (hmvec M y) = hdot (hmvec M x) y) -> eigen_correct M l -> x0 <> hzero -> hmvec M x0 = hzero ->
  exists v, smallest l = Some v /\ hmvec M v = hzero /\ v <> hzero.
Proof.
  intros Hs (Hl & He & Hc) Hx E. destruct (smallest_spec l Hl) as (lam & v & Hv & Hin & Hmin). exists v. split; [exact Hv|]. destruct (He lam v Hin) as [Ev Hu]. split.
  - destruct (Req_dec lam 0) as [->|Hne]; [rewrite Ev; lin|]. exfalso. apply Hx, Hc. intros lam' v' Hin'. destruct (He lam' v' Hin') as [Ev' _].
    pose proof (Hs v' x0) as H. rewrite E, hdot_zero_r, Ev', hdot_scale_l in H. symmetry in H. apply Rmult_integral in H as [H|H]; [|exact H].
    pose proof (Hmin lam' v' Hin') as Hm. rewrite H, Rabs_R0 in Hm. exfalso. apply Hne. destruct (Req_dec lam 0) as [?|Hn]; [assumption|]. apply Rabs_pos_lt in Hn. lra.
  - intros ->. revert Hu. lin_unfold. lra.
Qed.

(** ** Residuals *)
Lemma world_residual_range p b x : unit_vec b -> off_centre p x ->
  0 <= world_residual p b x <= 2 /\ (world_residual p b x = 0 <-> b = bearing (transform p x)).
Proof.
  intros Hb Ho. destruct (transform_canonical p x Ho) as [Hu _]. pose proof (unit_dot_bounds b _ Hb Hu) as Hd. unfold world_residual, bearing. rnum. split; [lra|].
  rewrite <- (unit_dot_one b _ Hb Hu). split; intros; rlra.
Qed.

Section residual.
Context (eigen : mat4 RNum -> option (list (eigenpair RNum))).

(** The point the residual is evaluated at. *)
Definition residual_point p a b : option rvec4 :=
  match eigen (design [(iso_id, a); (p, b)]) with
  | None => None
  | Some l => match smallest l with None => None | Some v => Some (from_homogeneous v) end
  end.

Lemma camera_residual_value p a b :
  camera_residual eigen p a b =
    match residual_point p a b with
    | None => 2
    | Some x => (1 - dot a (bearing x) + (1 - dot b (bearing (transform p x)))) / 2
    end.
Proof.
  unfold camera_residual, residual_point. destruct (eigen _) as [l|]; [|reflexivity]. destruct (smallest l) as [v|]; [|reflexivity].
  change (h_finite (from_homogeneous v : rvec4)) with true. cbv iota. unfold half, lit. rnum. field.
Qed.

Lemma camera_residual_range p a b : unit_vec a -> unit_vec b ->
  (forall x, residual_point p a b = Some x -> canonical x /\ off_centre p x) -> 0 <= camera_residual eigen p a b <= 2.
Proof.
  intros Ha Hb Hx. rewrite camera_residual_value. destruct (residual_point p a b) as [x|]; [|lra]. destruct (Hx x eq_refl) as [Hc Ho].
  pose proof (unit_dot_bounds a _ Ha (proj1 Hc)). pose proof (unit_dot_bounds b _ Hb (proj1 (transform_canonical p x Ho))). unfold bearing. lra.
Qed.

(** On a perfect match with independent rays the residual vanishes. *)
Lemma two_view_kernel p a b (q : rvec3) x :
  unit_vec a -> unit_vec b -> a = normalize q -> q <> vzero -> iso_point p q <> vzero -> b = normalize (iso_point p q) ->
  cross (mvec (rot p) a) b <> vzero ->
  hmvec (design [(iso_id, a); (p, b)]) x = hzero -> x <> hzero -> from_homogeneous x = from_point q.
Proof.
  intros Ha Hb Ea Hq Hpq Eb Hc Hk Hx0. pose proof (proj1 (design_kernel _ x) Hk) as H.
  pose proof (proj1 (off_ray_zero _ _ _) (H iso_id a (or_introl eq_refl))) as H1. pose proof (proj1 (off_ray_zero _ _ _) (H p b (or_intror (or_introl eq_refl)))) as H2. clear H Hk.
  rewrite pose_output_id in H1. set (al := dot a (xyz x)) in *. destruct (pose_output_coords p x) as [Hout _]. rewrite Hout in H2. set (be := dot b (vadd _ _)) in *. clearbody al be. rewrite H1, mvec_scale in H2.
  (* the true point *)
  assert (mvec (rot p) q = vscale (norm q) (mvec (rot p) a)) as Hq1 by (rewrite <- mvec_scale, Ea, (normalize_scale q Hq); reflexivity).
  assert (vadd (vscale (norm q) (mvec (rot p) a)) (trans p) = vscale (norm (iso_point p q)) b) as Hq2 by (rewrite Eb, (normalize_scale _ Hpq), <- Hq1; reflexivity).
  set (Ra := mvec (rot p) a) in *. set (n := norm q) in *. set (m := norm (iso_point p q)) in *.
  assert (vadd (vscale (al - hw x * n) Ra) (vscale (hw x * m - be) b) = vzero) as E.
  { assert (trans p = vsub (vscale m b) (vscale n Ra)) as Et by (rewrite <- Hq2; generalize (trans p) Ra n; clear; lin).
    rewrite Et in H2. assert (vsub (vadd (vscale al Ra) (vscale (hw x) (vsub (vscale m b) (vscale n Ra)))) (vscale be b) = vzero) as <- by (rewrite H2; generalize (vscale be b); clear; lin).
    generalize (hw x) Ra n m al be b. clear. intros. lin. }
  assert (al - hw x * n = 0) as E1.
  { apply (f_equal (fun z => cross z b)) in E. rewrite cross_add_l, !cross_scale_l, cross_self in E. replace (vadd (vscale (al - hw x * n) (cross Ra b)) (vscale (hw x * m - be) vzero)) with (vscale (al - hw x * n) (cross Ra b)) in E by (generalize (cross Ra b); clear; lin).
    replace (cross (vzero : rvec3) b) with (vzero : rvec3) in E by lin. apply (f_equal norm2) in E. rewrite norm2_scale in E. replace (norm2 (vzero : rvec3)) with 0 in E by lin.
    apply Rmult_integral in E as [E|E]; [apply Rmult_integral in E as [E|E]; exact E|]. apply norm2_zero in E. contradiction. }
  assert (hw x <> 0) as Hw.
  { intros E0. apply Hx0. rewrite E0 in E1. replace al with 0 in H1 by lra. destruct x as [x1 x2 x3 x4]. cbn [hw] in E0. subst x4. revert H1. lin_unfold. intros [= -> -> ->]. lin_split; rring. }
  unfold from_point. replace x with (hscale (hw x) (of_point q)).
  - apply from_homogeneous_multiple; [exact Hw|]. left. cbn. lra.
  - rewrite <- (normalize_scale q Hq), <- Ea. fold n. replace al with (hw x * n) in H1 by lra. destruct x as [x1 x2 x3 x4]. generalize n a H1. clear. intros n a H1. lin_destruct. lin_unfold. injection H1 as -> -> ->. lin_split; rring.
Qed.
Lemma camera_residual_perfect p (q : rvec3) : rigid p -> q <> vzero -> iso_point p q <> vzero ->
  let a := normalize q in let b := normalize (iso_point p q) in
  cross (mvec (rot p) a) b <> vzero -> (forall l, eigen (design [(iso_id, a); (p, b)]) = Some l -> eigen_correct (design [(iso_id, a); (p, b)]) l) ->
  eigen (design [(iso_id, a); (p, b)]) <> None -> camera_residual eigen p a b = 0.
Proof.
  intros Hp Hq Hpq a b Hc He Hn. assert (unit_vec a) as Ha by (apply normalize_unit, Hq). assert (unit_vec b) as Hb by (apply normalize_unit, Hpq).
  rewrite camera_residual_value. unfold residual_point. destruct (eigen _) as [l|] eqn:El; [|congruence]. specialize (He l eq_refl).
  assert (hmvec (design [(iso_id, a); (p, b)]) (of_point q) = hzero) as Hker.
  { apply design_kernel. intros p' b' [[= <- <-]|[[= <- <-]|[]]].
    - apply (off_ray_along iso_id a (of_point q) (norm q) Ha). rewrite pose_output_id, xyz_of_point. symmetry. apply normalize_scale, Hq.
    - apply (off_ray_along p b (of_point q) (norm (iso_point p q)) Hb). rewrite pose_output_point, xyz_of_point. symmetry. apply normalize_scale, Hpq. }
  destruct (smallest_kernel _ l (of_point q) (design_symmetric _) He) as (v & -> & Hv & Hv0); [intros E; injection E; intros; lra|exact Hker|].
  rewrite (two_view_kernel p a b q v Ha Hb eq_refl Hq Hpq eq_refl Hc Hv Hv0), transform_from_point by exact Hq. unfold bearing.
  destruct (from_point_coords q Hq) as [-> _]. destruct (from_point_coords (iso_point p q) Hpq) as [-> _]. fold a b. unfold unit_vec in *. rewrite norm2_dot in *. rewrite Ha, Hb. lra.
Qed.
End residual.
