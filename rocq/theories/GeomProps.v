(** cv-geom lemmas in the form of the property theorems, counterexamples and concrete cases. *)
From Coq Require Import Reals Lra Psatz List ZArith Bool Lia.
From Verif Require Import Num Lin LinSpec LinFacts Core CoreSpec CoreFacts DesignFacts CoreProps PinholeProps Geom GeomSpec GeomFacts GeomEpi GeomTri.
Import ListNotations.
Open Scope R_scope.

(** ** What acceptance means *)
Lemma forallb_in {A} (f g : A -> bool) l : (forall x, In x l -> f x = g x) -> forallb f l = forallb g l.
Proof. intros H. induction l as [|x l IH]; [reflexivity|]. cbn [forallb]. rewrite (H x (or_introl eq_refl)), IH; [reflexivity|]. intros; apply H; right; assumption. Qed.
Lemma xyz_zero_canonical (v : rvec4) : xyz v = vzero -> bearing (from_homogeneous v) = vzero.
Proof. intros E. unfold bearing. rewrite from_homogeneous_scale, xyz_scale, E. generalize (canon_scale v). lin. Qed.
Lemma bearing_pm (a : rvec3) (w : R) : unit_vec a -> bearing (from_homogeneous (V4 (vx a) (vy a) (vz a) w : rvec4)) = (if Rltb w 0 then vneg a else a).
Proof.
  intros Ha. unfold bearing, from_homogeneous. change (signneg (hw (V4 (vx a) (vy a) (vz a) w : rvec4))) with (Rltb w 0). destruct (Rltb w 0).
  - assert (xyz (hneg (V4 (vx a) (vy a) (vz a) w)) = vneg a) as E by reflexivity. rewrite hdiv_scale, xyz_scale, E, (norm_unit _ (unit_neg a Ha)), Rinv_1. apply vscale_one.
  - assert (xyz (V4 (vx a) (vy a) (vz a) w) = a) as E by (destruct a; reflexivity). rewrite hdiv_scale, xyz_scale, E, (norm_unit a Ha), Rinv_1. apply vscale_one.
Qed.
Lemma intersect_bearing (t a b : rvec3) x : unit_vec a -> intersect t a b = Some x -> bearing x = a /\ 0 <= dot a b.
Proof.
  intros Ha. unfold intersect. set (w := div _ _). destruct (h_finite _); [|discriminate]. rewrite (bearing_pm a w Ha). destruct (Rltb w 0) eqn:E.
  - assert (positive (N := RNum) (dot (vneg a) a) = false) as ->; [|discriminate]. apply positive_false. rewrite dot_neg_l, <- norm2_dot. unfold unit_vec in Ha. lra.
  - destruct (positive (dot a a)); [|discriminate]. cbn [andb]. destruct (positive (dot a b)) eqn:Eb; [|discriminate]. apply positive_true in Eb. intros [= <-]. rewrite (bearing_pm a w Ha), E. auto.
Qed.
Lemma intersect_zero (t a b : rvec3) x : a = vzero -> intersect t a b = Some x -> bearing x = vzero.
Proof.
  intros ->. unfold intersect. destruct (h_finite _); [|discriminate]. destruct (_ && _)%bool; [|discriminate]. intros [= <-]. apply xyz_zero_canonical. reflexivity.
Qed.
Lemma normalize_cases (v : rvec3) : unit_vec (normalize v) \/ normalize v = vzero.
Proof.
  destruct (Req_dec (norm2 v) 0) as [E|E]; [right|left].
  - apply norm2_zero in E. rewrite E. unfold normalize. rewrite vdiv_scale. generalize (/ norm (vzero : rvec3)). lin.
  - apply normalize_unit. intros ->. apply E. lin.
Qed.
Lemma vdiv_norm_cases (v : rvec3) : unit_vec (vdiv v (norm v)) \/ vdiv v (norm v) = vzero.
Proof. apply (normalize_cases v). Qed.
Lemma accepted_front (t a b v n : rvec3) x : unit_vec v -> unit_vec n \/ n = vzero -> a = normalize (vsub v (vscale (dot v n) n)) -> intersect t a b = Some x -> 0 <= dot (bearing x) v.
Proof.
  intros Hv Hn Ea H. destruct (normalize_cases (vsub v (vscale (dot v n) n))) as [Hu|Hz].
  - rewrite <- Ea in Hu. destruct (intersect_bearing t a b x Hu H) as [-> _]. rewrite Ea. apply correct_l1_unit_dot; assumption.
  - rewrite <- Ea in Hz. rewrite (intersect_zero t a b x Hz H), dot_zero_l. lra.
Qed.
Lemma angular_l1_front (p : riso) (a b : rvec3) x : unit_vec a -> angular_l1 p a b = Some x -> 0 <= dot (bearing x) a.
Proof.
  intros Ha. unfold angular_l1, correct_l1. destruct (ltb _ _); intros H.
  - destruct (intersect_bearing _ _ _ _ Ha H) as [-> _]. rewrite <- norm2_dot. unfold unit_vec in Ha. lra.
  - eapply (accepted_front _ _ _ a _ x Ha); [|reflexivity|exact H]. apply vdiv_norm_cases.
Qed.
Lemma angular_linf_front (p : riso) (a b : rvec3) x : unit_vec a -> angular_linf p a b = Some x -> 0 <= dot (bearing x) a.
Proof.
  intros Ha. unfold angular_linf. set (n := if ltb _ _ then _ else _). intros H. eapply (accepted_front _ _ _ a n x Ha); [|reflexivity|exact H]. unfold n. destruct (ltb _ _); apply vdiv_norm_cases.
Qed.
Lemma relative_dlt_front svd (p : riso) (a b : rvec3) x : relative_dlt svd p a b = Some x -> 0 <= dot (bearing x) a /\ 0 <= dot (bearing x) (direction (p, b)).
Proof.
  unfold relative_dlt. destruct (svd _) as [vt|]; [|discriminate]. destruct (h_finite _); [|discriminate]. rewrite direction_turn. destruct (_ && _)%bool eqn:E; [|discriminate]. intros [= <-]. apply andb_prop in E as [E1 E2]. apply positive_true in E1. apply positive_true in E2. auto.
Qed.
Lemma checked_front (l : list (observation RNum)) (v x : rvec4) : checked l v = Some x -> x = v /\ forall o, In o l -> 0 <= dot (direction o) (bearing x).
Proof.
  unfold checked. destruct (h_finite v); [|discriminate]. destruct (forallb _ l) eqn:E; [|discriminate]. intros [= <-]. split; [reflexivity|]. intros [p b] Ho. rewrite forallb_forall in E. apply positive_true. apply (E _ Ho).
Qed.
Lemma linear_eigen_front eigen (l : list (observation RNum)) x : linear_eigen eigen l = Some x -> forall o, In o l -> 0 <= dot (direction o) (bearing x).
Proof.
  unfold linear_eigen. destruct (Nat.ltb _ _); [discriminate|]. destruct (eigen _) as [[|e es]|]; try discriminate. intros H. apply checked_front in H as [_ H]. exact H.
Qed.
Lemma mean_mean_front (l : list (observation RNum)) x : mean_mean l = Some x -> forall o, In o l -> 0 <= dot (direction o) (bearing x).
Proof. rewrite mean_mean_value. cbv zeta. intros H. apply checked_front in H as [_ H]. exact H. Qed.

(** ** Counterexamples to the cheirality check *)
Lemma unit_345 (x y z : R) : x * x + y * y + z * z = 1 -> unit_vec (V3 x y z : rvec3).
Proof. intros H. unfold unit_vec. lin_unfold. rlra. Qed.
Lemma norm_is (v : rvec3) (k : R) : 0 <= k -> norm2 v = k * k -> norm v = k.
Proof. intros Hk H. unfold norm. rewrite H. apply sqrt_square, Hk. Qed.
Lemma normalize_is (v u : rvec3) (k : R) : 0 < k -> unit_vec u -> v = vscale k u -> normalize v = u.
Proof. intros Hk Hu ->. rewrite normalize_pos_scale by exact Hk. apply normalize_of_unit, Hu. Qed.

(** A camera turned around, at (0, 3, 5), and a point in front of both cameras. *)
Definition opposite : riso := Iso (M3 (V3 1 0 0) (V3 0 (-1) 0) (V3 0 0 (-1))) (V3 0 3 5).
Definition between : rvec3 := V3 0 0 1.
Lemma opposite_rigid : rigid opposite. Proof. unfold rigid, rotation, opposite. lin_unfold. split; [lin_split; rlra|rlra]. Qed.
Lemma opposite_image : iso_point opposite between = V3 0 3 4.
Proof. unfold opposite, between. lin_unfold. lin_split; rlra. Qed.
Lemma opposite_centre : centre opposite = V3 0 3 5.
Proof. unfold centre, opposite. lin_unfold. lin_split; rlra. Qed.
Lemma opposite_case : rigid opposite /\ between <> vzero /\ sees opposite between (normalize (iso_point opposite between)) /\ off_baseline opposite between /\
  0 < vz between /\ 0 < vz (iso_point opposite between) /\ ~ acute opposite between.
Proof.
  split; [apply opposite_rigid|]. split; [intros [= H]; lra|]. unfold sees, off_baseline, acute. rewrite opposite_image, opposite_centre. split; [split; [intros [= H]; lra|reflexivity]|].
  unfold between. split; [lin_unfold; intros [= H]; lra|]. cbn [vz]. split; [lra|]. split; [lra|]. lin_unfold. lra.
Qed.
Lemma angular_rejects : exists (p : riso) (q b : rvec3), rigid p /\ q <> vzero /\ sees p q b /\ off_baseline p q /\ 0 < vz q /\ 0 < vz (iso_point p q) /\
  angular_l1 p (normalize q) b = None /\ angular_linf p (normalize q) b = None /\
  forall svd vt, svd (dlt_design p (normalize q) b) = Some vt -> svd4_correct (dlt_design p (normalize q) b) vt -> relative_dlt svd p (normalize q) b = None.
Proof.
  exists opposite, between, (normalize (iso_point opposite between)). destruct opposite_case as (H1 & H2 & H3 & H4 & H5 & H6 & H7). repeat (split; [assumption|]).
  split; [apply (angular_l1_exact _ _ _ H1 H2 H3 H4), H7|]. split; [apply (angular_linf_exact _ _ _ H1 H2 H3 H4), H7|]. intros svd vt Hs Hc. apply (relative_dlt_exact svd _ _ _ vt H1 H2 H3 H4); try assumption; [lra|].
  rewrite opposite_image. assert (normalize (V3 0 3 4 : rvec3) = V3 0 (3 / 5) (4 / 5)) as ->; [|cbn [vz]; lra]. apply (normalize_is _ _ 5); [lra|apply unit_345; lra|lin_unfold; lin_split; rlra].
Qed.

(** A camera at (3, 0, 5) looking away from the point the triangulators return. *)
Definition away : riso := Iso mid (V3 (-3) 0 (-5)).
Definition away_bearing : rvec3 := V3 (3 / 5) 0 (4 / 5).
Lemma away_rigid : rigid away. Proof. apply rotation_id. Qed.
Lemma away_unit : unit_vec away_bearing. Proof. apply unit_345. lra. Qed.
Lemma between_unit : unit_vec between. Proof. apply unit_345. lra. Qed.
Lemma away_direction : direction (away, away_bearing) = away_bearing.
Proof. unfold direction, away. cbn [fst snd rot]. rewrite mtrans_id. apply mvec_id. Qed.
Lemma away_centre : centre away = V3 3 0 5.
Proof. unfold centre, away. lin_unfold. lin_split; rlra. Qed.
Lemma away_image : iso_point away between = vscale (-5) away_bearing.
Proof. unfold away, between, away_bearing. lin_unfold. lin_split; rlra. Qed.
Lemma away_not_parallel : cross between away_bearing <> vzero.
Proof. unfold between, away_bearing. lin_unfold. intros [= H]; lra. Qed.
Lemma away_behind : dot away_bearing (iso_point away between) < 0.
Proof. rewrite away_image, dot_scale_r, <- norm2_dot. pose proof away_unit as H. unfold unit_vec in H. rewrite H. lra. Qed.
Lemma away_results : angular_l1 away between away_bearing = Some (from_point between) /\ angular_linf away between away_bearing = Some (from_point between).
Proof.
  assert (intersect (centre away) between away_bearing = Some (from_point between)) as Hi.
  { assert (vscale 1 between = vadd (centre away) (vscale (-5) away_bearing)) as E by (rewrite away_centre; unfold between, away_bearing; lin_unfold; lin_split; rlra).
    rewrite (intersect_meet _ _ _ _ _ between_unit away_not_parallel E) by lra. rewrite vscale_one. replace (Rltb 1 0) with false by (symmetry; apply Rltb_false; lra).
    replace (Rltb (dot between away_bearing) 0) with false; [reflexivity|]. symmetry. apply Rltb_false. unfold between, away_bearing. lin_unfold. lra. }
  assert (forall s : R, dot away_bearing (cross between (vscale s (centre away))) = 0 /\ dot between (cross away_bearing (vscale s (centre away))) = 0) as Hc.
  { intros s. rewrite away_centre. unfold between, away_bearing. lin_unfold. lra. }
  split.
  - unfold angular_l1. rewrite direction_turn, away_direction, centre_inv, correct_l1_none; [exact Hi|apply away_unit|apply between_unit|]. unfold normalize. rewrite vdiv_scale. apply Hc.
  - unfold angular_linf. rewrite direction_turn, away_direction, centre_inv. set (t' := normalize (centre away)). set (n := if ltb _ _ then _ else _).
    assert (dot away_bearing n = 0 /\ dot between n = 0) as [E2 E3].
    { unfold n. assert (exists s : R, t' = vscale s (centre away)) as [s Es] by (eexists; apply vdiv_scale). destruct (Hc s) as [C1 C2]. rewrite <- Es in C1, C2. clearbody t'.
      destruct (ltb _ _); split; apply dot_vdiv; revert C1 C2; generalize away_bearing between; clear; intros u v C1 C2.
      - transitivity (dot u (cross v t')); [lin|exact C1].
      - transitivity (dot v (cross u t')); [lin|exact C2].
      - transitivity (- dot u (cross v t')); [lin|rewrite C1; rring].
      - transitivity (dot v (cross u t')); [lin|exact C2]. }
    rewrite (across_none _ n away_unit E2), (across_none _ n between_unit E3). exact Hi.
Qed.
Lemma away_accepts : exists (p : riso) (a b q : rvec3), rigid p /\ unit_vec a /\ unit_vec b /\ angular_l1 p a b = Some (from_point q) /\ angular_linf p a b = Some (from_point q) /\ q <> vzero /\ dot b (iso_point p q) < 0.
Proof.
  exists away, between, away_bearing, between. split; [apply away_rigid|]. split; [apply between_unit|]. split; [apply away_unit|]. split; [apply away_results|]. split; [apply away_results|].
  split; [apply unit_not_zero, between_unit|apply away_behind].
Qed.

(** The linear triangulator looks at points from the world origin instead of from the cameras. *)
Definition left_camera : riso := Iso mid (V3 (-3) 0 5).
Definition right_camera : riso := Iso mid (V3 3 0 5).
Definition left_bearing : rvec3 := V3 (-3 / 5) 0 (4 / 5).
Definition right_bearing : rvec3 := V3 (3 / 5) 0 (4 / 5).
Definition near_point : rvec3 := V3 0 0 (-1).
Definition two_cameras : list (observation RNum) := [(left_camera, left_bearing); (right_camera, right_bearing)].
Lemma two_cameras_see : sees left_camera near_point left_bearing /\ sees right_camera near_point right_bearing.
Proof.
  assert (iso_point left_camera near_point = V3 (-3) 0 4) as E1 by (unfold left_camera, near_point; lin_unfold; lin_split; rlra).
  assert (iso_point right_camera near_point = V3 3 0 4) as E2 by (unfold right_camera, near_point; lin_unfold; lin_split; rlra).
  unfold sees. rewrite E1, E2. split; (split; [intros [= H]; lra|symmetry; apply (normalize_is _ _ 5); [lra|apply unit_345; lra|unfold left_bearing, right_bearing; lin_unfold; lin_split; rlra]]).
Qed.
Lemma mid_direction t (b : rvec3) : direction (Iso mid t, b) = b.
Proof. unfold direction. cbn [fst snd rot]. rewrite mtrans_id. apply mvec_id. Qed.
Lemma two_cameras_lines p b : In (p, b) two_cameras -> rigid p /\ unit_vec b /\ on_line p near_point b.
Proof.
  destruct two_cameras_see as [S1 S2]. apply sees_on_line in S1 as [L1 U1]. apply sees_on_line in S2 as [L2 U2]. intros [[= <- <-]|[[= <- <-]|[]]]; (split; [apply rotation_id|]); auto.
Qed.
Lemma two_cameras_independent : exists o1 o2, In o1 two_cameras /\ In o2 two_cameras /\ cross (direction o1) (direction o2) <> vzero.
Proof.
  exists (left_camera, left_bearing), (right_camera, right_bearing). split; [left; reflexivity|]. split; [right; left; reflexivity|]. unfold left_camera, right_camera. rewrite !mid_direction. unfold left_bearing, right_bearing. lin_unfold. intros [= H]; lra.
Qed.
Lemma linear_rejects : exists (l : list (observation RNum)) (q : rvec3),
  (forall p b, In (p, b) l -> rigid p /\ sees p q b) /\ (forall p b, In (p, b) l -> 0 < vz b) /\
  (exists o1 o2, In o1 l /\ In o2 l /\ cross (direction o1) (direction o2) <> vzero) /\
  forall eigen es, eigen (design l) = Some es -> eigen_correct (design l) es -> linear_eigen eigen l = None.
Proof.
  exists two_cameras, near_point. destruct two_cameras_see as [S1 S2]. split. { intros p b [[= <- <-]|[[= <- <-]|[]]]; (split; [apply rotation_id|]); assumption. }
  split. { intros p b [[= <- <-]|[[= <- <-]|[]]]; cbn [vz left_bearing right_bearing]; lra. }
  split; [apply two_cameras_independent|]. intros eigen es He Hc. assert (near_point <> vzero) as Hq by (intros [= H]; lra).
  apply (linear_exact eigen two_cameras near_point Hq two_cameras_lines two_cameras_independent es He Hc). exists (left_camera, left_bearing). split; [left; reflexivity|]. unfold left_camera. rewrite mid_direction. unfold left_bearing, near_point. lin_unfold. lra.
Qed.
Lemma linear_accepts : exists (l : list (observation RNum)) (q : rvec3) (p : riso) (b : rvec3),
  (forall p b, In (p, b) l -> rigid p /\ unit_vec b) /\ In (p, b) l /\ q <> vzero /\ dot b (iso_point p q) < 0 /\
  forall eigen es, eigen (design l) = Some es -> eigen_correct (design l) es -> linear_eigen eigen l = Some (from_point q).
Proof.
  set (l := [(iso_id, between); (away, away_bearing)] : list (observation RNum)). assert (between <> vzero) as Hq by apply unit_not_zero, between_unit.
  assert (forall p b, In (p, b) l -> rigid p /\ unit_vec b /\ on_line p between b) as Hl.
  { intros p b [[= <- <-]|[[= <- <-]|[]]].
    - split; [apply rotation_id|]. split; [apply between_unit|]. exists 1. rewrite iso_point_id, vscale_one. reflexivity.
    - split; [apply away_rigid|]. split; [apply away_unit|]. exists (-5). apply away_image. }
  assert (direction (iso_id, between) = between) as E1 by apply mid_direction.
  exists l, between, away, away_bearing. split; [intros p b Hin; split; apply (Hl p b Hin)|]. split; [right; left; reflexivity|]. split; [exact Hq|]. split; [apply away_behind|].
  assert (exists o1 o2, In o1 l /\ In o2 l /\ cross (direction o1) (direction o2) <> vzero) as Hi.
  { exists (iso_id, between), (away, away_bearing). split; [left; reflexivity|]. split; [right; left; reflexivity|]. rewrite E1, away_direction. apply away_not_parallel. }
  intros eigen es He Hc. refine (proj1 (linear_exact eigen l between Hq Hl Hi es He Hc) _).
  intros o [<-|[<-|[]]]; [rewrite E1|rewrite away_direction]; unfold between, away_bearing; lin_unfold; lra.
Qed.

(** A point at infinity is found or rejected depending on the sign the eigensolver gives its eigenvector. *)
Definition sideways (x : R) : riso := Iso mid (V3 x 0 0).
Definition parallel_rays : list (observation RNum) := [(sideways 0, between); (sideways 1, between); (sideways (-1), between)].
Lemma parallel_design : design parallel_rays = M4 (V4 3 0 0 0) (V4 0 3 0 0) (V4 0 0 0 0) (V4 0 0 0 2).
Proof. unfold parallel_rays, design, sideways, between. cbn [fold_left fst snd]. unfold term_columns, gram. lin_unfold. lin_split; rring. Qed.
Definition axes (s : R) : list (eigenpair RNum) := [(0, V4 0 0 s 0); (3, V4 1 0 0 0); (3, V4 0 1 0 0); (2, V4 0 0 0 1)].
Lemma axes_correct s : s * s = 1 -> eigen_correct (design parallel_rays) (axes s).
Proof.
  intros Hs. rewrite parallel_design. split; [discriminate|]. split.
  - intros lam v [[= <- <-]|[[= <- <-]|[[= <- <-]|[[= <- <-]|[]]]]]; (split; [lin_unfold; lin_split; rlra|lin_unfold; nra]).
  - intros [x y z w] H. pose proof (H _ _ (or_introl eq_refl)) as H1. pose proof (H _ _ (or_intror (or_introl eq_refl))) as H2. pose proof (H _ _ (or_intror (or_intror (or_introl eq_refl)))) as H3. pose proof (H _ _ (or_intror (or_intror (or_intror (or_introl eq_refl))))) as H4.
    clear H. lin_unfold. assert (s * z = 0) as E by lra. assert (z = 0) by (transitivity (s * s * z); [rewrite Hs; ring|transitivity (s * (s * z)); [ring|rewrite E; ring]]). subst z. lin_split; lra.
Qed.
Lemma axes_min s : min_float_by fst (0, V4 0 0 s 0) (tl (axes s)) = ((0, V4 0 0 s 0) : eigenpair RNum).
Proof.
  assert (float_ord_ltb (3 : RNum) 0 = false /\ float_ord_ltb (2 : RNum) 0 = false) as [E3 E2].
  { assert (forall k : R, 0 < k -> float_ord_ltb (k : RNum) 0 = false) as E; [|split; apply E; lra]. intros k Hk. unfold float_ord_ltb. rnum.
    change (isnan (0 : RNum)) with false. cbv iota. replace (Rltb k 0) with false by (symmetry; apply Rltb_false; lra).
    change (signneg (k : RNum)) with (Rltb k 0). replace (Rltb k 0) with false by (symmetry; apply Rltb_false; lra). rewrite andb_false_r. reflexivity. }
  cbn [axes tl min_float_by fst]. rewrite E3. cbn [fst]. rewrite E3. cbn [fst]. rewrite E2. reflexivity.
Qed.
Lemma parallel_canonical s : s * s = 1 -> from_homogeneous (V4 0 0 s 0 : rvec4) = V4 0 0 s 0.
Proof.
  intros Hs. assert (unit_vec (V3 0 0 s : rvec3)) as Hu by (apply unit_345; lra). unfold from_homogeneous. change (signneg (hw (V4 0 0 s 0 : rvec4))) with (Rltb 0 0).
  replace (Rltb 0 0) with false by (symmetry; apply Rltb_false; lra). change (xyz (V4 0 0 s 0 : rvec4)) with (V3 0 0 s : rvec3). rewrite (norm_unit _ Hu). lin_unfold. lin_split; rfield.
Qed.
Lemma parallel_result s : s * s = 1 -> linear_eigen (fun _ => Some (axes s)) parallel_rays = if Rltb s 0 then None else Some (V4 0 0 s 0).
Proof.
  intros Hs. unfold linear_eigen. change (Nat.ltb (length parallel_rays) 2) with false. cbv iota. cbn [axes]. change [(3, V4 1 0 0 0); (3, V4 0 1 0 0); (2, V4 0 0 0 1)] with (tl (axes s)). rewrite (axes_min s). cbn [snd]. rewrite (parallel_canonical s Hs).
  unfold checked. change (h_finite (V4 0 0 s 0 : rvec4)) with true. cbv iota. rewrite (forallb_in _ (fun _ => negb (Rltb s 0))).
  - cbn [parallel_rays forallb]. destruct (Rltb s 0); reflexivity.
  - intros [p b] Ho. rewrite direction_turn, positive_R. cbn [fst snd]. do 2 f_equal. assert (direction (p, b) = between) as ->; [|unfold bearing, between; lin_unfold; ring].
    destruct Ho as [[= <- <-]|[[= <- <-]|[[= <- <-]|[]]]]; apply mid_direction.
Qed.
Lemma infinity_sign : exists (l : list (observation RNum)) (d : rvec3) (es es' : list (eigenpair RNum)),
  (forall p b, In (p, b) l -> rigid p /\ b = mvec (rot p) d /\ 0 < vz b) /\ eigen_correct (design l) es /\ eigen_correct (design l) es' /\
  linear_eigen (fun _ => Some es) l = Some (V4 (vx d) (vy d) (vz d) 0) /\ linear_eigen (fun _ => Some es') l = None.
Proof.
  exists parallel_rays, between, (axes 1), (axes (-1)). split.
  - intros p b [[= <- <-]|[[= <- <-]|[[= <- <-]|[]]]]; (split; [apply rotation_id|]); (split; [symmetry; apply mvec_id|unfold between; cbn [vz]; lra]).
  - split; [apply axes_correct; ring|]. split; [apply axes_correct; ring|]. rewrite !parallel_result by ring. replace (Rltb 1 0) with false by (symmetry; apply Rltb_false; lra). replace (Rltb (-1) 0) with true by (symmetry; apply Rltb_spec; lra). split; reflexivity.
Qed.

(** The averaging triangulator misses points seen from different distances. *)
Definition near_camera : riso := Iso mid (V3 3 0 0).
Definition far_camera : riso := Iso mid (V3 (-6) 0 4).
Definition far_bearing : rvec3 := V3 (-3 / 5) 0 (4 / 5).
Definition seen_point : rvec3 := V3 0 0 4.
Definition uneven : list (observation RNum) := [(near_camera, away_bearing); (far_camera, far_bearing)].
Lemma uneven_sees p b : In (p, b) uneven -> rigid p /\ sees p seen_point b /\ 0 < vz b.
Proof.
  intros [[= <- <-]|[[= <- <-]|[]]]; (split; [apply rotation_id|]).
  - assert (iso_point near_camera seen_point = V3 3 0 4) as E by (unfold near_camera, seen_point; lin_unfold; lin_split; rlra). unfold sees. rewrite E. split; [split; [intros [= H]; lra|]|unfold away_bearing; cbn [vz]; lra].
    symmetry. apply (normalize_is _ _ 5); [lra|apply away_unit|unfold away_bearing; lin_unfold; lin_split; rlra].
  - assert (iso_point far_camera seen_point = V3 (-6) 0 8) as E by (unfold far_camera, seen_point; lin_unfold; lin_split; rlra). unfold sees. rewrite E. split; [split; [intros [= H]; lra|]|unfold far_bearing; cbn [vz]; lra].
    symmetry. apply (normalize_is _ _ 10); [lra|apply unit_345; lra|unfold far_bearing; lin_unfold; lin_split; rlra].
Qed.
Lemma uneven_result : mean_mean uneven = Some (from_point (V3 (3 / 2) 0 4)).
Proof.
  rewrite mean_mean_value. cbv zeta.
  assert (centre near_camera = V3 (-3) 0 0) as C1 by (unfold centre, near_camera; lin_unfold; lin_split; rlra).
  assert (centre far_camera = V3 6 0 (-4)) as C2 by (unfold centre, far_camera; lin_unfold; lin_split; rlra).
  assert (direction (near_camera, away_bearing) = away_bearing) as D1 by apply mid_direction.
  assert (direction (far_camera, far_bearing) = far_bearing) as D2 by apply mid_direction.
  assert (vdiv (vsum (fun o => centre (fst o)) uneven) (INR (length uneven)) = V3 (3 / 2) 0 (-2)) as ->.
  { cbn [uneven vsum fold_right fst length]. rewrite C1, C2. replace (INR 2) with 2 by (cbn; lra). lin_unfold. lin_split; rfield. }
  assert (normalize (vsum direction uneven) = between) as ->.
  { apply (normalize_is _ _ (8 / 5)); [lra|apply between_unit|]. cbn [uneven vsum fold_right]. rewrite D1, D2. unfold away_bearing, far_bearing, between. lin_unfold. lin_split; rfield. }
  assert (mean_distance between (V3 (3 / 2) 0 (-2)) (near_camera, away_bearing) = 8) as E1.
  { unfold mean_distance. rewrite D1. cbn [fst]. rewrite C1. unfold between, away_bearing. cbv zeta. lin_unfold. field. }
  assert (mean_distance between (V3 (3 / 2) 0 (-2)) (far_camera, far_bearing) = 4) as E2.
  { unfold mean_distance. rewrite D2. cbn [fst]. rewrite C2. unfold between, far_bearing. cbv zeta. lin_unfold. field. }
  assert (Rsum (mean_distance between (V3 (3 / 2) 0 (-2))) uneven / INR (length uneven) = 6) as ->.
  { cbn [uneven Rsum fold_right length]. rewrite E1, E2. replace (INR 2) with 2 by (cbn; lra). lra. }
  assert (forall v : rvec4, v = V4 (1 / 4) 0 (2 / 3) (1 / 6) -> checked uneven (from_homogeneous v) = Some (from_point (V3 (3 / 2) 0 4))) as Hf.
  - intros v ->. assert (from_homogeneous (V4 (1 / 4) 0 (2 / 3) (1 / 6) : rvec4) = from_point (V3 (3 / 2) 0 4)) as ->.
    { replace (V4 (1 / 4) 0 (2 / 3) (1 / 6) : rvec4) with (hscale (1 / 6) (of_point (V3 (3 / 2) 0 4 : rvec3))); [apply from_homogeneous_multiple; [lra|left; cbn; lra]|]. lin_unfold. lin_split; rfield. }
    rewrite checked_point by (intros [= H]; lra). rewrite (forallb_in _ (fun _ => true)); [reflexivity|]. intros o [<-|[<-|[]]]; [rewrite D1|rewrite D2]; (replace (Rltb _ 0) with false; [reflexivity|]; symmetry; apply Rltb_false; unfold away_bearing, far_bearing; lin_unfold; lra).
  - apply Hf. unfold between. lin_unfold. lin_split; rfield.
Qed.
Lemma mean_mean_wrong : exists (l : list (observation RNum)) (q q' : rvec3), (forall p b, In (p, b) l -> rigid p /\ sees p q b /\ 0 < vz b) /\ mean_mean l = Some (from_point q') /\ point (from_point q') = Some q' /\ q' <> q.
Proof.
  exists uneven, seen_point, (V3 (3 / 2) 0 4). split; [exact uneven_sees|]. split; [exact uneven_result|]. split; [apply point_from_point; intros [= H]; lra|intros [= H]; lra].
Qed.

(** ** Two views with the triangulators from many views *)
Lemma relative_linear_exact eigen (p : riso) (q b : rvec3) es : rigid p -> q <> vzero -> sees p q b -> off_baseline p q ->
  eigen (design [(iso_id, normalize q); (p, b)]) = Some es -> eigen_correct (design [(iso_id, normalize q); (p, b)]) es ->
  (acute p q -> relative (linear_eigen eigen) p (normalize q) b = Some (from_point q)) /\ (~ acute p q -> relative (linear_eigen eigen) p (normalize q) b = None).
Proof.
  intros Hp Hq Hb Ho He Hc. set (l := [(iso_id, normalize q); (p, b)] : list (observation RNum)) in *. destruct (exact_facts p q b Hp Hq Hb Ho) as (Ha & Hd & Hcr & _). destruct (sees_on_line p q b Hb) as [L Hub].
  assert (q = vscale (norm q) (normalize q)) as Eq by (unfold normalize; rewrite vdiv_scale, vscale_scale; rnum; rewrite Rinv_r; [symmetry; apply vscale_one|pose proof (norm_pos q Hq); lra]).
  assert (direction (iso_id, normalize q) = normalize q) as E1 by apply mid_direction.
  assert (forall p b, In (p, b) l -> rigid p /\ unit_vec b /\ on_line p q b) as Hl.
  { intros p' b' [[= <- <-]|[[= <- <-]|[]]].
    - split; [apply rotation_id|]. split; [exact Ha|]. exists (norm q). rewrite iso_point_id. exact Eq.
    - auto. }
  assert (exists o1 o2, In o1 l /\ In o2 l /\ cross (direction o1) (direction o2) <> vzero) as Hi.
  { exists (iso_id, normalize q), (p, b). split; [left; reflexivity|]. split; [right; left; reflexivity|]. rewrite E1. exact Hcr. }
  destruct (linear_exact eigen l q Hq Hl Hi es He Hc) as [H1 H2]. unfold relative, to_camera. fold l.
  pose proof (exact_sign p q b Hp Hq Hb) as Hs.
  assert (dot (direction (iso_id, normalize q)) q = norm q) as En. { rewrite E1. rewrite Eq at 2. rewrite dot_scale_r, <- norm2_dot. unfold unit_vec in Ha. rewrite Ha. rring. }
  assert (dot (direction (p, b)) q = norm q * dot (normalize q) (direction (p, b))) as Ed. { rewrite Eq at 1. rewrite dot_scale_r, dot_comm. reflexivity. }
  pose proof (norm_pos q Hq) as Hn. split; intros Hac.
  - rewrite H1; [cbn [option_map]; rewrite from_homogeneous_fixed; [reflexivity|apply from_homogeneous_canonical; intros E0; apply Hq; rewrite <- E0; destruct q; reflexivity]|].
    intros o [<-|[<-|[]]]; [rewrite En; lra|]. rewrite Ed. apply Rmult_le_pos; [lra|]. destruct (Rlt_dec (dot (normalize q) (direction (p, b))) 0) as [E|E]; [|apply Rnot_lt_le, E]. apply Rltb_spec, Hs in E. contradiction.
  - rewrite H2; [reflexivity|]. exists (p, b). split; [right; left; reflexivity|]. rewrite Ed. apply Hs in Hac. apply Rltb_spec in Hac. nra.
Qed.
(** ** Refinement *)
Lemma sine_l1_error eigen eps rate n (l : list (observation RNum)) (q : rvec3) : 0 <= rate <= 2 -> (forall p b, In (p, b) l -> rigid p /\ unit_vec b) -> q <> vzero -> linear_eigen eigen l = Some (from_point q) ->
  exists q', sine_l1 eigen eps rate n l = Some (from_point q') /\ square_error l q' <= square_error l q.
Proof.
  intros Hr Hl Hq He. unfold sine_l1. rewrite He, (point_from_point q Hq). eexists. split; [reflexivity|].
  change (ofZ (Z.of_nat (length l)) : RNum) with (IZR (Z.of_nat (length l))). rewrite <- INR_IZR_INZ. apply refine_error; [|exact Hr]. intros [p b] Ho. destruct (Hl p b Ho) as [[Hp Hdet] Hb]. unfold direction. cbn [fst snd]. unfold unit_vec. rewrite rotation_norm2; [exact Hb|]. apply rotation_mtrans. split; assumption.
Qed.

(** ** Epipolar loss *)
Lemma loss_exact (t a b q : rvec3) : unit_vec a -> unit_vec b -> meet_at t a b q -> 0 <= dot a b -> epipolar_loss t a b = 0.
Proof.
  intros Ha Hb Hm Hd. pose proof (meet_coplanar t a b q Hm) as Hc. rewrite loss_max by exact Hd. rewrite Hc, Rabs_R0. unfold Rdiv. apply Rmult_0_l.
Qed.
Lemma loss_rejects : exists t a b q : rvec3, unit_vec a /\ unit_vec b /\ meet_at t a b q /\ epipolar_loss t a b = 1.
Proof.
  exists (V3 0 3 5), between, (V3 0 (-3 / 5) (-4 / 5)), between. split; [apply between_unit|]. split; [apply unit_345; lra|]. split.
  - exists 1, 5. split; [lra|]. split; [lra|]. unfold between. split; lin_unfold; lin_split; rlra.
  - apply loss_behind. unfold between. lin_unfold. lra.
Qed.
Lemma loss_accepts : exists (t a b : rvec3) (lam mu : R), unit_vec a /\ unit_vec b /\ cross a b <> vzero /\ 0 < lam /\ mu < 0 /\ vscale lam a = vadd t (vscale mu b) /\ epipolar_loss t a b = 0.
Proof.
  exists (V3 3 0 5), between, away_bearing, 1, (-5). split; [apply between_unit|]. split; [apply away_unit|]. split; [apply away_not_parallel|]. split; [lra|]. split; [lra|]. split; [unfold between, away_bearing; lin_unfold; lin_split; rlra|].
  apply loss_zero; [left; unfold between; lin_unfold; intros [= H]; lra|]. unfold between, away_bearing. lin_unfold. lra.
Qed.
Lemma loss_nan_one : exists t a b : vec3 F64, v_finite t = true /\ v_finite a = true /\ v_finite b = true /\ eqb (norm2 a) one = true /\ eqb (norm2 b) one = true /\
  isnan (norm2 (normalize (cross b t))) = true /\ eqb (epipolar_loss t a b) one = true.
Proof. exists (V3 zero zero one), (V3 zero zero one), (V3 zero zero one). repeat (split; [vm_compute; reflexivity|]). vm_compute. reflexivity. Qed.

(** ** Three views *)
Lemma three_view_blind : exists c f ftoc s stoc : rvec3, unit_vec c /\ unit_vec f /\ unit_vec s /\
  three_view_gradients c f ftoc s stoc = (se3_id, se3_id) /\ ~ exists x y z : R, vscale x c = vadd ftoc (vscale y f) /\ vscale x c = vadd stoc (vscale z s).
Proof.
  exists between, (V3 (3 / 5) 0 (4 / 5)), (V3 (-3) 0 0), (V3 (-3 / 5) 0 (4 / 5)), (V3 6 0 0). split; [apply between_unit|]. split; [apply unit_345; lra|]. split; [apply unit_345; lra|]. split.
  - apply (three_view_pairwise _ _ _ _ _ (V3 0 0 4) (V3 0 0 8) (V3 (9 / 2) 0 6)); try apply between_unit; try (apply unit_345; lra).
    + exists 4, 5. split; [lra|]. split; [lra|]. unfold between. split; lin_unfold; lin_split; rlra.
    + exists 8, 10. split; [lra|]. split; [lra|]. unfold between. split; lin_unfold; lin_split; rlra.
    + exists (15 / 2), (15 / 2). split; [lra|]. split; [lra|]. split; lin_unfold; lin_split; rlra.
  - intros (x & y & z & E1 & E2). unfold between in *. lin_unfold. injection E1 as A1 A2 A3. injection E2 as B1 B2 B3. assert (y = 5) by lra. assert (z = 10) by lra. lra.
Qed.

(** ** The world origin *)
Definition one64 : F64 := one.
Definition zero64 : F64 := zero.
Definition origin_views : list (observation F64) := [(Iso mid (V3 zero64 zero64 one64), V3 zero64 zero64 one64); (Iso mid (V3 one64 zero64 zero64), V3 one64 zero64 zero64)].
Definition origin_eigen (m : mat4 F64) : option (list (eigenpair F64)) :=
  Some [(one64, V4 one64 zero64 zero64 zero64); (ofZ 2, V4 zero64 one64 zero64 zero64); (one64, V4 zero64 zero64 one64 zero64); (zero64, V4 zero64 zero64 zero64 one64)].
Definition v_eqb (u v : vec3 F64) : bool := (eqb (vx u) (vx v) && eqb (vy u) (vy v) && eqb (vz u) (vz v))%bool.
Definition exact_eigenpair (D : mat4 F64) (e : eigenpair F64) : bool :=
  let r := hmvec D (snd e) in let k := hscale (fst e) (snd e) in (h_finite (snd e) && eqb (hdot (snd e) (snd e)) one && eqb (hx r) (hx k) && eqb (hy r) (hy k) && eqb (hz r) (hz k) && eqb (hw r) (hw k))%bool.
Lemma none_test {A} (o : option A) : match o with Some _ => false | None => true end = true -> o = None.
Proof. destruct o; [discriminate|reflexivity]. Qed.
Lemma origin_lost : exists (eigen : mat4 F64 -> option (list (eigenpair F64))) (l : list (observation F64)) es,
  forallb (fun o : observation F64 => v_eqb (iso_point (fst o) (V3 zero zero zero)) (snd o)) l = true /\ length l = 2%nat /\
  eigen (design l) = Some es /\ length es = 4%nat /\ forallb (exact_eigenpair (design l)) es = true /\ linear_eigen eigen l = None.
Proof.
  exists origin_eigen, origin_views. eexists. split; [vm_compute; reflexivity|]. split; [reflexivity|]. split; [reflexivity|]. split; [reflexivity|]. split; [vm_compute; reflexivity|]. apply none_test. vm_compute. reflexivity.
Qed.

(** ** Concrete cases *)
Lemma demo_two_view : let p := left_camera in exists q b : rvec3, rigid p /\ q <> vzero /\ sees p q b /\ off_baseline p q /\ acute p q /\ 0 < vz q /\ 0 < vz b.
Proof.
  exists (V3 3 0 1), (V3 0 0 1). split; [apply rotation_id|]. split; [intros [= H]; lra|].
  assert (iso_point left_camera (V3 3 0 1) = V3 0 0 6) as E by (unfold left_camera; lin_unfold; lin_split; rlra).
  assert (centre left_camera = V3 3 0 (-5)) as C by (unfold centre, left_camera; lin_unfold; lin_split; rlra).
  unfold sees, off_baseline, acute. rewrite E, C. split; [split; [intros [= H]; lra|symmetry; apply (normalize_is _ _ 6); [lra|apply unit_345; lra|lin_unfold; lin_split; rlra]]|].
  split; [lin_unfold; intros [= H]; lra|]. split; [lin_unfold; lra|]. cbn [vz]. lra.
Qed.
