(** Concrete cases for the eight-point algorithm and the number of poses of the five-point algorithm. *)
From Coq Require Import Reals List Arith ZArith SpecFloat Lia Lra Psatz.
From Verif Require Import Num Outcome Lin LinSpec LinFacts Pinhole PinholeSpec PinholeFacts EssentialFacts PinholeProps Estimate EstimateSpec EstimateFacts EstimateFive EstimateAction EstimateBasis EstimateDemo.
Import ListNotations.
Open Scope R_scope.

Definition demo_pose8 : riso := Iso mid (V3 1 0 0).
Definition demo_points : list rvec3 := [V3 (-1) 0 2; V3 (-1) 0 1; V3 (-1) (-1) 2; V3 0 (-1) 1; V3 1 0 1; V3 0 1 1; V3 0 0 1; V3 (-1) 1 1].
Definition demo_matches : list (bearings RNum) := map (fun q => (q, iso_point demo_pose8 q)) demo_points.
Lemma demo_rigid8 : rigid demo_pose8 /\ trans demo_pose8 <> vzero.
Proof. split; [exact mid_rotation|]. intros E. injection E as E. rnum. lra. Qed.
Lemma vscale_1 (v : rvec3) : vscale 1 v = v. Proof. lin. Qed.
Lemma demo_observed m : In m demo_matches -> observes demo_pose8 m.
Proof.
  unfold demo_matches. rewrite in_map_iff. intros (q & <- & _). exists q, 1, 1. cbn [fst snd]. rewrite !vscale_1. split; reflexivity.
Qed.
Lemma demo_essential8 : essential_of demo_pose8 = M3 (V3 0 0 0) (V3 0 0 (-1)) (V3 0 1 0).
Proof. unfold essential_of, demo_pose8. cbn [rot trans]. lin. Qed.
Lemma demo_unique x : (forall i, (i < 8)%nat -> inner 9 (encode8 (N := RNum) demo_matches i) x = 0) -> exists c, forall k, (k < 9)%nat -> x k = c * columns (essential_of demo_pose8) k.
Proof.
  intros H. pose proof (H 0%nat ltac:(lia)) as K0. pose proof (H 1%nat ltac:(lia)) as K1. pose proof (H 2%nat ltac:(lia)) as K2. pose proof (H 3%nat ltac:(lia)) as K3. pose proof (H 4%nat ltac:(lia)) as K4.
  pose proof (H 5%nat ltac:(lia)) as K5. pose proof (H 6%nat ltac:(lia)) as K6. pose proof (H 7%nat ltac:(lia)) as K7. clear H.
  unfold inner, encode8, coord, iso_point, demo_matches, demo_points, vdiv, vadd, mvec, dot in *. cbn in *. rnum.
  exists (x 5%nat). intros k Hk. rewrite demo_essential8. destruct k as [|[|[|[|[|[|[|[|[|k]]]]]]]]]; [..|lia]; cbn [columns row1 row2 row3 vx vy vz]; lra.
Qed.
Lemma demo_lowest : exists d, lowest_correct 9 (gram 8 (encode8 (N := RNum) demo_matches)) d.
Proof.
  set (E := essential_of demo_pose8). exists (fun _ => 0, fun _ k => / sqrt 2 * columns E k).
  assert (sqrt 2 * sqrt 2 = 2) as S2 by (apply sqrt_sqrt; lra). assert (0 < sqrt 2) as S0 by (apply sqrt_lt_R0; lra). split; [|split].
  - intros i j _ Hj. rewrite Rmult_0_l. apply gram_kernel; [|exact Hj]. intros r _. unfold apply. rewrite inner_scale_r, (row8 demo_matches E); [ring|].
    intros m Hm. apply observes_epipolar, demo_observed. apply firstn_In in Hm || (rewrite firstn_all2 in Hm by (cbn; lia)). exact Hm.
  - intros i _. rewrite inner_scale_l, inner_scale_r. replace (inner 9 (columns E) (columns E)) with 2.
    + rewrite <- S2 at 3. field. lra.
    + unfold E. rewrite demo_essential8. unfold inner. cbn [total columns row1 row2 row3 vx vy vz]. lra.
  - intros x c Hc. rewrite gram_quadratic. specialize (Hc 0%nat ltac:(lia)). cbn beta in Hc. pose proof (inner_self_nonneg 9 x). pose proof (inner_self_nonneg 8 (apply 9 (encode8 (N := RNum) demo_matches) x)). nra.
Qed.
Definition demo_svd (c : R) : svd RNum :=
  let s := if Rle_dec 0 c then 1 else -1 in
  (M3 (V3 0 0 1) (V3 0 (-1) 0) (V3 1 0 0), V3 (Rabs c) (Rabs c) 0, M3 (V3 0 s 0) (V3 0 0 s) (V3 1 0 0)).
Lemma demo_svd_right c : svd_correct (mscale c (essential_of demo_pose8)) (demo_svd c).
Proof.
  unfold demo_svd, svd_correct, orthogonal. pose proof (Rabs_pos c). destruct (Rle_dec 0 c) as [L|L].
  - rewrite (Rabs_right c) in * by lra. cbn [vx vy vz]. repeat split; try lra; rewrite ?demo_essential8; clear; lin.
  - rewrite (Rabs_left c) in * by lra. cbn [vx vy vz]. repeat split; try lra; rewrite ?demo_essential8; clear; lin.
Qed.
(** The hypotheses of the recovery theorem hold for these eight matches. *)
Lemma demo_eight : rigid demo_pose8 /\ trans demo_pose8 <> vzero /\ length demo_matches = 8%nat /\
  (forall m, In m demo_matches -> observes demo_pose8 m /\ vz (fst m) <> 0) /\
  (forall x, (forall i, (i < 8)%nat -> inner 9 (encode8 (N := RNum) demo_matches i) x = 0) -> exists c, forall k, (k < 9)%nat -> x k = c * columns (essential_of demo_pose8) k) /\
  (exists d, lowest_correct 9 (gram 8 (encode8 (N := RNum) demo_matches)) d) /\
  (exists s, forall c, svd_correct (mscale c (essential_of demo_pose8)) (s c)).
Proof.
  split; [exact (proj1 demo_rigid8)|]. split; [exact (proj2 demo_rigid8)|]. split; [reflexivity|]. split.
  - intros m Hm. split; [exact (demo_observed m Hm)|]. unfold demo_matches, demo_points in Hm. cbn [map] in Hm. repeat (destruct Hm as [<-|Hm]; [cbn [fst vz]; lra|]). destruct Hm.
  - split; [exact demo_unique|]. split; [exact demo_lowest|]. exists demo_svd. exact demo_svd_right.
Qed.

(** A match beside the first camera makes the design matrix NaN. *)
Lemma sideways_row : exists m : bearings F64, v_finite (fst m) = true /\ v_finite (snd m) = true /\ eqb (norm2 (fst m)) one = true /\ eqb (norm2 (snd m)) one = true /\
  isnan (encode8 [m] 0 8) = true.
Proof.
  exists (V3 (one : F64) zero zero, V3 (zero : F64) one zero).
  split; [|split; [|split; [|split]]]; vm_compute; reflexivity.
Qed.
(** A failed null space does not yield an empty result. *)
Lemma failure_gives_poses : exists eigen eigenvalues null solve try_svd,
  (forall A, eigen A = None) /\ eigenvalues_correct (zero_matrix (N := RNum)) (eigenvalues (zero_matrix (N := RNum))) /\
  (exists d, null (fun i j => 0 - (if (i =? j)%nat then 0 else 0)) = Some d /\ null_correct (fun i j => 0 - (if (i =? j)%nat then 0 else 0)) d) /\
  (exists d, try_svd mzero = Some d /\ svd_correct mzero d) /\
  forall ms : list rmatch, (5 <= length ms)%nat -> exists l, five_point_estimate (N := RNum) eigen eigenvalues null solve try_svd ms = Ok l /\ length l = 40%nat.
Proof.
  set (v := (fun i => delta i 0) : nat -> R).
  exists (fun _ => None), (fun _ _ => (0, 0)), (fun _ => Some (0, v)), (fun _ _ => None), (fun _ => Some (mid, vzero, mid)). split; [reflexivity|]. split; [|split; [|split]].
  - intros lambda x (i & Hi & Hx) H. exists 0%nat. split; [lia|]. specialize (H i Hi). unfold apply, inner, zero_matrix in H. rewrite total_zero in H by (intros; rnum; ring). symmetry in H. apply Rmult_integral in H as [->|H]; [reflexivity|contradiction].
  - eexists. split; [reflexivity|].
    assert (forall u, inner 10 (apply 10 (fun i j => 0 - (if (i =? j)%nat then 0 else 0)) u) (apply 10 (fun i j => 0 - (if (i =? j)%nat then 0 else 0)) u) = 0) as Z.
    { intros u. apply total_zero. intros i _. unfold apply at 1, inner. rewrite total_zero; [ring|]. intros j _. destruct (i =? j)%nat; ring. }
    split; [lra|]. split; [unfold v, inner; rewrite (total_delta 10 (fun i => delta i 0) 0) by lia; reflexivity|]. split; [rewrite Z; ring|]. intros x _. rewrite Z. lra.
  - eexists. split; [reflexivity|]. unfold svd_correct, orthogonal. cbn [vx vy vz vzero]. repeat split; try (rnum; lra); lin.
  - intros ms Hms. eapply failed_nullspace with (s := 0) (v := v) (u := mid) (sv := vzero) (vt := mid); try reflexivity; [exact Hms|]. apply Rinv_0_lt_compat. lra.
Qed.
