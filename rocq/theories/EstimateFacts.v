(** Lemmas about sums and about the eight-point algorithm. *)
From Coq Require Import Reals List Arith Lia Lra Psatz.
From Verif Require Import Num Outcome Lin LinSpec LinFacts Pinhole PinholeSpec PinholeFacts EssentialFacts Estimate EstimateSpec.
Import ListNotations.
Open Scope R_scope.

(** ** Sums *)
Lemma sum_total n (f : nat -> R) : sum (N := RNum) n f = total n f.
Proof.
  unfold sum. induction n as [|n IH]; [reflexivity|]. rewrite seq_S, fold_left_app. cbn [fold_left]. rewrite IH. reflexivity.
Qed.
Lemma total_ext n f g : (forall i, (i < n)%nat -> f i = g i) -> total n f = total n g.
Proof. induction n as [|n IH]; intros H; [reflexivity|]. cbn [total]. rewrite IH, H by (intros; try apply H; lia). reflexivity. Qed.
Lemma total_zero n f : (forall i, (i < n)%nat -> f i = 0) -> total n f = 0.
Proof. induction n as [|n IH]; intros H; [reflexivity|]. cbn [total]. rewrite IH, H by (intros; try apply H; lia). ring. Qed.
Lemma total_plus n f g : total n (fun i => f i + g i) = total n f + total n g.
Proof. induction n as [|n IH]; cbn [total]; [ring|]. rewrite IH. ring. Qed.
Lemma total_scale n c f : total n (fun i => c * f i) = c * total n f.
Proof. induction n as [|n IH]; cbn [total]; [ring|]. rewrite IH. ring. Qed.
Lemma total_scale_r n c f : total n (fun i => f i * c) = total n f * c.
Proof. induction n as [|n IH]; cbn [total]; [ring|]. rewrite IH. ring. Qed.
Lemma total_swap n m (f : nat -> nat -> R) : total n (fun i => total m (fun j => f i j)) = total m (fun j => total n (fun i => f i j)).
Proof.
  induction n as [|n IH]; cbn [total].
  - symmetry. apply total_zero. reflexivity.
  - rewrite IH, <- total_plus. reflexivity.
Qed.
Lemma total_nonneg n f : (forall i, (i < n)%nat -> 0 <= f i) -> 0 <= total n f.
Proof. induction n as [|n IH]; intros H; cbn [total]; [lra|]. specialize (IH (fun i Hi => H i ltac:(lia))). specialize (H n ltac:(lia)). lra. Qed.
Lemma total_le n f g : (forall i, (i < n)%nat -> f i <= g i) -> total n f <= total n g.
Proof. induction n as [|n IH]; intros H; cbn [total]; [lra|]. specialize (IH (fun i Hi => H i ltac:(lia))). specialize (H n ltac:(lia)). lra. Qed.
Lemma total_nonneg_zero n f : (forall i, (i < n)%nat -> 0 <= f i) -> total n f = 0 -> forall i, (i < n)%nat -> f i = 0.
Proof.
  induction n as [|n IH]; intros H E i Hi; [lia|]. cbn [total] in E. pose proof (total_nonneg n f (fun i Hi => H i ltac:(lia))). pose proof (H n ltac:(lia)).
  destruct (Nat.eq_dec i n) as [->|D]; [lra|]. apply IH; [intros; apply H; lia|lra|lia].
Qed.
Lemma total_delta n f j : (j < n)%nat -> total n (fun i => delta i j * f i) = f j.
Proof.
  induction n as [|n IH]; intros Hj; [lia|]. cbn [total]. unfold delta at 2. destruct (Nat.eqb_spec n j) as [->|D].
  - rewrite total_zero; [ring|]. intros i Hi. unfold delta. destruct (Nat.eqb_spec i j); [lia|ring].
  - rewrite IH by lia. ring.
Qed.

Lemma inner_comm n u v : inner n u v = inner n v u. Proof. apply total_ext. intros. ring. Qed.
Lemma inner_ext n u u' v v' : (forall i, (i < n)%nat -> u i = u' i) -> (forall i, (i < n)%nat -> v i = v' i) -> inner n u v = inner n u' v'.
Proof. intros H K. apply total_ext. intros i Hi. rewrite H, K by exact Hi. reflexivity. Qed.
Lemma inner_scale_l n c u v : inner n (fun k => c * u k) v = c * inner n u v.
Proof. unfold inner. rewrite <- total_scale. apply total_ext. intros. ring. Qed.
Lemma inner_scale_r n c u v : inner n u (fun k => c * v k) = c * inner n u v.
Proof. unfold inner. rewrite <- total_scale. apply total_ext. intros. ring. Qed.
Lemma inner_self_nonneg n u : 0 <= inner n u u. Proof. apply total_nonneg. intros. nra. Qed.
Lemma inner_self_zero n u : inner n u u = 0 -> forall i, (i < n)%nat -> u i = 0.
Proof. intros H i Hi. pose proof (total_nonneg_zero n (fun k => u k * u k) (fun i _ => Rle_0_sqr (u i)) H i Hi). cbn beta in *. nra. Qed.
Lemma apply_ext n A B v w i : (forall k, (k < n)%nat -> A i k = B i k) -> (forall k, (k < n)%nat -> v k = w k) -> apply n A v i = apply n B w i.
Proof. intros H K. apply inner_ext; assumption. Qed.

(** Moving a matrix to the other side of an inner product. *)
Lemma apply_adjoint n m (A : rmatrix) u v : total m (fun i => u i * apply n A v i) = total n (fun k => total m (fun i => u i * A i k) * v k).
Proof.
  unfold apply, inner. erewrite total_ext by (intros; rewrite <- total_scale; reflexivity). rewrite total_swap. apply total_ext. intros k _.
  rewrite <- total_scale_r. apply total_ext. intros. ring.
Qed.
Definition symmetric (n : nat) (A : rmatrix) : Prop := forall i j, (i < n)%nat -> (j < n)%nat -> A i j = A j i.
Lemma apply_symmetric n A u v : symmetric n A -> inner n u (apply n A v) = inner n (apply n A u) v.
Proof.
  intros H. unfold inner at 1. rewrite apply_adjoint. apply total_ext. intros k Hk. f_equal. apply total_ext. intros i Hi. rewrite (H k i Hk Hi). ring.
Qed.

(** Gram matrices. *)
Lemma gram_total rows (M : rmatrix) j k : gram (N := RNum) rows M j k = total rows (fun i => M i j * M i k).
Proof. unfold gram. apply sum_total. Qed.
Lemma gram_symmetric n rows (M : rmatrix) : symmetric n (gram (N := RNum) rows M).
Proof. intros j k _ _. rewrite !gram_total. apply total_ext. intros. ring. Qed.
Lemma gram_quadratic n rows (M : rmatrix) x y : inner n x (apply n (gram (N := RNum) rows M) y) = inner rows (apply n M x) (apply n M y).
Proof.
  unfold inner at 2. rewrite apply_adjoint. unfold inner at 1. 
  transitivity (total n (fun j => total n (fun k => total rows (fun i => x j * (M i j * (M i k * y k)))))).
  - apply total_ext. intros j _. unfold apply, inner. rewrite <- total_scale. apply total_ext. intros k _. rewrite gram_total, <- total_scale_r, <- total_scale. apply total_ext. intros. ring.
  - rewrite total_swap. apply total_ext. intros k _. rewrite total_swap, <- total_scale_r. apply total_ext. intros i _. unfold apply, inner. rewrite <- !total_scale_r.
    apply total_ext. intros. ring.
Qed.
Lemma gram_kernel n rows (M : rmatrix) x : (forall i, (i < rows)%nat -> apply n M x i = 0) -> forall j, (j < n)%nat -> apply n (gram (N := RNum) rows M) x j = 0.
Proof.
  intros H j Hj. pose proof (gram_quadratic n rows M (fun k => delta k j) x) as E.
  unfold inner at 1 in E. rewrite total_delta in E by exact Hj. rewrite E. apply total_zero. intros i Hi. rewrite H by exact Hi. ring.
Qed.

(** ** Eigenvectors *)
Lemma argmin_spec n (v : nat -> R) : (0 < n)%nat -> (argmin (N := RNum) n v < n)%nat /\ forall i, (i < n)%nat -> v (argmin (N := RNum) n v) <= v i.
Proof.
  intros Hn. unfold argmin. cbn [ltb RNum].
  assert (forall k best seen, (best < n)%nat -> (forall i, (i < seen)%nat -> v best <= v i) -> (seen + k <= n)%nat ->
    let r := fold_left (fun best i => if Rltb (v i) (v best) then i else best) (seq seen k) best in
    (r < n)%nat /\ forall i, (i < seen + k)%nat -> v r <= v i) as H.
  { induction k as [|k IH]; intros best seen Hb Hs Hk; cbn [seq fold_left]; cbv zeta.
    - split; [exact Hb|]. intros i Hi. apply Hs. lia.
    - replace (seen + S k)%nat with (S seen + k)%nat by lia. apply IH; [..|lia].
      + destruct (Rltb _ _); lia.
      + intros i Hi. unfold Rltb. destruct (Rlt_dec (v seen) (v best)) as [L|L].
        * destruct (Nat.eq_dec i seen) as [->|D]; [lra|]. specialize (Hs i ltac:(lia)). lra.
        * destruct (Nat.eq_dec i seen) as [->|D]; [lra|]. apply Hs. lia. }
  specialize (H (n - 1)%nat O 1%nat ltac:(lia)). destruct H as [H1 H2]; [|lia|].
  - intros i Hi. replace i with O by lia. lra.
  - split; [exact H1|]. intros i Hi. apply H2. lia.
Qed.

(** A full orthonormal system satisfies the weaker requirement. *)
Lemma parseval n A values vectors x y : eigen_correct n A (values, vectors) ->
  inner n x y = total n (fun i => inner n (vectors i) x * inner n (vectors i) y).
Proof.
  intros (_ & _ & H). symmetry. unfold inner at 1 2. 
  transitivity (total n (fun a => total n (fun b => delta a b * y b) * x a)).
  - erewrite total_ext by (intros i Hi; rewrite <- total_scale_r; erewrite total_ext by (intros k Hk; rewrite <- total_scale; reflexivity); reflexivity).
    rewrite total_swap. apply total_ext. intros a Ha. rewrite total_swap, <- total_scale_r. apply total_ext. intros b Hb. rewrite <- (H a b Ha Hb), <- !total_scale_r. apply total_ext. intros. ring.
  - apply total_ext. intros a Ha. rewrite (total_ext n _ (fun b => delta b a * y b)); [rewrite total_delta by exact Ha; ring|]. intros b _. unfold delta. rewrite (Nat.eqb_sym a b). reflexivity.
Qed.
Lemma expansion n A values vectors x : eigen_correct n A (values, vectors) ->
  forall k, (k < n)%nat -> x k = total n (fun i => inner n (vectors i) x * vectors i k).
Proof.
  intros HE k Hk. pose proof (parseval n A values vectors x (fun i => delta i k) HE) as P.
  assert (forall u, inner n u (fun i => delta i k) = u k) as D.
  { intros u. unfold inner. rewrite <- (total_delta n u k Hk). apply total_ext. intros. ring. }
  rewrite D in P. rewrite P. apply total_ext. intros i _. rewrite D. reflexivity.
Qed.
Lemma eigen_lowest n A d : symmetric n A -> eigen_correct n A d -> lowest_correct n A d.
Proof.
  destruct d as [values vectors]. intros HA HE. pose proof HE as (H1 & H2 & H3). split; [exact H1|]. split.
  - intros i Hi. rewrite H2 by exact Hi. unfold delta. rewrite Nat.eqb_refl. reflexivity.
  - intros x c Hc. rewrite (parseval _ _ _ _ x x HE), (parseval _ _ _ _ x (apply n A x) HE), <- total_scale. apply total_le. intros i Hi.
    rewrite (apply_symmetric n A (vectors i) x HA). rewrite (inner_ext n _ (fun k => values i * vectors i k) x x (fun j Hj => H1 i j Hi Hj)) by reflexivity.
    rewrite inner_scale_l. specialize (Hc i Hi). pose proof (Rle_0_sqr (inner n (vectors i) x)). unfold Rsqr in *. nra.
Qed.

(** ** The epipolar constraint *)
Lemma of_columns_columns (E : rmat3) : of_columns (N := RNum) (columns E) = E.
Proof. destruct E as [[a b c] [d e f] [g h i]]. reflexivity. Qed.
Lemma of_columns_ext (u v : nat -> R) : (forall k, (k < 9)%nat -> u k = v k) -> of_columns (N := RNum) u = of_columns (N := RNum) v.
Proof. intros H. unfold of_columns. rewrite !H by lia. reflexivity. Qed.
Lemma of_columns_scale c (E : rmat3) : of_columns (N := RNum) (fun k => c * columns E k) = mscale c E.
Proof. destruct E as [[a b d] [e f g] [h i j]]. unfold of_columns, columns, mscale, vscale. cbn [row1 row2 row3 vx vy vz]. f_equal; f_equal; rring. Qed.
Lemma kron_columns (a b : rvec3) (E : rmat3) : total 9 (fun k => coord a (k / 3) * coord b (k mod 3) * columns E k) = dot b (mvec E a).
Proof. destruct E as [[e1 e2 e3] [e4 e5 e6] [e7 e8 e9]], a, b. unfold coord. cbn -[Rmult Rplus]. lin. Qed.

Lemma observes_epipolar p m : observes p m -> epipolar (essential_of p) m.
Proof.
  destruct m as [a b]. intros (q & s & t & Ha & Hb). cbn [fst snd] in *. subst. unfold epipolar, essential_of, iso_point. cbn [fst snd]. destruct p as [[[r1 r2 r3] [r4 r5 r6] [r7 r8 r9]] [t1 t2 t3]], q. lin.
Qed.
Lemma row8 (ms : list rmatch) E : (forall m, In m (firstn 8 ms) -> epipolar E m) ->
  forall i, inner 9 (encode8 (N := RNum) ms i) (columns E) = 0.
Proof.
  intros H i. unfold inner, encode8. destruct (nth_error (firstn 8 ms) i) as [[a b]|] eqn:Hi.
  - rewrite kron_columns. specialize (H _ (nth_error_In _ _ Hi)). unfold epipolar in H. cbn [fst snd] in H.
    replace (dot (vdiv b (vz a)) (mvec E (vdiv a (vz a)))) with (dot b (mvec E a) * / (vz a) * / (vz a)).
    + rewrite H. rnum. ring.
    + generalize (vz a). intros z. destruct E as [[e1 e2 e3] [e4 e5 e6] [e7 e8 e9]], a, b. lin_unfold. rnum_eq. unfold Rdiv. ring.
  - apply total_zero. intros. rnum. ring.
Qed.

(** ** The eight-point algorithm *)
Lemma encode8_apply (ms : list rmatch) x i : apply 9 (encode8 (N := RNum) ms) x i = inner 9 (encode8 (N := RNum) ms i) x. Proof. reflexivity. Qed.
Lemma columns_nonzero (E : rmat3) : E <> mzero -> 0 < inner 9 (columns E) (columns E).
Proof.
  intros H. destruct (Rle_lt_or_eq_dec 0 _ (inner_self_nonneg 9 (columns E))) as [L|L]; [exact L|]. exfalso. apply H. symmetry in L. pose proof (inner_self_zero _ _ L) as Z.
  rewrite <- (of_columns_columns E). unfold of_columns. rewrite !Z by lia. reflexivity.
Qed.
Lemma eight_point_exact eigen (ms : list rmatch) (E : rmat3) d :
  (forall m, In m (firstn 8 ms) -> epipolar E m) -> E <> mzero ->
  (forall x, (forall i, (i < 8)%nat -> inner 9 (encode8 (N := RNum) ms i) x = 0) -> exists c, forall k, (k < 9)%nat -> x k = c * columns E k) ->
  eigen (gram 8 (encode8 (N := RNum) ms)) = Some d -> lowest_correct 9 (gram 8 (encode8 (N := RNum) ms)) d ->
  exists c, c <> 0 /\ eight_point eigen ms = Some (mscale c E).
Proof.
  intros HE HE0 Hu Hs Hd. unfold eight_point. rewrite Hs. destruct d as [values vectors]. destruct Hd as (H1 & H2 & H3).
  destruct (argmin_spec 9 values ltac:(lia)) as [Hi Hmin]. set (i0 := argmin (N := RNum) 9 values) in *. set (v := vectors i0) in *.
  set (M := encode8 (N := RNum) ms) in *.
  assert (values i0 = inner 8 (apply 9 M v) (apply 9 M v)) as El.
  { rewrite <- gram_quadratic. unfold v. rewrite (inner_ext 9 (vectors i0) (vectors i0) _ (fun k => values i0 * vectors i0 k) (fun _ _ => eq_refl) (fun j Hj => H1 i0 j Hi Hj)).
    rewrite inner_scale_r. rewrite H2 by exact Hi. ring. }
  assert (values i0 <= 0) as L.
  { pose proof (H3 (columns E) (values i0) Hmin) as Q. rewrite gram_quadratic in Q. pose proof (columns_nonzero E HE0) as P.
    replace (inner 8 (apply 9 M (columns E)) (apply 9 M (columns E))) with 0 in Q; [nra|]. symmetry. apply total_zero. intros i _. unfold apply, M. rewrite (row8 ms E HE i). ring. }
  pose proof (inner_self_nonneg 8 (apply 9 M v)) as L2.
  destruct (Hu v) as [c Hc]. { intros i Hi8. apply (inner_self_zero 8 (apply 9 M v)); [lra|exact Hi8]. }
  exists c. split.
  - intros ->. specialize (H2 i0 Hi). fold v in H2. rewrite (inner_ext 9 v (fun _ => 0) v (fun _ => 0)) in H2 by (intros k Hk; rewrite Hc by exact Hk; ring).
    unfold inner in H2. rewrite total_zero in H2 by (intros; ring). lra.
  - f_equal. rewrite <- of_columns_scale. apply of_columns_ext. exact Hc.
Qed.

Lemma essential_scaled c (p : riso) : mscale c (essential_of p) = essential_of (Iso (rot p) (vscale c (trans p))).
Proof. unfold essential_of. cbn [rot trans]. rewrite cross_matrix_scale. generalize (cross_matrix (trans p)), (rot p). clear. intros A B. destruct A as [[? ? ?] [? ? ?] [? ? ?]], B as [[? ? ?] [? ? ?] [? ? ?]]. lin. Qed.
Lemma vscale_nonzero c (v : rvec3) : c <> 0 -> v <> vzero -> vscale c v <> vzero.
Proof.
  intros Hc Hv E. apply Hv. destruct v as [x y z]. unfold vscale, vzero in *. cbn [vx vy vz] in *. injection E as Ex Ey Ez. rnum.
  apply Rmult_integral in Ex as [Ex|Ex], Ey as [Ey|Ey], Ez as [Ez|Ez]; try contradiction. subst. reflexivity.
Qed.
Lemma normalize_scaled c (v : rvec3) : c <> 0 -> v <> vzero -> normalize (vscale c v) = normalize v \/ normalize (vscale c v) = vneg (normalize v).
Proof.
  intros Hc Hv. pose proof (norm_pos v Hv) as Hn.
  assert (norm (vscale c v) = Rabs c * norm v) as E.
  { unfold norm. rnum. replace (norm2 (vscale c v)) with (Rsqr c * norm2 v) by (unfold Rsqr; destruct v; lin). rewrite sqrt_mult; [|apply Rle_0_sqr|apply norm2_nonneg]. rewrite sqrt_Rsqr_abs. reflexivity. }
  unfold normalize. rewrite E. destruct (Rcase_abs c) as [L|L].
  - right. rewrite Rabs_left by exact L. generalize dependent (norm v). intros n Hn _. destruct v as [x y z]. unfold vdiv, vscale, vneg. cbn [vx vy vz]. f_equal; rnum; field; lra.
  - left. rewrite Rabs_right by exact L. generalize dependent (norm v). intros n Hn _. destruct v as [x y z]. unfold vdiv, vscale. cbn [vx vy vz]. f_equal; rnum; field; lra.
Qed.
(** The poses of a multiple of an essential matrix. *)
Lemma scaled_poses try_svd (p : riso) c d : rigid p -> trans p <> vzero -> c <> 0 -> try_svd (mscale c (essential_of p)) = Some d -> svd_correct (mscale c (essential_of p)) d ->
  exists l, possible_unscaled_poses try_svd (mscale c (essential_of p)) = Some l /\ length l = 4%nat /\ (forall q, In q l -> rigid q /\ unit_vec (trans q)) /\
    In (Iso (rot p) (normalize (trans p))) l.
Proof.
  intros Hp Ht Hc. rewrite essential_scaled. intros Hs Hd. 
  destruct (possible_rotations_spec try_svd (Iso (rot p) (vscale c (trans p))) d Hp (vscale_nonzero _ _ Hc Ht) Hs Hd) as (ra & rb & t & E & Ra & Rb & Hu & H).
  unfold possible_unscaled_poses. rewrite E. eexists. split; [reflexivity|]. split; [reflexivity|]. split.
  - pose proof (unit_neg t Hu). intros q [<-|[<-|[<-|[<-|[]]]]]; split; assumption.
  - cbn [rot trans] in H. destruct (normalize_scaled c (trans p) Hc Ht) as [N|N]; rewrite N in H.
    + destruct H as [[-> ->]|[-> ->]]; [right; left; reflexivity|right; right; left]. rewrite vneg_neg. reflexivity.
    + destruct H as [[-> ->]|[-> ->]]; [right; right; right; left|left]; rewrite vneg_neg; reflexivity.
Qed.
Lemma eight_point_poses eigen try_svd (ms : list rmatch) (p : riso) d s :
  rigid p -> trans p <> vzero ->
  (forall m, In m (firstn 8 ms) -> epipolar (essential_of p) m) ->
  (forall x, (forall i, (i < 8)%nat -> inner 9 (encode8 (N := RNum) ms i) x = 0) -> exists c, forall k, (k < 9)%nat -> x k = c * columns (essential_of p) k) ->
  eigen (gram 8 (encode8 (N := RNum) ms)) = Some d -> lowest_correct 9 (gram 8 (encode8 (N := RNum) ms)) d ->
  (forall c, try_svd (mscale c (essential_of p)) = Some (s c)) -> (forall c, svd_correct (mscale c (essential_of p)) (s c)) ->
  length (eight_point_estimate eigen try_svd ms) = 4%nat /\
  (forall q, In q (eight_point_estimate eigen try_svd ms) -> rigid q /\ unit_vec (trans q)) /\
  In (Iso (rot p) (normalize (trans p))) (eight_point_estimate eigen try_svd ms).
Proof.
  intros Hp Ht HE Hu He Hd Hs Hs2.
  assert (essential_of p <> mzero) as H0.
  { intros E. apply Ht.
    assert (forall w, mvec (cross_matrix (trans p)) w = vzero) as Z.
    { intros w. rewrite <- (rotation_forth (rot p) w Hp), <- mvec_mmul. change (mmul (cross_matrix (trans p)) (rot p)) with (essential_of p). rewrite E. generalize (mvec (mtrans (rot p)) w). clear. lin. }
    destruct (trans p) as [x y z]. pose proof (Z (V3 1 0 0)) as Z1. pose proof (Z (V3 0 1 0)) as Z2. unfold cross_matrix, mvec, dot, vzero in *. cbn [vx vy vz row1 row2 row3] in *. injection Z1 as ? ? ?. injection Z2 as ? ? ?. rnum. apply (f_equal3 V3); lra. }
  destruct (eight_point_exact eigen ms (essential_of p) d HE H0 Hu He Hd) as (c & Hc & Ee). unfold eight_point_estimate. rewrite Ee.
  destruct (scaled_poses try_svd p c (s c) Hp Ht Hc (Hs c) (Hs2 c)) as (l & -> & H1 & H2 & H3). auto.
Qed.
Lemma eight_point_at_most_four {N : Num} eigen try_svd (ms : list (bearings N)) : (length (eight_point_estimate eigen try_svd ms) <= 4)%nat.
Proof.
  unfold eight_point_estimate. destruct (eight_point eigen ms); [|cbn; lia]. unfold possible_unscaled_poses. destruct (possible_rotations_unscaled_translation _ _) as [[[? ?] ?]|]; cbn; lia.
Qed.
Lemma eight_point_first_eight {N : Num} eigen try_svd (ms : list (bearings N)) : eight_point_estimate eigen try_svd ms = eight_point_estimate eigen try_svd (firstn 8 ms).
Proof. unfold eight_point_estimate, eight_point, encode8. rewrite firstn_firstn. reflexivity. Qed.
