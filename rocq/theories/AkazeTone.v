(** Changes of brightness and contrast: proofs for images and the scale space. *)
From Coq Require Import List Arith Lia Bool ZArith NArith Reals Lra Psatz.
From Verif Require Import Num LinSpec LinFacts Outcome OutcomeFacts Gray GraySpec GrayFacts GrayReal GrayProps Diffuse DiffuseSpec DiffuseFacts DiffuseProps Akaze AkazeSpec AkazeToneSpec.
Import ListNotations.
Open Scope R_scope.

(** ** Related outcomes *)
Definition orel {A B} (R : A -> B -> Prop) (m : outcome A) (m' : outcome B) : Prop :=
  match m, m' with Ok a, Ok b => R a b | Panic, Panic => True | Fuel, Fuel => True | _, _ => False end.
Lemma orel_bind {A B C D} (R : A -> B -> Prop) (S : C -> D -> Prop) m m' f f' :
  orel R m m' -> (forall x x', m = Ok x -> m' = Ok x' -> R x x' -> orel S (f x) (f' x')) -> orel S (bind m f) (bind m' f').
Proof. destruct m, m'; cbn; try easy. intros H K. now apply K. Qed.
Lemma orel_foldM {S S' X X'} (R : S -> S' -> Prop) (Q : X -> X' -> Prop) f f' l l' :
  Forall2 Q l l' -> (forall s s' x x', In x l -> R s s' -> Q x x' -> orel R (f s x) (f' s' x')) -> forall s s', R s s' -> orel R (foldM f l s) (foldM f' l' s').
Proof.
  induction 1 as [|x x' l l' H F IH]; intros K s s' Hs; cbn [foldM]; [exact Hs|].
  apply (orel_bind R); [apply K; [now left|exact Hs|exact H]|]. intros t t' _ _ Ht. apply IH; [|exact Ht]. intros. apply K; [now right|assumption|assumption]. Qed.
Lemma orel_mapM {X X' Y Y'} (Q : X -> X' -> Prop) (R : Y -> Y' -> Prop) f f' l l' :
  Forall2 Q l l' -> (forall x x', In x l -> Q x x' -> orel R (f x) (f' x')) -> orel (Forall2 R) (mapM f l) (mapM f' l').
Proof.
  induction 1 as [|x x' l l' H F IH]; intros K; cbn [mapM]; [constructor|].
  apply (orel_bind R); [apply K; [now left|exact H]|]. intros y y' _ _ Hy. apply (orel_bind (Forall2 R)); [apply IH; intros; apply K; [now right|assumption]|].
  intros. cbn. now constructor. Qed.
Lemma forall2_refl {X} (l : list X) : Forall2 eq l l.
Proof. induction l; constructor; auto. Qed.

(** ** Images *)
(** Two images of the same size, the second retoned. *)
Definition im (a c : R) (w h : nat) (g g' : gray RNum) : Prop := sized w h g /\ image_of (N := RNum) w h (fun x y => a * pixel g x y + c) g'.
Section images.
Variables (w h : nat).
Hypotheses (Hw : (0 < w)%nat) (Hh : (0 < h)%nat).
Lemma im_extended a c g g' X Y : im a c w h g g' -> extended g' X Y = a * extended g X Y + c.
Proof. intros [(W & H & D) I]. rewrite (extended_of w h _ g' X Y I Hw Hh). unfold extended. now rewrite W, H. Qed.
Lemma im_correlate a c g g' hk vk x y : im a c w h g g' ->
  correlate hk vk g' x y = a * correlate hk vk g x y + c * rsum (length hk) (fun i => nth i hk 0) * rsum (length vk) (fun i => nth i vk 0).
Proof.
  intros I. rewrite !correlate_factor.
  transitivity (rsum (length vk) (fun j => a * (nth j vk 0 * rsum (length hk) (fun i => nth i hk 0 * extended g (Z.of_nat x + offset hk i) (Z.of_nat y + offset vk j)))
    + c * rsum (length hk) (fun i => nth i hk 0) * nth j vk 0)).
  - apply rsum_ext. intros j _. transitivity (nth j vk 0 * rsum (length hk) (fun i => a * (nth i hk 0 * extended g (Z.of_nat x + offset hk i) (Z.of_nat y + offset vk j)) + c * nth i hk 0)).
    + f_equal. apply rsum_ext. intros i _. rewrite (im_extended a c g g' _ _ I). rring.
    + rewrite rsum_plus, !rsum_scal. rring.
  - rewrite rsum_plus, !rsum_scal. rring. Qed.
Lemma im_blur a c g g' r : im a c w h g g' -> orel (im a c w h) (@gaussian_blur RNum Rmath g r) (@gaussian_blur RNum Rmath g' r).
Proof.
  intros I. destruct (Rle_dec r 0) as [L|L]; [rewrite !blur_nonpositive by exact L; exact Logic.I|].
  destruct (gaussian_blur_correlates w h g r (proj1 I) Hw Hh ltac:(lra)) as (o & E & S & P). destruct (gaussian_blur_correlates w h g' r (proj1 (proj2 I)) Hw Hh ltac:(lra)) as (o' & E' & S' & P'). rewrite E, E'. cbn.
  split; [exact S|]. split; [exact S'|]. intros x y Hx Hy. rewrite P' by assumption. rewrite (im_correlate a c g g' _ _ x y I). rewrite (P x y Hx Hy).
  destruct (gauss_averaging r (blur_radius r)) as [_ SU]. rewrite !SU. rring. Qed.
Lemma im_scharr_x a c g g' s x y : im a c w h g g' -> scharr_x g' s x y = a * scharr_x g s x y + 0.
Proof. intros I. unfold scharr_x, across. rewrite !(im_extended a c g g' _ _ I). rring. Qed.
Lemma im_scharr_y a c g g' s x y : im a c w h g g' -> scharr_y g' s x y = a * scharr_y g s x y + 0.
Proof. intros I. unfold scharr_y, down. rewrite !(im_extended a c g g' _ _ I). rring. Qed.
Lemma im_scharr a c g g' s : im a c w h g g' ->
  orel (im a 0 w h) (@scharr_horizontal RNum g s) (@scharr_horizontal RNum g' s) /\ orel (im a 0 w h) (@scharr_vertical RNum g s) (@scharr_vertical RNum g' s).
Proof.
  intros I. destruct (Nat.eq_dec s 0) as [->|NZ]; [split; exact Logic.I|].
  destruct (scharr_image w h g s (proj1 I) Hw Hh ltac:(lia)) as (gx & gy & E1 & E2 & (S1 & P1) & S2 & P2).
  destruct (scharr_image w h g' s (proj1 (proj2 I)) Hw Hh ltac:(lia)) as (gx' & gy' & E1' & E2' & (S1' & P1') & S2' & P2'). rewrite E1, E2, E1', E2'. cbn. split.
  - split; [exact S1|]. split; [exact S1'|]. intros x y Hx Hy. rewrite P1' by assumption. rewrite (P1 x y Hx Hy). now apply (im_scharr_x a c).
  - split; [exact S2|]. split; [exact S2'|]. intros x y Hx Hy. rewrite P2' by assumption. rewrite (P2 x y Hx Hy). now apply (im_scharr_y a c). Qed.
Lemma im_half a c g g' : im a c w h g g' -> orel (fun o o' => (2 <= w)%nat /\ (2 <= h)%nat /\ im a c (w / 2) (h / 2) o o') (@half_size RNum g) (@half_size RNum g').
Proof.
  intros I. destruct (le_lt_dec 2 w) as [Lw|Lw]; [|rewrite !(half_size_small w h); [exact Logic.I|apply I|lia|apply I|lia]].
  destruct (le_lt_dec 2 h) as [Lh|Lh]; [|rewrite !(half_size_small w h); [exact Logic.I|apply I|lia|apply I|lia]].
  destruct (half_size_image w h g (proj1 I) Lw Lh) as (o & E & S & P). destruct (half_size_image w h g' (proj1 (proj2 I)) Lw Lh) as (o' & E' & S' & P'). rewrite E, E'. cbn.
  split; [exact Lw|]. split; [exact Lh|]. split; [exact S|]. split; [exact S'|]. intros x y Hx Hy. rewrite P' by assumption. rewrite (P x y Hx Hy). destruct I as (_ & _ & Q).
  pose proof (half_index w x Hx). pose proof (half_index h y Hy). unfold half_value.
  destruct (Nat.odd w && (x =? w / 2 - 1)%nat), (Nat.odd h && (y =? h / 2 - 1)%nat); rewrite !Q by lia; rfield. Qed.
Lemma im_flow a Lx Lx' Ly Ly' k : 0 < a -> im a 0 w h Lx Lx' -> im a 0 w h Ly Ly' -> orel (im 1 0 w h) (pm_g2 Rwidths Lx Ly k) (pm_g2 Rwidths Lx' Ly' (a * k)).
Proof.
  intros Ha [SX (SX' & PX)] [SY (SY' & PY)]. unfold pm_g2. destruct SX as (A1 & A2 & _), SY as (B1 & B2 & _), SX' as (A1' & A2' & _), SY' as (B1' & B2' & _). cbn [single Rwidths] in *.
  rewrite A1, A2, B1, B2, A1', A2', B1', B2', !Nat.eqb_refl. cbn [andb assert_ orel]. split; [apply of_fn_sized|]. split; [apply of_fn_sized|]. intros x y Hx Hy. rewrite !pixel_of_fn by assumption.
  rewrite (PX x y Hx Hy), (PY x y Hx Hy). rnum. set (u := pixel Lx x y : R). set (v := pixel Ly x y : R). cbn [narrow Rwidths].
  assert (E : 1 / (a * k * (a * k)) * ((a * u + 0) * (a * u + 0) + (a * v + 0) * (a * v + 0)) = 1 / (k * k) * (u * u + v * v)).
  { unfold Rdiv. rewrite !Rinv_mult, !Rplus_0_r. transitivity (1 * (/ k * / k) * (u * u + v * v) * ((/ a * a) * (/ a * a))); [rring|]. rewrite Rinv_l by lra. rring. }
  change (carrier RNum) with R in *. match goal with |- 1 / (1 + ?A) = 1 * (1 / (1 + ?B)) + 0 => replace A with B by (symmetry; exact E) end. rring. Qed.
Lemma rsum_list_affine {X} (l : list X) f f' (a : R) : (forall x, In x l -> f' x = a * f x) -> rsum_list f' l = a * rsum_list f l.
Proof. induction l as [|x l IH]; intros K; cbn [rsum_list]; [rring|]. rewrite K, IH by (try (now left); intros; apply K; now right). rring. Qed.
Lemma neighbours_in x y p : (x < w)%nat -> (y < h)%nat -> In p (neighbours w h x y) -> (fst p < w)%nat /\ (snd p < h)%nat.
Proof.
  intros Hx Hy. unfold neighbours. rewrite !in_app_iff.
  destruct (Nat.ltb_spec (x + 1) w), (Nat.leb_spec 1 x), (Nat.ltb_spec (y + 1) h), (Nat.leb_spec 1 y); cbn [In]; intros K; repeat destruct K as [K|K]; try (exfalso; exact K); subst p; cbn; lia. Qed.
Lemma im_step a c g g' flow flow' s : im a c w h g g' -> im 1 0 w h flow flow' -> orel (im a c w h) (@calculate_step RNum g flow s) (@calculate_step RNum g' flow' s).
Proof.
  intros I F. destruct (step_image w h g flow s (proj1 I) (proj1 F) Hw Hh) as (o & E & S & P). destruct (step_image w h g' flow' s (proj1 (proj2 I)) (proj1 (proj2 F)) Hw Hh) as (o' & E' & S' & P').
  rewrite E, E'. cbn. split; [exact S|]. split; [exact S'|]. intros x y Hx Hy. rewrite P' by assumption. rewrite (P x y Hx Hy). destruct I as ((A1 & A2 & _) & (A1' & A2' & _) & Q). destruct F as (_ & _ & QF).
  unfold diffused. rewrite A1, A2, A1', A2'. rewrite (Q x y Hx Hy). rewrite (rsum_list_affine (neighbours w h x y) (fun '(i, j) => (pixel flow x y + pixel flow i j) / 2 * (pixel g i j - pixel g x y)) _ a).
  - cbn [carrier RNum]. rring.
  - intros [i j] Hn. destruct (neighbours_in x y (i, j) Hx Hy Hn) as [Hi Hj]. cbn [fst snd] in *. rewrite (QF x y Hx Hy), (QF i j Hi Hj), (Q i j Hi Hj). cbn [carrier RNum]. rfield. Qed.
(** *** The contrast factor *)
Lemma inner_range p : In p (inner w h) -> (fst p < w)%nat /\ (snd p < h)%nat.
Proof. unfold inner. intros K. apply in_flat_map in K as (y & Hy & K). apply in_map_iff in K as (x & <- & Hx). apply in_seq in Hx, Hy. cbn. lia. Qed.
Lemma im_gradient a Lx Lx' Ly Ly' p : 0 < a -> im a 0 w h Lx Lx' -> im a 0 w h Ly Ly' -> In p (inner w h) -> gradient Lx' Ly' p = a * gradient Lx Ly p.
Proof.
  intros Ha [_ (_ & PX)] [_ (_ & PY)] K. destruct (inner_range p K) as [Hx Hy]. unfold gradient. rewrite (PX _ _ Hx Hy), (PY _ _ Hx Hy). rewrite !Rplus_0_r.
  set (u := pixel Lx (fst p) (snd p) : R). set (v := pixel Ly (fst p) (snd p) : R). cbn [carrier RNum]. replace (a * u * (a * u) + a * v * (a * v)) with (a * a * (u * u + v * v)) by rring. rewrite sqrt_mult_alt by nra. rewrite sqrt_square by lra. reflexivity. Qed.
Lemma filter_same {X} (f f' : X -> bool) l : (forall x, In x l -> f' x = f x) -> filter f' l = filter f l.
Proof. intros. now apply filter_ext_in. Qed.
Lemma count_below_mono Lx Ly top bins k k' : 0 <= top -> (k <= k')%nat -> (count_below Lx Ly top bins k <= count_below Lx Ly top bins k')%nat.
Proof.
  intros T K. unfold count_below. induction (edges Lx Ly) as [|p l IH]; [reflexivity|]. cbn [filter].
  destruct (Rltb (gradient Lx Ly p * INR bins) (INR k * top) || (bins <=? k)%nat) eqn:E.
  - replace (Rltb (gradient Lx Ly p * INR bins) (INR k' * top) || (bins <=? k')%nat) with true; [cbn [length]; lia|]. symmetry. apply orb_true_iff in E as [E|E].
    + apply orb_true_iff. left. unfold Rltb in *. destruct (Rlt_dec _ (INR k * top)) as [L|]; [|discriminate]. destruct (Rlt_dec _ (INR k' * top)) as [|N]; [reflexivity|]. exfalso. apply N. apply le_INR in K. nra.
    + apply orb_true_iff. right. apply Nat.leb_le in E. apply Nat.leb_le. lia.
  - destruct (Rltb (gradient Lx Ly p * INR bins) (INR k' * top) || (bins <=? k')%nat); cbn [length]; lia. Qed.
Lemma im_contrast_of a Lx Lx' Ly Ly' percentile bins : 0 < a -> im a 0 w h Lx Lx' -> im a 0 w h Ly Ly' -> (3 <= w)%nat -> (3 <= h)%nat -> (0 < bins)%nat -> 0 <= percentile <= 1 ->
  orel (fun k k' : R => k' = a * k) (contrast_of Rwidths Rmath Lx Ly percentile bins) (contrast_of Rwidths Rmath Lx' Ly' percentile bins).
Proof.
  intros Ha IX IY H3 H3' Hb Hp. destruct (DiffuseProps.contrast_percentile w h Lx Ly percentile bins (proj1 IX) (proj1 IY) H3 H3' Hb Hp) as (top & k & T & K & E & L1 & L2).
  destruct (DiffuseProps.contrast_percentile w h Lx' Ly' percentile bins (proj1 (proj2 IX)) (proj1 (proj2 IY)) H3 H3' Hb Hp) as (top' & k' & T' & K' & E' & L1' & L2').
  assert (G : forall p, In p (inner w h) -> gradient Lx' Ly' p = a * gradient Lx Ly p) by (intros; now apply im_gradient).
  destruct (proj1 IX) as (W & H & _). destruct (proj1 (proj2 IX)) as (W' & H' & _).
  assert (ET : top' = a * top).
  { destruct T as [(p & Ip & Ep) M], T' as [(p' & Ip' & Ep') M']. rewrite W, H in *. rewrite W', H' in *. pose proof (M p' Ip') as Q1. pose proof (M' p Ip) as Q2. rewrite G in Q2, Ep' by assumption. nra. }
  assert (T0 : 0 <= top) by (destruct T as [(p & _ & <-) _]; apply sqrt_pos).
  assert (EE : edges Lx' Ly' = edges Lx Ly).
  { unfold edges. rewrite W, H, W', H'. apply filter_same. intros p Ip. f_equal. rewrite G by exact Ip. unfold Reqb. destruct (Req_EM_T (a * gradient Lx Ly p) 0), (Req_EM_T (gradient Lx Ly p) 0); try reflexivity; exfalso; nra. }
  assert (EC : forall j, count_below Lx' Ly' top' bins j = count_below Lx Ly top bins j).
  { intros j. unfold count_below. rewrite EE. f_equal. apply filter_same. intros p Ip. assert (In p (inner w h)) as Ip' by (apply filter_In in Ip as [Ip _]; now rewrite W, H in Ip). rewrite G by exact Ip'. rewrite ET. f_equal.
    unfold Rltb. destruct (Rlt_dec (a * gradient Lx Ly p * INR bins) (INR j * (a * top))), (Rlt_dec (gradient Lx Ly p * INR bins) (INR j * top)); try reflexivity; exfalso; nra. }
  cbv zeta in L1, L2, L1', L2'. rewrite EE, EC in *. set (wanted := Z.to_nat _) in *.
  assert (EK : k' = k).
  { destruct (Nat.lt_trichotomy k k') as [Q|[Q|Q]]; [|now symmetry|]; exfalso.
    - destruct L2' as [L2'|L2']; [lia|]. pose proof (count_below_mono Lx Ly top bins k (k' - 1) T0 ltac:(lia)). lia.
    - destruct L2 as [L2|L2]; [lia|]. pose proof (count_below_mono Lx Ly top bins k' (k - 1) T0 ltac:(lia)). lia. }
  rewrite E, E'. cbn. rewrite EK, ET. unfold Rdiv. rring. Qed.
Lemma im_contrast a c g g' percentile bins : 0 < a -> im a c w h g g' -> (3 <= w)%nat -> (3 <= h)%nat -> (0 < bins)%nat -> 0 <= percentile <= 1 ->
  orel (fun k k' : R => k' = a * k) (compute_contrast_factor Rwidths Rmath Rmath g percentile 1 bins) (compute_contrast_factor Rwidths Rmath Rmath g' percentile 1 bins).
Proof.
  intros Ha I H3 H3' Hb Hp. unfold compute_contrast_factor. apply (orel_bind (im a c w h)); [now apply im_blur|]. intros b b' _ _ Ib.
  apply (orel_bind (im a 0 w h)); [now apply (im_scharr a c b b' 1)|]. intros x x' _ _ Ix. apply (orel_bind (im a 0 w h)); [now apply (im_scharr a c b b' 1)|]. intros y y' _ _ Iy. now apply im_contrast_of. Qed.
End images.
