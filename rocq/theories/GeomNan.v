(** Triangulation in floating point: which eigenvalue is used when some are NaN (C39). *)
From Coq Require Import ZArith List Bool Lia SpecFloat.
From Verif Require Import Num Lin Core Geom.
Import ListNotations.

Lemma sf_lt_trans (z x b : spec_float) : SFltb z x = true -> SFltb x b = true \/ SFeqb x b = true -> SFltb z b = true.
Proof.
  destruct z as [sz|sz| |sz mz ez], x as [sx|sx| |sx mx ex], b as [sb|sb| |sb mb eb]; try destruct sz; try destruct sx; try destruct sb; unfold SFltb, SFeqb, SFcompare; intros H1 H2;
  try reflexivity; try discriminate H1; try (destruct H2 as [H2|H2]; discriminate H2).
  - destruct (Z.compare_spec ez ex); destruct (Z.compare_spec ex eb); destruct (Z.compare_spec ez eb); subst; try reflexivity; try lia; try discriminate H1; try (destruct H2 as [H2|H2]; discriminate H2).
    change (Pos.compare_cont Eq) with Pos.compare in *. destruct (Pos.compare_spec mz mx); destruct (Pos.compare_spec mx mb); destruct (Pos.compare_spec mz mb); subst; cbn in *; try reflexivity; try lia; try discriminate H1; try (destruct H2 as [H2|H2]; discriminate H2).
  - destruct (Z.compare_spec ez ex); destruct (Z.compare_spec ex eb); destruct (Z.compare_spec ez eb); subst; try reflexivity; try lia; try discriminate H1; try (destruct H2 as [H2|H2]; discriminate H2).
    change (Pos.compare_cont Eq) with Pos.compare in *. destruct (Pos.compare_spec mz mx); destruct (Pos.compare_spec mx mb); destruct (Pos.compare_spec mz mb); subst; cbn in *; try reflexivity; try lia; try discriminate H1; try (destruct H2 as [H2|H2]; discriminate H2).
Qed.
Lemma sf_compared (x b : spec_float) : SFltb x b = true \/ SFeqb x b = true -> sf_isnan x = false /\ sf_isnan b = false.
Proof. destruct x, b; unfold SFltb, SFeqb, SFcompare, sf_isnan; intros [H|H]; try discriminate H; split; reflexivity. Qed.
Lemma sf_lt_irrefl (x : spec_float) : SFltb x x = false.
Proof. destruct x as [s|s| |s m e]; try destruct s; unfold SFltb, SFcompare; try reflexivity; rewrite Z.compare_refl; change (Pcompare m m Eq) with (Pos.compare m m); rewrite Pos.compare_refl; reflexivity. Qed.

(** [x] comes before [b]. *)
Lemma before_spec (x b : F64) : float_ord_ltb x b = true -> sf_isnan x = false /\ (sf_isnan b = true \/ SFltb x b = true \/ SFeqb x b = true).
Proof.
  unfold float_ord_ltb. change (isnan b) with (sf_isnan b). change (isnan x) with (sf_isnan x). change (ltb (n := F64) x b) with (SFltb x b). change (eqb (n := F64) x b) with (SFeqb x b).
  destruct (sf_isnan b) eqn:Eb; [destruct (sf_isnan x); [discriminate|]; auto|]. intros H. assert (SFltb x b = true \/ SFeqb x b = true) as H'.
  { destruct (SFltb x b); [auto|]. destruct (SFeqb x b); [auto|discriminate H]. }
  split; [exact (proj1 (sf_compared x b H'))|auto].
Qed.
Lemma not_before_spec (x b : F64) : float_ord_ltb x b = false -> sf_isnan x = false -> sf_isnan b = false /\ SFltb x b = false.
Proof.
  unfold float_ord_ltb. change (isnan b) with (sf_isnan b). change (isnan x) with (sf_isnan x). change (ltb (n := F64) x b) with (SFltb x b).
  destruct (sf_isnan b); [intros H Hx; rewrite Hx in H; discriminate H|]. intros H _. split; [reflexivity|]. destruct (SFltb x b); [discriminate H|reflexivity].
Qed.

(** [b] is one of the least of the numbers among [z]. *)
Definition least_number (b z : F64) : Prop := isnan z = false -> isnan b = false /\ ltb z b = false.
Lemma least_step (x b z : F64) : least_number b z -> float_ord_ltb x b = true -> least_number x z.
Proof.
  intros H Hb Hz. destruct (before_spec x b Hb) as [Hx Hc]. split; [exact Hx|]. destruct (H Hz) as [Hn Hl]. change (sf_isnan b = false) in Hn. change (SFltb z b = false) in Hl. change (SFltb z x = false).
  destruct (SFltb z x) eqn:E; [|reflexivity]. destruct Hc as [Hc|Hc]; [congruence|]. rewrite (sf_lt_trans z x b E Hc) in Hl. discriminate Hl.
Qed.
Lemma least_self (b : F64) : least_number b b.
Proof. intros Hb. split; [exact Hb|exact (sf_lt_irrefl b)]. Qed.
Lemma min_float_least {X} (key : X -> F64) l : forall best seen, (forall z, In z seen -> least_number (key best) (key z)) ->
  (min_float_by key best l = best \/ In (min_float_by key best l) l) /\ forall z, In z seen \/ z = best \/ In z l -> least_number (key (min_float_by key best l)) (key z).
Proof.
  induction l as [|x l IH]; intros best seen Hs; cbn [min_float_by].
  - split; [left; reflexivity|]. intros z [Hz|[->|[]]]; [exact (Hs z Hz)|apply least_self].
  - destruct (float_ord_ltb (key x) (key best)) eqn:E.
    + destruct (IH x (best :: seen)) as [H1 H2].
      { intros z [<-|Hz]; [|exact (least_step _ _ _ (Hs z Hz) E)]. apply (least_step (key x) (key best)); [apply least_self|exact E]. }
      split; [right; destruct H1 as [->|H1]; [left; reflexivity|right; exact H1]|]. intros z [Hz|[->|[->|Hz]]]; apply H2; cbn [In]; auto.
    + destruct (IH best (x :: seen)) as [H1 H2].
      { intros z [<-|Hz]; [|exact (Hs z Hz)]. intros Hx. exact (not_before_spec _ _ E Hx). }
      split; [destruct H1 as [->|H1]; [left; reflexivity|right; right; exact H1]|]. intros z [Hz|[->|[->|Hz]]]; apply H2; cbn [In]; auto.
Qed.

Lemma eigen_used (eigen : mat4 F64 -> option (list (eigenpair F64))) (l : list (observation F64)) p es :
  eigen (design l) = Some es -> linear_eigen eigen l = Some p ->
  exists lambda v, In (lambda, v) es /\ p = from_homogeneous v /\ forall lambda' v', In (lambda', v') es -> isnan lambda' = false -> isnan lambda = false /\ ltb lambda' lambda = false.
Proof.
  intros He. unfold linear_eigen. rewrite He. destruct (Nat.ltb (length l) 2); [discriminate|]. destruct es as [|e es]; [discriminate|].
  destruct (min_float_least (X := eigenpair F64) fst es e []) as [H1 H2]; [intros z []|]. set (r := min_float_by (X := eigenpair F64) fst e es) in *.
  unfold checked. destruct (h_finite _); [|discriminate]. destruct (forallb _ l); [|discriminate]. intros H. exists (fst r), (snd r). split; [|split].
  - rewrite <- surjective_pairing. destruct H1 as [->|H1]; [left; reflexivity|right; exact H1].
  - assert (forall a b : vec4 F64, Some a = Some b -> b = a) as Hinj by congruence. exact (Hinj _ _ H).
  - intros lambda' v' [E|Hin].
    + apply (H2 (lambda', v')). right. left. symmetry. exact E.
    + apply (H2 (lambda', v')). right. right. exact Hin.
Qed.

(** A NaN among the eigenvalues is not used although it comes first. *)
Definition nan_pairs : list (eigenpair F64) := [(S754_nan : F64, V4 (N := F64) one zero zero zero); (one : F64, V4 (N := F64) zero one zero zero); (zero : F64, V4 (N := F64) zero zero one one)].
Definition ahead : list (observation F64) := [(iso_id, V3 zero zero one); (iso_id, V3 zero zero one)].
Definition used_pair : bool := match linear_eigen (fun _ => Some nan_pairs) ahead with Some p => eqb (hx p) zero && eqb (hy p) zero && eqb (hz p) one && eqb (hw p) one | None => false end.
Lemma used_pair_ok : used_pair = true.
Proof. vm_compute. reflexivity. Qed.
Lemma nan_case : exists p, linear_eigen (fun _ => Some nan_pairs) ahead = Some p /\ eqb (hx p) zero = true /\ eqb (hy p) zero = true /\ eqb (hz p) one = true /\ eqb (hw p) one = true.
Proof.
  pose proof used_pair_ok as H. unfold used_pair in H. destruct (linear_eigen _ _) as [p|]; [|discriminate H]. exists p. split; [reflexivity|]. apply andb_true_iff in H as [H H4]. apply andb_true_iff in H as [H H3]. apply andb_true_iff in H as [H1 H2]. auto.
Qed.
