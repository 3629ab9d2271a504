(** * The keypoints of an image lie in it, away from its border. *)
From Coq Require Import Reals List Arith ZArith Lia Lra Permutation.
From Verif Require Import Num Outcome OutcomeFacts LinSpec Gray GraySpec GrayFacts Diffuse DiffuseSpec Akaze AkazeSpec AkazeSchedule AkazeSpace AkazeDetect AkazeRefine AkazeDescribe AkazeWhole.
Import ListNotations.
Open Scope R_scope.

Lemma sqrt2_bound : 14 / 10 <= sqrt 2.
Proof. apply Rsqr_incr_0_var; [|apply sqrt_pos]. rewrite Rsqr_sqrt by lra. unfold Rsqr. lra. Qed.
Lemma pow2_one (n : nat) : 1 <= 2 ^ n.
Proof. apply pow_R1_Rle. lra. Qed.
Lemma halved_real (oct n : nat) : INR (halved oct n) * 2 ^ oct <= INR n.
Proof.
  rewrite halved_div. replace (2 ^ oct) with (INR (2 ^ oct)) by (rewrite pow_INR; reflexivity). rewrite <- mult_INR. apply le_INR. rewrite Nat.mul_comm. apply Nat.mul_div_le. pose proof (pow2_pos oct). lia.
Qed.
(** A coordinate: at least [reach] pixels of the level from the border, moved by at most one. *)
Lemma coordinate_inside (oct n x : nat) (d reach : R) : 14 <= reach -> Rabs d <= 1 -> reach + 1 / 2 <= INR x < INR (halved oct n) - 3 / 2 - reach ->
  13 <= centre oct x + d * 2 ^ oct <= INR n - 14.
Proof.
  intros Hr Hd [H1 H2]. assert (-1 <= d <= 1) as Hd' by (unfold Rabs in Hd; destruct (Rcase_abs d); lra). pose proof (pow2_one oct) as P. pose proof (halved_real oct n) as L. unfold centre. set (p := 2 ^ oct) in *. set (k := INR (halved oct n)) in *. clearbody p k. split.
  - assert ((INR x + 1 / 2 + d) * p >= 14 * p) by (apply Rle_ge, Rmult_le_compat_r; lra). lra.
  - assert ((INR x + 1 / 2 + d) * p <= (k - 14) * p) by (apply Rmult_le_compat_r; lra). lra.
Qed.
Lemma extract_inside (o : rsettings) (A : angles RNum) w h image (fed : R -> outcome (list R)) float_ord sort kps ds :
  usable o -> (40 <= w)%nat -> (40 <= h)%nat -> sized w h image -> sorts sort -> extract Rwidths Rmath Rmath A Rexp2 fed o float_ord sort image = Ok (kps, ds) ->
  forall kp, In kp kps -> 13 <= kp_x kp <= INR w - 14 /\ 13 <= kp_y kp <= INR h - 14.
Proof.
  intros U Hw Hh SI HS E kp Hkp. unfold extract in E. destruct SI as (W & H & LD).
  match type of E with context [allocate_evolutions _ _ _ _ _ ?a ?b] => replace a with w in E by (symmetry; exact W); replace b with h in E by (symmetry; exact H) end.
  assert (SI : sized w h image) by (split; [exact W|]; split; [exact H|exact LD]).
  destruct (allocate_evolutions _ _ _ _ _ w h) as [l| |] eqn:AL; try discriminate E. cbn [bind] in E. change (rallocate fed o w h = Ok l) in AL.
  destruct (create_scale_space _ _ _ _ l image) as [l1| |] eqn:E1; try discriminate E. cbn [bind] in E. change (rspace o l image = Ok l1) in E1.
  destruct (detector_response _ _ _ l1) as [l2| |] eqn:E2; try discriminate E. cbn [bind] in E. change (rresponse o l1 = Ok l2) in E2.
  pose proof (levels_ready o w h image fed l U Hw Hh SI AL l1 l2 E1 E2) as RD.
  destruct (detect_total o A l2 (ready_detect o w h l2 RD)) as (found & EF & Hfound).
 rewrite EF in E. cbn [bind] in E.
  apply descriptors_kept in E. cbn [fst snd] in E. apply (kept_in _ _ _ _ E) in Hkp.
  assert (In kp found) as Hin.
  { destruct (HS (fun a b : rkeypoint => float_ord (kp_response b) (kp_response a)) found) as [Pm _]. apply (Permutation_in _ (Permutation_sym Pm)).
    rewrite <- (firstn_skipn (maximum_features o)). apply in_or_app. left. exact Hkp. }
  destruct (Hfound kp Hin) as (class & e & x & y & dx & dy & angle & (Hn & _ & s & Hs & Cx & Cy) & Dx & Dy & _ & ->).
  apply nth_error_In in Hn. destruct (RD e Hn) as ((_ & _ & _ & _ & (DW & DH & _)) & _ & _ & Hsc).
  assert (1 <= INR s) as S1.
  { unfold integer_scale in Hs. assert (0 < INR s) by lra. assert (0 < s)%nat by (apply INR_lt; exact H0). apply (le_INR 1). lia. }
  pose proof sqrt2_bound. assert (14 <= 10 * sqrt 2 * INR s) as HR by nra.
  cbn [moved_by keypoint_at kp_x kp_y kp_octave]. cbn [single Rwidths] in *. rewrite DW in Cx. rewrite DH in Cy.
  split; [exact (coordinate_inside (octave e) w x dx _ HR Dx Cx) | exact (coordinate_inside (octave e) h y dy _ HR Dy Cy)].
Qed.
