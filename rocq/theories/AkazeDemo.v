(** A level with a single spot, for the examples. *)
From Coq Require Import Sorted Permutation List Arith Lia Bool ZArith NArith Reals Lra.
From Verif Require Import Num LinSpec Outcome Gray GraySpec GrayFacts Diffuse DiffuseSpec Akaze AkazeSpec AkazeSchedule AkazeSpace AkazeDetect AkazeRefine AkazeWhole.
Import ListNotations.
Open Scope R_scope.

Definition flat : gray RNum := of_fn 60 60 (fun _ _ => 0).
Definition spot : gray RNum := of_fn 60 60 (fun x y => if ((x =? 29) && (y =? 29))%nat%bool then 1 else 0).
Definition spot_level : rlevel := Level (P := Rwidths) (128 / 100) (16 / 10) 0 0 [] flat flat flat flat flat flat flat flat spot.
Definition demo_settings : rsettings := default_settings 5.
Lemma spot_pixel x y : (x < 60)%nat -> (y < 60)%nat -> pixel spot x y = if ((x =? 29) && (y =? 29))%nat%bool then 1 else 0.
Proof. intros. unfold spot. now rewrite (proj2 (of_fn_image (N := RNum) 60 60 _)). Qed.
Lemma spot_sized : sized 60 60 spot.
Proof. apply (of_fn_sized (N := RNum)). Qed.
Lemma flat_sized : sized 60 60 flat.
Proof. apply (of_fn_sized (N := RNum)). Qed.
Lemma spot_well : forall e, In e [spot_level] -> well_sized e.
Proof. intros e [<-|[]]. unfold well_sized. cbn [Ldet spot_level]. destruct spot_sized as (W & H & L). cbn [single Rwidths] in *. rewrite W, H. split; [lia|]. split; [lia|]. exact spot_sized. Qed.
Lemma spot_scale : integer_scale demo_settings spot_level 2.
Proof. unfold integer_scale. cbn [esigma octave spot_level derivative_factor demo_settings default_settings pow INR]. lra. Qed.
Lemma spot_scales : forall e, In e [spot_level] -> exists s, integer_scale demo_settings e s /\ (1 <= s)%nat.
Proof. intros e [<-|[]]. exists 2%nat. split; [apply spot_scale|lia]. Qed.
Lemma spot_maximum : maximum_of demo_settings [spot_level] 0 spot_level 29 29.
Proof.
  split; [reflexivity|]. assert (W : g_width (Ldet spot_level) = 60%nat) by apply spot_sized. assert (H : g_height (Ldet spot_level) = 60%nat) by apply spot_sized. split.
  - unfold strict_maximum. cbn [single Rwidths] in *. rewrite W, H. cbn [Ldet spot_level]. rewrite (spot_pixel 29 29) by lia. cbn [Nat.eqb andb detector_threshold demo_settings default_settings]. split; [lia|]. split; [lra|].
    intros X Y HX HY NE. rewrite spot_pixel by lia. destruct (Nat.eqb_spec X 29), (Nat.eqb_spec Y 29); cbn [andb]; try lra. subst. contradiction.
  - exists 2%nat. split; [apply spot_scale|]. unfold clear_of_border. cbn [single Rwidths] in *. rewrite W, H. replace (INR 60) with 60 by (rewrite INR_IZR_INZ; reflexivity). replace (INR 29) with 29 by (rewrite INR_IZR_INZ; reflexivity). cbn [INR].
    assert (sqrt 2 <= 1415 / 1000). { apply Rsqr_incr_0_var; [|lra]. rewrite Rsqr_sqrt by lra. unfold Rsqr. lra. } pose proof (sqrt_pos 2). lra. Qed.
Lemma spot_only class e x y : maximum_of demo_settings [spot_level] class e x y -> (class, (x, y)) = (0, (29, 29))%nat.
Proof.
  intros (N & (B & T & _) & _). destruct class as [|[|?]]; try discriminate. injection N as <-. destruct spot_sized as (W & H & _). cbn [Ldet spot_level single Rwidths] in *. rewrite W, H in B. rewrite spot_pixel in T by lia. cbn [detector_threshold demo_settings default_settings] in T.
  destruct (Nat.eqb_spec x 29) as [E1|E1], (Nat.eqb_spec y 29) as [E2|E2]; cbn [andb] in T; [now rewrite E1, E2| | |]; lra. Qed.
Lemma spot_found kps : rextrema demo_settings [spot_level] = Ok kps -> kps = [keypoint_at demo_settings 0 spot_level 29 29].
Proof.
  intros E. destruct (extrema_sound demo_settings [spot_level] spot_well spot_scales kps E) as [ND S].
  assert (A : forall kp, In kp kps -> kp = keypoint_at demo_settings 0 spot_level 29 29). { intros kp H. destruct (S kp H) as (c & e & x & y & M & ->). pose proof (spot_only c e x y M) as Q. injection Q as -> -> ->. destruct M as (N & _). cbn in N. injection N as <-. reflexivity. }
  pose proof (extrema_complete demo_settings [spot_level] spot_well spot_scales kps 0 spot_level 29 29 E spot_maximum) as C.
  assert (I : In (keypoint_at demo_settings 0 spot_level 29 29) kps). { apply C. intros c e x y M NE. exfalso. apply NE. now apply spot_only in M. }
  destruct kps as [|a [|b l]]; [destruct I| |].
  - f_equal. apply A. now left.
  - exfalso. inversion ND as [|? ? NI _]; subst. apply NI. rewrite (A a), (A b) by (cbn; auto). now left. Qed.
Lemma spot_gradients : gradient_sized spot_level.
Proof. unfold gradient_sized. destruct spot_sized as (W & H & _). cbn [Lx Ly Ldet spot_level single Rwidths] in *. rewrite W, H. split; apply flat_sized. Qed.
Lemma spot_half : 1 / 2 <= esigma spot_level * derivative_factor demo_settings / 2 ^ octave spot_level.
Proof. cbn [esigma octave spot_level derivative_factor demo_settings default_settings pow]. lra. Qed.
Lemma default_usable m : usable (default_settings m).
Proof. unfold usable, default_settings. cbn [num_sublevels max_octave_evolution base_scale_offset contrast_percentile contrast_factor_num_bins derivative_factor descriptor_channels descriptor_pattern_size]. repeat split; try lia; lra. Qed.
Lemma spot_curvature : curvature (Ldet spot_level) 29 29 = 4 /\ stationary (Ldet spot_level) 29 29 0 0.
Proof.
  cbn [Ldet spot_level]. unfold stationary, curvature, slope_x, slope_y, curve_xx, curve_yy, curve_xy. rewrite !spot_pixel by lia. cbn [Nat.add Nat.sub Nat.eqb andb]. repeat split; lra. Qed.

(** ** A routine that sorts *)
Fixpoint insert {K} (le : K -> K -> bool) (a : K) (l : list K) : list K := match l with [] => [a] | b :: r => if le a b then a :: l else b :: insert le a r end.
Definition insertion {K} (le : K -> K -> bool) (l : list K) : list K := fold_right (insert le) [] l.
Lemma insert_perm {K} le (a : K) l : Permutation (a :: l) (insert le a l).
Proof. induction l as [|b l IH]; cbn [insert]; [apply Permutation_refl|]. destruct (le a b); [apply Permutation_refl|]. eapply perm_trans; [apply perm_swap|]. now constructor. Qed.
Lemma insertion_sorts {K} : sorts (@insertion K).
Proof.
  intros le l. split; [induction l as [|a l IH]; cbn; [constructor|]; eapply perm_trans; [apply perm_skip, IH|apply insert_perm]|].
  intros T Tr. induction l as [|a l IH]; cbn [insertion fold_right]; [constructor|]. fold (insertion le l). induction IH as [|b m S IS F]; cbn [insert]; [repeat constructor|]. destruct (le a b) eqn:E.
  - constructor; [now constructor|]. constructor; [exact E|]. rewrite Forall_forall in *. intros x Hx. apply (Tr a b x E (F x Hx)).
  - constructor; [exact IS|]. rewrite Forall_forall in *. intros x Hx. apply (Permutation_in _ (Permutation_sym (insert_perm le a m))) in Hx. destruct Hx as [<-|Hx]; [destruct (T a b) as [Q|Q]; [congruence|exact Q]|exact (F x Hx)]. Qed.
