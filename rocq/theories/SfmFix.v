(** Pose-graph optimisation when every update gives back the pose it was given. *)
From stdpp Require Import gmap list.
From Verif Require Import Outcome OutcomeFacts.
From Verif Require Import Sfm SfmSpec SfmUse SfmEffects SfmRec SfmTrack SfmData SfmPrim SfmCons SfmApply SfmOps SfmThms.

Section facts.
Context {P F : Type} (pmul : P -> P -> P) (pinv : P -> P).
Implicit Types (rc : recon P) (d : vdata P F) (e : env P F).

Definition stable e rc (edges : gmap key (list (key * P))) : Prop :=
  forall v w es xs, has_view rc v w -> edges !! v = Some es -> edge_poses rc es xs -> e_update e (v_pose w) xs = Some (v_pose w).

Lemma set_pose_same (w : view P) : set_v_pose w (v_pose w) = w.
Proof. destruct w; reflexivity. Qed.

Lemma stable_adjustment e rc edges vs ups rem : stable e rc edges -> adjustment e rc edges vs (ups, rem) ->
  (forall v p, (v, p) ∈ ups -> is_Some (edges !! v) /\ exists w, has_view rc v w /\ p = v_pose w) /\ (forall v, v ∈ rem -> edges !! v = None).
Proof.
  intros Hs [_ H2 H3]. cbn [fst snd] in *. split.
  - intros v p Hin. pose proof (H2 v p Hin) as H. unfold new_pose in H. destruct (edges !! v) as [es|] eqn:E; [|discriminate].
    destruct H as (w & xs & Hw & Hx & Hp). split; [eauto|]. exists w. split; [exact Hw|]. rewrite (Hs v w es xs Hw E Hx) in Hp. congruence.
  - intros v Hin. pose proof (H3 v Hin) as H. unfold new_pose in H. destruct (edges !! v) as [es|] eqn:E; [|reflexivity].
    destruct H as (w & xs & Hw & Hx & Hp). rewrite (Hs v w es xs Hw E Hx) in Hp. discriminate.
Qed.

(** What is left: the views with edges, unmoved. *)
Record settled (edges : gmap key (list (key * P))) rc rc' : Prop := {
  se_views : forall v w, has_view rc' v w <-> has_view rc v w /\ is_Some (edges !! v);
  se_assigned : forall v f l, assigned rc' v f l <-> assigned rc v f l /\ is_Some (edges !! v);
  se_cons : forall k c, has_constraint rc' k c <-> has_constraint rc k c /\ forall v w, has_view rc v w -> con_has c v = true -> is_Some (edges !! v)
}.

Lemma stable_adjusted e rc edges vs ups rem rc' : vs ≡ₚ elements (dom (sm_map (r_views rc))) -> stable e rc edges -> adjustment e rc edges vs (ups, rem) -> adjusted ups rem rc rc' -> settled edges rc rc'.
Proof.
  intros Hvs Hs Haj Had. destruct (stable_adjustment _ _ _ _ _ _ Hs Haj) as [Hu Hr]. pose proof (aj_perm _ _ _ _ _ Haj) as Hperm. cbn [fst snd] in Hperm.
  assert (forall v w, has_view rc v w -> (v ∈ rem <-> ~ is_Some (edges !! v))) as Hrem.
  { intros v w Hw. split; [intros H; rewrite (Hr v H); intros [x Hx]; discriminate|]. intros Hn.
    assert (v ∈ ups.*1 ++ rem) as Hin by (rewrite Hperm, Hvs; apply elem_of_elements, elem_of_dom; eauto).
    apply elem_of_app in Hin as [Hin|Hin]; [|exact Hin]. apply elem_of_list_fmap in Hin as ([v' p] & -> & Hin). exfalso. apply Hn. apply (Hu _ _ Hin). }
  assert (forall v w, has_view rc v w -> posed ups v w = w) as Hposed.
  { intros v w Hw. unfold posed. destruct (list_to_map ups !! v) as [p|] eqn:E; [|reflexivity]. apply elem_of_list_to_map_2 in E.
    destruct (Hu _ _ E) as [_ (w' & Hw' & ->)]. assert (w' = w) as -> by (eapply has_view_fun; eassumption). apply set_pose_same. }
  split.
  - intros v w. unfold has_view at 1. rewrite (ad_views _ _ _ _ Had). destruct (decide (v ∈ rem)) as [H|H].
    + split; [discriminate|]. intros [Hw He]. apply (Hrem v w Hw) in H. contradiction.
    + split.
      * intros Hw. apply fmap_Some in Hw as (w0 & Hw0 & ->). rewrite (Hposed v w0 Hw0). split; [exact Hw0|]. destruct (edges !! v) as [es|] eqn:E; [eauto|]. exfalso. apply H, (Hrem v w0 Hw0). rewrite E. intros [x Hx]. discriminate.
      * intros [Hw _]. pose proof Hw as Hw'. unfold has_view in Hw'. rewrite Hw'. cbn. rewrite (Hposed v w Hw). reflexivity.
  - intros v f l. rewrite (ad_assigned _ _ _ _ Had). split.
    + intros [H Ha]. split; [exact Ha|]. destruct Ha as (w & Hw & _). destruct (edges !! v) as [es|] eqn:E; [eauto|]. exfalso. apply H, (Hrem v w Hw). rewrite E. intros [x Hx]. discriminate.
    + intros [Ha He]. split; [|exact Ha]. destruct Ha as (w & Hw & _). intros H. apply (Hrem v w Hw) in H. contradiction.
  - intros k c. rewrite (ad_cons _ _ _ _ Had). split; intros [Hk Hc]; (split; [exact Hk|]).
    + intros v w Hw Hv. destruct (edges !! v) as [es|] eqn:E; [eauto|]. rewrite (Hc v) in Hv; [discriminate|]. apply (Hrem v w Hw). rewrite E. intros [x Hx]. discriminate.
    + intros v Hv. destruct (con_has c v) eqn:E; [|reflexivity]. exfalso.
      assert (exists w, has_view rc v w) as [w Hw]. { assert (v ∈ ups.*1 ++ rem) as Hin by (apply elem_of_app; right; exact Hv). rewrite Hperm, Hvs, elem_of_elements, elem_of_dom in Hin. exact Hin. }
      apply (proj1 (Hrem v w Hw) Hv). eapply Hc; eassumption.
Qed.

Lemma settled_trans edges rc rc1 rc2 : settled edges rc rc1 -> settled edges rc1 rc2 -> settled edges rc rc2.
Proof.
  intros [A1 A2 A3] [B1 B2 B3]. split.
  - intros v w. rewrite B1, A1. tauto.
  - intros v f l. rewrite B2, A2. tauto.
  - intros k c. rewrite B3, A3. split.
    + intros [[H1 H2] _]. auto.
    + intros [H1 H2]. split; [auto|]. intros v w Hw. apply A1 in Hw as [Hw _]. eapply H2. exact Hw.
Qed.

Lemma stable_iterations e none_bad none_ex n d r rc edges :
  orders_ok (e_ord e) -> inv none_bad none_ex d -> ~ none_bad r -> (forall v, ~ none_ex r v) -> has_recon d r rc -> edges_live edges rc -> edges_symmetric edges -> stable e rc edges ->
  post False (constraint_iterations e n d r edges) (fun x => inv none_bad none_ex x.1 /\ within (eq r) d x.1 /\
    if x.2 then exists rc', has_recon x.1 r rc' /\ (n = 0 -> rc' = rc) /\ (0 < n -> settled edges rc rc') 
    else sm_map (d_recs x.1) !! r = None /\ 0 < n /\ forall vs, NoDup vs -> (forall v, v ∈ vs -> is_Some (edges !! v) /\ exists w, has_view rc v w) -> length vs < 3).
Proof.
  intros Ho. revert d rc. induction n as [|n IH]; intros d rc Hinv Hbad Hex Hr Hlive Hsym Hs; cbn [constraint_iterations].
  - cbn [post fst snd]. split; [exact Hinv|]. split; [apply within_refl|]. exists rc. split; [exact Hr|]. split; [reflexivity|lia].
  - apply post_bind, post_unwrap; [right; exists rc; exact Hr|]. intros rc0 Hr0. assert (rc0 = rc) as -> by (eapply has_recon_fun; [exact Hr0|exact Hr]). clear Hr0.
    apply post_bind. eapply post_mono; [apply (compute_post False e rc edges Ho); auto|]. intros ba ([ups rem] & Haj & ->). cbn [fst].
    destruct (Nat.leb_spec 3 (length ups)) as [Hlen|Hlen].
    + apply post_bind. eapply post_mono.
      { apply (apply_bundle_adjust_post False none_bad none_ex d r ups rem Hinv Hbad Hex); [right; eauto|].
        intros rc' Hr'. assert (rc' = rc) as -> by (eapply has_recon_fun; eassumption). apply (aj_perm _ _ _ _ _ Haj). }
      intros d' (Hinv' & Hwi & rc0 & rc' & Hr0 & Hr' & Had). assert (rc0 = rc) as -> by (eapply has_recon_fun; eassumption).
      pose proof (stable_adjusted e rc edges _ ups rem rc' (Permutation_refl _) Hs Haj Had) as Hset.
      assert (edges_live edges rc') as Hlive'.
      { intros v w es Hw He. apply (se_views _ _ _ Hset) in Hw as [Hw _]. destruct (Hlive v w es Hw He) as [H1 H2]. split; [exact H1|]. intros u p Hu. destruct (H2 u p Hu) as [wu Hwu]. exists wu. apply (se_views _ _ _ Hset). split; [exact Hwu|]. eapply Hsym; eassumption. }
      assert (stable e rc' edges) as Hs'.
      { intros v w es xs Hw He Hx. apply (se_views _ _ _ Hset) in Hw as [Hw _]. apply (Hs v w es xs Hw He). eapply Forall2_impl; [exact Hx|]. intros a b (E & w' & Hw' & E'). split; [exact E|]. exists w'. split; [apply (se_views _ _ _ Hset), Hw'|exact E']. }
      eapply post_mono; [apply (IH d' rc' Hinv' Hbad Hex Hr' Hlive' Hsym Hs')|].
      intros [d2 b] (Hi2 & Hw2 & Hb). cbn [fst snd] in *. split; [exact Hi2|]. split; [eapply within_trans; eassumption|]. destruct b.
      * destruct Hb as (rc2 & Hr2 & H0 & Hpos). exists rc2. split; [exact Hr2|]. split; [discriminate|]. intros _. destruct n as [|n']; [rewrite (H0 eq_refl); exact Hset|]. eapply settled_trans; [exact Hset|apply Hpos; lia].
      * destruct Hb as (Hgone & Hn & Hfew). split; [exact Hgone|]. split; [lia|]. intros vs Hnd Hvs. apply Hfew; [exact Hnd|]. intros v Hv. destruct (Hvs v Hv) as [He [w Hw]]. split; [exact He|]. exists w. apply (se_views _ _ _ Hset). auto.
    + apply post_bind. eapply post_mono; [apply (remove_reconstruction_post False (e_ord e) none_bad none_ex d r Ho Hinv Hex); eauto|].
      intros d' [Hinv' Hrr]. cbn [post fst snd]. split; [exact Hinv'|]. split; [eapply within_recon_removed; [reflexivity|exact Hrr]|].
      split; [rewrite (rr_recs _ _ _ Hrr); cbn; apply lookup_delete|]. split; [lia|]. intros vs Hnd Hvs.
      destruct (stable_adjustment _ _ _ _ _ _ Hs Haj) as [_ Hrem]. pose proof (aj_perm _ _ _ _ _ Haj) as Hperm. cbn [fst snd] in Hperm.
      enough (length vs <= length ups.*1) as Hle by (rewrite fmap_length in Hle; lia). apply submseteq_length, NoDup_submseteq; [exact Hnd|].
      intros v Hv. destruct (Hvs v Hv) as [[es He] [w Hw]]. assert (v ∈ ups.*1 ++ rem) as Hin by (rewrite Hperm; apply elem_of_elements, elem_of_dom; eauto).
      apply elem_of_app in Hin as [Hin|Hin]; [exact Hin|]. rewrite (Hrem v Hin) in He. discriminate.
Qed.

(** ** The whole call *)
Lemma constrained_edges o rc v : orders_ok o -> (is_Some (flatten_constraints pmul pinv o rc !! v) <-> exists k c, has_constraint rc k c /\ con_has c v = true).
Proof.
  intros Ho. split.
  - intros [es He]. destruct (flatten_Some pmul pinv o rc v es Ho He) as [Hne Hes]. destruct es as [|[u p] es]; [congruence|].
    destruct (proj1 (Hes (u, p)) ltac:(left)) as (k & c & Hk & Hin). apply edge_views in Hin as (Hv & _). eauto.
  - intros (k & c & Hk & Hv). destruct (flatten_constraints pmul pinv o rc !! v) as [es|] eqn:E; [eauto|]. exfalso.
    assert (exists x, (v, x) ∈ edge_constraints pmul pinv c) as [x Hx]; [|eapply (flatten_None pmul pinv o rc v Ho E); eassumption].
    unfold con_has in Hv. unfold edge_constraints. destruct (c_views c) as [[a b] z], (c_poses c) as [p1 p2].
    apply orb_true_iff in Hv as [Hv|Hv]; [apply orb_true_iff in Hv as [Hv|Hv]|]; apply Nat.eqb_eq in Hv as ->; eexists; rewrite !elem_of_cons; eauto 10.
Qed.

Lemma stable_constraints e s d r rc : orders_ok (e_ord e) -> data_ok d -> has_recon d r rc -> stable e rc (flatten_constraints pmul pinv (e_ord e) rc) ->
  exists d' b, apply_constraints pmul pinv e s d r = Ok (d', b) /\ data_ok d' /\ only_recon r d d' /\
    if b : bool then exists rc', has_recon d' r rc' /\ (optimization_iterations s = 0 -> rc' = rc) /\
      (0 < optimization_iterations s -> forall v w, has_view rc' v w <-> has_view rc v w /\ exists k c, has_constraint rc k c /\ con_has c v = true) /\
      (0 < optimization_iterations s -> forall v f l, assigned rc' v f l <-> assigned rc v f l /\ exists k c, has_constraint rc k c /\ con_has c v = true) /\
      (forall k c, has_constraint rc' k c <-> has_constraint rc k c)
    else sm_map (d_recs d') !! r = None /\ 0 < optimization_iterations s /\ forall k c, ~ has_constraint rc k c.
Proof.
  intros Ho Hd Hr Hs. pose proof (proj1 (data_ok_inv d) Hd) as Hinv. pose proof (in_good _ _ _ Hinv r rc Hr id) as Hok.
  assert (edges_live (flatten_constraints pmul pinv (e_ord e) rc) rc) as Hlive by (apply flatten_edges_live; [exact Ho|apply (ok_constraints _ _ Hok)]).
  pose proof (flatten_edges_symmetric pmul pinv (e_ord e) rc Ho) as Hsym.
  pose proof (stable_iterations e _ _ (optimization_iterations s) d r rc _ Ho Hinv id (fun _ => id) Hr Hlive Hsym Hs) as Hp.
  unfold apply_constraints. unfold sm_get. pose proof Hr as Hr'. unfold has_recon in Hr'. rewrite Hr'. cbn [unwrap bind].
  apply post_total in Hp as ([d' b] & -> & Hi & Hw & Hb). cbn [fst snd] in *. exists d', b. split; [reflexivity|]. split; [apply data_ok_inv; exact Hi|]. split; [apply within_only; exact Hw|].
  destruct b.
  - destruct Hb as (rc' & Hrc' & H0 & H1). exists rc'. split; [exact Hrc'|]. split; [exact H0|]. split; [|split].
    + intros Hn v w. rewrite (se_views _ _ _ (H1 Hn)), constrained_edges by exact Ho. reflexivity.
    + intros Hn v f l. rewrite (se_assigned _ _ _ (H1 Hn)), constrained_edges by exact Ho. reflexivity.
    + intros k c. destruct (decide (optimization_iterations s = 0)) as [E|E]; [rewrite (H0 E); reflexivity|]. rewrite (se_cons _ _ _ (H1 ltac:(lia))). split; [tauto|]. intros Hk. split; [exact Hk|].
      intros v w Hv Hc. apply constrained_edges; eauto.
  - destruct Hb as (Hgone & Hn & Hfew). split; [exact Hgone|]. split; [exact Hn|]. intros k c Hk. pose proof (ok_constraints _ _ Hok k c Hk) as Hlv. unfold names_live_views in Hlv.
    destruct (c_views c) as [[a b] z] eqn:E. destruct Hlv as (D1 & D2 & D3 & Ha & Hb & Hz). specialize (Hfew [a; b; z]).
    assert (forall v, v ∈ [a; b; z] -> con_has c v = true) as Hcon. { intros v Hv. unfold con_has. rewrite E. rewrite !elem_of_cons, elem_of_nil in Hv. destruct Hv as [->|[->|[->|[]]]]; rewrite Nat.eqb_refl, ?orb_true_r; reflexivity. }
    cbn [length] in Hfew. enough (3 < 3) by lia. apply Hfew.
    + repeat (apply NoDup_cons; split); rewrite ?elem_of_cons, ?elem_of_nil; try (intuition congruence); apply NoDup_nil_2.
    + intros v Hv. split; [apply constrained_edges; [exact Ho|]; exists k, c; auto|]. rewrite !elem_of_cons, elem_of_nil in Hv. destruct Hv as [->|[->|[->|[]]]]; assumption.
Qed.
End facts.
