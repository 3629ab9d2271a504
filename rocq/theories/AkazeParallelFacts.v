(** Feature extraction in parallel finds what it finds one after the other (C79). *)
From stdpp Require Import list relations.
From Coq Require Import ZArith Lia.
From Verif Require Import Outcome OutcomeFacts Num Gray Diffuse Akaze Parallel ParallelSpec ParallelFacts AkazeParallel.

Section iterators.
Context {C : Type}.
Implicit Types (m : list C).
Lemma mapM_parts {X Y} (f : X -> outcome Y) (a b : list X) : mapM f (a ++ b) = let! x := mapM f a in let! y := mapM f b in Ok (x ++ y).
Proof.
  induction a as [|x a IH]; cbn [mapM app]; [destruct (mapM f b); reflexivity|]. destruct (f x); cbn [bind]; [|reflexivity|reflexivity]. rewrite IH. destruct (mapM f a); cbn [bind]; [|reflexivity|reflexivity]. destruct (mapM f b); reflexivity.
Qed.
Lemma mapM_len {X Y} (f : X -> outcome Y) (l : list X) : forall r, mapM f l = Ok r -> length r = length l.
Proof.
  induction l as [|x l IH]; intros r; cbn [mapM]; [intros [= <-]; reflexivity|]. destruct (f x); cbn [bind]; [|discriminate|discriminate]. destruct (mapM f l) as [ys| |]; cbn [bind]; [|discriminate|discriminate]. intros [= <-]. cbn. f_equal. exact (IH ys eq_refl).
Qed.
(** A body that changes its own cell by [g]. *)
Context (body : nat -> prog C unit) (g : C -> outcome C).
Context (Hbody : forall i m c, m !! i = Some c -> run (body i) m = let! c' := g c in Ok (<[i:=c']> m, tt)).
Lemma run_whole : forall mid before after, run (loop (seq (length before) (length mid)) (fun _ i => body i) tt) (before ++ mid ++ after) = let! mid' := mapM g mid in Ok (before ++ mid' ++ after, tt).
Proof.
  induction mid as [|c mid IH]; intros before after; cbn [length seq loop mapM]; [reflexivity|].
  rewrite run_then, (Hbody (length before) _ c) by (apply list_lookup_middle; reflexivity). destruct (g c) as [c'| |]; cbn [bind]; [|reflexivity|reflexivity].
  rewrite <- (Nat.add_0_r (length before)) at 2. rewrite insert_app_r. cbn [app list_insert].
  specialize (IH (before ++ [c']) after). rewrite app_length in IH. cbn [length] in IH. rewrite Nat.add_1_r in IH. rewrite <- app_assoc in IH. cbn [app] in IH. change (insert 0 c' (c :: mid ++ after)) with (c' :: mid ++ after). rewrite IH.
  destruct (mapM g mid) as [mid'| |]; cbn [bind]; [|reflexivity|reflexivity]. rewrite <- app_assoc. reflexivity.
Qed.
Lemma run_for_each : forall sh mid before after, run (for_each sh (length before) (length mid) body) (before ++ mid ++ after) = let! mid' := mapM g mid in Ok (before ++ mid' ++ after, tt).
Proof.
  induction sh as [|n a IHa b IHb]; intros mid before after; cbn [for_each]; [apply run_whole|]. cbn [run].
  pose proof (firstn_skipn n mid) as E. set (x := firstn n mid) in *. set (y := skipn n mid) in *.
  assert (Nat.min n (length mid) = length x) as -> by (unfold x; rewrite firstn_length; reflexivity).
  assert (length mid - length x = length y) as -> by (rewrite <- E, app_length; lia).
  rewrite <- E, mapM_parts, <- app_assoc, IHa. destruct (mapM g x) as [x'| |] eqn:Ex; cbn [bind]; [|reflexivity|reflexivity].
  pose proof (mapM_len g x x' Ex) as Hl. rewrite app_assoc. specialize (IHb y (before ++ x') after). rewrite app_length, Hl in IHb. rewrite IHb.
  destruct (mapM g y) as [y'| |]; cbn [bind]; [|reflexivity|reflexivity]. cbn [run bind]. rewrite <- !app_assoc. reflexivity.
Qed.
Lemma run_for_all sh m : run (for_each sh 0 (length m) body) m = let! m' := mapM g m in Ok (m', tt).
Proof.
  pose proof (run_for_each sh m [] []) as H. cbn [length app] in H. rewrite app_nil_r in H. rewrite H. destruct (mapM g m); cbn [bind]; [|reflexivity|reflexivity]. rewrite app_nil_r. reflexivity.
Qed.
End iterators.

Section maps.
Context {C X Y : Type} (f : X -> prog C (option Y)) (m : list C) (h : X -> outcome (option Y)).
Context (Hf : forall x, run (f x) m = let! y := h x in Ok (m, y)).
Lemma keep_some_app {Z} (a b : list (option Z)) : keep_some (a ++ b) = keep_some a ++ keep_some b.
Proof. apply flat_map_app. Qed.
Lemma run_filter_map : forall sh l, run (filter_map sh l f) m = let! ys := mapM h l in Ok (m, keep_some ys).
Proof.
  induction sh as [|n a IHa b IHb]; intros l; cbn [filter_map].
  - assert (forall l acc, run (loop l (fun ys x => then_ (f x) (fun y => Done (Ok (ys ++ match y with Some y => [y] | None => [] end)))) acc) m = let! ys := mapM h l in Ok (m, acc ++ keep_some ys)) as H; [|exact (H l [])].
    clear l. induction l as [|x l IH]; intros acc; cbn [loop mapM run bind]; [rewrite app_nil_r; reflexivity|].
    rewrite !run_then, Hf. destruct (h x) as [y| |]; cbn [bind run]; [|reflexivity|reflexivity]. rewrite IH. destruct (mapM h l); cbn [bind]; [|reflexivity|reflexivity]. rewrite <- app_assoc. destruct y; reflexivity.
  - cbn [run]. rewrite IHa. replace (mapM h l) with (mapM h (firstn n l ++ skipn n l)) by (rewrite firstn_skipn; reflexivity). rewrite mapM_parts. destruct (mapM h (firstn n l)) as [x| |]; cbn [bind]; [|reflexivity|reflexivity]. rewrite IHb. destruct (mapM h (skipn n l)) as [y| |]; cbn [bind]; [|reflexivity|reflexivity]. cbn [run bind fst snd]. rewrite keep_some_app. reflexivity.
Qed.
End maps.

Section akaze.
Context (P : widths) (M32 : math (single P)) (M64 : math (double P)) (A : angles (single P)).
Notation f32 := (single P).
Notation f64 := (double P).
Context (exp2 : f64 -> f64) (fed : f64 -> outcome (list f64)).
Context (options : settings f64).
Notation level := (level P).
Implicit Types (m : list level) (e : level).

(** ** Footprints *)
Lemma within_from {X} r w i (f : level -> outcome X) : r i = true -> within r w (from_level P i f).
Proof. intros Hr. apply within_then; [apply within_peek, Hr|intros; exact I]. Qed.
Lemma within_update r w i f set : r i = true -> w i = true -> within r w (update P i f set).
Proof. intros Hr Hw. apply within_then; [apply within_from, Hr|]. intros x. apply within_poke; assumption. Qed.
Ltac go := repeat first
  [ exact I | intros ?
  | match goal with
    | |- within _ _ (then_ _ _) => apply within_then
    | |- within _ _ (peek _) => apply within_peek
    | |- within _ _ (poke _ _) => apply within_poke
    | |- within _ _ (from_level _ _ _) => apply within_from
    | |- within _ _ (update _ _ _ _) => apply within_update
    | |- within _ _ (join _ _) => apply within_readers
    | |- within _ _ (loop _ _ _) => apply within_loop
    | |- within _ _ (if ?b then _ else _) => destruct b
    | |- cell ?i ?i = true => apply Nat.eqb_refl
    | |- all_cells _ = true => reflexivity
    end ].
Lemma derivatives_within i : within (cell i) (cell i) (par_derivatives P M64 options i).
Proof. unfold par_derivatives. go. Qed.
Lemma determinant_within i : within (cell i) (cell i) (par_determinant P M64 options i).
Proof. unfold par_determinant. go. Qed.
Lemma level_within contrast i : within all_cells all_cells (par_level P M32 contrast i).
Proof. unfold par_level. go. Qed.
Lemma extract_within sh1 sh2 sh3 sh4 float_ord sort image : within all_cells all_cells (par_extract P M32 M64 A exp2 fed options sh1 sh2 sh3 sh4 float_ord sort image).
Proof.
  unfold par_extract. apply within_then; [apply within_act; intros; exact I|]. intros count.
  apply within_then. { unfold par_scale_space. go; apply level_within. } intros _.
  apply within_then.
  { unfold par_response. apply within_then; [|intros _].
    - apply (within_sub _ _ _ _ _ (within_for_each _ derivatives_within sh1 0 count)); [intros i _; reflexivity|intros i _; reflexivity|intros i H; exact H].
    - apply (within_sub _ _ _ _ _ (within_for_each _ determinant_within sh2 0 count)); [intros i _; reflexivity|intros i _; reflexivity|intros i H; exact H]. }
  intros _. apply within_then.
  { unfold par_keypoints. apply within_then; [apply within_look|]. intros found. refine (within_sub _ _ _ _ _ (within_filter_map _ _ sh3 found) _ _ _); [intros kp; apply within_look|intros i _; reflexivity|intros i _; reflexivity|intros i H; reflexivity]. }
  intros kps. unfold par_descriptors. apply within_then; [|intros; exact I]. refine (within_sub _ _ _ _ _ (within_filter_map _ _ sh4 _) _ _ _); [intros kp; apply within_look|intros i _; reflexivity|intros i _; reflexivity|intros i H; reflexivity].
Qed.

(** ** Running *)
Lemma run_from {X} i (f : level -> outcome X) m e : m !! i = Some e -> run (from_level P i f) m = let! x := f e in Ok (m, x).
Proof. intros E. unfold from_level. rewrite run_then, (run_peek i m e E). cbn [bind run]. destruct (f e); reflexivity. Qed.
Lemma run_update i f set m e : m !! i = Some e -> run (update P i f set) m = let! x := f e in Ok (<[i:=set x e]> m, tt).
Proof. intros E. unfold update. rewrite run_then, (run_from i f m e E). destruct (f e); cbn [bind]; [|reflexivity|reflexivity]. apply run_poke, E. Qed.
Lemma run_done {B} (o : outcome B) m : run (Done o) m = let! a := o in Ok (m, a).
Proof. reflexivity. Qed.
Lemma same_cell i e m : i < length m -> <[i:=e]> m !! i = Some e.
Proof. apply list_lookup_insert. Qed.
(** Running at cell [i]; [Hi] is the range of [i]. *)
Ltac at_cell Hi := first [apply same_cell; rewrite ?insert_length; exact Hi | eassumption].
Ltac stop x := destruct x; cbn [bind fst snd]; [|reflexivity|reflexivity].

Definition level_derivatives (e : level) : outcome level :=
  let sigma_size := to_usize M64 (derivative_sigma P M64 options e) in
  let! lx := scharr_horizontal (Lsmooth e) sigma_size in
  let! ly := scharr_vertical (Lsmooth e) sigma_size in
  let! lxx := scharr_horizontal lx sigma_size in
  let! lyy := scharr_vertical ly sigma_size in
  let! lxy := scharr_vertical lx sigma_size in
  Ok (set_Lxy P lxy (set_Lyy P lyy (set_Lxx P lxx (set_Ly P ly (set_Lx P lx e))))).
Definition level_determinant (e : level) : outcome level :=
  let s := derivative_sigma P M64 options e in
  let quat := narrow P (s * s * (s * s))%num in
  let lxx := Lxx e in let lyy := Lyy e in let lxy := Lxy e in
  assert_ ((g_width lyy =? g_width lxx)%nat && (g_height lyy =? g_height lxx)%nat && (g_width lxy =? g_width lxx)%nat && (g_height lxy =? g_height lxx)%nat)
  (Ok (set_Ldet P (of_fn (g_width lxx) (g_height lxx) (fun x y => (pixel lxx x y * pixel lyy x y - pixel lxy x y * pixel lxy x y) * quat)%num) e)).
Lemma run_derivatives i m e : m !! i = Some e -> run (par_derivatives P M64 options i) m = let! e' := level_derivatives e in Ok (<[i:=e']> m, tt).
Proof.
  intros E. pose proof (lookup_lt_Some m i e E) as Hi. unfold par_derivatives, level_derivatives.
  rewrite run_then, (run_from i _ m e E). cbn [bind]. set (s := to_usize M64 (derivative_sigma P M64 options e)).
  rewrite run_then, run_join, (run_from i _ m e E). stop (scharr_horizontal (Lsmooth e) s). rewrite (run_from i _ m e E). stop (scharr_vertical (Lsmooth e) s).
  rewrite run_then, (run_poke i _ m e E). cbn [bind]. erewrite run_then, run_poke by at_cell Hi. cbn [bind]. rewrite list_insert_insert.
  erewrite run_then, run_join, run_from by at_cell Hi. cbn [Lx set_Ly set_Lx]. stop (scharr_horizontal a s).
  erewrite run_join, run_from by at_cell Hi. cbn [Ly set_Ly]. stop (scharr_vertical a0 s). erewrite run_from by at_cell Hi. cbn [Lx set_Ly set_Lx]. stop (scharr_vertical a s).
  erewrite run_then, run_poke by at_cell Hi. cbn [bind]. rewrite list_insert_insert. erewrite run_then, run_poke by at_cell Hi. cbn [bind]. rewrite list_insert_insert. erewrite run_poke by at_cell Hi. rewrite list_insert_insert. reflexivity.
Qed.
Lemma run_determinant i m e : m !! i = Some e -> run (par_determinant P M64 options i) m = let! e' := level_determinant e in Ok (<[i:=e']> m, tt).
Proof.
  intros E. pose proof (lookup_lt_Some m i e E) as Hi. unfold par_determinant, level_determinant. cbv zeta.
  rewrite run_then, (run_from i _ m e E). cbn [bind]. rewrite run_then, (run_update i _ _ m e E). cbn [bind].
  erewrite run_update by at_cell Hi. cbn [Lxx Lyy Lxy set_Ldet]. unfold assert_. destruct (_ && _); cbn [bind]; [|reflexivity]. rewrite list_insert_insert. reflexivity.
Qed.
Lemma response_split e : level_response P M64 options e = let! e := level_derivatives e in level_determinant e.
Proof.
  unfold level_response, level_derivatives. cbv zeta. set (s := to_usize M64 (derivative_sigma P M64 options e)).
  stop (scharr_horizontal (Lsmooth e) s). stop (scharr_vertical (Lsmooth e) s). stop (scharr_horizontal a s). stop (scharr_vertical a0 s). stop (scharr_vertical a s).
  unfold level_determinant. reflexivity.
Qed.
(** Two passes over the levels instead of one. *)
Lemma two_passes {X Y Z} (f : X -> outcome Y) (g : Y -> outcome Z) (l : list X) (r : list Z) :
  (let! l' := mapM f l in mapM g l') = Ok r <-> mapM (fun x => let! y := f x in g y) l = Ok r.
Proof.
  revert r. induction l as [|x l IH]; intros r; cbn [mapM bind]; [reflexivity|].
  destruct (f x) as [y| |]; cbn [bind]; [|split; discriminate|split; discriminate].
  destruct (mapM f l) as [ys| |] eqn:E; cbn [bind mapM] in *.
  - destruct (g y) as [z| |]; cbn [bind]; [|reflexivity|reflexivity]. destruct (mapM g ys) as [zs| |] eqn:E'; cbn [bind].
    + rewrite (proj1 (IH zs) eq_refl). reflexivity.
    + destruct (mapM (fun x => let! y := f x in g y) l) as [zs| |] eqn:F; cbn [bind]; [|split; discriminate|split; discriminate]. discriminate (proj2 (IH zs) eq_refl).
    + destruct (mapM (fun x => let! y := f x in g y) l) as [zs| |] eqn:F; cbn [bind]; [|split; discriminate|split; discriminate]. discriminate (proj2 (IH zs) eq_refl).
  - split; [discriminate|]. destruct (g y); cbn [bind]; [|discriminate|discriminate]. destruct (mapM (fun x => let! y := f x in g y) l) as [zs| |]; cbn [bind]; [|discriminate|discriminate]. discriminate (proj2 (IH zs) eq_refl).
  - split; [discriminate|]. destruct (g y); cbn [bind]; [|discriminate|discriminate]. destruct (mapM (fun x => let! y := f x in g y) l) as [zs| |]; cbn [bind]; [|discriminate|discriminate]. discriminate (proj2 (IH zs) eq_refl).
Qed.
Lemma run_response sh1 sh2 m m' : run (par_response P M64 options sh1 sh2 (length m)) m = Ok (m', tt) <-> detector_response P M64 options m = Ok m'.
Proof.
  unfold par_response, detector_response. rewrite run_then, (run_for_all _ level_derivatives run_derivatives).
  transitivity (mapM (fun e => let! e := level_derivatives e in level_determinant e) m = Ok m').
  - rewrite <- two_passes. destruct (mapM level_derivatives m) as [m1| |] eqn:E; cbn [bind]; [|split; discriminate|split; discriminate].
    rewrite <- (mapM_len _ _ _ E), (run_for_all _ level_determinant run_determinant). destruct (mapM level_determinant m1) as [m2| |]; cbn [bind]; [|split; discriminate|split; discriminate]. split; intros [= ->]; reflexivity.
  - assert (mapM (fun e => let! e := level_derivatives e in level_determinant e) m = mapM (level_response P M64 options) m) as ->; [|reflexivity].
    clear. induction m as [|e m IH]; [reflexivity|]. cbn [mapM]. rewrite response_split, IH. reflexivity.
Qed.

(** ** The scale space *)
Lemma set_own e : set_Lt P (Lt e) e = e. Proof. destruct e. reflexivity. Qed.
Lemma run_diffusion i : forall steps m e, m !! i = Some e ->
  run (loop steps (fun _ tau => update P i (fun e => calculate_step (Lt e) (Lflow e) (narrow P tau)) (set_Lt P)) tt) m =
  let! lt := foldM (fun image tau => calculate_step image (Lflow e) (narrow P tau)) steps (Lt e) in Ok (<[i:=set_Lt P lt e]> m, tt).
Proof.
  induction steps as [|tau steps IH]; intros m e E; cbn [loop foldM].
  - cbn [run bind]. rewrite set_own, list_insert_id by exact E. reflexivity.
  - pose proof (lookup_lt_Some m i e E) as Hi. rewrite run_then, (run_update i _ _ m e E). stop (calculate_step (Lt e) (Lflow e) (narrow P tau)).
    erewrite IH by at_cell Hi. cbn [Lt Lflow set_Lt]. stop (foldM (fun image tau => calculate_step image (Lflow e) (narrow P tau)) steps a). rewrite list_insert_insert. reflexivity.
Qed.
Lemma run_level contrast i m e previous : m !! i = Some e -> m !! (i - 1) = Some previous -> run (par_level P M32 contrast i) m = let! (e', contrast') := next_level P M32 contrast previous e in Ok (<[i:=e']> m, contrast').
Proof.
  intros E E'. pose proof (lookup_lt_Some m i e E) as Hi. unfold par_level, next_level.
  rewrite run_then, (run_peek i m e E). cbn [bind]. rewrite run_then, (run_peek (i - 1) m previous E'). cbn [bind]. rewrite run_then.
  assert (exists (x : outcome (gray f32 * f64)), (if (octave previous <? octave e)%nat then let! half := half_size (Lt previous) in Ok (half, (contrast * lit 3 4)%num) else Ok (Lt previous, contrast)) = x /\
    run (if (octave previous <? octave e)%nat then then_ (Done (half_size (Lt previous))) (fun half => then_ (poke i (set_Lt P half)) (fun _ => Done (Ok (contrast * lit 3 4)%num)))
         else then_ (poke i (set_Lt P (Lt previous))) (fun _ => Done (Ok contrast))) m = let! y := x in Ok (<[i:=set_Lt P y.1 e]> m, y.2)) as (x & E1 & E2).
  { eexists. split; [reflexivity|]. destruct (octave previous <? octave e)%nat.
    - cbn [then_]. destruct (half_size (Lt previous)); cbn [bind run]; [|reflexivity|reflexivity]. rewrite run_then, (run_poke i _ m e E). reflexivity.
    - rewrite run_then, (run_poke i _ m e E). reflexivity. }
  rewrite E1, E2. clear E1 E2. destruct x as [[lt c]| |]; cbn [bind fst snd]; [|reflexivity|reflexivity].
  erewrite run_then, run_update by at_cell Hi. cbn [Lt set_Lt]. stop (gaussian_blur M32 lt one). rewrite list_insert_insert.
  erewrite run_then, run_join, run_from by at_cell Hi. cbn [Lsmooth set_Lsmooth]. stop (simple_scharr_horizontal a). erewrite run_from by at_cell Hi. cbn [Lsmooth set_Lsmooth]. stop (simple_scharr_vertical a).
  erewrite run_then, run_poke by at_cell Hi. cbn [bind]. rewrite list_insert_insert. erewrite run_then, run_poke by at_cell Hi. cbn [bind]. rewrite list_insert_insert.
  erewrite run_then, run_update by at_cell Hi. cbn [Lx Ly set_Ly set_Lx]. stop (pm_g2 P a0 a1 c). rewrite list_insert_insert.
  erewrite run_then, run_peek by at_cell Hi. cbn [bind]. erewrite run_then, run_diffusion by at_cell Hi. cbn [Lt Lflow tau_steps set_Lflow set_Ly set_Lx set_Lsmooth set_Lt].
  stop (foldM (fun image tau => calculate_step image a2 (narrow P tau)) (tau_steps e) lt). cbn [run bind]. rewrite list_insert_insert. reflexivity.
Qed.
Lemma run_levels : forall rest before previous contrast, last before = Some previous -> 
  match next_levels P M32 contrast previous rest with
  | Ok rest' => exists c, run (loop (seq (length before) (length rest)) (par_level P M32) contrast) (before ++ rest) = Ok (before ++ rest', c)
  | Panic => run (loop (seq (length before) (length rest)) (par_level P M32) contrast) (before ++ rest) = Panic
  | Fuel => run (loop (seq (length before) (length rest)) (par_level P M32) contrast) (before ++ rest) = Fuel
  end.
Proof.
  induction rest as [|e rest IH]; intros before previous contrast Hl; cbn [next_levels length seq loop].
  - exists contrast. reflexivity.
  - rewrite run_then. assert (before <> []) as Hne by (intros ->; discriminate Hl).
    assert (run (par_level P M32 contrast (length before)) (before ++ e :: rest) = let! (e', c') := next_level P M32 contrast previous e in Ok (before ++ e' :: rest, c')) as ->.
    { rewrite (run_level contrast _ _ e previous).
      - destruct (next_level P M32 contrast previous e) as [[e' c']| |]; cbn [bind]; [|reflexivity|reflexivity]. rewrite <- (Nat.add_0_r (length before)) at 1. rewrite insert_app_r. reflexivity.
      - apply list_lookup_middle. reflexivity.
      - destruct before as [|b before]; [destruct (Hne eq_refl)|]. rewrite lookup_app_l by (cbn; lia). rewrite last_lookup in Hl. rewrite <- Hl. f_equal. lia. }
    destruct (next_level P M32 contrast previous e) as [[e' c']| |]; cbn [bind]; [|reflexivity|reflexivity].
    specialize (IH (before ++ [e']) e' c' (last_snoc e' before)). rewrite app_length in IH. cbn [length] in IH. rewrite Nat.add_1_r in IH.
    destruct (next_levels P M32 c' e' rest) as [rest'| |]; cbn [bind].
    + destruct IH as [c IH]. exists c. rewrite <- !app_assoc in IH. exact IH.
    + rewrite <- !app_assoc in IH. exact IH.
    + rewrite <- !app_assoc in IH. exact IH.
Qed.
Lemma run_scale_space m image m' : run (par_scale_space P M32 M64 options (length m) image) m = Ok (m', tt) <-> create_scale_space P M32 M64 options m image = Ok m'.
Proof.
  unfold par_scale_space, create_scale_space. destruct m as [|e rest].
  - split; [|discriminate]. rewrite run_then. cbn [run]. destruct (gaussian_blur M32 image (narrow P (base_scale_offset options))); cbn [bind]; [|discriminate|discriminate]. discriminate.
  - rewrite run_then. cbn [run]. destruct (gaussian_blur M32 image (narrow P (base_scale_offset options))) as [lt| |]; cbn [bind]; [|split; discriminate|split; discriminate].
    erewrite run_then, run_poke by reflexivity. cbn [bind]. erewrite run_then, run_update by (apply same_cell; cbn; lia). cbn [bind Lt set_Lt]. rewrite list_insert_insert.
    rewrite run_then. cbn [run]. destruct (compute_contrast_factor P M32 M64 image (contrast_percentile options) one (contrast_factor_num_bins options)) as [c| |]; cbn [bind]; [|split; discriminate|split; discriminate].
    rewrite run_then. set (first := Level (etime e) (esigma e) (octave e) (sublevel e) (tau_steps e) lt lt (Lx e) (Ly e) (Lxx e) (Lyy e) (Lxy e) (Lflow e) (Ldet e)).
    pose proof (run_levels rest [first] first c eq_refl) as H. change (<[0:=set_Lsmooth P lt (set_Lt P lt e)]> (e :: rest)) with ([first] ++ rest). cbn [length] in H. cbn [length Nat.sub]. rewrite Nat.sub_0_r.
    destruct (next_levels P M32 c first rest) as [rest'| |]; cbn [bind].
    + destruct H as [c' ->]. cbn [bind run app]. split; intros [= <-]; reflexivity.
    + rewrite H. cbn [bind]. split; discriminate.
    + rewrite H. cbn [bind]. split; discriminate.
Qed.

(** ** All of it *)
Lemma run_extract sh1 sh2 sh3 sh4 float_ord sort image r : (exists m', run (par_extract P M32 M64 A exp2 fed options sh1 sh2 sh3 sh4 float_ord sort image) [] = Ok (m', r)) <-> extract P M32 M64 A exp2 fed options float_ord sort image = Ok r.
Proof.
  unfold par_extract, extract. rewrite run_then. cbn [run].
  destruct (allocate_evolutions P M64 exp2 fed options (g_width image) (g_height image)) as [m| |]; cbn [bind]; [|split; [intros [m' H]; discriminate H|discriminate]..].
  rewrite run_then. destruct (create_scale_space P M32 M64 options m image) as [m1| |] eqn:E1.
  2,3: split; [|discriminate]; intros [m' H]; exfalso; destruct (run (par_scale_space P M32 M64 options (length m) image) m) as [[m1 []]| |] eqn:E; [|discriminate H..]; apply run_scale_space in E; rewrite E1 in E; discriminate E.
  rewrite (proj2 (run_scale_space m image m1) E1). cbn [bind].
  assert (length m1 = length m) as Hl.
  { unfold create_scale_space in E1. destruct m as [|e rest]; [discriminate E1|]. destruct (gaussian_blur M32 image _); cbn [bind] in E1; [|discriminate E1..]. destruct (compute_contrast_factor P M32 M64 image _ _ _) as [c| |]; cbn [bind] in E1; [|discriminate E1..].
    set (first := Level _ _ _ _ _ _ _ _ _ _ _ _ _ _) in E1. destruct (next_levels P M32 c first rest) as [rest'| |] eqn:E; cbn [bind] in E1; [|discriminate E1..]. injection E1 as <-. cbn. f_equal. clearbody first.
    clear -E. revert c first rest' E. induction rest as [|x rest IH]; intros c first rest' E; cbn [next_levels] in E; [injection E as <-; reflexivity|].
    destruct (next_level P M32 c first x) as [[y c']| |]; cbn [bind] in E; [|discriminate E..]. destruct (next_levels P M32 c' y rest) as [r| |] eqn:F; cbn [bind] in E; [|discriminate E..]. injection E as <-. cbn. f_equal. exact (IH _ _ _ F). }
  rewrite <- Hl, run_then. destruct (detector_response P M64 options m1) as [m2| |] eqn:E2.
  2,3: split; [|discriminate]; intros [m' H]; exfalso; destruct (run (par_response P M64 options sh1 sh2 (length m1)) m1) as [[m2 []]| |] eqn:E; [|discriminate H..]; apply run_response in E; rewrite E2 in E; discriminate E.
  rewrite (proj2 (run_response sh1 sh2 m1 m2) E2). cbn [bind].
  rewrite run_then. unfold par_keypoints, detect_keypoints. rewrite run_then, run_look. destruct (find_extrema P M32 options m2) as [found| |]; cbn [bind]; [|split; [intros [m' H]; discriminate H|discriminate]..].
  rewrite (run_filter_map _ m2 (refine_keypoint P M32 A m2)) by (intros kp; exact (run_look (fun evolutions => refine_keypoint P M32 A evolutions kp) m2)). destruct (mapM (refine_keypoint P M32 A m2) found) as [refined| |]; cbn [bind]; [|split; [intros [m' H]; discriminate H|discriminate]..].
  unfold par_descriptors, extract_descriptors. rewrite run_then.
  rewrite (run_filter_map _ m2 (fun kp => let! d := mldb_descriptor P M32 A options m2 kp in Ok (option_map (fun d => (kp, d)) d))) by (intros kp; exact (run_look (fun evolutions => let! d := mldb_descriptor P M32 A options evolutions kp in Ok (option_map (fun d => (kp, d)) d)) m2)).
  destruct (mapM _ _) as [pairs| |]; cbn [bind run]; [|split; [intros [m' H]; discriminate H|discriminate]..].
  split; [intros [m' H]; injection H as _ <-; reflexivity|]. intros [= <-]. eauto.
Qed.
Lemma parallel_result sh1 sh2 sh3 sh4 float_ord sort image : let p := par_extract P M32 M64 A exp2 fed options sh1 sh2 sh3 sh4 float_ord sort image in
  exists final, only_result ([], p) final /\ forall r, (exists m, final = Ok (m, r)) <-> extract P M32 M64 A exp2 fed options float_ord sort image = Ok r.
Proof.
  cbv zeta. eexists. split; [exact (one_result _ [] all_cells all_cells (extract_within sh1 sh2 sh3 sh4 float_ord sort image))|]. intros r. apply run_extract.
Qed.
End akaze.

Lemma parallel_extraction :
  forall (P : widths) (M32 : math (single P)) (M64 : math (double P)) (A : angles (single P)) (exp2 : double P -> double P) (fed : double P -> outcome (list (double P))) (options : settings (double P))
    (sh1 sh2 sh3 sh4 : shape) (float_ord : single P -> single P -> bool) (sort : (keypoint (single P) -> keypoint (single P) -> bool) -> list (keypoint (single P)) -> list (keypoint (single P))) (image : gray (single P)),
    let start := ([], par_extract P M32 M64 A exp2 fed options sh1 sh2 sh3 sh4 float_ord sort image) in
    always_ends start /\
    (forall s, reaches start s -> (exists s', step s s') \/ exists o, s.2 = Done o) /\
    forall m o, reaches start (m, Done o) -> forall r, o = Ok r <-> extract P M32 M64 A exp2 fed options float_ord sort image = Ok r.
Proof.
  intros. destruct (parallel_result P M32 M64 A exp2 fed options sh1 sh2 sh3 sh4 float_ord sort image) as (final & [H1 H2 H3] & H). split; [exact H1|]. split; [exact H2|].
  intros m o Ho r. rewrite <- (H r), <- (H3 m o Ho). destruct o as [a| |]; cbn [bind].
  - split; [intros [= ->]; eauto|]. intros [m' [= _ ->]]. reflexivity.
  - split; [discriminate|]. intros [m' H']. discriminate H'.
  - split; [discriminate|]. intros [m' H']. discriminate H'.
Qed.
Lemma race (x : nat) : x = 1 \/ x = 2 -> reaches ([0], join (poke 0 (fun _ => 1)) (poke 0 (fun _ => 2))) ([x], Done (Ok (tt, tt))).
Proof.
  unfold join. intros [->| ->].
  - eapply (rtc_l _ _ ([2], _)). { right. left. eexists. split; [split; reflexivity|reflexivity]. }
    eapply (rtc_l _ _ ([1], _)). { left. eexists. split; [split; reflexivity|reflexivity]. }
    apply rtc_once. right. right. eexists _, _. repeat split; reflexivity.
  - eapply (rtc_l _ _ ([1], _)). { left. eexists. split; [split; reflexivity|reflexivity]. }
    eapply (rtc_l _ _ ([2], _)). { right. left. eexists. split; [split; reflexivity|reflexivity]. }
    apply rtc_once. right. right. eexists _, _. repeat split; reflexivity.
Qed.
Lemma any_order : reaches ([1; 1], for_each (Split 1 Whole Whole) 0 2 (fun i => poke i (fun x => x + i + 1)))
  ([1; 3], Join (loop [0] (fun _ i => poke i (fun x => x + i + 1)) tt) (Done (Ok tt)) (fun _ => Done (Ok tt))).
Proof. apply rtc_once. right. left. eexists. split; [split; reflexivity|reflexivity]. Qed.
