(** Facts about the settings file (C78). *)
From stdpp Require Import base list strings option.
From Coq Require Import Reals ZArith Lia Lra.
From Verif Require Import Outcome Num Lin LinFacts Core Gray Diffuse Akaze Bicubic BicubicSpec Pinhole Frame Sfm SfmPose SfmGeom SfmExport Sandbox VSlam VSlamFacts SettingsFile SettingsFileSpec.

Open Scope nat_scope.
Section facts.
Context {N : Num}.
Notation file := (list (string * json N)).

Lemma as_real_spec (j : json N) (r : N) : as_real j = Some r <-> writes_real j r.
Proof.
  unfold writes_real. destruct j as [z|x|]; cbn [as_real].
  - split; [intros [= <-]; right; eauto|]. intros [H|(z' & [= <-] & ->)]; [discriminate H|reflexivity].
  - split; [intros [= <-]; left; reflexivity|]. intros [[= <-]|(z & H & _)]; [reflexivity|discriminate H].
  - split; [discriminate|]. intros [H|(z & H & _)]; discriminate H.
Qed.
Lemma as_count_spec (limit : Z) (j : json N) (n : nat) : as_count limit j = Some n <-> writes_count limit j n.
Proof.
  unfold writes_count. destruct j as [z|x|]; cbn [as_count].
  - destruct ((0 <=? z)%Z && (z <? limit)%Z) eqn:E.
    + apply andb_true_iff in E as [E1 E2]. apply Z.leb_le in E1. apply Z.ltb_lt in E2. split.
      * intros [= <-]. rewrite Z2Nat.id by lia. auto.
      * intros [[= ->] _]. rewrite Nat2Z.id. reflexivity.
    + split; [discriminate|]. intros [[= ->] H]. apply andb_false_iff in E as [E|E]; [apply Z.leb_gt in E|apply Z.ltb_ge in E]; lia.
  - split; [discriminate|]. intros [H _]. discriminate H.
  - split; [discriminate|]. intros [H _]. discriminate H.
Qed.

(** The entries for a name. *)
Lemma entries (name : string) (f : file) : forall i x, f !! i = Some (name, x) -> (name, x) ∈ filter (fun y : string * json N => y.1 = name) f.
Proof. intros i x H. apply elem_of_list_filter. split; [reflexivity|]. apply elem_of_list_lookup. eauto. Qed.
Lemma entries_unique (name : string) (f : file) : (forall i j x y, f !! i = Some (name, x) -> f !! j = Some (name, y) -> i = j) <-> length (filter (fun y : string * json N => y.1 = name) f) <= 1.
Proof.
  induction f as [|[m v] f IH].
  - cbn. split; [lia|]. intros _ i j x y H. discriminate H.
  - rewrite filter_cons. cbn [fst]. destruct (decide (m = name)) as [->|Hm].
    + split.
      * intros H. cbn [length]. destruct (filter _ f) as [|[m' w] g] eqn:E; [cbn; lia|]. exfalso.
        assert ((m', w) ∈ filter (fun y : string * json N => y.1 = name) f) as Hin by (rewrite E; left). apply elem_of_list_filter in Hin as [Hn Hin]. cbn in Hn. subst m'. apply elem_of_list_lookup in Hin as [j Hj]. specialize (H 0 (S j) v w eq_refl Hj). discriminate H.
      * intros H. cbn [length] in H. destruct (filter _ f) as [|z g] eqn:E; [|cbn in H; lia].
        assert (forall i x, f !! i = Some (name, x) -> False) as Hno. { intros i x Hi. apply entries in Hi. rewrite E in Hi. apply elem_of_nil in Hi. exact Hi. }
        intros [|i] [|j] x y Hi Hj; [reflexivity|destruct (Hno _ _ Hj)|destruct (Hno _ _ Hi)|destruct (Hno _ _ Hi)].
    + rewrite <- IH. split.
      * intros H i j x y Hi Hj. specialize (H (S i) (S j) x y Hi Hj). lia.
      * intros H [|i] [|j] x y Hi Hj; [reflexivity|cbn in Hi; congruence|cbn in Hj; congruence|f_equal; exact (H i j x y Hi Hj)].
Qed.

Section field.
Context {A : Type} (value : json N -> option A) (writes : json N -> A -> Prop) (Hv : forall j a, value j = Some a <-> writes j a).
Lemma read_taken (name : string) (dflt a : A) (f : file) : read_field value name dflt f = Some a -> taken_from writes f name dflt a /\ usable writes f name.
Proof.
  unfold read_field, settings_file. destruct (filter _ f) as [|[m x] [|y g]] eqn:E; [| |discriminate].
  - intros [= <-]. assert (forall j, (name, j) ∉ f) as Hno. { intros j Hj. assert ((name, j) ∈ filter (fun y : string * json N => y.1 = name) f) as Hin by (apply elem_of_list_filter; auto). rewrite E in Hin. apply elem_of_nil in Hin. exact Hin. }
    split; [right; auto|]. split; [apply entries_unique; rewrite E; cbn; lia|]. intros x Hx. destruct (Hno x Hx).
  - assert ((m, x) ∈ filter (fun y : string * json N => y.1 = name) f) as Hin by (rewrite E; left). apply elem_of_list_filter in Hin as [Hn Hin]. cbn in Hn. subst m. cbn [snd]. intros Ha. apply Hv in Ha.
    split; [left; eauto|]. split; [apply entries_unique; rewrite E; cbn; lia|]. intros y Hy.
    assert ((name, y) ∈ filter (fun y : string * json N => y.1 = name) f) as Hin' by (apply elem_of_list_filter; auto). rewrite E in Hin'. apply elem_of_list_singleton in Hin' as [= ->]. eauto.
Qed.
Lemma read_usable (name : string) (dflt : A) (f : file) : usable writes f name -> exists a, read_field value name dflt f = Some a.
Proof.
  intros [H1 H2]. apply entries_unique in H1. unfold read_field, settings_file. destruct (filter _ f) as [|[m x] [|y g]] eqn:E; [eauto| |cbn in H1; lia].
  assert ((m, x) ∈ filter (fun y : string * json N => y.1 = name) f) as Hin by (rewrite E; left). apply elem_of_list_filter in Hin as [Hn Hin]. cbn in Hn. subst m. destruct (H2 x Hin) as [a Ha]. exists a. apply Hv, Ha.
Qed.
End field.

(** The tables entry by entry. *)
Notation from_reals f v := (Forall (fun x : string * (vslam_settings N -> N) * N => taken_from writes_real f x.1.1 x.2 (x.1.2 v)) real_settings).
Notation from_counts f v := (Forall (fun x : string * (vslam_settings N -> nat) * nat * Z => taken_from (writes_count x.2) f x.1.1.1 x.1.2 (x.1.1.2 v)) count_settings).
Notation ok_reals f := (Forall (fun x : string * (vslam_settings N -> N) * N => usable writes_real f x.1.1) real_settings).
Notation ok_counts f := (Forall (fun x : string * (vslam_settings N -> nat) * nat * Z => usable (writes_count x.2) f x.1.1.1) count_settings).
Lemma from_tables (f : file) v : from_reals f v -> from_counts f v -> settings_from f v.
Proof.
  intros H1 H2. rewrite list.Forall_forall in H1. rewrite list.Forall_forall in H2. split.
  - intros name get dflt Hin. exact (H1 _ Hin).
  - intros name get dflt limit Hin. exact (H2 _ Hin).
Qed.
Lemma ok_tables (f : file) : readable f <-> ok_reals f /\ ok_counts f.
Proof.
  split.
  - intros [H1 H2]. split; apply list.Forall_forall.
    + intros [[name get] dflt] Hin. exact (H1 _ _ _ Hin).
    + intros [[[name get] dflt] limit] Hin. exact (H2 _ _ _ _ Hin).
  - intros [H1 H2]. rewrite list.Forall_forall in H1. rewrite list.Forall_forall in H2. split.
    + intros name get dflt Hin. exact (H1 _ Hin).
    + intros name get dflt limit Hin. exact (H2 _ Hin).
Qed.

Ltac entry := cbn [fst snd];
  match goal with
  | H : taken_from _ _ ?name _ _ /\ _ |- taken_from _ _ ?name _ _ => exact (proj1 H)
  | H : _ /\ usable _ _ ?name |- usable _ _ ?name => exact (proj2 H)
  end.
Lemma read_from (f : file) v : read_settings f = Some v -> settings_from f v /\ readable f.
Proof.
  unfold read_settings. cbv zeta. intros H.
  repeat (apply bind_Some in H as (? & ? & H)). apply Some_inj in H. subst v.
  repeat match goal with
  | H : read_real _ _ _ = Some _ |- _ => apply (read_taken as_real writes_real as_real_spec) in H
  | H : read_usize _ _ _ = Some _ |- _ => apply (read_taken (as_count (2 ^ 64)) (writes_count (2 ^ 64)) (as_count_spec (2 ^ 64))) in H
  | H : read_u32 _ _ _ = Some _ |- _ => apply (read_taken (as_count (2 ^ 32)) (writes_count (2 ^ 32)) (as_count_spec (2 ^ 32))) in H
  end.
  split.
  - apply from_tables; unfold real_settings, count_settings; repeat (apply list.Forall_cons; split; [entry|]); apply list.Forall_nil; exact I.
  - apply ok_tables. split; unfold real_settings, count_settings; repeat (apply list.Forall_cons; split; [entry|]); apply list.Forall_nil; exact I.
Qed.
(** A readable file is read. *)
Lemma readable_read (f : file) : readable f -> exists v, read_settings f = Some v.
Proof.
  intros H. apply ok_tables in H as [H1 H2]. unfold real_settings, count_settings in H1, H2.
  repeat match goal with H : Forall _ (_ :: _) |- _ => apply list.Forall_cons in H as [? H]; cbn [fst snd] in * end.
  unfold read_settings. cbv zeta.
  repeat match goal with
  | H : usable _ f ?name |- context [read_real ?name ?d f] => destruct (read_usable as_real writes_real as_real_spec name d f H) as [? E]; change (read_real name d f) with (read_field as_real name d f); rewrite E; clear H E; cbn [mbind option_bind]
  | H : usable _ f ?name |- context [read_usize ?name ?d f] => destruct (read_usable (as_count (2 ^ 64)) (writes_count (2 ^ 64)) (as_count_spec (2 ^ 64)) name d f H) as [? E]; change (read_usize name d f) with (read_field (as_count (2 ^ 64)) name d f); rewrite E; clear H E; cbn [mbind option_bind]
  | H : usable _ f ?name |- context [read_u32 ?name ?d f] => destruct (read_usable (as_count (2 ^ 32)) (writes_count (2 ^ 32)) (as_count_spec (2 ^ 32)) name d f H) as [? E]; change (read_u32 name d f) with (read_field (as_count (2 ^ 32)) name d f); rewrite E; clear H E; cbn [mbind option_bind]
  end.
  eexists. reflexivity.
Qed.
Lemma read_iff (f : file) : (exists v, read_settings f = Some v) <-> readable f.
Proof. split; [intros [v Hv]; exact (proj2 (read_from f v Hv))|apply readable_read]. Qed.
Lemma read_none : read_settings (N := N) [] = Some vslam_default.
Proof. reflexivity. Qed.

(** Only the entries with known names matter, and not their order. *)
Lemma read_field_perm {A : Type} (value : json N -> option A) (name : string) (dflt : A) (f g : file) :
  filter (fun x : string * json N => x.1 = name) f ≡ₚ filter (fun x : string * json N => x.1 = name) g -> read_field value name dflt f = read_field value name dflt g.
Proof.
  intros H. unfold read_field, settings_file. destruct (filter _ f) as [|x [|y l]].
  - apply Permutation_nil in H. rewrite H. reflexivity.
  - apply Permutation_singleton_l in H. rewrite <- H. reflexivity.
  - pose proof (Permutation_length H) as Hl. destruct (filter _ g) as [|x' [|y' l']]; [discriminate Hl|discriminate Hl|reflexivity].
Qed.
Lemma known_entries (names : list string) (name : string) (f : file) : name ∈ names ->
  filter (fun x : string * json N => x.1 = name) (filter (fun x : string * json N => x.1 ∈ names) f) = filter (fun x : string * json N => x.1 = name) f.
Proof.
  intros Hn. rewrite list_filter_filter. apply list_filter_iff. intros x. split; [intros [H _]; exact H|]. intros ->. auto.
Qed.
Lemma read_known (f g : file) : filter (fun x : string * json N => x.1 ∈ setting_names (N := N)) f ≡ₚ filter (fun x : string * json N => x.1 ∈ setting_names (N := N)) g -> read_settings f = read_settings g.
Proof.
  intros H.
  assert (forall name, name ∈ setting_names (N := N) -> filter (fun x : string * json N => x.1 = name) f ≡ₚ filter (fun x : string * json N => x.1 = name) g) as Hn.
  { intros name Hin. rewrite <- (known_entries _ _ f Hin), <- (known_entries _ _ g Hin). apply filter_Permutation, H. }
  clear H. apply list.Forall_forall in Hn. unfold setting_names, real_settings, count_settings in Hn. cbn [map fst snd app] in Hn.
  repeat match type of Hn with Forall _ (_ :: _) => apply list.Forall_cons in Hn as [? Hn] end. clear Hn.
  unfold read_settings. cbv zeta. unfold read_real, read_usize, read_u32.
  repeat match goal with
  | H : filter (fun x => x.1 = ?name) f ≡ₚ _ |- context [read_field ?value ?name ?d f] => rewrite (read_field_perm value name d f g H); clear H
  end.
  reflexivity.
Qed.
End facts.

(** The names are different. *)
Lemma names_nodup {N : Num} : NoDup (setting_names (N := N)) /\ length (setting_names (N := N)) = 41.
Proof.
  unfold setting_names, real_settings, count_settings. cbn [map fst snd app]. split; [|reflexivity].
  match goal with |- NoDup ?l => apply (bool_decide_eq_true_1 (NoDup l)) end. vm_compute. reflexivity.
Qed.
Lemma program_settings : forall (P : widths) (M32 : math (single P)) (M64 : math (double P)) (A : angles (single P)) (K : casts (single P)) (T : trig (double P)) exp2 fed luma lumaa float_ord sort k k1
    (opt : options (double P)) (content : option (settings_file (double P))) loaded photos,
  exists v, mapping_with P M32 M64 A K T exp2 fed luma lumaa float_ord sort k k1 opt content loaded photos = mapping P M32 M64 A K T exp2 fed luma lumaa float_ord sort k k1 opt (Some v) loaded photos /\
    ((exists file, content = Some file /\ readable file /\ settings_from file v) \/ (forall file, content = Some file -> ~ readable file) /\ settings_from [] v).
Proof.
  intros. exists (default vslam_default (content ≫= read_settings)). split.
  - unfold mapping_with, mapping. reflexivity.
  - destruct content as [file|]; cbn [mbind option_bind].
    + destruct (read_settings file) as [v|] eqn:E; cbn [default].
      * left. exists file. destruct (read_from file v E) as [H1 H2]. auto.
      * right. split.
        -- intros f [= <-] Hf. destruct (readable_read file Hf) as [v Hv]. rewrite E in Hv. discriminate Hv.
        -- exact (proj1 (read_from [] vslam_default read_none)).
    + right. split; [intros f H; discriminate H|]. exact (proj1 (read_from [] vslam_default read_none)).
Qed.
(** A count written with a fraction is not read, whatever else is there. *)
Lemma bad_entry {N : Num} (x r : N) : read_settings [("akaze_threshold"%string, JFloat x); ("tracking_features"%string, JFloat r)] = None.
Proof. reflexivity. Qed.
Lemma bad_entry_discards : forall (P : widths) (M32 : math (single P)) (M64 : math (double P)) (A : angles (single P)) (K : casts (single P)) (T : trig (double P)) exp2 fed luma lumaa float_ord sort k k1
    (opt : options (double P)) loaded photos (x r : double P),
  mapping_with P M32 M64 A K T exp2 fed luma lumaa float_ord sort k k1 opt (Some [("akaze_threshold"%string, JFloat x); ("tracking_features"%string, JFloat r)]) loaded photos =
  mapping_with P M32 M64 A K T exp2 fed luma lumaa float_ord sort k k1 opt None loaded photos.
Proof. intros. unfold mapping_with. cbn [mbind option_bind]. rewrite bad_entry. reflexivity. Qed.
Lemma given_discarded :
  exists (file : settings_file RNum) (x : R), ("akaze_threshold"%string, JFloat (N := RNum) x) ∈ file /\ usable writes_real file "akaze_threshold"%string /\ x <> vs_akaze_threshold (vslam_default : vslam_settings RNum) /\
  forall (M32 M64 : math RNum) (A : angles RNum) (K : casts RNum) (T : trig RNum) exp2 fed luma lumaa float_ord sort k k1 (opt : options RNum) loaded photos,
    mapping_with Rwidths M32 M64 A K T exp2 fed luma lumaa float_ord sort k k1 opt (Some file) loaded photos =
    mapping_with Rwidths M32 M64 A K T exp2 fed luma lumaa float_ord sort k k1 opt None loaded photos.
Proof.
  exists [("akaze_threshold"%string, JFloat (N := RNum) 2%R); ("tracking_features"%string, JFloat (N := RNum) 8192%R)], 2%R.
  split; [left|]. split.
  - apply (read_taken (N := RNum) as_real writes_real as_real_spec "akaze_threshold"%string 0%R 2%R). reflexivity.
  - split; [|intros; apply (bad_entry_discards Rwidths)]. cbn [vs_akaze_threshold vslam_default]. unfold lit. cbn. lra.
Qed.
