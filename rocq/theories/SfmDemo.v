(** Concrete histories of the mapping model, used to show that the hypotheses of the theorems
    can be met and to exhibit runs which break a property outside them.  Poses are integers
    under addition, descriptors are natural numbers, and the external routines accept
    whatever they are given. *)
From Coq Require Import ZArith.
From stdpp Require Import gmap list.
From Verif Require Import Outcome Sfm SfmSpec SfmUse.
Open Scope nat_scope.

Definition demo_orders : orders :=
  Orders (fun _ X => elements X) elements elements elements elements elements elements.

(** Exact matches first; the distance of different descriptors is large. *)
Definition demo_knn (fs : list nat) (f n : nat) : list (nat * nat) :=
  let xs := imap (fun i x => (i, if x =? f then 0 else 100)) fs in
  take n (filter (fun x => x.2 = 0) xs ++ filter (fun x => x.2 <> 0) xs).

Definition demo_env (update : Z -> list (Z * Z) -> option Z) : env Z nat := {|
  e_ord := demo_orders;
  e_similar := fun _ _ _ => [];
  e_knn := demo_knn;
  e_two_view := fun _ a b ms => Some ((Z.of_nat b - Z.of_nat a)%Z, seq 0 (length ms));
  e_three_view := fun _ c x y => TVaccept x.2.1 y.2.1 (fun _ => true) (fun _ => true) (fun _ => true);
  e_register := fun _ _ k _ => Some (Z.of_nat k, fun _ => true);
  e_robust := fun _ _ _ => true;
  e_bi_robust := fun _ _ _ => true;
  e_disagree := fun _ _ _ => Some (fun _ => false);
  e_too_few := fun _ _ => false;
  e_optimize3 := fun _ _ _ _ => Some (1%Z, 2%Z);
  e_sort := id;
  e_update := update;
  e_second_worse := fun _ _ _ _ _ => true;
  e_rescale := fun _ _ _ => None;
  e_fuel := 100
|}.

Definition demo_keep (p : Z) (_ : list (Z * Z)) : option Z := Some p.
Definition demo_e : env Z nat := demo_env demo_keep.

Definition demo_settings (recent iterations : nat) : settings :=
  Settings 8 recent 0 8 10 2 10 1 4 1 iterations 1.

Lemma demo_env_ok update : env_ok (demo_env update).
Proof.
  split.
  - split; intros; reflexivity.
  - intros d k n. cbn. split; [constructor|]. intros x Hx. apply elem_of_nil in Hx as [].
  - intros fs f n. cbn. unfold demo_knn. set (xs := imap _ _).
    assert (filter (fun x : nat * nat => x.2 = 0) xs ++ filter (fun x => x.2 <> 0) xs ≡ₚ xs) as Hp by (induction xs as [|x l IH]; [reflexivity|]; rewrite !filter_cons;
      destruct (decide (x.2 = 0)); [rewrite decide_False by tauto|rewrite decide_True by assumption]; cbn [app];
        [rewrite IH; reflexivity|rewrite <- Permutation_middle, IH; reflexivity]).
    assert (xs.*1 = seq 0 (length fs)) as Hseq.
    { apply list_eq. intros i. rewrite list_lookup_fmap. unfold xs. rewrite list_lookup_imap. destruct (fs !! i) as [x|] eqn:E.
      - pose proof (lookup_lt_Some _ _ _ E). rewrite lookup_seq_lt by assumption. reflexivity.
      - apply lookup_ge_None in E. rewrite lookup_seq_ge by assumption. reflexivity. }
    assert (length xs = length fs) as Hlen by (unfold xs; apply imap_length).
    split; [rewrite take_length, Hp, Hlen; reflexivity|].
    assert (NoDup (filter (fun x : nat * nat => x.2 = 0) xs ++ filter (fun x => x.2 <> 0) xs).*1) as Hnd by (rewrite Hp, Hseq; apply NoDup_seq).
    split.
    + rewrite fmap_take. rewrite <- (take_drop n (fmap fst _)) in Hnd. apply NoDup_app in Hnd as [Hnd _]. exact Hnd.
    + intros i x Hx. assert ((i, x) ∈ xs) as Hx'. { rewrite <- Hp. apply elem_of_take in Hx as (j & Hj & _). eapply elem_of_list_lookup_2. exact Hj. }
      apply (elem_of_list_fmap_1 fst) in Hx'. rewrite Hseq in Hx'. apply elem_of_seq in Hx'. cbn in Hx'. lia.
  - intros d a b ms p ixs. cbn. intros [= _ <-] i Hi. apply elem_of_seq in Hi. lia.
  - intros l. reflexivity.
Qed.

Definition demo_run (s : settings) (ops : list (op Z nat)) : outcome (vdata Z nat) := run 0%Z Z.add Z.opp s ops.
Definition demo_feats : list nat := [10; 20; 30].
Definition demo_frame (e : env Z nat) : op Z nat := OpAddFrame e 0 demo_feats.

(** A feed and six frames: the third starts a reconstruction, the others join it. *)
Definition demo_ops : list (op Z nat) := OpAddFeed :: replicate 6 (demo_frame demo_e).
(** The reconstructions of a database: views (frame, pose, landmarks), landmarks with their
    observations, constrained view triples. *)
Definition demo_recon (rc : recon Z) :=
  (map (fun x : key * view Z => (x.1, (v_frame x.2, v_pose x.2, v_lms x.2))) (map_to_list (sm_map (r_views rc))),
   map (fun x : key * gmap nat nat => (x.1, map_to_list x.2)) (map_to_list (sm_map (r_lms rc))),
   map (fun x : key * constraint3 Z => c_views x.2) (map_to_list (sm_map (r_cons rc)))).
Definition demo_summary (o : outcome (vdata Z nat)) :=
  match o with
  | Ok d => Ok (map (fun x : key * recon Z => (x.1, demo_recon x.2)) (map_to_list (sm_map (d_recs d))))
  | Panic => Panic | Fuel => Fuel end.

(** Histories of operations which ask nothing of their caller are always well used. *)
Lemma demo_used_well s d : used_well 0%Z Z.add Z.opp s d demo_ops.
Proof.
  unfold demo_ops. cbn [replicate]. split; [split; [intros e [=]|exact I]|]. intros d1 _.
  do 6 (split; [split; [intros e [= <-]; apply demo_env_ok|exact I]|]; intros ? _). exact I.
Qed.

(** The database and the reconstruction made by [demo_ops]. *)
Definition get (o : outcome (vdata Z nat)) : vdata Z nat := match o with Ok d => d | _ => vdata_init end.
Definition is_ok {A} (o : outcome A) : bool := match o with Ok _ => true | _ => false end.
Definition is_some {A} (o : option A) : bool := match o with Some _ => true | _ => false end.
Definition get_recon (d : vdata Z nat) (r : key) : recon Z := default recon_empty (sm_map (d_recs d) !! r).

Lemma is_ok_get o : is_ok o = true -> o = Ok (get o).
Proof. destruct o; [reflexivity|discriminate..]. Qed.
Lemma is_some_recon d r : is_some (sm_map (d_recs d) !! r) = true -> has_recon d r (get_recon d r).
Proof. unfold has_recon, get_recon. destruct (sm_map (d_recs d) !! r); [reflexivity|discriminate]. Qed.

Definition demo_data : vdata Z nat := get (demo_run (demo_settings 10 1) demo_ops).
Definition demo_rc : recon Z := get_recon demo_data 0.
Lemma demo_run_ok : demo_run (demo_settings 10 1) demo_ops = Ok demo_data.
Proof. apply is_ok_get. vm_compute. reflexivity. Qed.
Lemma demo_has_recon : has_recon demo_data 0 demo_rc.
Proof. apply is_some_recon. vm_compute. reflexivity. Qed.

(** Three frames without a reconstruction. *)
Definition demo_three : list (op Z nat) := OpAddFeed :: replicate 3 (demo_frame demo_e).

(** Starting a reconstruction where one center feature is matched to two features. *)
Definition demo_double_match : op Z nat := OpAddReconstruction demo_e 0 1 2 1%Z 2%Z [] [(0, 0); (0, 1)] [].
(** Starting a second reconstruction from the same frames. *)
Definition demo_start : op Z nat := OpAddReconstruction demo_e 0 1 2 1%Z 2%Z [(0, 0, 0)] [(1, 1)] [(2, 2)].

Definition demo_drop (p : Z) (_ : list (Z * Z)) : option Z := if (p =? 5)%Z then None else Some p.

(** Decisions about concrete reconstructions. *)
Definition assigned_b (rc : recon Z) (v f l : nat) : bool :=
  match sm_map (r_views rc) !! v with
  | Some w => match v_lms w !! f with Some l' => l' =? l | None => false end
  | None => false end.
Definition observes_b (rc : recon Z) (l v f : nat) : bool :=
  match sm_map (r_lms rc) !! l with
  | Some m => match m !! v with Some f' => f' =? f | None => false end
  | None => false end.
Definition view_of_b (d : vdata Z nat) (r v k : nat) : bool :=
  match sm_map (d_recs d) !! r with
  | Some rc => match sm_map (r_views rc) !! v with Some w => v_frame w =? k | None => false end
  | None => false end.

Lemma assigned_b_spec rc v f l : assigned_b rc v f l = true -> assigned rc v f l.
Proof.
  unfold assigned_b, assigned, has_view. destruct (sm_map (r_views rc) !! v) as [w|]; [|discriminate]. destruct (v_lms w !! f) as [l'|] eqn:E; [|discriminate].
  intros H%Nat.eqb_eq. subst. eauto.
Qed.
Lemma observes_b_spec rc v f l : observes_b rc l v f = false -> ~ observes rc l v f.
Proof.
  unfold observes_b, observes, has_landmark. intros H (m & Hm & E). rewrite Hm, E, Nat.eqb_refl in H. discriminate.
Qed.
Lemma view_of_b_spec d r v k : view_of_b d r v k = true -> is_view_of d r v k.
Proof.
  unfold view_of_b, is_view_of, has_recon, has_view. destruct (sm_map (d_recs d) !! r) as [rc|]; [|discriminate]. destruct (sm_map (r_views rc) !! v) as [w|] eqn:E; [|discriminate].
  intros H%Nat.eqb_eq. eauto 10.
Qed.

(** Two reconstructions of three frames each. *)
Definition demo_two : list (op Z nat) :=
  OpAddFeed :: replicate 6 (demo_frame demo_e) ++
  [OpAddReconstruction demo_e 0 1 2 1%Z 2%Z [(0, 0, 0)] [(1, 1)] [(2, 2)];
   OpAddReconstruction demo_e 3 4 5 1%Z 2%Z [(0, 0, 0)] [(1, 1)] [(2, 2)]].
Definition demo_two_data : vdata Z nat := get (demo_run (demo_settings 0 1) demo_two).
Definition demo_lmap : gmap key key := {[0 := 0]}.
