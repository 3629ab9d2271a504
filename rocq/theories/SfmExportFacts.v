(** Proofs for C74. *)
From stdpp Require Import gmap list.
From Coq Require Import Reals Lra Lia.
From Verif Require Import Outcome OutcomeFacts Num Lin LinSpec LinFacts Core CoreSpec CoreFacts Geom GeomSpec GeomFacts Sfm SfmSpec SfmData SfmRec SfmPrim SfmCons SfmPose SfmPoseSpec SfmPoseFacts.
From Verif Require Import SfmGeom SfmGeomSpec SfmGeomFacts SfmGeomReg SfmGeomExact SfmTruthSpec SfmTruth Bicubic SfmExport SfmExportSpec.
Open Scope R_scope.

Section facts.
Context {F : Type} (st : gsettings RNum) (G : tools RNum F) (o : orders) (colour_of : F -> colour).
Context (Ho : orders_ok o).
Implicit Types (rc : recon riso) (d : vdata riso F).
Notation pictured := (pictured st G o colour_of).
Notation located := (located st G o).
Notation drawn := (drawn st G o).

Lemma located_iff d rc l m h : recon_ok d rc -> has_landmark rc l m -> triangulate_robust st G o d rc [l] = Some h <-> located d rc l h.
Proof.
  intros Hok Hm. pose proof (robust_iff st G o d rc l m Ho Hok Hm) as Hr. pose proof (landmark_listed G o d rc l m Ho Hok Hm) as Hl. unfold triangulate_robust. rewrite landmark_list1, (landmark_list o rc l m Hm).
  unfold SfmExportSpec.located, robust. rewrite <- Hr. destruct (landmarks_robust st G o d rc [l]).
  - split; [intros H; split; [reflexivity|]; eauto|]. intros [_ (ps & Hps & H)]. rewrite (listed_fun G o d rc l ps _ Hps Hl) in H. exact H.
  - split; [intros H; congruence|intros [H _]; congruence].
Qed.
Lemma located_landmark d rc l h : located d rc l h -> exists m, has_landmark rc l m.
Proof. intros [_ (ps & (m & Hm & _) & _)]. eauto. Qed.

Lemma landmark_vertex_post d rc l : recon_ok d rc -> (exists m, has_landmark rc l m) ->
  exists y, landmark_vertex st G o colour_of d rc l = Ok y /\ match y with Some pc => pictured d rc l pc | None => forall pc, ~ pictured d rc l pc end.
Proof.
  intros Hok [m Hm]. unfold landmark_vertex. pose proof Hm as Hm'. unfold has_landmark in Hm'. unfold sm_get at 1. rewrite Hm'. cbn [unwrap bind].
  rewrite (obs_readable_ok d rc l m Hok Hm). cbn [assert_]. pose proof (located_iff d rc l m) as Hloc. destruct (triangulate_robust st G o d rc [l]) as [h|] eqn:Et.
  - assert (located d rc l h) as Hh by (apply (Hloc h Hok Hm); reflexivity). destruct (point h) as [p|] eqn:Ep.
    + destruct (obs_list o l m) as [|[v f] rest] eqn:Eo.
      { exfalso. destruct Hh as [(_ & (x & y & px & py & _ & Hx & _)) _]. apply (ok_mirrored _ _ Hok) in Hx as (m' & Hm2 & Hf). assert (m' = m) as -> by (unfold has_landmark in *; congruence).
        apply (elem_of_obs_list o l m x.1 x.2 Ho) in Hf. rewrite Eo in Hf. apply elem_of_nil in Hf as []. }
      assert (m !! v = Some f) as Hvf by (apply (elem_of_obs_list o l m v f Ho); rewrite Eo; left). assert (assigned rc v f l) as Ha by (apply (ok_mirrored _ _ Hok); exists m; auto).
      destruct (assigned_observed G d rc v f l (ok_entries _ _ Hok) Ha) as (pb & w & fr & x & Hw & Hfr & Hx & _). cbn [fst snd] in *. unfold observation_colour, sm_get, has_view, has_frame in *. rewrite Hw. cbn [unwrap bind]. rewrite Hfr. cbn [unwrap bind]. rewrite Hx. cbn [unwrap bind].
      eexists. split; [reflexivity|]. split; [exists h; auto|]. exists v, f, w, fr, x. auto.
    + eexists. split; [reflexivity|]. intros pc [(h' & Hh' & Ep') _]. apply (Hloc h' Hok Hm) in Hh'. assert (h' = h) as -> by congruence. congruence.
  - eexists. split; [reflexivity|]. intros pc [(h' & Hh' & Ep') _]. apply (Hloc h' Hok Hm) in Hh'. congruence.
Qed.
Lemma average_mean (l : list R) : running_mean (N := RNum) l = average l.
Proof. destruct l as [|x l]; [reflexivity|]. apply running_mean_spec. discriminate. Qed.
Lemma view_camera_post d rc v : recon_ok d rc -> (exists w, has_view rc v w) -> exists c, view_camera st G o d rc v = Ok c /\ drawn d rc v c.
Proof.
  intros Hok [w Hw]. unfold view_camera. pose proof Hw as Hw'. unfold has_view in Hw'. unfold sm_get at 1. rewrite Hw'. cbn [unwrap bind].
  assert (L : forall l, l ∈ v_lms w -> exists m, has_landmark rc l m). { intros l Hl. apply elem_of_list_lookup in Hl as [f Hf]. destruct (view_lm_exists rc v w f l (ok_mirrored _ _ Hok) Hw Hf) as (m & Hm & _). eauto. }
  assert (forallb (landmark_readable d rc) (v_lms w) = true) as ->. { apply forallb_forall. intros l Hl. apply elem_of_list_In in Hl. destruct (L l Hl) as [m Hm]. eapply landmark_readable_ok; eassumption. }
  cbn [assert_]. eexists. split; [reflexivity|]. set (tri := fun l => triangulate_robust st G o d rc [l]).
  assert (A : forall k x, k ∈ v_lms w -> away tri (v_pose w) k x <-> distant st G o d rc (v_pose w) k x).
  { intros k x Hk. destruct (L k Hk) as [m Hm]. unfold away, distant, tri. split; intros (h & q & H1 & H2); exists h, q; (split; [apply (located_iff d rc k m h Hok Hm); exact H1|exact H2]). }
  destruct (distances_of tri w) as (ks & S1 & S2 & S3). exists w, ks, (view_distances (N := RNum) tri w). split; [exact Hw|]. split; [exact S1|]. split; [|split].
  - intros k Hk Hn x Hx. apply (S2 k Hk Hn x). apply A; assumption.
  - assert (forall ks', ks' ⊆ v_lms w -> forall ds, Forall2 (away tri (v_pose w)) ks' ds -> Forall2 (distant st G o d rc (v_pose w)) ks' ds) as H.
    { intros ks' Hs ds H. induction H as [|k x ks' ds Hx _ IH]; [constructor|]. constructor; [apply A; [apply Hs; left|exact Hx]|]. apply IH. intros y Hy. apply Hs. right. exact Hy. }
    apply H; [|exact S3]. intros k Hk. eapply sublist_elem_of; eassumption.
  - unfold mean_distance. rewrite average_mean. reflexivity.
Qed.

Lemma vertices_of d rc ls : recon_ok d rc -> (forall l, l ∈ ls -> exists m, has_landmark rc l m) -> NoDup ls ->
  exists ys ls', mapM (landmark_vertex st G o colour_of d rc) ls = Ok ys /\ NoDup ls' /\ ls' ⊆ ls /\ Forall2 (pictured d rc) ls' (omap (fun y => y) ys) /\ forall l pc, l ∈ ls -> pictured d rc l pc -> l ∈ ls'.
Proof.
  intros Hok. induction ls as [|l ls IH]; intros Hls Hn; [exists [], []; split; [reflexivity|]; split; [constructor|]; split; [intros x Hx; exact Hx|]; split; [constructor|]; intros ? ? H; apply elem_of_nil in H as []|].
  apply NoDup_cons in Hn as [Hl Hn]. destruct IH as (ys & ls' & E & Hn' & Hs & Hf & Ha); [intros x Hx; apply Hls; right; exact Hx|exact Hn|].
  destruct (landmark_vertex_post d rc l Hok) as (y & Ey & Hy); [apply Hls; left|]. cbn [mapM]. rewrite Ey. cbn [bind]. rewrite E. cbn [bind]. destruct y as [pc|].
  - exists (Some pc :: ys), (l :: ls'). split; [reflexivity|]. split; [constructor; [intros H; apply Hl, Hs, H|exact Hn']|]. split; [intros x Hx; apply elem_of_cons in Hx as [->|Hx]; [left|right; apply Hs, Hx]|]. split; [constructor; [exact Hy|exact Hf]|].
    intros x pc' Hx Hp. apply elem_of_cons in Hx as [->|Hx]; [left|right; eapply Ha; eassumption].
  - exists (None :: ys), ls'. split; [reflexivity|]. split; [exact Hn'|]. split; [intros x Hx; right; apply Hs, Hx|]. split; [exact Hf|]. intros x pc' Hx Hp. apply elem_of_cons in Hx as [->|Hx]; [destruct (Hy pc' Hp)|eapply Ha; eassumption].
Qed.
Lemma cameras_of d rc vs : recon_ok d rc -> (forall v, v ∈ vs -> exists w, has_view rc v w) -> exists cs, mapM (view_camera st G o d rc) vs = Ok cs /\ Forall2 (drawn d rc) vs cs.
Proof.
  intros Hok Hvs. induction vs as [|v vs IH]; [exists []; split; [reflexivity|constructor]|]. destruct IH as (cs & E & Hf); [intros x Hx; apply Hvs; right; exact Hx|].
  destruct (view_camera_post d rc v Hok) as (c & Ec & Hc); [apply Hvs; left|]. exists (c :: cs). cbn [mapM]. rewrite Ec. cbn [bind]. rewrite E. split; [reflexivity|constructor; assumption].
Qed.

Lemma exported d r rc camera_faces : data_ok d -> has_recon d r rc ->
  exists ls points vs cameras, export_reconstruction st G o colour_of d r camera_faces = Ok (export points cameras camera_faces) /\
    NoDup ls /\ Forall2 (pictured d rc) ls points /\ (forall l pc, pictured d rc l pc -> l ∈ ls) /\
    NoDup vs /\ (forall v, v ∈ vs <-> exists w, has_view rc v w) /\ Forall2 (drawn d rc) vs cameras.
Proof.
  intros Hd Hr. pose proof (ok_recons _ Hd r rc Hr) as Hok.
  assert (Kl : forall l, l ∈ o_lms o (sm_keys (r_lms rc)) <-> exists m, has_landmark rc l m) by (intros l; rewrite (oo_lms _ Ho); unfold sm_keys, has_landmark; rewrite elem_of_elements, elem_of_dom; reflexivity).
  assert (Kv : forall v, v ∈ o_views o (sm_keys (r_views rc)) <-> exists w, has_view rc v w) by (intros v; rewrite (oo_views _ Ho); unfold sm_keys, has_view; rewrite elem_of_elements, elem_of_dom; reflexivity).
  destruct (vertices_of d rc (o_lms o (sm_keys (r_lms rc))) Hok) as (ys & ls & E & Hn & _ & Hf & Ha); [apply Kl|rewrite (oo_lms _ Ho); apply NoDup_elements|].
  destruct (cameras_of d rc (o_views o (sm_keys (r_views rc))) Hok) as (cs & Ec & Hc); [apply Kv|].
  exists ls, (omap (fun y => y) ys), (o_views o (sm_keys (r_views rc))), cs. unfold export_reconstruction, sm_get. unfold has_recon in Hr. rewrite Hr. cbn [unwrap bind]. rewrite E. cbn [bind]. rewrite Ec. cbn [bind]. split; [reflexivity|].
  split; [exact Hn|]. split; [exact Hf|]. split; [|split; [rewrite (oo_views _ Ho); apply NoDup_elements|split; [exact Kv|exact Hc]]].
  intros l pc Hp. apply (Ha l pc); [|exact Hp]. apply Kl. destruct Hp as [(h & Hh & _) _]. eapply located_landmark. exact Hh.
Qed.
Lemma export_missing d r camera_faces : sm_map (d_recs d) !! r = None -> export_reconstruction st G o colour_of d r camera_faces = Panic.
Proof. intros E. unfold export_reconstruction, sm_get. rewrite E. reflexivity. Qed.

(** ** Correct maps *)
Context (bo : F -> rvec3) (cam : key -> riso) (pt : key -> nat -> rvec3).
Lemma iso_point_zero (p : riso) : iso_point p vzero = trans p.
Proof. lin. Qed.
Lemma gauge_centre k0 (u : R) k : rigid (cam k0) -> rigid (cam k) -> iso_point (iso_inv (seen_from cam k0 u k)) vzero = place_from cam k0 u (GeomSpec.centre (cam k)).
Proof.
  intros H0 Hk. assert (iso_point (seen_from cam k0 u k) (place_from cam k0 u (GeomSpec.centre (cam k))) = vzero) as E.
  { unfold seen_from, place_from. assert (iso_point (cam k) (GeomSpec.centre (cam k)) = vzero) as Ec by (rewrite <- (iso_point_inv_r (cam k) vzero Hk); f_equal; rewrite iso_point_zero; reflexivity).
    rewrite <- (relative_point (cam k) (cam k0) _ H0) in Ec. revert Ec. generalize (SfmPoseSpec.relative (cam k) (cam k0)) (iso_point (cam k0) (GeomSpec.centre (cam k))). intros p q Ec.
    transitivity (vscale u (iso_point p q)); [unfold pose_scale, iso_point; cbn [rot trans]; rewrite mvec_scale; generalize (mvec (rot p) q) (trans p); intros; lin|]. rewrite Ec. lin. }
  rewrite <- E. apply iso_point_inv_l. apply gauge_rigid; assumption.
Qed.
Lemma robust_observations_of d rc l ps : recon_ok d rc -> robust st G d rc l -> listed (t_bearing G) o d rc l ps ->
  robust_observations (robust_minimum_observations st) (size (sm_map (r_views rc))) (robust_observation_incidence_minimum_cosine_distance st) ps.
Proof.
  intros Hok Hrob Hl. destruct Hl as (m & Hm & Hf) eqn:El. clear El. apply (observations_robust_spec st G o d rc [l] ps Ho Hok).
  - intros l' Hl'. apply elem_of_list_singleton in Hl' as ->. eauto.
  - exists [ps]. split; [constructor; [exists m; auto|constructor]|]. cbn. rewrite app_nil_r. reflexivity.
  - apply (robust_iff st G o d rc l m Ho Hok Hm). exact Hrob.
Qed.

Lemma exported_truth_in D d r rc : true_scene bo cam pt D -> frames_of D d -> data_ok d -> has_recon d r rc -> mapped cam pt D rc ->
  t_bearing G = bo -> exact_triangulator (t_triangulate G) -> 0 <= robust_observation_incidence_minimum_cosine_distance st ->
  exists k0 unit, (exists fr, has_frame D k0 fr) /\ 0 < unit /\
    (forall l pc, pictured d rc l pc -> forall v f p, assigned rc v f l -> shows pt rc (v, f) p -> pc.1 = place_from cam k0 unit p) /\
    (forall l, robust st G d rc l -> exists pc, pictured d rc l pc) /\
    (forall v c, drawn d rc v c -> exists w, has_view rc v w /\ optical_center c = place_from cam k0 unit (GeomSpec.centre (cam (v_frame w)))).
Proof.
  intros HD Hfr Hd Hr Hmap Hbo Htri Hinc. pose proof (ok_recons _ Hd r rc Hr) as Hok. apply (mapped_iff cam pt D rc) in Hmap as ((k0 & u & Hb & Hp) & Ht & _).
  pose proof (base_rigid bo cam pt D HD k0 u Hb) as H0.
  assert (L : forall l, robust st G d rc l -> exists ps, listed (t_bearing G) o d rc l ps /\
     forall v f p, assigned rc v f l -> shows pt rc (v, f) p -> place_from cam k0 u p <> vzero /\ t_triangulate G ps = Some (from_point (place_from cam k0 u p))).
  { intros l Hl. destruct Hl as [(m & Hm & Hsz) Hrest] eqn:E. clear E. assert (robust st G d rc l) as Hl' by (split; eauto). pose proof (landmark_listed G o d rc l m Ho Hok Hm) as Hli. eexists. split; [exact Hli|]. intros v f p Ha Hs.
    assert (exact_rays (place_from cam k0 u p) (pose_bearings G d rc (obs_list o l m))) as Hex.
    { apply (gauge_exact bo cam pt D HD k0 u p); [exact Hb| |].
      - destruct Hrest as (x & y & px & py & _ & Hx & _). apply (ok_mirrored _ _ Hok) in Hx as (m' & Hm' & Hx). assert (m' = m) as -> by (unfold has_landmark in *; congruence). apply (elem_of_obs_list o l m x.1 x.2 Ho) in Hx.
        intros En. pose proof (landmark_observed G o d rc l m Ho Hok Hm) as Hf. rewrite En in Hf. apply Forall2_nil_inv_r in Hf. rewrite Hf in Hx. apply elem_of_nil in Hx as [].
      - intros y Hy. apply elem_of_list_lookup in Hy as [i Hi]. destruct (Forall2_lookup_r _ _ _ _ _ (landmark_observed G o d rc l m Ho Hok Hm) Hi) as ([v' f'] & Hvf & Hob). apply elem_of_list_lookup_2, (elem_of_obs_list o l m v' f' Ho) in Hvf.
        rewrite Hbo in Hob. destruct (observed_shows bo pt d rc (v', f') y Hob) as [q Hq]. assert (assigned rc v' f' l) as Ha' by (apply (ok_mirrored _ _ Hok); exists m; auto).
        rewrite (Ht (v, f) (v', f') p q (same_landmark rc v f v' f' l Ha Ha') Hs Hq). exact (observed_ray bo cam pt D d rc k0 u (v', f') q y Hfr Hp Hob Hq). }
    split; [exact (er_point _ _ Hex)|]. apply Htri; [exact Hex|]. eapply robust_resolved; [exact Hex|exact Hinc|]. eapply robust_observations_of; eassumption. }
  exists k0, u. destruct Hb as [Hb0 Hu] eqn:Eb. clear Eb. split; [exact Hb0|]. split; [exact Hu|]. split; [|split].
  - intros l pc [(h & [Hrob (ps & Hps & Hh)] & Hpt) _] v f p Ha Hs. destruct (L l Hrob) as (ps' & Hps' & H). rewrite (listed_fun G o d rc l ps ps' Hps Hps') in Hh. destruct (H v f p Ha Hs) as [Hz Ht']. rewrite Hh in Ht'. assert (h = from_point (place_from cam k0 u p)) as -> by congruence.
    rewrite point_from_point in Hpt by exact Hz. congruence.
  - intros l Hrob. destruct (L l Hrob) as (ps & Hps & H). pose proof Hrob as [_ (x & _ & px & _ & _ & Hx & _ & Hpx & _)]. destruct x as [v f]. cbn [fst snd] in *. destruct (observed_shows (t_bearing G) pt d rc (v, f) px Hpx) as [p Hs]. destruct (H v f p Hx Hs) as [Hz Htr].
    destruct Hpx as (w & fr & x & Hw & Hf & Hxx & _). exists (place_from cam k0 u p, colour_of x). split; [exists (from_point (place_from cam k0 u p)); split; [split; [exact Hrob|eauto]|apply point_from_point; exact Hz]|]. exists v, f, w, fr, x. auto.
  - intros v c (w & ks & ds & Hw & _ & _ & _ & ->). exists w. split; [exact Hw|]. unfold camera_of_view. cbn [optical_center]. rewrite (Hp v w Hw). apply gauge_centre; [exact H0|]. destruct (ok_entries _ _ Hok v w Hw) as (fr & Hf & _). destruct (Hfr _ _ Hf) as (fr' & Hf' & _). exact (ts_rigid _ _ _ _ HD _ _ Hf').
Qed.
Lemma exported_truth d r rc : true_scene bo cam pt d -> data_ok d -> has_recon d r rc -> mapped cam pt d rc ->
  t_bearing G = bo -> exact_triangulator (t_triangulate G) -> 0 <= robust_observation_incidence_minimum_cosine_distance st ->
  exists k0 unit, (exists fr, has_frame d k0 fr) /\ 0 < unit /\
    (forall l pc, pictured d rc l pc -> forall v f p, assigned rc v f l -> shows pt rc (v, f) p -> pc.1 = place_from cam k0 unit p) /\
    (forall l, robust st G d rc l -> exists pc, pictured d rc l pc) /\
    (forall v c, drawn d rc v c -> exists w, has_view rc v w /\ optical_center c = place_from cam k0 unit (GeomSpec.centre (cam (v_frame w)))).
Proof. intros HD. apply exported_truth_in; [exact HD|]. intros k fr H. eauto. Qed.
End facts.
