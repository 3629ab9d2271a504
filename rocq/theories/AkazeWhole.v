(** Proofs about the whole pipeline. *)
From Coq Require Import List Arith Lia Bool ZArith NArith Reals Lra Psatz Sorted Permutation.
From Verif Require Import Num LinSpec LinFacts Outcome OutcomeFacts Gray GraySpec GrayFacts GrayReal GrayProps Diffuse DiffuseSpec DiffuseFacts DiffuseProps BicubicSpec BicubicFacts P3pFacts Fed FedSpec FedSum Akaze AkazeSpec AkazeSchedule AkazeSpace AkazeDetect AkazeRefine AkazeBits AkazeDescribe.
Import ListNotations.
Open Scope R_scope.

(** ** Cell sizes in exact arithmetic *)
Lemma Rceil_spec x : x <= IZR (Rceil x) < x + 1.
Proof. unfold Rceil. pose proof (floor_Int_part (- x)) as F. unfold floor_of in F. rewrite opp_IZR. lra. Qed.
Lemma sample_size_real (o : rsettings) lvl : let p := descriptor_pattern_size o in let s := sample_size Rwidths Rmath o lvl in
  match lvl with O => s = p | S O => (2 * p <= 3 * s < 2 * p + 3)%nat | _ => (p <= 2 * s < p + 2)%nat end.
Proof.
  intros p s. set (v := (@of_nat RNum (descriptor_pattern_size o) * size_mult Rwidths lvl)%num : R).
  assert (ES : s = Z.to_nat (Rceil v)). { unfold s, sample_size, to_usize. cbn [m_trunc m_ceil Rmath]. now rewrite Rtrunc_IZR. } clearbody s. pose proof (Rceil_spec v) as C. pose proof (pos_INR p) as P0. change (single Rwidths) with RNum in *.
  assert (V : v = INR p * match lvl with O => 1 | S O => 2 / 3 | _ => 1 / 2 end). { unfold v, of_nat, size_mult. destruct lvl as [|[|?]]; cbn [mul div one ofZ RNum]; rewrite <- INR_IZR_INZ; reflexivity. }
  assert (N : (0 <= Rceil v)%Z). { assert (L : IZR (-1) < IZR (Rceil v)) by (destruct lvl as [|[|?]]; lra). apply lt_IZR in L. lia. }
  assert (S : INR s = IZR (Rceil v)) by (rewrite ES, INR_IZR_INZ, Z2Nat.id by exact N; reflexivity). rewrite <- S in C. rewrite V in C. clear S N V ES.
  destruct lvl as [|[|?]].
  - assert (A : (p <= s)%nat) by (apply INR_le; lra). assert (B : (s < p + 1)%nat) by (apply INR_lt; rewrite plus_INR; cbn [INR]; lra). lia.
  - split; [apply INR_le|apply INR_lt]; rewrite ?plus_INR, !mult_INR; cbn [INR]; lra.
  - split; [apply INR_le|apply INR_lt]; rewrite ?plus_INR, !mult_INR; cbn [INR]; lra. Qed.
Lemma corners_length (o : rsettings) n : length (corners Rwidths o n) = ((2 * descriptor_pattern_size o + n - 1) / n)%nat.
Proof. unfold corners. now rewrite map_length, seq_length. Qed.
Lemma ceil_div a n k : (0 < n)%nat -> (a <= k * n)%nat -> ((a + n - 1) / n <= k)%nat.
Proof. intros H L. assert ((a + n - 1) / n < k + 1)%nat; [|lia]. apply Nat.div_lt_upper_bound; nia. Qed.
Lemma sizes_safe (o : rsettings) : (0 < descriptor_pattern_size o)%nat -> forall lvl, (lvl <= 2)%nat -> (0 < sample_size Rwidths Rmath o lvl)%nat /\ (length (corners Rwidths o (sample_size Rwidths Rmath o lvl)) <= lvl + 2)%nat.
Proof.
  intros P lvl L. pose proof (sample_size_real o lvl) as S. cbv zeta in S. assert (N : (0 < sample_size Rwidths Rmath o lvl)%nat) by (destruct lvl as [|[|?]]; lia). split; [exact N|]. rewrite corners_length. apply ceil_div; [exact N|]. destruct lvl as [|[|[|?]]]; lia. Qed.
Lemma sizes_full (o : rsettings) : (4 <= descriptor_pattern_size o)%nat -> forall lvl, (lvl <= 2)%nat -> length (corners Rwidths o (sample_size Rwidths Rmath o lvl)) = (lvl + 2)%nat.
Proof.
  intros P lvl L. destruct (sizes_safe o ltac:(lia) lvl L) as [N U]. pose proof (sample_size_real o lvl) as S. cbv zeta in S. rewrite corners_length in *. assert (lvl + 2 <= (2 * descriptor_pattern_size o + sample_size Rwidths Rmath o lvl - 1) / sample_size Rwidths Rmath o lvl)%nat; [|lia]. apply Nat.div_le_lower_bound; [lia|]. destruct lvl as [|[|[|?]]]; nia. Qed.

(** ** Every stage returns *)
Section stages.
Variables (o : rsettings) (w h : nat) (image : gray RNum) (fed : R -> outcome (list R)) (l : list rlevel) (A : angles RNum).
Hypotheses (U : usable o) (Hw : (40 <= w)%nat) (Hh : (40 <= h)%nat) (SI : sized w h image) (AL : rallocate fed o w h = Ok l).
Lemma schedule_ready : l <> [] /\ (forall e rest, l = e :: rest -> octave e = 0%nat) /\ chained l /\ (forall e, In e l -> 40 * 2 ^ octave e <= w /\ 40 * 2 ^ octave e <= h)%nat /\
  forall e : rlevel, In e l -> 1 / 2 <= esigma e * derivative_factor o / 2 ^ octave e.
Proof.
  destruct U as (Hn & Ho & Hb & _ & _ & Hd & _). split; [|split; [|split; [|split]]].
  - apply (levels_nonempty fed o w h l Hn Hb AL). auto.
  - intros e rest. apply (octave_first fed o w h l Hn Hb AL).
  - intros i a b Ha Hb'. split; [apply (octave_order fed o w h l Hn Hb AL i (S i) a b (Nat.lt_succ_diag_r i) Ha Hb')|apply (octave_next fed o w h l Hn Hb AL i a b Ha Hb')].
  - intros e He. destruct (level_has fed o w h l Hn Hb AL e He) as (_ & H1 & H2 & _). auto.
  - intros e He. destruct (schedule fed o w h Hn Hb l AL) as (_ & V & _). destruct (V e He) as [E _]. rewrite E. unfold scale_of. rewrite Rpower_plus, Rpower_pow by lra. assert (P : 0 < 2 ^ octave e) by (apply pow_lt; lra).
    assert (N0 : 0 < INR (num_sublevels o)) by now apply lt_0_INR. assert (Q : 1 <= Rpower 2 (INR (sublevel e) / INR (num_sublevels o))). { rewrite <- (Rpower_O 2) by lra. apply Rle_Rpower; [lra|]. apply Rmult_le_pos; [apply pos_INR|]. left. now apply Rinv_0_lt_compat. }
    replace (base_scale_offset o * (2 ^ octave e * Rpower 2 (INR (sublevel e) / INR (num_sublevels o))) * derivative_factor o / 2 ^ octave e) with (base_scale_offset o * derivative_factor o * Rpower 2 (INR (sublevel e) / INR (num_sublevels o))) by (field; lra). nra. Qed.
Lemma space_ready : exists l1, rspace o l image = Ok l1 /\ Forall2 same_place l l1 /\ (forall e, In e l1 -> built w h e) /\
    (exists e rest, l1 = e :: rest /\ gaussian_blur (N := RNum) Rmath image (base_scale_offset o) = Ok (Lt e)) /\
    forall i a b, nth_error l1 i = Some a -> nth_error l1 (S i) = Some b -> keeps_brightness a b.
Proof. destruct schedule_ready as (S1 & S2 & S3 & S4 & S5). destruct U as (Hn & Ho & Hb & Hp & Hbins & Hd & _). apply space_ok; assumption. Qed.
Lemma forall2_in {X Y} (R : X -> Y -> Prop) a b : Forall2 R a b -> forall y, In y b -> exists x, In x a /\ R x y.
Proof. induction 1 as [|x y a b H F IH]; intros z Hz; [destruct Hz|]. destruct Hz as [<-|Hz]; [exists x; split; [now left|exact H]|]. destruct (IH z Hz) as (x' & I & K). exists x'. split; [now right|exact K]. Qed.
Lemma response_ready l1 : rspace o l image = Ok l1 -> exists l2, rresponse o l1 = Ok l2 /\ Forall2 (fun e e' => same_place e e' /\ Lt e' = Lt e /\ Lsmooth e' = Lsmooth e /\
    exists s, (1 <= s)%nat /\ integer_scale o e s /\ hessian_response (halved (octave e) w) (halved (octave e) h) s e') l1 l2.
Proof.
  intros E1. destruct space_ready as (l1' & E & F & B & _). rewrite E1 in E. injection E as <-. destruct schedule_ready as (_ & _ & _ & S4 & S5). apply responses_ok. intros e He. destruct (forall2_in _ _ _ F e He) as (e0 & I0 & (_ & ES & EO & _)).
  split; [now apply B|]. destruct (S4 e0 I0) as [K1 K2]. rewrite !halved_div, EO, ES. pose proof (div_ge 40 w _ (pow2_pos (octave e0))). pose proof (div_ge 40 h _ (pow2_pos (octave e0))). split; [lia|]. split; [lia|]. now apply S5. Qed.
Lemma levels_ready l1 l2 : rspace o l image = Ok l1 -> rresponse o l1 = Ok l2 -> forall e, In e l2 ->
  fully_sized w h e /\ (40 <= g_width (Ldet e))%nat /\ (40 <= g_height (Ldet e))%nat /\ 1 / 2 <= esigma e * derivative_factor o / 2 ^ octave e.
Proof.
  intros E1 E2 e He. destruct (response_ready l1 E1) as (l2' & E & F2). rewrite E2 in E. injection E as <-. destruct space_ready as (l1' & E & F1 & B & _). rewrite E1 in E. injection E as <-. destruct schedule_ready as (_ & _ & _ & S4 & S5).
  destruct (forall2_in _ _ _ F2 e He) as (e1 & I1 & (P & T1 & T2 & s & _ & _ & H)). destruct (forall2_in _ _ _ F1 e1 I1) as (e0 & I0 & P0). destruct (B e1 I1) as [B1 B2]. destruct P as (_ & PS & PO & _). destruct P0 as (_ & QS & QO & _). destruct H as ((X & _) & (Y & _) & _ & _ & _ & (D & _)).
  split; [|split; [|split]].
  - unfold fully_sized. rewrite PO, T1, T2. unfold octave_sized in *. auto.
  - destruct D as (D1 & D2 & _). cbn [single Rwidths] in *. rewrite D1, halved_div, QO. pose proof (div_ge 40 w _ (pow2_pos (octave e0))). destruct (S4 e0 I0). lia.
  - destruct D as (D1 & D2 & _). cbn [single Rwidths] in *. rewrite D2, halved_div, QO. pose proof (div_ge 40 h _ (pow2_pos (octave e0))). destruct (S4 e0 I0). lia.
  - rewrite PS, PO, QS, QO. now apply S5. Qed.
End stages.
Lemma ready_detect (o : rsettings) w h (l : list rlevel) : (forall e, In e l -> fully_sized w h e /\ (40 <= g_width (Ldet e))%nat /\ (40 <= g_height (Ldet e))%nat /\ 1 / 2 <= esigma e * derivative_factor o / 2 ^ octave e) ->
  (forall e, In e l -> well_sized e /\ gradient_sized e /\ 1 / 2 <= esigma e * derivative_factor o / 2 ^ octave e /\ exists s, integer_scale o e s /\ (1 <= s)%nat).
Proof.
  intros H e He. destruct (H e He) as ((T & S & X & Y & D) & Hw & Hh & Hs). unfold octave_sized in *. split; [|split; [|split; [exact Hs|]]].
  - split; [lia|]. split; [lia|]. destruct D as (E1 & E2 & E3). cbn [single Rwidths] in *. rewrite E1, E2. split; [exact E1|]. split; [exact E2|exact E3].
  - unfold gradient_sized. destruct D as (D1 & D2 & _). cbn [single Rwidths] in *. rewrite D1, D2. auto.
  - exists (Z.to_nat (Rround (esigma e * derivative_factor o / 2 ^ octave e))). assert (I : integer_scale o e (Z.to_nat (Rround (esigma e * derivative_factor o / 2 ^ octave e)))). { unfold integer_scale. rewrite INR_IZR_INZ, Z2Nat.id by (apply Rround_nonneg; lra). apply Rround_spec. lra. }
    split; [exact I|]. unfold integer_scale in I. destruct (Z.to_nat _); [cbn [INR] in I; lra|lia]. Qed.
Lemma detect_total (o : rsettings) (A : angles RNum) (l : list rlevel) : (forall e, In e l -> well_sized e /\ gradient_sized e /\ 1 / 2 <= esigma e * derivative_factor o / 2 ^ octave e /\ exists s, integer_scale o e s /\ (1 <= s)%nat) ->
  exists kps, detect_keypoints Rwidths Rmath A o l = Ok kps /\ forall kp, In kp kps -> exists class e x y dx dy angle, maximum_of o l class e x y /\ Rabs dx <= 1 /\ Rabs dy <= 1 /\
    (curvature (Ldet e) x y <> 0 -> stationary (Ldet e) x y dx dy) /\ kp = moved_by (keypoint_at o class e x y) dx dy angle.
Proof.
  intros H. unfold detect_keypoints. assert (WS : forall e, In e l -> well_sized e) by (intros e He; apply H; exact He). assert (SC : forall e, In e l -> exists s, integer_scale o e s /\ (1 <= s)%nat) by (intros e He; apply H; exact He).
  pose proof (extrema_fold o l WS) as E. set (found := filter_upper Rwidths _) in E. unfold rextrema in E. rewrite E. cbn [bind]. destruct (extrema_sound o l WS SC found E) as [_ S].
  assert (Q : forall fs, (forall kp, In kp fs -> In kp found) -> exists rs, mapM (refine_keypoint Rwidths Rmath A l) fs = Ok rs /\ forall kp, In kp (keep_some rs) -> exists class e x y dx dy angle, maximum_of o l class e x y /\ Rabs dx <= 1 /\ Rabs dy <= 1 /\
    (curvature (Ldet e) x y <> 0 -> stationary (Ldet e) x y dx dy) /\ kp = moved_by (keypoint_at o class e x y) dx dy angle).
  { induction fs as [|kp fs IH]; intros I; cbn [mapM]; [exists []; split; [reflexivity|intros ? []]|]. destruct (S kp) as (c & e & x & y & M & EK); [apply I; now left|]. destruct (H e) as (W & G & K & _); [apply (nth_error_In _ _ (proj1 M))|].
    destruct (refine_spec o A l c e x y W G K M kp EK) as (r & dx & dy & Er & ST & R). rewrite Er. cbn [bind]. destruct IH as (rs & Ers & F); [intros; apply I; now right|]. rewrite Ers. cbn [bind]. exists (r :: rs). split; [reflexivity|]. intros k Hk. unfold keep_some in Hk. cbn [flat_map] in Hk. apply in_app_or in Hk as [Hk|Hk]; [|now apply F].
    destruct (Rle_dec (Rmax (Rabs dx) (Rabs dy)) 1) as [L|L]; [|rewrite R in Hk; destruct Hk]. destruct R as (s & angle & _ & -> & _). destruct Hk as [<-|[]]. exists c, e, x, y, dx, dy, angle. split; [exact M|]. pose proof (Rmax_l (Rabs dx) (Rabs dy)). pose proof (Rmax_r (Rabs dx) (Rabs dy)). split; [lra|]. split; [lra|]. split; [exact ST|]. now rewrite EK. }
  destruct (Q found) as (rs & Ers & F); [auto|]. cbn [single Rwidths] in *. rewrite Ers. cbn [bind]. exists (keep_some rs). auto. Qed.

(** ** Selection *)
Section selection.
Variables (P : widths) (M32 : math (single P)) (A : angles (single P)) (o : settings (double P)).
Lemma descriptors_kept levels kps r : extract_descriptors P M32 A o levels kps = Ok r -> kept (fun kp d => mldb_descriptor P M32 A o levels kp = Ok d) kps (fst r) (snd r).
Proof.
  unfold extract_descriptors. revert r. induction kps as [|kp kps IH]; intros r; cbn [mapM].
  - cbn [bind keep_some flat_map List.split]. intros E. injection E as <-. constructor.
  - destruct (mldb_descriptor P M32 A o levels kp) as [d| |] eqn:E; cbn [bind]; try discriminate. destruct (mapM _ kps) as [ps| |] eqn:EP; cbn [bind] in *; try discriminate.
    intros Er. injection Er as <-. specialize (IH _ eq_refl). unfold keep_some in *. destruct d as [d|]; cbn [option_map flat_map app List.split].
    + destruct (List.split (flat_map _ ps)) as [ks ds] eqn:ES. cbn [fst snd] in *. now constructor.
    + apply kept_none; [exact E|exact IH]. Qed.
Lemma kept_lengths {K D} (f : K -> option D -> Prop) l ks ds : kept f l ks ds -> length ks = length ds /\ (length ks <= length l)%nat.
Proof. induction 1; cbn [length]; lia. Qed.
Lemma kept_in {K D} (f : K -> option D -> Prop) l ks ds : kept f l ks ds -> forall k, In k ks -> In k l.
Proof. induction 1; intros q Hq; [exact Hq| |right; auto]. destruct Hq as [<-|Hq]; [now left|right; auto]. Qed.
Lemma kept_sorted {K D} (f : K -> option D -> Prop) (R : K -> K -> Prop) l ks ds : kept f l ks ds -> StronglySorted R l -> StronglySorted R ks.
Proof. induction 1; intros S; [constructor| |]; inversion S; subst; [|auto]. constructor; [auto|]. rewrite Forall_forall in *. intros q Hq. apply H4. now apply (kept_in _ _ _ _ H0). Qed.
Lemma kept_nth {K D} (f : K -> option D -> Prop) l ks ds : kept f l ks ds -> forall i k, nth_error ks i = Some k -> exists d, nth_error ds i = Some d /\ f k (Some d).
Proof. induction 1; intros i q Hq; [destruct i; discriminate| |auto]. destruct i as [|i]; cbn [nth_error] in *; [injection Hq as <-; eauto|auto]. Qed.
Lemma kept_rest {K D} (f : K -> option D -> Prop) l ks ds : kept f l ks ds -> exists rest, Permutation l (ks ++ rest) /\ forall k, In k rest -> f k None.
Proof.
  induction 1 as [|k d l ks ds Hf H (rest & Pm & N)|k l ks ds Hf H (rest & Pm & N)].
  - exists []. split; [constructor|intros ? []].
  - exists rest. split; [now constructor|exact N].
  - exists (k :: rest). split; [|intros q [<-|Hq]; auto]. apply Permutation_cons_app. exact Pm. Qed.
Lemma sorted_firstn {K} (R : K -> K -> Prop) n l : StronglySorted R l -> StronglySorted R (firstn n l).
Proof. intros S. revert n. induction S as [|a l S IH F]; intros [|n]; cbn [firstn]; constructor; [apply IH|]. rewrite Forall_forall in *. intros x Hx. apply F. rewrite <- (firstn_skipn n l). apply in_or_app. now left. Qed.
Lemma sorted_split {K} (R : K -> K -> Prop) l m : StronglySorted R (l ++ m) -> forall a b, In a l -> In b m -> R a b.
Proof. induction l as [|x l IH]; [intros _ a b []|]. cbn [app]. intros S. inversion_clear S as [|? ? S' F]. rewrite Forall_forall in F. intros a b [<-|Ha] Hb; [apply F, in_or_app; now right|now apply IH]. Qed.
Lemma extract_selects (M64 : math (double P)) exp2 fed (float_ord : single P -> single P -> bool) sort image kps ds :
  sorts sort -> (forall a b, float_ord a b = true \/ float_ord b a = true) -> (forall a b c, float_ord a b = true -> float_ord b c = true -> float_ord a c = true) ->
  extract P M32 M64 A exp2 fed o float_ord sort image = Ok (kps, ds) ->
  exists l0 l1 levels found, allocate_evolutions P M64 exp2 fed o (g_width image) (g_height image) = Ok l0 /\ create_scale_space P M32 M64 o l0 image = Ok l1 /\ detector_response P M64 o l1 = Ok levels /\
    detect_keypoints P M32 A o levels = Ok found /\
    length kps = length ds /\ (length kps <= maximum_features o)%nat /\ StronglySorted (fun a b => float_ord (kp_response b) (kp_response a) = true) kps /\
    (exists best rest, Permutation found (best ++ rest) /\ length best = Nat.min (maximum_features o) (length found) /\ (forall a b, In a best -> In b rest -> float_ord (kp_response b) (kp_response a) = true) /\
       kept (fun kp d => mldb_descriptor P M32 A o levels kp = Ok d) best kps ds).
Proof.
  intros HS T Tr. unfold extract. intros E. apply bind_ok in E as (l0 & E0 & E). apply bind_ok in E as (l1 & E1 & E). apply bind_ok in E as (levels & E2 & E). apply bind_ok in E as (found & EF & E). exists l0, l1, levels, found.
  split; [exact E0|]. split; [exact E1|]. split; [exact E2|]. split; [exact EF|].
  set (le := fun a b : keypoint (single P) => float_ord (kp_response b) (kp_response a)) in *. destruct (HS le found) as [Pm So]. specialize (So (fun a b => T _ _) (fun a b c H1 H2 => Tr _ _ _ H2 H1)). apply descriptors_kept in E. cbn [fst snd] in E. destruct (kept_lengths _ _ _ _ E) as [L1 L2]. rewrite firstn_length in L2.
  split; [exact L1|]. split; [lia|]. split; [apply (kept_sorted _ _ _ _ _ E), sorted_firstn, So|].
  exists (firstn (maximum_features o) (sort le found)), (skipn (maximum_features o) (sort le found)). split; [now rewrite firstn_skipn|]. split; [rewrite firstn_length, <- (Permutation_length Pm); reflexivity|]. split; [|exact E].
  intros a b Ha Hb. apply (sorted_split (fun a b => le a b = true) (firstn (maximum_features o) (sort le found)) (skipn (maximum_features o) (sort le found))); [rewrite firstn_skipn; exact So|exact Ha|exact Hb]. Qed.
End selection.

(** ** Extraction returns *)
Lemma extract_total (o : rsettings) (A : angles RNum) w h image fed l float_ord sort : usable o -> (40 <= w)%nat -> (40 <= h)%nat -> sized w h image -> rallocate fed o w h = Ok l -> sorts sort ->
  exists r, extract Rwidths Rmath Rmath A Rexp2 fed o float_ord sort image = Ok r.
Proof.
  intros U Hw Hh SI AL HS. unfold extract. destruct SI as (W & H & LD). unfold rallocate in AL. match goal with |- context [allocate_evolutions _ _ _ _ _ ?a ?b] => replace a with w by (symmetry; exact W); replace b with h by (symmetry; exact H) end. rewrite AL. cbn [bind].
  assert (SI : sized w h image) by (split; [exact W|]; split; [exact H|exact LD]). fold (rallocate fed o w h) in AL.
  destruct (space_ready o w h image fed l U Hw Hh SI AL) as (l1 & E1 & _). change (create_scale_space Rwidths Rmath Rmath o l image) with (rspace o l image). rewrite E1. cbn [bind].
  destruct (response_ready o w h image fed l U Hw Hh SI AL l1 E1) as (l2 & E2 & _). change (detector_response Rwidths Rmath o l1) with (rresponse o l1). rewrite E2. cbn [bind].
  pose proof (levels_ready o w h image fed l U Hw Hh SI AL l1 l2 E1 E2) as LR. pose proof (ready_detect o w h l2 LR) as RD. destruct (detect_total o A l2 RD) as (kps & E3 & F). rewrite E3. cbn [bind].
  unfold extract_descriptors. assert (Q : forall ks, (forall kp, In kp ks -> In kp kps) -> exists ps, mapM (fun kp => let! d := mldb_descriptor Rwidths Rmath A o l2 kp in Ok (option_map (fun d => (kp, d)) d)) ks = Ok ps).
  { induction ks as [|kp ks IH]; intros I; cbn [mapM]; [eauto|]. destruct (F kp) as (c & e & x & y & dx & dy & angle & M & _ & _ & _ & EK); [apply I; now left|]. destruct (LR e) as ((T & _ & X & Y & _) & _); [apply (nth_error_In _ _ (proj1 M))|]. unfold octave_sized in *.
    destruct (descriptor_spec Rwidths Rmath A o l2 kp e) as (r & Er & _).
    - rewrite EK. exact (proj1 M).
    - destruct T as (T1 & T2 & T3). cbn [single Rwidths] in *. rewrite T1, T2. split; [split; [exact T1|]; split; [exact T2|exact T3]|]. auto.
    - apply U.
    - apply U.
    - apply sizes_safe, U.
    - rewrite Er. cbn [bind]. destruct IH as (ps & Eps); [intros; apply I; now right|]. rewrite Eps. cbn [bind]. eauto. }
  destruct (Q (firstn (maximum_features o) (sort (fun a b => float_ord (kp_response b) (kp_response a)) kps))) as (ps & Eps).
  - intros kp Hk. apply (Permutation_in _ (Permutation_sym (proj1 (HS (fun a b => float_ord (kp_response b) (kp_response a)) kps)))). match goal with |- In kp ?s => rewrite <- (firstn_skipn (maximum_features o) s) end. apply in_or_app. now left.
  - cbn [single double Rwidths] in *. rewrite Eps. cbn [bind]. eauto. Qed.
Lemma extract_small (P : widths) (M32 : math (single P)) (M64 : math (double P)) A exp2 fed (o : settings (double P)) float_ord sort image : allocate_evolutions P M64 exp2 fed o (g_width image) (g_height image) = Ok [] -> extract P M32 M64 A exp2 fed o float_ord sort image = Panic.
Proof. intros E. unfold extract. rewrite E. reflexivity. Qed.

(** ** Small images *)
Lemma allocate_small (fed : R -> outcome (list R)) (o : rsettings) w h : (0 < num_sublevels o)%nat -> (w < 40)%nat \/ (h < 40)%nat -> rallocate fed o w h = Ok [].
Proof.
  intros Hn H. unfold rallocate, allocate_evolutions. change (@max_octave_evolution (double Rwidths) o) with (@max_octave_evolution RNum o). pose proof (plan_levels o w h Hn) as V.
  destruct (flat_map _ _) as [|e rest]; [reflexivity|]. exfalso. destruct (proj1 (V e)) as (oct & sub & _ & (_ & K1 & K2 & _)); [now left|]. pose proof (pow2_pos oct). nia. Qed.
Lemma maximum_room (o : rsettings) levels class e x y : maximum_of o levels class e x y -> exists s, integer_scale o e s /\ 20 * sqrt 2 * INR s + 2 < INR (g_width (Ldet e)) /\ 20 * sqrt 2 * INR s + 2 < INR (g_height (Ldet e)).
Proof. intros (_ & _ & s & I & C1 & C2). exists s. split; [exact I|]. cbn [single Rwidths] in *. lra. Qed.
Lemma extract_small_real (o : rsettings) (A : angles RNum) w h (image : gray RNum) (fed : R -> outcome (list R)) float_ord sort : (0 < num_sublevels o)%nat -> sized w h image -> (w < 40)%nat \/ (h < 40)%nat -> extract Rwidths Rmath Rmath A Rexp2 fed o float_ord sort image = Panic.
Proof. intros Hn (W & H & _) S. apply extract_small. etransitivity; [|exact (allocate_small fed o w h Hn S)]. rewrite <- W, <- H. reflexivity. Qed.
Definition three_settings : rsettings := Settings (F := RNum) 7 4 4 (16 / 10) (7 / 10) 300 (15 / 10) (1 / 1000) 3 3.
Lemma allocate_some (fed : R -> outcome (list R)) (o : rsettings) w h : (forall t, exists s, fed t = Ok s) -> exists l, rallocate fed o w h = Ok l.
Proof.
  intros F. unfold rallocate, allocate_evolutions. destruct (flat_map _ _) as [|e rest]; [eauto|]. assert (G : forall r p, exists r', set_steps Rwidths fed p r = Ok r').
  { induction r as [|b r IH]; intros p; [cbn; eauto|]. cbn [set_steps]. destruct (F (sub (etime b) (etime p))) as (s & E). match goal with |- context [fed ?t] => replace (fed t) with (Ok s) by (symmetry; exact E) end. cbn [bind]. destruct (IH b) as (r' & ->). cbn. eauto. }
  destruct (G rest e) as (r' & ->). cbn. eauto. Qed.
Lemma small_pattern : exists o : rsettings, (0 < descriptor_pattern_size o)%nat /\ (length (cells Rwidths o (sample_size Rwidths Rmath o 2)) < (2 + 2) * (2 + 2))%nat.
Proof.
  exists three_settings. split; [cbn; lia|]. set (o := three_settings). pose proof (sample_size_real o 2) as S. cbv zeta in S. change (descriptor_pattern_size o) with 3%nat in S. cbv iota in S. assert (E : sample_size Rwidths Rmath o 2 = 2%nat) by lia. rewrite E. cbn. lia. Qed.
Lemma zero_pattern (P : widths) (M32 : math (single P)) (A : angles (single P)) (o : settings (double P)) levels (kp : keypoint (single P)) : sample_size P M32 o 0 = 0%nat -> mldb_descriptor P M32 A o levels kp = Panic.
Proof. intros E. unfold mldb_descriptor. cbn [foldM descriptor_level]. unfold fill_values. rewrite E. reflexivity. Qed.
Lemma tiny_refuted : exists o : rsettings, (0 < num_sublevels o)%nat /\ 0 < base_scale_offset o /\
  forall fuel, rallocate (fed_quarter true (S fuel)) o 80 80 = Panic /\ rallocate (fed_quarter false fuel) o 80 80 = Fuel.
Proof. exists tiny_settings. split; [cbn; lia|]. split; [cbn [base_scale_offset tiny_settings]; rlra|exact tiny_base]. Qed.
Lemma default_total checks m w h : exists fuel0, forall fuel, (fuel0 <= fuel)%nat -> exists l, rallocate (fed_quarter checks fuel) (default_settings m) w h = Ok l.
Proof. apply allocate_total; [cbn; lia|cbn [base_scale_offset default_settings]; rlra|apply default_gap]. Qed.
