(** Changes of brightness and contrast: proofs for refinement, descriptors and the whole pipeline. *)
From Coq Require Import List Arith Lia Bool ZArith NArith Reals Lra Psatz Sorted Permutation.
From Verif Require Import Num LinSpec LinFacts Outcome OutcomeFacts Gray GraySpec GrayFacts GrayReal GrayProps Diffuse DiffuseSpec DiffuseFacts DiffuseProps Akaze AkazeSpec AkazeBits AkazeDescribe AkazeWhole AkazeDemo AkazeToneSpec AkazeTone AkazeToneSpace.
Import ListNotations.
Open Scope R_scope.

Lemma orel_assert {X Y} (R : X -> Y -> Prop) b m m' : (b = true -> orel R m m') -> orel R (assert_ b m) (assert_ b m').
Proof. destruct b; cbn; auto. Qed.
Lemma forall2_nth {X Y} (R : X -> Y -> Prop) l l' : Forall2 R l l' -> forall i, (exists x y, nth_error l i = Some x /\ nth_error l' i = Some y /\ R x y) \/ (nth_error l i = None /\ nth_error l' i = None).
Proof. induction 1 as [|x y l l' H F IH]; intros [|i]; cbn; auto. left. exists x, y. auto. Qed.
Lemma forall2_read {X Y} (R : X -> Y -> Prop) l l' i : Forall2 R l l' -> orel R (read l i) (read l' i).
Proof. intros F. unfold read. destruct (forall2_nth R l l' F i) as [(x & y & -> & -> & H)|(-> & ->)]; cbn; auto. Qed.

(** The refined offsets do not depend on the unit of the response. *)
Lemma quotient_same (t d n1 n2 m1 m2 : R) : 0 < t -> - (t * n1) * (1 / (t * t * d) * (t * m1)) + - (t * n2) * (1 / (t * t * d) * (t * m2)) = - n1 * (1 / d * m1) + - n2 * (1 / d * m2).
Proof. intros H. unfold Rdiv. rewrite !Rinv_mult. set (i := / d). transitivity ((- n1 * (1 * i * m1) + - n2 * (1 * i * m2)) * ((t * / t) * (t * / t))); [ring|]. rewrite Rinv_r by lra. ring. Qed.

Section refine.
Variables (a c : R) (o : rsettings) (A : angles RNum).
Hypotheses (Ha : 0 < a) (HA : forall x y, a_atan2 A (a * y) (a * x) = a_atan2 A y x).
Notation s := (a * a).
Notation wr := (with_response s).
Ltac steps_same := change (single Rwidths) with RNum in *; rnum_eq; match goal with |- - ?a1 * (1 / ?d1 * ?b1) + - ?a2 * (1 / ?d1 * ?b2) = - ?n1 * (1 / ?d * ?m1) + - ?n2 * (1 / ?d * ?m2) => rewrite <- (quotient_same s d n1 n2 m1 m2 (s_pos a Ha)); replace d1 with (s * s * d) by ring; ring end.
Lemma tone_refine l l' kp : Forall2 (lv2 a c) l l' -> orel (fun r r' => r' = option_map wr r) (refine_keypoint Rwidths Rmath A l kp) (refine_keypoint Rwidths Rmath A l' (wr kp)).
Proof.
  intros F. unfold refine_keypoint. change (kp_octave (wr kp)) with (kp_octave kp). change (kp_x (wr kp)) with (kp_x kp). change (kp_y (wr kp)) with (kp_y kp). change (kp_class (wr kp)) with (kp_class kp). change (kp_size (wr kp)) with (kp_size kp). change (kp_angle (wr kp)) with (kp_angle kp).
  match goal with |- context [to_usize Rmath (m_round Rmath (@div _ (kp_x kp) ?r))] => set (x := to_usize Rmath (m_round Rmath (@div _ (kp_x kp) r))) end.
  match goal with |- context [to_usize Rmath (m_round Rmath (@div _ (kp_y kp) ?r))] => set (y := to_usize Rmath (m_round Rmath (@div _ (kp_y kp) r))) end.
  apply (orel_bind (lv2 a c)); [now apply forall2_read|]. intros e e' _ _ L. pose proof L as (_ & w & h & _ & _ & _ & _ & _ & I). destruct (tone_sizes a c e e' L) as (EO & _).
  assert (G : forall x y, orel (fun v v' : R => v' = s * v) (@get RNum (Ldet e) x y) (@get RNum (Ldet e') x y)) by (intros; exact (tone_get s w h _ _ _ _ I)).
  do 2 (apply (orel_bind (fun v v' : R => v' = s * v)); [apply G|intros ? ? _ _ ->]). apply orel_assert; intros _.
  do 2 (apply (orel_bind (fun v v' : R => v' = s * v)); [apply G|intros ? ? _ _ ->]). apply orel_assert; intros _.
  do 5 (apply (orel_bind (fun v v' : R => v' = s * v)); [apply G|intros ? ? _ _ ->]). cbv zeta.
  match goal with |- orel _ (if ((@abs_ _ ?d0 <=? _)%num && (@abs_ _ ?d1 <=? _)%num)%bool then _ else _) (if ((@abs_ _ ?d0' <=? _)%num && (@abs_ _ ?d1' <=? _)%num)%bool then _ else _) =>
    assert (E0 : d0' = d0) by steps_same; assert (E1 : d1' = d1) by steps_same; rewrite E0, E1; set (dx := d0); set (dy := d1) end. clearbody dx dy. clear E0 E1.
  rewrite EO. match goal with |- orel _ (if ?b then _ else _) _ => destruct b end; [|reflexivity]. apply orel_assert; intros _.
  apply (orel_bind eq); [match goal with |- orel eq (main_orientation _ _ _ _ ?k) _ => exact (tone_orientation a c A Ha HA e e' k L) end|]. intros angle angle' _ _ <-. reflexivity. Qed.
Lemma tone_keep (l : list (option rkeypoint)) : keep_some (map (option_map wr) l) = map wr (keep_some l).
Proof. unfold keep_some. induction l as [|[k|] l IH]; cbn [map flat_map option_map app]; [reflexivity|now rewrite IH|exact IH]. Qed.
Lemma tone_detect l l' : Forall2 (lv2 a c) l l' -> orel (fun k k' => k' = map wr k) (detect_keypoints Rwidths Rmath A o l) (detect_keypoints Rwidths Rmath A (with_threshold s o) l').
Proof.
  intros F. unfold detect_keypoints. apply (orel_bind (fun k k' => k' = map wr k)); [exact (tone_extrema a c o Ha l l' F)|]. intros k k' _ _ ->.
  apply (orel_bind (fun r r' => r' = map (option_map wr) r)); [|intros r r' _ _ ->; apply tone_keep].
  apply orel_map, (orel_mapM (fun k k' => k' = wr k)); [clear; induction k; constructor; auto|]. intros k1 k1' _ ->. exact (tone_refine l l' k1 F). Qed.
End refine.

(** ** Descriptors *)
Lemma encodes_inj bytes bytes' bits : encodes bytes bits -> encodes bytes' bits -> bytes = bytes'.
Proof.
  intros (L & B & E) (L' & B' & E'). apply (nth_ext _ _ 0%N 0%N); [now rewrite L, L'|]. intros i Hi. rewrite L in Hi. apply N.bits_inj. intros m.
  assert (I : In (nth i bytes 0%N) bytes) by (apply nth_In; lia). assert (I' : In (nth i bytes' 0%N) bytes') by (apply nth_In; lia).
  destruct (N.lt_ge_cases m 8) as [Lm|Lm]; [|now rewrite !byte_small by (try exact Lm; auto)].
  pose proof (E (8 * i + N.to_nat m)%nat ltac:(lia)) as Q. pose proof (E' (8 * i + N.to_nat m)%nat ltac:(lia)) as Q'. unfold bit in Q, Q'.
  replace ((8 * i + N.to_nat m) / 8)%nat with i in Q, Q' by (apply (Nat.div_unique _ 8 i (N.to_nat m)); lia). replace ((8 * i + N.to_nat m) mod 8)%nat with (N.to_nat m) in Q, Q' by (apply (Nat.mod_unique _ 8 i (N.to_nat m)); lia).
  rewrite N2Nat.id in Q, Q'. now rewrite Q, Q'. Qed.
Section describe.
Variables (a c : R) (o : rsettings) (A : angles RNum).
Hypotheses (Ha : 0 < a) (HC : (descriptor_channels o <= 3)%nat) (HP : (4 <= descriptor_pattern_size o)%nat).
Notation s := (a * a).
Notation wr := (with_response s).
Lemma tone_sum (t d : R) l : forall z z' n, z' = t * z + INR n * d -> fold_left (@add RNum) (map (fun v => t * v + d) l) z' = t * fold_left (@add RNum) l z + INR (n + length l) * d.
Proof.
  induction l as [|v l IH]; intros z z' n E; cbn [map fold_left length]; [now rewrite Nat.add_0_r|]. rewrite (IH (z + v) _ (S n)); [replace (S n + length l)%nat with (n + S (length l))%nat by lia; reflexivity|]. cbn [add RNum]. rewrite E, S_INR. ring. Qed.
Lemma tone_mean_of (t d : R) l : l <> [] -> fold_left (@add RNum) (map (fun v => t * v + d) l) 0 / INR (length l) = t * (fold_left (@add RNum) l 0 / INR (length l)) + d.
Proof. intros N. rewrite (tone_sum t d l 0 0 0) by (cbn; ring). cbn [Nat.add]. assert (INR (length l) <> 0) by (apply not_0_INR; destruct l; [congruence|discriminate]). field. assumption. Qed.
Variables (e e' : rlevel).
Hypothesis (L : lv2 a c e e').
Lemma tone_at_zero w h g g' p : im a 0 w h g g' -> at_ Rwidths g' p = a * at_ Rwidths g p :> R.
Proof. intros I. exact (tone_pixel a w h g g' _ _ I). Qed.
Lemma tone_reading q ch kl : in_image Rwidths (Lt e) (under Rwidths Rmath q (fst kl) (snd kl)) -> reading Rwidths Rmath o e' q ch kl = a * reading Rwidths Rmath o e q ch kl + (match ch with O => c | _ => 0 end) :> R.
Proof.
  intros IN. destruct L as (_ & w & h & _ & _ & IT & IX & IY & _). unfold reading. set (p := under _ _ _ _ _) in *. pose proof (tone_at_zero w h _ _ p IX) as EX. pose proof (tone_at_zero w h _ _ p IY) as EY.
  destruct ch as [|[|ch]].
  - destruct IT as [(W & H & _) (_ & P)]. destruct IN as [I1 I2]. unfold at_. cbn [single Rwidths] in *. rewrite P by lia. reflexivity.
  - cbn [single Rwidths] in *. set (x := at_ Rwidths (Lx e) p : R) in *. set (y := at_ Rwidths (Ly e) p : R) in *. rewrite EX, EY. rnum. destruct (_ =? 2)%nat; [|rring].
    change (carrier RNum) with R in *. match goal with |- R_sqrt.sqrt ?u = a * R_sqrt.sqrt ?v + 0 => replace u with (a * a * v) by ring end. rewrite sqrt_mult_alt by nra. rewrite sqrt_square by lra. ring.
  - cbn [single Rwidths] in *. set (x := at_ Rwidths (Lx e) p : R) in *. set (y := at_ Rwidths (Ly e) p : R) in *. rewrite EX, EY. rring. Qed.
Lemma tone_mean q n ch ij : (0 < n)%nat -> (forall kl, In kl (cell n ij) -> in_image Rwidths (Lt e) (under Rwidths Rmath q (fst kl) (snd kl))) ->
  mean Rwidths Rmath o e' q n ch ij = a * mean Rwidths Rmath o e q n ch ij + (match ch with O => c | _ => 0 end) :> R.
Proof.
  intros Hn IN. set (d := match ch with O => c | _ => 0 end). unfold mean. cbn [single Rwidths] in *.
  assert (EM : map (reading Rwidths Rmath o e' q ch) (cell n ij) = map (fun v => a * v + d) (map (reading Rwidths Rmath o e q ch) (cell n ij))).
  { rewrite map_map. apply map_ext_in. intros kl Hk. exact (tone_reading q ch kl (IN kl Hk)). }
  assert (NE : map (reading Rwidths Rmath o e q ch) (cell n ij) <> []).
  { unfold cell. destruct n as [|n]; [lia|]. cbn. discriminate. }
  pose proof (tone_mean_of a d _ NE) as T. rewrite map_length in T. rewrite INR_IZR_INZ in T. cbn [single Rwidths] in *. rewrite <- EM in T. exact T. Qed.
Lemma tone_inside q n : pattern_inside Rwidths Rmath o e q n <-> pattern_inside Rwidths Rmath o e' q n.
Proof.
  destruct L as (_ & w & h & _ & _ & IT & _). destruct IT as [(W & H & _) ((W' & H' & _) & _)]. unfold pattern_inside, in_image. cbn [single Rwidths] in *. rewrite W, H, W', H'. reflexivity. Qed.
Lemma tone_bits q lvl : (lvl <= 2)%nat -> pattern_inside Rwidths Rmath o e q (sample_size Rwidths Rmath o lvl) ->
  grid_bits Rwidths Rmath o e' q (sample_size Rwidths Rmath o lvl) ((lvl + 2) * (lvl + 2)) = grid_bits Rwidths Rmath o e q (sample_size Rwidths Rmath o lvl) ((lvl + 2) * (lvl + 2)).
Proof.
  intros Hl IN. pose proof (sizes_full o HP lvl Hl) as SF. destruct (sizes_safe o ltac:(lia) lvl Hl) as [SN _]. set (n := sample_size Rwidths Rmath o lvl) in *. unfold grid_bits. apply map_ext_in. intros (ch, (i, j)) Hk. apply comparisons_in in Hk as (K1 & K2 & K3).
  assert (LC : length (cells Rwidths o n) = ((lvl + 2) * (lvl + 2))%nat) by (unfold cells; rewrite prod_length; now rewrite SF).
  assert (C1 : In (nth i (cells Rwidths o n) (0, 0)%Z) (cells Rwidths o n)) by (apply nth_In; lia). assert (C2 : In (nth j (cells Rwidths o n) (0, 0)%Z) (cells Rwidths o n)) by (apply nth_In; lia).
  pose proof (tone_mean q n ch _ SN (fun kl Hk => IN _ kl C1 Hk)) as M1. pose proof (tone_mean q n ch _ SN (fun kl Hk => IN _ kl C2 Hk)) as M2. cbn [single Rwidths] in *. rewrite M1, M2. cbn [ltb RNum]. unfold Rltb.
  match goal with |- (if Rlt_dec (a * ?u + ?d) (a * ?v + ?d) then true else false) = _ => destruct (Rlt_dec (a * u + d) (a * v + d)), (Rlt_dec u v); try reflexivity; exfalso; nra end. Qed.
End describe.

(** ** The whole pipeline *)
Section whole.
Variables (a c : R) (o : rsettings) (A : angles RNum).
Hypotheses (Ha : 0 < a) (HC : (descriptor_channels o <= 3)%nat) (HP : (4 <= descriptor_pattern_size o)%nat).
Notation s := (a * a).
Notation wr := (with_response s).
Lemma descriptor_outside (l : list rlevel) kp : nth_error l (kp_class kp) = None -> mldb_descriptor Rwidths Rmath A o l kp = Panic.
Proof.
  intros E. unfold mldb_descriptor. cbn [foldM descriptor_level]. destruct (sizes_safe o ltac:(lia) 0 ltac:(lia)) as [SN _]. pose proof (sizes_full o HP 0 ltac:(lia)) as SF. unfold fill_values. rewrite (proj2 (Nat.eqb_neq _ 0)) by lia. cbn [negb assert_].
  change (@descriptor_pattern_size (double Rwidths) o) with (@descriptor_pattern_size RNum o). pose proof (grid_corners Rwidths o (sample_size Rwidths Rmath o 0)) as G. cbn [double Rwidths] in *. rewrite G. destruct (corners _ _ _) as [|z r]; [discriminate SF|]. unfold read. cbn [single Rwidths] in *. rewrite E. reflexivity. Qed.
Lemma tone_descriptor l l' kp : Forall2 (lv2 a c) l l' -> mldb_descriptor Rwidths Rmath A o l' (wr kp) = mldb_descriptor Rwidths Rmath A o l kp.
Proof.
  intros F. destruct (forall2_nth _ _ _ F (kp_class kp)) as [(e & e' & E & E' & L)|(E & E')]; [|now rewrite !descriptor_outside].
  pose proof L as (_ & w & h & _ & _ & IT & IX & IY & _).
  assert (Z : sized (g_width (Lt e)) (g_height (Lt e)) (Lt e) /\ sized (g_width (Lt e)) (g_height (Lt e)) (Lx e) /\ sized (g_width (Lt e)) (g_height (Lt e)) (Ly e)).
  { pose proof (proj1 IT) as S. destruct S as (W & H & _). cbn [single Rwidths] in *. rewrite W, H. split; [apply IT|]. split; [apply IX|apply IY]. }
  assert (Z' : sized (g_width (Lt e')) (g_height (Lt e')) (Lt e') /\ sized (g_width (Lt e')) (g_height (Lt e')) (Lx e') /\ sized (g_width (Lt e')) (g_height (Lt e')) (Ly e')).
  { pose proof (proj1 (proj2 IT)) as S. destruct S as (W & H & _). cbn [single Rwidths] in *. rewrite W, H. split; [apply IT|]. split; [apply IX|apply IY]. }
  destruct (descriptor_spec Rwidths Rmath A o l kp e E Z HC ltac:(cbn [double Rwidths] in *; lia) (sizes_safe o ltac:(lia))) as (r & Er & N & B).
  destruct (descriptor_spec Rwidths Rmath A o l' (wr kp) e' E' Z' HC ltac:(cbn [double Rwidths] in *; lia) (sizes_safe o ltac:(lia))) as (r' & Er' & N' & B').
  rewrite Er, Er'. f_equal. change (kp_octave (wr kp)) with (kp_octave kp) in *. change (kp_x (wr kp)) with (kp_x kp) in *. change (kp_y (wr kp)) with (kp_y kp) in *. change (kp_size (wr kp)) with (kp_size kp) in *. change (kp_angle (wr kp)) with (kp_angle kp) in *.
  match type of N with _ <-> forall lvl, _ -> pattern_inside _ _ _ _ ?q0 _ => set (q := q0) in * end.
  match type of N' with _ <-> forall lvl, _ -> pattern_inside _ _ _ _ ?q0 _ => change q0 with q in * end.
  destruct r as [bytes|], r' as [bytes'|]; try reflexivity.
  - destruct (B bytes eq_refl) as (bits & EN & _ & EB). destruct (B' bytes' eq_refl) as (bits' & EN' & _ & EB'). specialize (EB (sizes_full o HP)). specialize (EB' (sizes_full o HP)).
    assert (IN : forall lvl, (lvl <= 2)%nat -> pattern_inside Rwidths Rmath o e q (sample_size Rwidths Rmath o lvl)) by (apply N; discriminate).
    assert (EE : bits' = bits). { rewrite EB, EB'. cbn [flat_map]. rewrite !(tone_bits a c o Ha HC HP e e' L) by (try lia; apply IN; lia). reflexivity. }
    rewrite EE in EN'. f_equal. exact (encodes_inj bytes' bytes bits EN' EN).
  - exfalso. apply (proj2 N'); [|reflexivity]. intros lvl Hl. apply (tone_inside a c o e e' L). apply N; [discriminate|exact Hl].
  - exfalso. apply (proj2 N); [|reflexivity]. intros lvl Hl. apply (tone_inside a c o e e' L). apply N'; [discriminate|exact Hl]. Qed.
Definition wr_pair (p : rkeypoint * list N) : rkeypoint * list N := (wr (fst p), snd p).
Lemma tone_split (l : list (option (rkeypoint * list N))) : List.split (keep_some (map (option_map wr_pair) l)) = (map wr (fst (List.split (keep_some l))), snd (List.split (keep_some l))).
Proof.
  unfold keep_some. induction l as [|[(k, d)|] l IH]; cbn [map flat_map option_map app]; [reflexivity| |exact IH]. unfold wr_pair at 1. cbn [List.split fst snd]. rewrite IH. destruct (List.split (flat_map _ l)) as [u v]. reflexivity. Qed.
Lemma tone_descriptors l l' kps : Forall2 (lv2 a c) l l' ->
  orel (fun r r' => r' = (map wr (fst r), snd r)) (extract_descriptors Rwidths Rmath A o l kps) (extract_descriptors Rwidths Rmath A o l' (map wr kps)).
Proof.
  intros F. unfold extract_descriptors. apply (orel_bind (fun r r' => r' = map (option_map wr_pair) r)); [|intros r r' _ _ ->; apply tone_split].
  apply orel_map, (orel_mapM (fun k k' => k' = wr k)); [clear; induction kps; constructor; auto|]. intros k k' _ ->. rewrite (tone_descriptor l l' k F). destruct (mldb_descriptor Rwidths Rmath A o l k) as [d| |]; cbn; auto. destruct d; reflexivity. Qed.
Lemma tone_extract w h g g' fed (float_ord : R -> R -> bool) sort : im a c w h g g' -> (3 <= w)%nat -> (3 <= h)%nat -> (0 < contrast_factor_num_bins o)%nat -> 0 <= Akaze.contrast_percentile o <= 1 ->
  (forall x y, a_atan2 A (a * y) (a * x) = a_atan2 A y x) ->
  (forall l, sort (fun p q => float_ord (kp_response q) (kp_response p)) (map wr l) = map wr (sort (fun p q => float_ord (kp_response q) (kp_response p)) l)) ->
  orel (fun r r' => r' = (map wr (fst r), snd r)) (extract Rwidths Rmath Rmath A Rexp2 fed o float_ord sort g) (extract Rwidths Rmath Rmath A Rexp2 fed (with_threshold s o) float_ord sort g').
Proof.
  intros I Hw Hh Hb Hp HA HS. pose proof I as [(W & H & _) ((W' & H' & _) & _)]. unfold extract.
  apply (orel_bind eq).
  - cbn [single Rwidths] in *. rewrite W, H, W', H'. change (allocate_evolutions Rwidths Rmath Rexp2 fed (with_threshold s o) w h) with (allocate_evolutions Rwidths Rmath Rexp2 fed o w h). destruct (allocate_evolutions _ _ _ _ _ _ _); cbn; auto.
  - intros l0 l0' _ _ <-. apply (orel_bind (Forall2 (lv1 a c))); [exact (tone_space a c o Ha l0 w h g g' I Hw Hh Hb Hp)|]. intros l1 l1' _ _ F1.
    apply (orel_bind (Forall2 (lv2 a c))); [exact (tone_response a c o l1 l1' s F1)|]. intros l2 l2' _ _ F2.
    apply (orel_bind (fun k k' => k' = map wr k)); [exact (tone_detect a c o A Ha HA l2 l2' F2)|]. intros k k' _ _ ->. cbn [single double Rwidths] in *. rewrite HS, firstn_map. exact (tone_descriptors l2 l2' _ F2). Qed.
End whole.

Lemma with_response_one kp : with_response (1 * 1) kp = kp.
Proof. destruct kp. unfold with_response. cbn. f_equal. ring. Qed.
Lemma with_threshold_one o : with_threshold (1 * 1) o = o.
Proof. destruct o. unfold with_threshold. cbn. f_equal. ring. Qed.
Lemma map_with_response_one l : map (with_response (1 * 1)) l = l.
Proof. rewrite <- (map_id l) at 2. apply map_ext. exact with_response_one. Qed.
Lemma retoned_im a c g g' : sized (g_width g) (g_height g) g -> retoned a c g g' -> im a c (g_width g) (g_height g) g g'.
Proof. intros S T. split; [exact S|exact T]. Qed.
Lemma small_sides (g g' : gray RNum) a c (o : rsettings) o' (A : angles RNum) (fed : R -> outcome (list R)) float_ord sort : sized (g_width g) (g_height g) g -> retoned a c g g' -> (0 < num_sublevels o)%nat -> num_sublevels o' = num_sublevels o ->
  (3 <= g_width g)%nat /\ (3 <= g_height g)%nat \/ extract Rwidths Rmath Rmath A Rexp2 fed o float_ord sort g = Panic /\ extract Rwidths Rmath Rmath A Rexp2 fed o' float_ord sort g' = Panic.
Proof.
  intros S [S' _] N N'. assert (N1 : (0 < num_sublevels o')%nat) by (rewrite N'; exact N).
  destruct (le_lt_dec 3 (g_width g)) as [L|L]; [destruct (le_lt_dec 3 (g_height g)) as [L'|L']; [now left|]|]; right;
    exact (conj (extract_small_real o A _ _ g fed float_ord sort N S ltac:(lia)) (extract_small_real o' A _ _ g' fed float_ord sort N1 S' ltac:(lia))). Qed.
(** Brightness and contrast. *)
Lemma contrast_change (o : rsettings) (A : angles RNum) (fed : R -> outcome (list R)) float_ord sort (a c : R) (g g' : gray RNum) :
  usable o -> (4 <= descriptor_pattern_size o)%nat -> directional A -> unitless float_ord -> compares sort -> 0 < a -> sized (g_width g) (g_height g) g -> retoned a c g g' ->
  extract Rwidths Rmath Rmath A Rexp2 fed (with_threshold (a * a) o) float_ord sort g' = stronger (a * a) (extract Rwidths Rmath Rmath A Rexp2 fed o float_ord sort g).
Proof.
  intros U HP D UL CS Ha S T. destruct U as (U1 & _ & _ & U2 & U3 & _ & U4 & _). destruct (small_sides g g' a c o (with_threshold (a * a) o) A fed float_ord sort S T U1 eq_refl) as [(W & H)|(E & E')]; [|now rewrite E, E'].
  pose proof (tone_extract a c o A Ha U4 HP _ _ g g' fed float_ord sort (retoned_im a c g g' S T) W H U3 U2 (fun x y => D a x y Ha)) as Q. unfold stronger.
  assert (SS : forall l, sort (fun p q => float_ord (kp_response q) (kp_response p)) (map (with_response (a * a)) l) = map (with_response (a * a)) (sort (fun p q => float_ord (kp_response q) (kp_response p)) l)).
  { intros l. apply CS. intros p q _ _. apply UL. nra. }
  specialize (Q SS). destruct (extract Rwidths Rmath Rmath A Rexp2 fed o float_ord sort g) as [(ks, ds)| |]; match type of Q with orel _ _ ?m => destruct m end; cbn [orel fst snd] in Q; try contradiction; [now rewrite Q|reflexivity..]. Qed.
Lemma brightness_change (o : rsettings) (A : angles RNum) (fed : R -> outcome (list R)) float_ord sort (c : R) (g g' : gray RNum) :
  usable o -> (4 <= descriptor_pattern_size o)%nat -> sized (g_width g) (g_height g) g -> retoned 1 c g g' ->
  extract Rwidths Rmath Rmath A Rexp2 fed o float_ord sort g' = extract Rwidths Rmath Rmath A Rexp2 fed o float_ord sort g.
Proof.
  intros U HP S T. destruct U as (U1 & _ & _ & U2 & U3 & _ & U4 & _). destruct (small_sides g g' 1 c o o A fed float_ord sort S T U1 eq_refl) as [(W & H)|(E & E')]; [|now rewrite E, E'].
  assert (HA : forall x y, a_atan2 A (1 * y) (1 * x) = a_atan2 A y x) by (intros x y; now rewrite !Rmult_1_l).
  assert (SS : forall l, sort (fun p q => float_ord (kp_response q) (kp_response p)) (map (with_response (1 * 1)) l) = map (with_response (1 * 1)) (sort (fun p q => float_ord (kp_response q) (kp_response p)) l)) by (intros l; now rewrite !map_with_response_one).
  pose proof (tone_extract 1 c o A ltac:(lra) U4 HP _ _ g g' fed float_ord sort (retoned_im 1 c g g' S T) W H U3 U2 HA SS) as Q. rewrite with_threshold_one in Q.
  destruct (extract Rwidths Rmath Rmath A Rexp2 fed o float_ord sort g) as [(ks, ds)| |]; match type of Q with orel _ _ ?m => destruct m end; cbn [orel fst snd] in Q; try contradiction; [|reflexivity..]. rewrite Q, map_with_response_one. reflexivity. Qed.

(** ** Example *)
Lemma Rangles_directional : directional Rangles.
Proof.
  intros t x y H. cbn [a_atan2 Rangles]. unfold Ratan2. assert (E : x <> 0 -> t * y / (t * x) = y / x) by (intros; field; lra).
  destruct (Rlt_dec 0 (t * x)), (Rlt_dec 0 x); [rewrite E by lra; reflexivity|exfalso; nra|exfalso; nra|].
  destruct (Rlt_dec (t * x) 0), (Rlt_dec x 0); [|exfalso; nra|exfalso; nra|].
  - rewrite E by lra. destruct (Rle_dec 0 (t * y)), (Rle_dec 0 y); try reflexivity; exfalso; nra.
  - destruct (Rlt_dec 0 (t * y)), (Rlt_dec 0 y); try reflexivity; try (exfalso; nra). destruct (Rlt_dec (t * y) 0), (Rlt_dec y 0); try reflexivity; exfalso; nra. Qed.
Lemma leb_unitless : unitless (@leb RNum).
Proof. intros t x y H. exact (tone_leb t x y H). Qed.
Lemma insertion_compares {K} : compares (@insertion K).
Proof.
  intros le le' f l. induction l as [|p l IH]; intros H; [reflexivity|]. cbn [map insertion fold_right]. fold (insertion le l). fold (insertion le' (map f l)). rewrite IH by (intros; apply H; now right).
  assert (I : forall q, In q (insertion le l) -> In q l) by (intros q Q; apply (Permutation_in q (Permutation_sym (proj1 (insertion_sorts le l))) Q)).
  assert (HH : forall q, In q (insertion le l) -> le' (f p) (f q) = le p q) by (intros q Q; apply H; [now left|right; now apply I]). clear IH I H.
  induction (insertion le l) as [|q m IHm]; [reflexivity|]. cbn [map insert]. rewrite HH by now left. destruct (le p q); [reflexivity|]. cbn [map]. rewrite IHm by (intros; apply HH; now right). reflexivity. Qed.
Definition brighter : gray RNum := of_fn 60 60 (fun x y => 2 * pixel spot x y + 3 : RNum).
Lemma brighter_retoned : sized (g_width spot) (g_height spot) spot /\ retoned 2 3 spot brighter /\ (exists x y, pixel brighter x y <> pixel spot x y).
Proof.
  destruct spot_sized as (W & H & D). split; [split; [reflexivity|]; split; [reflexivity|]; rewrite W, H; exact D|]. split.
  - unfold retoned. cbn [single Rwidths] in *. rewrite W, H. split; [apply of_fn_sized|]. intros x y Hx Hy. unfold brighter. now rewrite pixel_of_fn.
  - exists 0%nat, 0%nat. unfold brighter, spot. rewrite !pixel_of_fn by lia. cbn. rlra. Qed.
