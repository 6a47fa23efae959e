(** * Lemmas for C85 *)
From Coq Require Import String List NArith ZArith Bool QArith Lia Sorting.Sorted Sorting.Permutation.
From Verif Require Import Py Uni Tagset Dawg Utils Shapes Dict Units Analyzer ConfigRu ConfigUk Compile Spec Spec2 Spec14 Spec15 Spec35.
From Verif Require Import L_Base L_Run L_Agree L_Tagset L_Text L_Words L_Made L_Config L_Units L_Case L_Reinit L_Groups L_Prob L_ByUnit L_Known L_Adverb L_Suffix L_Parse.
Import ListNotations.
Local Open Scope nat_scope.
Local Open Scope list_scope.

Definition early (letters : list str) (c : ucfg) : Prop :=
  match c with
  | UDict | UNumber _ | UPunct _ | ULatin _ | URoman _ | UParticle _ _ | UHAdverb _ | UHyph _ _ => True
  | UInit _ l _ _ => l = letters
  | _ => False
  end.
Lemma shipped_shape : forall M letters prefixes, language M letters prefixes -> exists us b1 b2 b3 b4,
  m_units M = us ++ [(b1, true); (b2, false); (b3, true); (b4, true)] /\ (forall b tm, In (b, tm) us -> early letters (b_cfg b)) /\
  b_cfg b1 = UKnownPrefix prefixes (75#100) 3 /\ b_cfg b2 = UUnknownPrefix (1#2) /\ b_cfg b3 = UKnownSuffix (1#2) 4 /\ b_cfg b4 = UUnkn.
Proof.
  assert (G : forall M letters prefixes fl, map (fun bt => (b_cfg (fst bt), snd bt)) (m_units M) = fl ++ [(UKnownPrefix prefixes (75#100) 3, true); (UUnknownPrefix (1#2), false); (UKnownSuffix (1#2) 4, true); (UUnkn, true)] ->
    (forall c tm, In (c, tm) fl -> early letters c) -> exists us b1 b2 b3 b4,
    m_units M = us ++ [(b1, true); (b2, false); (b3, true); (b4, true)] /\ (forall b tm, In (b, tm) us -> early letters (b_cfg b)) /\
    b_cfg b1 = UKnownPrefix prefixes (75#100) 3 /\ b_cfg b2 = UUnknownPrefix (1#2) /\ b_cfg b3 = UKnownSuffix (1#2) 4 /\ b_cfg b4 = UUnkn).
  { intros M letters prefixes fl H E. apply map_eq_app in H as (us & l & Eu & A & B).
    destruct l as [|[b1 t1] [|[b2 t2] [|[b3 t3] [|[b4 t4] [|x l]]]]]; try discriminate B. cbn [map fst snd] in B. injection B as B1 T1 B2 T2 B3 T3 B4 T4. subst t1 t2 t3 t4.
    exists us, b1, b2, b3, b4. split; [exact Eu|]. split; [|auto]. intros b tm I. apply (E _ tm). rewrite <- A. apply in_map_iff. exists (b, tm). split; [reflexivity|exact I]. }
  intros M letters prefixes [(H & -> & ->)|(H & -> & ->)]; apply has_units_cfg in H.
  - apply (G M _ _ (firstn 10 (flat_cfg RU_DEFAULT_UNITS))).
    + rewrite H. unfold RU_DEFAULT_UNITS, flat_cfg, ru_units. cbn [mapM flatten_item mark_last bind concat app firstn]. reflexivity.
    + intros c tm I. unfold RU_DEFAULT_UNITS, flat_cfg, ru_units in I. cbn [mapM flatten_item mark_last bind concat app firstn In] in I.
      repeat match goal with X : _ \/ _ |- _ => destruct X as [X|X]; [injection X as <- _; cbn [early]; (exact Logic.I || reflexivity)|] end. destruct I.
  - apply (G M _ _ (firstn 9 (flat_cfg UK_DEFAULT_UNITS))).
    + rewrite H. unfold UK_DEFAULT_UNITS, flat_cfg, uk_units. cbn [mapM flatten_item mark_last bind concat app firstn]. reflexivity.
    + intros c tm I. unfold UK_DEFAULT_UNITS, flat_cfg, uk_units in I. cbn [mapM flatten_item mark_last bind concat app firstn In] in I.
      repeat match goal with X : _ \/ _ |- _ => destruct X as [X|X]; [injection X as <- _; cbn [early]; (exact Logic.I || reflexivity)|] end. destruct I.
Qed.
Lemma quiet : forall recP recT M letters word j b, new_word M letters word -> early letters (b_cfg b) ->
  unit_parse recP recT M j b word (u_lower (m_uni M) word) [] = Ok ([], []).
Proof.
  intros recP recT M letters word j b (K & NI & (c & r & E & F) & NH & _) Ea.
  destruct (foreign_shape (m_uni M) c r F) as (S1 & S2 & S3 & S4). rewrite <- E in S1, S2, S3, S4.
  assert (IL : smem word letters = false) by (destruct (smem word letters) eqn:X; [apply smem_In in X; contradiction|reflexivity]).
  assert (MH : mem_char HY (u_lower (m_uni M) word) = false) by (destruct (mem_char HY (u_lower (m_uni M) word)) eqn:X; [apply mem_char_In in X; contradiction|reflexivity]).
  unfold unit_parse. destruct (b_cfg b) as [|first letters' pat sc| | | | |particles mult|mult|skip mult| | | |] eqn:C; cbn [early] in Ea; try contradiction.
  - rewrite (unknown_dict M word (Root j) K). reflexivity.
  - subst letters'. rewrite IL. reflexivity.
  - unfold shape_parse, shape_tag. rewrite C, S1. reflexivity.
  - unfold shape_parse, shape_tag. rewrite C, S2. reflexivity.
  - unfold shape_parse, shape_tag. rewrite C, S3. reflexivity.
  - unfold shape_parse, shape_tag. rewrite C, S4. reflexivity.
  - unfold particle_parse, particle_splits. rewrite MH. reflexivity.
  - unfold adverb_should_parse. destruct (prefixb (u "по-") (u_lower (m_uni M) word)) eqn:P.
    + exfalso. apply prefixb_spec in P as (rest & P). apply NH. rewrite P. apply in_or_app. left. vm_compute. auto.
    + rewrite orb_true_r. reflexivity.
  - unfold hyph_parse, hyph_should_parse. rewrite MH. reflexivity.
Qed.
(** the seen set of a unit that found nothing *)
Lemma nothing_seen : forall recP recT M i b word lower seen', unit_parse recP recT M i b word lower [] = Ok ([], seen') -> seen' = [].
Proof.
  intros recP recT M i b word lower seen' H. apply unit_parse_ext in H. cbn [fst snd] in H. destruct H as (ks & -> & H). destruct ks as [|k ks]; [reflexivity|]. destruct (H k (or_introl eq_refl)) as (p & [] & _).
Qed.
Lemma kp_exact : forall M i b prefixes word lower ps seen', b_cfg b = UKnownPrefix prefixes (75#100) 3 -> ~ In [] prefixes ->
  unit_parse (morph_parse M) (morph_tag M) M i b word lower [] = Ok (ps, seen') -> forall w g, analysed ps w g <-> by_known_prefix M prefixes lower w g.
Proof.
  intros M i b prefixes word lower ps seen' C N H w g. destruct (kp_unit _ _ _ _ _ _ _ _ _ _ _ C N H) as (A & B & _). split.
  - intros (p & I & W & G). destruct (A p I) as (prefix & rest & qs & q & H1 & H2 & H3 & H4 & H5 & H6 & (P1 & P2 & _)).
    exists prefix, rest, qs, q. rewrite <- W, <- G, P1, P2. repeat (split; [assumption|]). split; reflexivity.
  - intros (prefix & rest & qs & q & H1 & H2 & H3 & H4 & H5 & H6 & -> & ->). destruct (B prefix rest H1 H2 H3) as (qs' & E & X). rewrite H4 in E. apply Ok_inj in E. subst qs'.
    destruct (X eq_refl q H5 H6) as (p & I & P1 & P2). exists p. auto.
Qed.
Lemma up_exact : forall M i b word lower ps seen', b_cfg b = UUnknownPrefix (1#2) ->
  unit_parse (morph_parse M) (morph_tag M) M i b word lower [] = Ok (ps, seen') -> forall w g, analysed ps w g <-> by_unknown_prefix M lower w g.
Proof.
  intros M i b word lower ps seen' C H w g. pose proof (up_unit _ _ _ _ _ _ _ _ _ C H) as B.
  unfold unit_parse in H. rewrite C in H. unfold up_parse in H. destruct (loop_exact _ _ _ _ _ _ _ H) as (A & _ & _). split.
  - intros (p & I & W & G). destruct (A p I) as (prefix & rest & qs & q & H1 & H2 & H3 & H4 & (P1 & P2 & _)). apply word_splits_In in H1 as (E & L1 & L2).
    destruct (dict_parse_entry _ _ _ _ _ H2 H3) as (v & vals & para & idx & nf & t & D1 & D2 & D3 & D4 & D5 & ->). cbn [p_tag p_word] in *.
    exists prefix, rest, v, vals, para, idx, t. rewrite <- W, <- G, P1, P2. split; [exact E|]. split; [exact L1|]. split; [exact L2|]. split; [apply variants_spec; exact D1|]. repeat (split; [assumption|]). split; reflexivity.
  - intros (prefix & rest & v & vals & para & idx & t & E & L1 & L2 & D1 & D2 & D3 & D4 & D5 & -> & ->). destruct (B prefix rest E L1 L2) as (qs & Q & X).
    destruct (dict_parse_complete _ _ _ _ _ _ _ _ Q (proj2 (variants_spec _ _ _) D1) D2 D3) as (nf & t' & _ & T & I). rewrite D4 in T. apply Ok_inj in T. subst t'.
    destruct (X eq_refl _ I D5) as (p & Ip & P1 & P2). exists p. auto.
Qed.

Lemma ks_exact : forall M i b word lower seen ps seen', b_cfg b = UKnownSuffix (1#2) 4 -> pred_counts_pos (m_dict M) -> lower <> [] ->
  unit_parse (morph_parse M) (morph_tag M) M i b word lower seen = Ok (ps, seen') ->
  forall w g, (analysed ps w g -> by_ending M word lower w g) /\ (by_ending M word lower w g -> analysed ps w g \/ exists t para, t_gr t = g /\ seen_mem (SKey w t (PNum para)) seen = true).
Proof.
  intros M i b word lower seen ps seen' C PC NE H w g. unfold unit_parse in H. rewrite C in H. destruct (ks_unit _ _ _ _ _ _ _ _ _ _ PC NE H) as (A & _ & B & D). split.
  - intros (p & I & W & G). split.
    + destruct (Nat.le_gt_cases 4 (length word)) as [L|L]; [exact L|]. rewrite (A L) in I. destruct I.
    + destruct (B p I) as (pid & pre & rest & dawg & start & e & fs & cnt & para & idx & H1 & H2 & H3 & H4 & H5 & H6 & H7 & _).
      exists pid, pre, rest, dawg, start, e, fs, cnt, para, idx, (p_tag p). rewrite <- W, <- G. repeat (split; [assumption|]). reflexivity.
  - intros (L & pid & pre & rest & dawg & start & e & fs & cnt & para & idx & t & H1 & H2 & H3 & H4 & H5 & H6 & -> & ->).
    destruct (D L _ _ _ _ _ _ _ _ _ _ _ H1 H2 H3 H4 H5 H6) as [X|(p & idx' & m & I & P1 & P2 & _)]; [right; exists t, para; auto|left; exists p; auto].
Qed.
(** what is in the seen set has been returned *)
Lemma seen_analysed : forall recP recT M i b word lower ps seen' w t k, unit_parse recP recT M i b word lower [] = Ok (ps, seen') -> seen_mem (SKey w t k) seen' = true -> analysed ps w (t_gr t).
Proof.
  intros recP recT M i b word lower ps seen' w t k H X. apply unit_parse_ext in H. cbn [fst snd] in H. destruct H as (ks & -> & H). rewrite app_nil_r in X. unfold seen_mem in X. apply existsb_exists in X as (k' & I & E).
  destruct (H k' I) as (p & Ip & [->| ->]); [|discriminate E]. unfold key_of in E. cbn [skey_eqb] in E. apply andb_true_iff in E as [E _]. apply andb_true_iff in E as [E1 E2]. apply str_eqb_eq in E1. apply tag_eqb_iff in E2.
  exists p. split; [exact Ip|]. split; symmetry; assumption.
Qed.
Lemma unkn_tag : forall M items i b tm, has_units M items -> nth_error (m_units M) i = Some (b, tm) -> b_cfg b = UUnkn -> exists t, b_tags b = [t] /\ t_str t = u "UNKN" /\ t_gr t = [u "UNKN"].
Proof.
  intros M items i b tm (C & C' & H) N Cf. apply bind_ok in H as (fl & _ & H). destruct (bind_all_In _ _ _ _ _ H (nth_error_In _ _ N)) as (A & B & c & P & _). cbn [fst] in P.
  pose proof (bind_unit_cfg _ _ _ _ P) as E. rewrite Cf in E. subst c. cbn [bind_unit] in P. apply bind_ok in P as (t & T & P). apply Ok_inj in P. injection P as _ P. exists (snd t). rewrite <- P. cbn [b_tags].
  split; [reflexivity|]. unfold init_single in T. apply bind_ok in T as (x & T & T'). apply Ok_inj in T'. subst t. cbn [snd]. destruct (mk_tag_ok _ _ _ T) as (T1 & T2 & _). split; [exact T1|]. rewrite T2. vm_compute. reflexivity.
Qed.
Lemma same_analysed : forall (a b : list parse), map reading a = map reading b \/ Permutation (map reading a) (map reading b) -> forall w g, analysed a w g <-> analysed b w g.
Proof.
  assert (G : forall a b : list parse, (forall x, In x (map reading a) -> In x (map reading b)) -> forall w g, analysed a w g -> analysed b w g).
  { intros a b H w g (p & I & W & Gg). assert (X : In (reading p) (map reading b)) by (apply H; apply in_map; exact I). apply in_map_iff in X as (q & E & Iq).
    unfold reading in E. injection E as E1 E2 _ _. exists q. split; [exact Iq|]. rewrite E1, E2. auto. }
  intros a b H. assert (X : forall x, In x (map reading a) <-> In x (map reading b)).
  { intros x. destruct H as [->|P]; [reflexivity|]. split; [apply Permutation_in; exact P|apply Permutation_in; apply Permutation_sym; exact P]. }
  intros w g. split; apply G; intros x I; apply X; exact I.
Qed.

Lemma analysed_app : forall a b w g, analysed (a ++ b) w g <-> analysed a w g \/ analysed b w g.
Proof.
  intros a b w g. split.
  - intros (p & I & H). apply in_app_or in I as [I|I]; [left|right]; exists p; auto.
  - intros [(p & I & H)|(p & I & H)]; exists p; (split; [apply in_or_app; auto|exact H]).
Qed.
Lemma analysed_some : forall ps, ps <> [] -> exists w g, analysed ps w g.
Proof. intros [|p ps] H; [congruence|]. exists (p_word p), (t_gr (p_tag p)), p. split; [left; reflexivity|auto]. Qed.
Lemma analysed_none : forall w g, ~ analysed [] w g.
Proof. intros w g (p & [] & _). Qed.
Lemma new_raw : forall M letters prefixes word r, language M letters prefixes -> lower_stable (m_uni M) -> pred_counts_pos (m_dict M) -> new_word M letters word ->
  run_parse (morph_parse M) (morph_tag M) M word (u_lower (m_uni M) word) 0 (m_units M) [] [] = Ok r ->
  let lower := u_lower (m_uni M) word in
  ((exists w g, by_known_prefix M prefixes lower w g) -> forall w g, analysed r w g <-> by_known_prefix M prefixes lower w g) /\
  (~ (exists w g, by_known_prefix M prefixes lower w g) ->
     ((exists w g, by_analogy M word lower w g) -> forall w g, analysed r w g <-> by_analogy M word lower w g) /\
     (~ (exists w g, by_analogy M word lower w g) -> exists p, r = [p] /\ unknown_reading lower p)).
Proof.
  intros M letters prefixes word r LA St PC NW H lower. destruct (shipped_shape M letters prefixes LA) as (us & b1 & b2 & b3 & b4 & Eu & Ea & C1 & C2 & C3 & C4).
  assert (SU : exists items, has_units M items) by (destruct LA as [(X & _)|(X & _)]; eexists; exact X). destruct SU as (items & HU).
  assert (NP : ~ In [] prefixes).
  { assert (SU : shipped_units M) by (destruct LA as [(X & _)|(X & _)]; [left|right]; exact X). destruct (shipped_facts M SU) as (_ & _ & F). rewrite Eu in F. apply Forall_app in F as [_ F]. inversion F as [|x l F1 F2 E]. unfold prefixes_nonempty in F1. cbn [fst] in F1. rewrite C1 in F1. exact F1. }
  assert (N4 : nth_error (m_units M) (length us + 3) = Some (b4, true)) by (rewrite Eu, nth_error_app2 by lia; replace (length us + 3 - length us) with 3 by lia; reflexivity).
  destruct (unkn_tag M items _ b4 true HU N4 C4) as (t & T1 & _ & T3).
  assert (NE : lower <> []) by (destruct NW as (_ & _ & _ & _ & X); exact X).
  rewrite Eu in H. rewrite run_skip in H by (intros j b tm I; apply (quiet _ _ M letters word j b NW (Ea b tm I))). cbn [run_parse] in H. fold lower in H.
  apply bind_ok in H as ([ps1 s1] & U1 & H). pose proof (kp_exact M _ b1 prefixes word lower ps1 s1 C1 NP U1) as K1.
  cbn [app] in H. destruct ps1 as [|p1 ps1].
  2:{ cbn [andb] in H. apply Ok_inj in H. subst r. split; [intros _; exact K1|]. intros N. exfalso. apply N. exists (p_word p1), (t_gr (p_tag p1)). apply K1. exists p1. split; [left; reflexivity|auto]. }
  pose proof (nothing_seen _ _ _ _ _ _ _ _ U1) as X. subst s1. cbn [andb] in H. split; [intros (w & g & X); exfalso; apply K1 in X; exact (analysed_none w g X)|]. intros _.
  apply bind_ok in H as ([ps2 s2] & U2 & H). pose proof (up_exact M _ b2 word lower ps2 s2 C2 U2) as K2. cbn [app andb] in H.
  apply bind_ok in H as ([ps3 s3] & U3 & H). pose proof (ks_exact M _ b3 word lower s2 ps3 s3 C3 PC NE U3) as K3.
  assert (K : forall w g, analysed (ps2 ++ ps3) w g <-> by_analogy M word lower w g).
  { intros w g. rewrite analysed_app. unfold by_analogy. rewrite K2. destruct (K3 w g) as [A B]. split; [intros [Y|Y]; [left; exact Y|right; apply A; exact Y]|].
    intros [Y|Y]; [left; exact Y|]. destruct (B Y) as [Z|(t' & para & G & Z)]; [right; exact Z|]. left. apply K2. rewrite <- G. exact (seen_analysed _ _ _ _ _ _ _ _ _ _ _ _ U2 Z). }
  destruct (ps2 ++ ps3) as [|p ps] eqn:E.
  - apply app_eq_nil in E as [-> ->]. pose proof (nothing_seen _ _ _ _ _ _ _ _ U2) as X. subst s2. pose proof (nothing_seen _ _ _ _ _ _ _ _ U3) as X. subst s3.
    split; [intros (w & g & X); exfalso; apply K in X; exact (analysed_none w g X)|]. intros _. cbn [andb] in H.
    apply bind_ok in H as ([ps4 s4] & U4 & H). unfold unit_parse in U4. rewrite C4 in U4. rewrite T1 in U4. cbn [nth_res nth_error bind] in U4. apply Ok_inj in U4. injection U4 as <- <-.
    cbn [andb app] in H. apply Ok_inj in H. subst r. eexists. split; [reflexivity|]. unfold unknown_reading. cbn [p_word p_nf p_tag]. auto.
  - cbn [andb] in H. apply Ok_inj in H. subst r. split; [intros _; exact K|]. intros N. exfalso. apply N. exists (p_word p), (t_gr (p_tag p)). apply K. exists p. split; [left; reflexivity|auto].
Qed.
Lemma new_parse : forall M letters prefixes word ps, language M letters prefixes -> lower_stable (m_uni M) -> pred_counts_pos (m_dict M) -> new_word M letters word -> morph_parse M word = Ok ps ->
  let lower := u_lower (m_uni M) word in
  ((exists w g, by_known_prefix M prefixes lower w g) -> forall w g, analysed ps w g <-> by_known_prefix M prefixes lower w g) /\
  (~ (exists w g, by_known_prefix M prefixes lower w g) ->
     ((exists w g, by_analogy M word lower w g) -> forall w g, analysed ps w g <-> by_analogy M word lower w g) /\
     (~ (exists w g, by_analogy M word lower w g) -> exists p, ps = [p] /\ unknown_reading lower p)).
Proof.
  intros M letters prefixes word ps LA St PC NW H lower. unfold morph_parse, fuel_for, parse_f in H. cbn [analyze fst snd] in H. apply bind_ok in H as (r & E & H).
  assert (SU : shipped_units M) by (destruct LA as [(X & _)|(X & _)]; [left|right]; exact X). destruct (shipped_facts M SU) as (_ & _ & F).
  change (fst (analyze (length (u_lower (m_uni M) word)) M)) with (parse_f (length (u_lower (m_uni M) word)) M) in E. change (snd (analyze (length (u_lower (m_uni M) word)) M)) with (tag_f (length (u_lower (m_uni M) word)) M) in E.
  rewrite (run_parse_same _ (morph_parse M) _ (morph_tag M)) in E; [|intros w Hw; apply (nested_parse M _ word); auto|exact F].
  pose proof (new_raw M letters prefixes word r LA St PC NW E) as R. cbv zeta in R. fold lower in R.
  assert (X : (forall w g, analysed ps w g <-> analysed r w g) /\ (forall p, r = [p] -> unknown_reading lower p -> exists q, ps = [q] /\ unknown_reading lower q)).
  { destruct (m_prob M) as [d|]; [|apply Ok_inj in H; subst ps; split; [reflexivity|intros p -> U; exists p; auto]].
    pose proof (apply_reweighted _ _ _ _ H) as (P & _). split; [intros w g; symmetry; apply same_analysed; right; exact P|].
    intros p -> (U1 & U2 & U3). apply apply_to_parses_length in H as L. destruct ps as [|q [|q' ps]]; try discriminate L. exists q. split; [reflexivity|].
    apply Permutation_sym, Permutation_length_1 in P. unfold reading in P. injection P as P1 P2 P3 _. unfold unknown_reading. rewrite P1, P2, P3. auto. }
  destruct X as [X1 X2]. destruct R as [R1 R2]. split.
  - intros Y w g. rewrite X1. apply R1. exact Y.
  - intros Y. destruct (R2 Y) as [R3 R4]. split; [intros Z w g; rewrite X1; apply R3; exact Z|]. intros Z. destruct (R4 Z) as (p & A & B). exact (X2 p A B).
Qed.

Lemma new_tags : forall M letters prefixes word ps ts, language M letters prefixes -> lower_stable (m_uni M) -> pred_counts_pos (m_dict M) -> new_word M letters word -> morph_parse M word = Ok ps -> morph_tag M word = Ok ts ->
  let lower := u_lower (m_uni M) word in
  ((exists w g, by_known_prefix M prefixes lower w g) -> forall g, In g (map t_gr ts) <-> exists w, by_known_prefix M prefixes lower w g) /\
  (~ (exists w g, by_known_prefix M prefixes lower w g) ->
     ((exists w g, by_analogy M word lower w g) -> forall g, In g (map t_gr ts) <-> exists w, by_analogy M word lower w g) /\
     (~ (exists w g, by_analogy M word lower w g) -> forall g, In g (map t_gr ts) <-> g = [u "UNKN"])).
Proof.
  intros M letters prefixes word ps ts LA St PC NW HP HT lower. destruct (new_parse M letters prefixes word ps LA St PC NW HP) as [A B]. fold lower in A, B.
  assert (SU : shipped_units M) by (destruct LA as [(X & _)|(X & _)]; [left|right]; exact X).
  assert (SM : forall g, In g (map t_gr ts) <-> exists w, analysed ps w g).
  { intros g. rewrite <- (shipped_agree (fuel_for M word) M word ps ts SU PC HP HT g). rewrite in_map_iff. split.
    - intros (t & E & I). apply in_map_iff in I as (p & <- & I). exists (p_word p), p. auto.
    - intros (w & p & I & _ & E). exists (p_tag p). split; [exact E|apply in_map; exact I]. }
  split.
  - intros X g. rewrite SM. split; intros (w & Y); exists w; apply (A X); exact Y.
  - intros X. destruct (B X) as [C D]. split.
    + intros Y g. rewrite SM. split; intros (w & Z); exists w; apply (C Y); exact Z.
    + intros Y g. destruct (D Y) as (p & -> & (U1 & _ & U3)). rewrite SM. split.
      * intros (w & q & [<-|[]] & _ & E). rewrite <- E. exact U3.
      * intros ->. exists (p_word p), p. split; [left; reflexivity|auto].
Qed.
