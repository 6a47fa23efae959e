(** * Lemmas for C86 *)
From Coq Require Import String List NArith ZArith Bool QArith Lia Sorting.Sorted Sorting.Permutation.
From Verif Require Import Py Uni Tagset Dawg Utils Shapes Dict Units Analyzer ConfigRu ConfigUk Compile Spec Spec2 Spec14 Spec15 Spec34 Spec35 Spec36.
From Verif Require Import L_Base L_Run L_Agree L_Tagset L_Text L_Words L_Made L_Config L_Units L_Case L_Reinit L_Groups L_Prob L_ByUnit L_Known L_Adverb L_Suffix L_Parse L_New.
Import ListNotations.
Local Open Scope nat_scope.
Local Open Scope list_scope.

Definition lookup_or_shape (letters : list str) (c : ucfg) : Prop :=
  match c with UDict | UNumber _ | UPunct _ | ULatin _ | URoman _ => True | UInit _ l _ _ => l = letters | _ => False end.
Lemma quiet2 : forall recP recT M letters word j b, outside_word M letters word -> lookup_or_shape letters (b_cfg b) ->
  unit_parse recP recT M j b word (u_lower (m_uni M) word) [] = Ok ([], []).
Proof.
  intros recP recT M letters word j b (K & NI & (c & r & E & F) & _) Ea.
  destruct (foreign_shape (m_uni M) c r F) as (S1 & S2 & S3 & S4). rewrite <- E in S1, S2, S3, S4.
  assert (IL : smem word letters = false) by (destruct (smem word letters) eqn:X; [apply smem_In in X; contradiction|reflexivity]).
  unfold unit_parse. destruct (b_cfg b) as [|first letters' pat sc| | | | |particles mult|mult|skip mult| | | |] eqn:C; cbn [lookup_or_shape] in Ea; try contradiction.
  - rewrite (unknown_dict M word (Root j) K). reflexivity.
  - subst letters'. rewrite IL. reflexivity.
  - unfold shape_parse, shape_tag. rewrite C, S1. reflexivity.
  - unfold shape_parse, shape_tag. rewrite C, S2. reflexivity.
  - unfold shape_parse, shape_tag. rewrite C, S3. reflexivity.
  - unfold shape_parse, shape_tag. rewrite C, S4. reflexivity.
Qed.
Definition exact_unit (M : morph) (word lower : str) (i : nat) (b : bunit) (P : rule) : Prop :=
  forall ps s, unit_parse (morph_parse M) (morph_tag M) M i b word lower [] = Ok (ps, s) -> gives ps P.
Lemma rule_step : forall M word lower i b rest r P rules, exact_unit M word lower i b P ->
  run_parse (morph_parse M) (morph_tag M) M word lower i ((b, true) :: rest) [] [] = Ok r ->
  (run_parse (morph_parse M) (morph_tag M) M word lower (S i) rest [] [] = Ok r -> first_rule rules r) -> first_rule (P :: rules) r.
Proof.
  intros M word lower i b rest r P rules E H K. cbn [run_parse] in H. apply bind_ok in H as ([ps s] & U & H). pose proof (E ps s U) as G. cbn [app] in H. destruct ps as [|p ps].
  - pose proof (nothing_seen _ _ _ _ _ _ _ _ U) as X. subst s. cbn [andb] in H. right. split; [intros (w & g & X); apply G in X; exact (analysed_none w g X)|exact (K H)].
  - cbn [andb] in H. apply Ok_inj in H. subst r. left. split; [exists (p_word p), (t_gr (p_tag p)); apply G; exists p; split; [left; reflexivity|auto]|exact G].
Qed.
Lemma particle_exact : forall M i b particles mult word lower, b_cfg b = UParticle particles mult -> ~ In [] particles -> at_most_one_ending particles -> exact_unit M word lower i b (by_particle M particles lower).
Proof.
  intros M i b particles mult word lower C N One ps s H w g. destruct (particle_unit_exact _ _ _ _ _ _ _ _ _ _ C N One H) as (A & B). split.
  - intros (p & I & W & G). destruct (particle_splits particles lower) as [|[rest pt] l] eqn:E.
    + exfalso. rewrite A in I; [destruct I|]. intros (rest & pt & H1 & H2 & H3 & H4). pose proof (proj2 (particle_splits_iff particles lower rest pt N) (conj H1 (conj H2 (conj H3 H4)))) as X. rewrite E in X. destruct X.
    + assert (X : In (rest, pt) (particle_splits particles lower)) by (rewrite E; left; reflexivity). apply (particle_splits_iff _ _ _ _ N) in X as (X1 & X2 & X3 & X4).
      destruct (B rest pt X1 X2 X3 X4) as (qs & Q & S & _). destruct (S p I) as (q & Iq & (R1 & R2 & _)). exists rest, pt, qs, q. rewrite <- W, <- G, R1, R2. repeat (split; [assumption|]). split; reflexivity.
  - intros (rest & pt & qs & q & X1 & X2 & X3 & X4 & Q & Iq & -> & ->). destruct (B rest pt X1 X2 X3 X4) as (qs' & Q' & _ & T). rewrite Q in Q'. apply Ok_inj in Q'. subst qs'.
    destruct (T eq_refl q Iq) as (p & I & P1 & P2). exists p. auto.
Qed.
Lemma po_exact : forall M items i b tm mult word lower, has_units M items -> nth_error (m_units M) i = Some (b, tm) -> b_cfg b = UHAdverb mult -> knows_adjectives M -> exact_unit M word lower i b (by_po M lower).
Proof.
  intros M items i b tm mult word lower HU N C K ps s H w g. destruct (c84_unit _ _ _ _ _ _ _ _ _ C K H) as (A & B). destruct (adverb_tag _ _ _ _ _ _ HU N C) as (t & T1 & _ & T3). split.
  - intros (p & I & W & G). unfold unit_parse in H. rewrite C in H. apply bind_ok in H as (ok & O & H). pose proof (should_iff M lower ok K O) as S. destruct ok; [|apply Ok_inj in H; injection H as <- _; destruct I].
    pose proof (proj1 S eq_refl) as PA. destruct (A PA) as (t' & T' & E). rewrite T1 in T'. injection T' as <-. rewrite E in I. destruct I as [<-|[]]. cbn [p_word p_tag] in W, G. split; [exact PA|]. rewrite <- W, <- G. auto.
  - intros (PA & -> & ->). destruct (A PA) as (t' & T' & ->). rewrite T1 in T'. injection T' as <-. eexists. split; [left; reflexivity|]. auto.
Qed.
Lemma hyphen_exact : forall M i b skip mult word lower, b_cfg b = UHyph skip mult -> ~ In [] skip -> exact_unit M word lower i b (by_hyphen M skip lower).
Proof.
  intros M i b skip mult word lower C N ps s H w g. pose proof (hyph_unit_exact _ _ _ _ _ _ _ _ _ _ C N H) as A. split.
  - intros (p & I & W & G). apply A in I as (NS & l & r & ls & rs & O & L & R & D). split; [exact NS|]. exists l, r, ls, rs. split; [exact O|]. split; [exact L|]. split; [exact R|].
    destruct D as [(a & c & I1 & I2 & HP & SF & ->)|(c & I2 & HP & ->)]; cbn [p_word p_tag] in W, G; [left; exists a, c|right; exists c]; rewrite <- W, <- G; auto 10.
  - intros (NS & l & r & ls & rs & O & L & R & D). destruct D as [(a & c & I1 & I2 & HP & SF & -> & ->)|(c & I2 & HP & -> & ->)].
    + eexists. split; [apply A; split; [exact NS|]; exists l, r, ls, rs; split; [exact O|]; split; [exact L|]; split; [exact R|]; left; exists a, c; split; [exact I1|]; split; [exact I2|]; split; [exact HP|]; split; [exact SF|reflexivity]|]. auto.
    + eexists. split; [apply A; split; [exact NS|]; exists l, r, ls, rs; split; [exact O|]; split; [exact L|]; split; [exact R|]; right; exists c; split; [exact I2|]; split; [exact HP|reflexivity]|]. auto.
Qed.
Lemma last_rules : forall M items word lower i b2 b3 b4 r, has_units M items -> nth_error (m_units M) (S (S i)) = Some (b4, true) -> pred_counts_pos (m_dict M) -> lower <> [] ->
  b_cfg b2 = UUnknownPrefix (1#2) -> b_cfg b3 = UKnownSuffix (1#2) 4 -> b_cfg b4 = UUnkn ->
  run_parse (morph_parse M) (morph_tag M) M word lower i [(b2, false); (b3, true); (b4, true)] [] [] = Ok r -> first_rule [by_analogy M word lower; by_nothing lower] r.
Proof.
  intros M items word lower i b2 b3 b4 r HU N4 PC NE C2 C3 C4 H. destruct (unkn_tag M items _ b4 true HU N4 C4) as (t & T1 & _ & T3). cbn [run_parse] in H.
  apply bind_ok in H as ([ps2 s2] & U2 & H). pose proof (up_exact M _ b2 word lower ps2 s2 C2 U2) as K2. cbn [app andb] in H.
  apply bind_ok in H as ([ps3 s3] & U3 & H). pose proof (ks_exact M _ b3 word lower s2 ps3 s3 C3 PC NE U3) as K3.
  assert (K : forall w g, analysed (ps2 ++ ps3) w g <-> by_analogy M word lower w g).
  { intros w g. rewrite analysed_app. unfold by_analogy. rewrite K2. destruct (K3 w g) as [A B]. split; [intros [Y|Y]; [left; exact Y|right; apply A; exact Y]|].
    intros [Y|Y]; [left; exact Y|]. destruct (B Y) as [Z|(t' & para & G & Z)]; [right; exact Z|]. left. apply K2. rewrite <- G. exact (seen_analysed _ _ _ _ _ _ _ _ _ _ _ _ U2 Z). }
  destruct (ps2 ++ ps3) as [|p ps] eqn:E.
  - apply app_eq_nil in E as [-> ->]. pose proof (nothing_seen _ _ _ _ _ _ _ _ U2) as X. subst s2. pose proof (nothing_seen _ _ _ _ _ _ _ _ U3) as X. subst s3.
    right. split; [intros (w & g & X); apply K in X; exact (analysed_none w g X)|]. left. cbn [andb] in H.
    apply bind_ok in H as ([ps4 s4] & U4 & H). unfold unit_parse in U4. rewrite C4 in U4. rewrite T1 in U4. cbn [nth_res nth_error bind] in U4. apply Ok_inj in U4. injection U4 as <- <-.
    cbn [andb app] in H. apply Ok_inj in H. subst r. split; [exists lower, [u "UNKN"]; split; reflexivity|]. intros w g. split.
    + intros (p & [<-|[]] & W & G). cbn [p_word p_tag] in W, G. rewrite <- W, <- G. split; [reflexivity|exact T3].
    + intros (-> & ->). eexists. split; [left; reflexivity|]. auto.
  - cbn [andb] in H. apply Ok_inj in H. subst r. left. split; [exists (p_word p), (t_gr (p_tag p)); apply K; exists p; split; [left; reflexivity|auto]|exact K].
Qed.
Lemma shape_ru : forall M, has_units M RU_DEFAULT_UNITS -> exists us a1 a2 a3 b1 b2 b3 b4,
  m_units M = us ++ [(a1, true); (a2, true); (a3, true); (b1, true); (b2, false); (b3, true); (b4, true)] /\ (forall b tm, In (b, tm) us -> lookup_or_shape RU_INITIAL_LETTERS (b_cfg b)) /\
  b_cfg a1 = UParticle RU_PARTICLES (9#10) /\ b_cfg a2 = UHAdverb (7#10) /\ b_cfg a3 = UHyph RU_KNOWN_PREFIXES (75#100) /\
  b_cfg b1 = UKnownPrefix RU_KNOWN_PREFIXES (75#100) 3 /\ b_cfg b2 = UUnknownPrefix (1#2) /\ b_cfg b3 = UKnownSuffix (1#2) 4 /\ b_cfg b4 = UUnkn.
Proof.
  intros M H. apply has_units_cfg in H.
  assert (X : flat_cfg RU_DEFAULT_UNITS = firstn 7 (flat_cfg RU_DEFAULT_UNITS) ++ [(UParticle RU_PARTICLES (9#10), true); (UHAdverb (7#10), true); (UHyph RU_KNOWN_PREFIXES (75#100), true); (UKnownPrefix RU_KNOWN_PREFIXES (75#100) 3, true); (UUnknownPrefix (1#2), false); (UKnownSuffix (1#2) 4, true); (UUnkn, true)]).
  { unfold RU_DEFAULT_UNITS, flat_cfg, ru_units. cbn [mapM flatten_item mark_last bind concat app firstn]. reflexivity. }
  rewrite X in H. apply map_eq_app in H as (us & l & Eu & A & B).
  destruct l as [|[a1 s1] [|[a2 s2] [|[a3 s3] [|[b1 t1] [|[b2 t2] [|[b3 t3] [|[b4 t4] [|x l]]]]]]]]; try discriminate B. cbn [map fst snd] in B. injection B as A1 S1 A2 S2 A3 S3 B1 T1 B2 T2 B3 T3 B4 T4. subst s1 s2 s3 t1 t2 t3 t4.
  exists us, a1, a2, a3, b1, b2, b3, b4. split; [exact Eu|]. split; [|repeat (split; [assumption|]); assumption]. intros b tm I.
  assert (Y : In (b_cfg b, tm) (firstn 7 (flat_cfg RU_DEFAULT_UNITS))) by (rewrite <- A; apply in_map_iff; exists (b, tm); split; [reflexivity|exact I]).
  unfold RU_DEFAULT_UNITS, flat_cfg, ru_units in Y. cbn [mapM flatten_item mark_last bind concat app firstn In] in Y.
  repeat match goal with X : _ \/ _ |- _ => destruct X as [X|X]; [injection X as <- _; cbn [lookup_or_shape]; (exact Logic.I || reflexivity)|] end. destruct Y.
Qed.
Lemma shape_uk : forall M, has_units M UK_DEFAULT_UNITS -> exists us a1 a3 b1 b2 b3 b4,
  m_units M = us ++ [(a1, true); (a3, true); (b1, true); (b2, false); (b3, true); (b4, true)] /\ (forall b tm, In (b, tm) us -> lookup_or_shape UK_INITIAL_LETTERS (b_cfg b)) /\
  b_cfg a1 = UParticle UK_PARTICLES (9#10) /\ b_cfg a3 = UHyph UK_KNOWN_PREFIXES (75#100) /\
  b_cfg b1 = UKnownPrefix UK_KNOWN_PREFIXES (75#100) 3 /\ b_cfg b2 = UUnknownPrefix (1#2) /\ b_cfg b3 = UKnownSuffix (1#2) 4 /\ b_cfg b4 = UUnkn.
Proof.
  intros M H. apply has_units_cfg in H.
  assert (X : flat_cfg UK_DEFAULT_UNITS = firstn 7 (flat_cfg UK_DEFAULT_UNITS) ++ [(UParticle UK_PARTICLES (9#10), true); (UHyph UK_KNOWN_PREFIXES (75#100), true); (UKnownPrefix UK_KNOWN_PREFIXES (75#100) 3, true); (UUnknownPrefix (1#2), false); (UKnownSuffix (1#2) 4, true); (UUnkn, true)]).
  { unfold UK_DEFAULT_UNITS, flat_cfg, uk_units. cbn [mapM flatten_item mark_last bind concat app firstn]. reflexivity. }
  rewrite X in H. apply map_eq_app in H as (us & l & Eu & A & B).
  destruct l as [|[a1 s1] [|[a3 s3] [|[b1 t1] [|[b2 t2] [|[b3 t3] [|[b4 t4] [|x l]]]]]]]; try discriminate B. cbn [map fst snd] in B. injection B as A1 S1 A3 S3 B1 T1 B2 T2 B3 T3 B4 T4. subst s1 s3 t1 t2 t3 t4.
  exists us, a1, a3, b1, b2, b3, b4. split; [exact Eu|]. split; [|repeat (split; [assumption|]); assumption]. intros b tm I.
  assert (Y : In (b_cfg b, tm) (firstn 7 (flat_cfg UK_DEFAULT_UNITS))) by (rewrite <- A; apply in_map_iff; exists (b, tm); split; [reflexivity|exact I]).
  unfold UK_DEFAULT_UNITS, flat_cfg, uk_units in Y. cbn [mapM flatten_item mark_last bind concat app firstn In] in Y.
  repeat match goal with X : _ \/ _ |- _ => destruct X as [X|X]; [injection X as <- _; cbn [lookup_or_shape]; (exact Logic.I || reflexivity)|] end. destruct Y.
Qed.
Lemma no_empty : forall l : list str, smem [] l = false -> ~ In [] l.
Proof. intros l H I. apply smem_In in I. congruence. Qed.
Lemma ru_pre : ~ In [] RU_KNOWN_PREFIXES. Proof. apply no_empty. vm_compute. reflexivity. Qed.
Lemma uk_pre : ~ In [] UK_KNOWN_PREFIXES. Proof. apply no_empty. vm_compute. reflexivity. Qed.
Lemma uk_part : ~ In [] UK_PARTICLES. Proof. apply no_empty. vm_compute. reflexivity. Qed.
Lemma nth_tail : forall {A} (us l : list A) k x, nth_error l k = Some x -> nth_error (us ++ l) (length us + k) = Some x.
Proof. intros A us l k x H. rewrite nth_error_app2 by lia. replace (length us + k - length us) with k by lia. exact H. Qed.
Lemma stages_ru : forall M word r, has_units M RU_DEFAULT_UNITS -> knows_adjectives M -> pred_counts_pos (m_dict M) -> outside_word M RU_INITIAL_LETTERS word ->
  run_parse (morph_parse M) (morph_tag M) M word (u_lower (m_uni M) word) 0 (m_units M) [] [] = Ok r -> first_rule (rules_ru M word (u_lower (m_uni M) word)) r.
Proof.
  intros M word r HU KA PC OW H. destruct (shape_ru M HU) as (us & a1 & a2 & a3 & b1 & b2 & b3 & b4 & Eu & Ea & A1 & A2 & A3 & C1 & C2 & C3 & C4).
  assert (NE : u_lower (m_uni M) word <> []) by (destruct OW as (_ & _ & _ & X); exact X).
  pose proof (nth_tail us [(a1, true); (a2, true); (a3, true); (b1, true); (b2, false); (b3, true); (b4, true)] 1 _ eq_refl) as N2. rewrite <- Eu in N2.
  pose proof (nth_tail us [(a1, true); (a2, true); (a3, true); (b1, true); (b2, false); (b3, true); (b4, true)] 6 _ eq_refl) as N4. rewrite <- Eu in N4.
  rewrite Eu in H. rewrite run_skip in H by (intros j b tm I; apply (quiet2 _ _ M RU_INITIAL_LETTERS word j b OW (Ea b tm I))). 
  unfold rules_ru. remember (u_lower (m_uni M) word) as lower eqn:EL. 
  eapply rule_step; [eapply particle_exact; [exact A1|exact particles_nonempty|exact (proj1 shipped_particles)]|exact H|]. clear H. intros H.
  eapply rule_step; [eapply po_exact; [exact HU| |exact A2|exact KA]|exact H|]; [replace (S (0 + length us)) with (length us + 1) by lia; exact N2|]. clear H. intros H.
  eapply rule_step; [eapply hyphen_exact; [exact A3|exact ru_pre]|exact H|]. clear H. intros H.
  eapply rule_step; [intros ps s U w g; exact (kp_exact M _ b1 _ word lower ps s C1 ru_pre U w g)|exact H|]. clear H. intros H.
  eapply last_rules; [exact HU| |exact PC|exact NE|exact C2|exact C3|exact C4|exact H]. replace (S (S (S (S (S (S (0 + length us))))))) with (length us + 6) by lia. exact N4.
Qed.
Lemma stages_uk : forall M word r, has_units M UK_DEFAULT_UNITS -> pred_counts_pos (m_dict M) -> outside_word M UK_INITIAL_LETTERS word ->
  run_parse (morph_parse M) (morph_tag M) M word (u_lower (m_uni M) word) 0 (m_units M) [] [] = Ok r -> first_rule (rules_uk M word (u_lower (m_uni M) word)) r.
Proof.
  intros M word r HU PC OW H. destruct (shape_uk M HU) as (us & a1 & a3 & b1 & b2 & b3 & b4 & Eu & Ea & A1 & A3 & C1 & C2 & C3 & C4).
  assert (NE : u_lower (m_uni M) word <> []) by (destruct OW as (_ & _ & _ & X); exact X).
  pose proof (nth_tail us [(a1, true); (a3, true); (b1, true); (b2, false); (b3, true); (b4, true)] 5 _ eq_refl) as N4. rewrite <- Eu in N4.
  rewrite Eu in H. rewrite run_skip in H by (intros j b tm I; apply (quiet2 _ _ M UK_INITIAL_LETTERS word j b OW (Ea b tm I))). 
  unfold rules_uk. remember (u_lower (m_uni M) word) as lower eqn:EL. 
  eapply rule_step; [eapply particle_exact; [exact A1|exact uk_part|exact (proj2 shipped_particles)]|exact H|]. clear H. intros H.
  eapply rule_step; [eapply hyphen_exact; [exact A3|exact uk_pre]|exact H|]. clear H. intros H.
  eapply rule_step; [intros ps s U w g; exact (kp_exact M _ b1 _ word lower ps s C1 uk_pre U w g)|exact H|]. clear H. intros H.
  eapply last_rules; [exact HU| |exact PC|exact NE|exact C2|exact C3|exact C4|exact H]. replace (S (S (S (S (S (0 + length us)))))) with (length us + 5) by lia. exact N4.
Qed.
Lemma first_rule_same : forall rules a b, (forall w g, analysed a w g <-> analysed b w g) -> first_rule rules a -> first_rule rules b.
Proof.
  induction rules as [|P rules IH]; intros a b E H; [exact H|]. cbn [first_rule] in *. destruct H as [[A B]|[A B]]; [left|right]; (split; [exact A|]); [|exact (IH a b E B)].
  intros w g. rewrite <- E. exact (B w g).
Qed.
Lemma rules_parse : forall M word ps rules, shipped_units M -> lower_stable (m_uni M) -> morph_parse M word = Ok ps ->
  (forall r, run_parse (morph_parse M) (morph_tag M) M word (u_lower (m_uni M) word) 0 (m_units M) [] [] = Ok r -> first_rule rules r) -> first_rule rules ps.
Proof.
  intros M word ps rules SU St H R. unfold morph_parse, fuel_for, parse_f in H. cbn [analyze fst snd] in H. apply bind_ok in H as (r & E & H). destruct (shipped_facts M SU) as (_ & _ & F).
  change (fst (analyze (length (u_lower (m_uni M) word)) M)) with (parse_f (length (u_lower (m_uni M) word)) M) in E. change (snd (analyze (length (u_lower (m_uni M) word)) M)) with (tag_f (length (u_lower (m_uni M) word)) M) in E.
  rewrite (run_parse_same _ (morph_parse M) _ (morph_tag M)) in E; [|intros w Hw; apply (nested_parse M _ word); auto|exact F].
  apply (first_rule_same rules r ps); [|exact (R r E)]. destruct (m_prob M) as [d|]; [|apply Ok_inj in H; subst ps; reflexivity].
  pose proof (apply_reweighted _ _ _ _ H) as (P & _). apply same_analysed. right. exact P.
Qed.
Lemma rules_russian : forall M word ps, has_units M RU_DEFAULT_UNITS -> knows_adjectives M -> lower_stable (m_uni M) -> pred_counts_pos (m_dict M) -> outside_word M RU_INITIAL_LETTERS word ->
  morph_parse M word = Ok ps -> first_rule (rules_ru M word (u_lower (m_uni M) word)) ps.
Proof. intros M word ps HU KA St PC OW H. exact (rules_parse M word ps _ (or_introl HU) St H (fun r => stages_ru M word r HU KA PC OW)). Qed.
Lemma rules_ukrainian : forall M word ps, has_units M UK_DEFAULT_UNITS -> lower_stable (m_uni M) -> pred_counts_pos (m_dict M) -> outside_word M UK_INITIAL_LETTERS word ->
  morph_parse M word = Ok ps -> first_rule (rules_uk M word (u_lower (m_uni M) word)) ps.
Proof. intros M word ps HU St PC OW H. exact (rules_parse M word ps _ (or_intror HU) St H (fun r => stages_uk M word r HU PC OW)). Qed.
Lemma first_rule_to_tags : forall rules ps ts, (forall g, In g (map t_gr ts) <-> exists w, analysed ps w g) -> first_rule rules ps -> first_rule_tags rules ts.
Proof.
  induction rules as [|P rules IH]; intros ps ts E H; [exact H|]. cbn [first_rule first_rule_tags] in *. destruct H as [[A B]|[A B]]; [left|right]; (split; [exact A|]); [|exact (IH ps ts E B)].
  intros g. rewrite E. split; intros (w & X); exists w; apply B; exact X.
Qed.
Lemma rules_tags : forall M word ps ts, shipped_units M -> pred_counts_pos (m_dict M) -> morph_parse M word = Ok ps -> morph_tag M word = Ok ts -> forall rules, first_rule rules ps -> first_rule_tags rules ts.
Proof.
  intros M word ps ts SU PC HP HT rules. apply first_rule_to_tags. intros g. rewrite <- (shipped_agree (fuel_for M word) M word ps ts SU PC HP HT g). rewrite in_map_iff. split.
  - intros (t & E & I). apply in_map_iff in I as (p & <- & I). exists (p_word p), p. auto.
  - intros (w & p & I & _ & E). exists (p_tag p). split; [exact E|apply in_map; exact I].
Qed.
Lemma rules_tag : forall M word ps ts, lower_stable (m_uni M) -> pred_counts_pos (m_dict M) -> morph_parse M word = Ok ps -> morph_tag M word = Ok ts ->
  (has_units M RU_DEFAULT_UNITS -> knows_adjectives M -> outside_word M RU_INITIAL_LETTERS word -> first_rule_tags (rules_ru M word (u_lower (m_uni M) word)) ts) /\
  (has_units M UK_DEFAULT_UNITS -> outside_word M UK_INITIAL_LETTERS word -> first_rule_tags (rules_uk M word (u_lower (m_uni M) word)) ts).
Proof.
  intros M word ps ts St PC HP HT. split.
  - intros HU KA OW. apply (rules_tags M word ps ts (or_introl HU) PC HP HT). apply rules_russian; assumption.
  - intros HU OW. apply (rules_tags M word ps ts (or_intror HU) PC HP HT). apply rules_ukrainian; assumption.
Qed.
