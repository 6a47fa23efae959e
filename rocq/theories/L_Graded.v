(** * Lemmas for C94: what the score of a reading is *)
From Coq Require Import String List NArith ZArith Bool QArith Lia.
From Verif Require Import Py Uni Tagset Dawg Utils Shapes Dict Units Analyzer ConfigRu ConfigUk Spec Spec2 Spec14 Spec15 Spec34 Spec35 Spec36 Spec38 Spec41 Spec42.
From Verif Require Import L_Base L_Run L_Agree L_Tagset L_Text L_Words L_Made L_Config L_Total L_Para L_Units L_Shapes L_ShapeU L_Prob L_ByUnit L_Known L_Adverb L_Suffix L_Parse L_New L_Stages L_Every L_Normal.
Import ListNotations.
Local Open Scope nat_scope.
Local Open Scope list_scope.

Definition gconf (letters particles prefixes : list str) (c : ucfg) : Prop :=
  match c with
  | UInit _ ls pat sc => sc = 1#10 /\ ls = letters /\ (map t_gr (tags_of_pattern pat) = initial_tags "Name" ["masc"; "femn"]%string \/ map t_gr (tags_of_pattern pat) = initial_tags "Patr" ["masc"; "femn"]%string)
  | UParticle ps m => m = 9#10 /\ ps = particles
  | UHyph ps m => m = 75#100 /\ ps = prefixes
  | UKnownPrefix ps m n => m = 75#100 /\ ps = prefixes /\ n = 3
  | UKnownSuffix m n => m = 1#2 /\ n = 4
  | UNumber sc | UPunct sc | ULatin sc | URoman sc => sc = 9#10
  | UHAdverb m => m = 7#10
  | UUnknownPrefix m => m = 1#2
  | _ => True
  end.
Lemma shipped_gconf : forall M letters particles prefixes, shipped M letters particles prefixes ->
  Forall (fun bt => gconf letters particles prefixes (b_cfg (fst bt)) /\ initialised (fst bt)) (m_units M) /\ ~ In [] prefixes /\ ~ In [] particles /\ shipped_units M /\ exists items, has_units M items.
Proof.
  intros M letters particles prefixes [(HU & -> & -> & ->)|(HU & -> & -> & ->)].
  - split; [|split; [exact ru_pre|split; [exact particles_nonempty|split; [left; exact HU|exists RU_DEFAULT_UNITS; exact HU]]]].
    pose proof (has_units_bound _ _ HU) as HB. destruct (heads_ru M HU) as (d & n & p & nu & pu & ro & la & a1 & a2 & a3 & b1 & b2 & b3 & b4 & Eu & _ & (D1 & D2 & D3 & D4 & D5 & D6 & D7) & A1 & A2 & A3 & C1 & C2 & C3 & C4).
    rewrite Eu in HB |- *. clear Eu. cbn [marked app] in *.
    repeat match goal with K : Forall _ (_ :: _) |- _ => apply Forall_cons_iff in K as [? K] end. cbn [fst] in *.
    repeat (apply Forall_cons; [cbn [fst]; split; [|assumption]; match goal with E : b_cfg ?b = _ |- gconf _ _ _ (b_cfg ?b) => rewrite E end; cbn [gconf]|]); try exact Logic.I; try apply Forall_nil; try reflexivity; try (repeat split; reflexivity).
    + repeat (split; [reflexivity|]); left; exact name_tags_eq.
    + repeat (split; [reflexivity|]); right; exact patr_tags_eq.
  - split; [|split; [exact uk_pre|split; [exact uk_part|split; [right; exact HU|exists UK_DEFAULT_UNITS; exact HU]]]].
    pose proof (has_units_bound _ _ HU) as HB. destruct (heads_uk M HU) as (d & n & p & nu & pu & ro & la & a1 & a3 & b1 & b2 & b3 & b4 & Eu & _ & (D1 & D2 & D3 & D4 & D5 & D6 & D7) & A1 & A3 & C1 & C2 & C3 & C4).
    rewrite Eu in HB |- *. clear Eu. cbn [marked app] in *.
    repeat match goal with K : Forall _ (_ :: _) |- _ => apply Forall_cons_iff in K as [? K] end. cbn [fst] in *.
    repeat (apply Forall_cons; [cbn [fst]; split; [|assumption]; match goal with E : b_cfg ?b = _ |- gconf _ _ _ (b_cfg ?b) => rewrite E end; cbn [gconf]|]); try exact Logic.I; try apply Forall_nil; try reflexivity; try (repeat split; reflexivity).
    + repeat (split; [reflexivity|]); left; exact name_tags_eq.
    + repeat (split; [reflexivity|]); right; exact patr_tags_eq.
Qed.
(** ** the units *)
Lemma entry_one : forall M self lower p, dict_entry M self lower p -> p_score p = 1%Q.
Proof. intros M self lower p (w & vals & para & idx & nf & t & _ & _ & _ & _ & _ & ->). reflexivity. Qed.
Lemma shape_rule : forall M word b (i : nat) score t, digits_ok (m_uni M) -> initialised b ->
  (b_cfg b = UNumber score \/ b_cfg b = UPunct score \/ b_cfg b = ULatin score \/ b_cfg b = URoman score) -> shape_tag (m_uni M) b word = Ok (Some t) ->
  either [by_number (m_uni M) word (u_lower (m_uni M) word); by_punctuation (m_uni M) word (u_lower (m_uni M) word); by_latin (m_uni M) word (u_lower (m_uni M) word);
      by_roman word (u_lower (m_uni M) word)] (u_lower (m_uni M) word) (t_gr t).
Proof.
  intros M word b i score t DG IB C ST. set (lower := u_lower (m_uni M) word). set (p := MkParse lower t lower score [MStr (Root i) word]).
  assert (SP : shape_parse (m_uni M) (Root i) b score word lower = Ok [p]) by (unfold shape_parse; rewrite ST; reflexivity).
  assert (UP : unit_parse (morph_parse M) (morph_tag M) M i b word lower [] = Ok ([p], [])) by (unfold unit_parse; destruct C as [C|[C|[C|C]]]; rewrite C, SP; reflexivity).
  pose proof (analysed_one p) as A. cbn [p p_word p_tag] in A. unfold either. destruct C as [C|[C|[C|C]]].
  - destruct (number_plain M word lower b score DG IB C i [p] [] UP) as [_ G]. apply G in A. exists (by_number (m_uni M) word lower). split; [cbn [In]; tauto|exact A].
  - destruct (punct_plain M word lower b score IB C i [p] [] UP) as [_ G]. apply G in A. exists (by_punctuation (m_uni M) word lower). split; [cbn [In]; tauto|exact A].
  - destruct (latin_plain M word lower b score IB C i [p] [] UP) as [_ G]. apply G in A. exists (by_latin (m_uni M) word lower). split; [cbn [In]; tauto|exact A].
  - destruct (roman_plain M word lower b score IB C i [p] [] UP) as [_ G]. apply G in A. exists (by_roman word lower). split; [cbn [In]; tauto|exact A].
Qed.
Lemma init_rule : forall M letters word b (i : nat) first pat score t, initialised b -> b_cfg b = UInit first letters pat score ->
  (map t_gr (tags_of_pattern pat) = initial_tags "Name" ["masc"; "femn"]%string \/ map t_gr (tags_of_pattern pat) = initial_tags "Patr" ["masc"; "femn"]%string) ->
  In word letters -> In t (b_tags b) ->
  either [by_initial letters "Name" word (u_lower (m_uni M) word); by_initial letters "Patr" word (u_lower (m_uni M) word)] (u_lower (m_uni M) word) (t_gr t).
Proof.
  intros M letters word b i first pat score t IB C K I T. set (lower := u_lower (m_uni M) word).
  assert (UP : unit_parse (morph_parse M) (morph_tag M) M i b word lower [] = Ok (map (fun t => MkParse lower t lower score [MStr (Root i) word]) (b_tags b), [])).
  { unfold unit_parse. rewrite C. apply smem_In in I. rewrite I. reflexivity. }
  assert (A : analysed (map (fun t => MkParse lower t lower score [MStr (Root i) word]) (b_tags b)) lower (t_gr t)).
  { eexists. split; [apply in_map_iff; exists t; split; [reflexivity|exact T]|]. auto. }
  unfold either. destruct K as [K|K].
  - destruct (init_plain M word lower b first letters pat score "Name"%string IB C K i _ [] UP) as [_ G]. apply G in A. exists (by_initial letters "Name" word lower). split; [cbn [In]; tauto|exact A].
  - destruct (init_plain M word lower b first letters pat score "Patr"%string IB C K i _ [] UP) as [_ G]. apply G in A. exists (by_initial letters "Patr" word lower). split; [cbn [In]; tauto|exact A].
Qed.
Section Induction.
  Variables (M : morph) (letters particles prefixes : list str).
  Hypothesis wd : wf_dict (m_dict M).
  Hypothesis st : lower_stable (m_uni M).
  Hypothesis ka : knows_adjectives M.
  Hypothesis ship : shipped M letters particles prefixes.
  Hypothesis dg : digits_ok (m_uni M).
  Hypothesis pc : pred_counts_pos (m_dict M).
  Hypothesis noprob : m_prob M = None.
  Definition has_grade (word : str) (p : parse) : Prop := exists s, graded M letters particles prefixes word (p_word p) (p_nf p) (p_tag p) s /\ (p_score p == s)%Q.
  Lemma low_stable : forall word a b c, u_lower (m_uni M) word = a ++ b ++ c -> u_lower (m_uni M) b = b.
  Proof. intros word a b c E. exact (st word a b c E). Qed.
  Definition lesser (n : nat) : Prop := forall word ps p, length (u_lower (m_uni M) word) <= n -> u_lower (m_uni M) word <> [] -> morph_parse M word = Ok ps -> In p ps -> has_grade word p.
  Lemma score_mult : forall a b m m', (a == b)%Q -> (m == m')%Q -> (a * m == b * m')%Q.
  Proof. intros a b m m' E1 E2. rewrite E1, E2. reflexivity. Qed.
  Lemma three4 : (75 # 100 == 3 # 4)%Q.
  Proof. reflexivity. Qed.
  Lemma hyph_grade : forall n word ps p i b tm, lesser n -> length (u_lower (m_uni M) word) <= S n -> Forall (fun bt => prefixes_nonempty (fst bt)) (m_units M) -> ~ In [] prefixes ->
    morph_parse M word = Ok ps -> In p ps -> made_by p = Some (Root i) -> nth_error (m_units M) i = Some (b, tm) -> b_cfg b = UHyph prefixes (75 # 100) -> has_grade word p.
  Proof.
    intros n word ps p i b tm IH L PN NP H Ip MB N C. pose proof st as St. destruct (hyph_parse_sound M word ps p i b tm prefixes (75#100) St PN NP H Ip MB N C) as (NS & p1 & _ & K & l & r & OH & X).
    specialize (K noprob). subst p1. pose proof OH as (E & NL & NR & _ & _).
    assert (SL : u_lower (m_uni M) l = l) by (apply (low_stable word [] l (u "-" ++ r)); exact E). assert (SR : u_lower (m_uni M) r = r) by (apply (low_stable word (l ++ u "-") r []); rewrite app_nil_r, <- app_assoc; exact E).
    rewrite E, !app_length in L. change (length (u "-")) with 1 in L.
    assert (HR : forall rs c, morph_parse M r = Ok rs -> In c rs -> has_grade r c).
    { intros rs c R I. apply (IH r rs c); [rewrite SR; lia|rewrite SR; exact NR|exact R|exact I]. }
    destruct X as [(ls & rs & a & c & PL & PR & Ia & Ic & HP & SF & ->)|(rs & c & PR & Ic & HP & ->)]; unfold has_grade; cbn [p_word p_tag p_nf p_score].
    - destruct (HR rs c PR Ic) as (s2 & G2 & _). assert (GL : has_grade l a) by (apply (IH l ls a); [rewrite SL; lia|rewrite SL; exact NL|exact PL|exact Ia]). destruct GL as (s1 & G1 & E1).
      exists (s1 * (3#4))%Q. split; [|exact (score_mult _ _ _ _ E1 three4)].
      exact (graded_both M letters particles prefixes word l r (p_word a) (p_nf a) (p_tag a) s1 (p_word c) (p_nf c) (p_tag c) s2 OH NS G1 G2 HP SF).
    - destruct (HR rs c PR Ic) as (s2 & G2 & E2). exists (s2 * (3#4))%Q. split; [|exact (score_mult _ _ _ _ E2 three4)].
      exact (graded_right M letters particles prefixes word l r (p_word c) (p_nf c) (p_tag c) s2 OH NS G2 HP).
  Qed.
  Lemma graded_all : forall n, lesser n.
  Proof.
    induction n as [|n IH]; intros word ps p L NE H Ip.
    { destruct (u_lower (m_uni M) word); [congruence|cbn [length] in L; lia]. }
    destruct (shipped_gconf _ _ _ _ ship) as (CF & NP & NPT & SU & items & HI). pose proof wd as WD. pose proof st as St. pose proof ka as KA. destruct (shipped_facts M SU) as (_ & _ & PN).
    destruct (some_unit M word ps p H Ip) as (i & b & tm & N & MB). rewrite Forall_forall in CF. destruct (CF (b, tm) (nth_error_In _ _ N)) as [CB IB]. cbn [fst] in CB, IB. clear CF.
    destruct (parse_by_unit _ _ _ _ _ _ _ St PN H Ip MB N) as (p0 & Md & _ & Ec). specialize (Ec noprob).
    destruct Md as [p' C' DE|first ls pat score t C' W' T'|score t C' ST|pts mult' w pt qs p' C' I1 I2 W1 W2 W3 R Iq|mult' t C' AD T'|skip mult' lw rw ls rs l r C' SP SO|skip mult' lw rw rs r C' SP SO|pfx mult' minrem prefix rest qs p' C' I1 R Iq PR|mult' prefix rest p' C' I1 DE PR|mult' minlen' p' C' L' KE|t C' T'].
    - subst p. exists 1%Q. split; [apply graded_known; exact (entry_form M _ _ _ WD DE)|]. rewrite (entry_one _ _ _ _ DE). reflexivity.
    - subst p. rewrite C' in CB. destruct CB as (-> & -> & K). unfold has_grade. cbn [p_word p_tag p_nf p_score]. exists (1#10)%Q. split; [|reflexivity]. apply graded_initial. exact (init_rule M letters word b i first pat _ t IB C' K W' T').
    - subst p. unfold has_grade. cbn [p_word p_tag p_nf p_score]. assert (score = 9#10) as -> by (destruct C' as [X|[X|[X|X]]]; rewrite X in CB; exact CB).
      exists (9#10)%Q. split; [|reflexivity]. apply graded_shape. exact (shape_rule M word b i _ t dg IB C' ST).
    - clear Ec. rewrite C' in CB. cbn [gconf] in CB. destruct CB as [-> ->]. destruct (particle_sound M word ps p i b tm particles (9#10) St PN H Ip MB N C') as (w' & pt' & qs' & q & p1 & E & Ipt & Hy & NW & R' & Iq' & (A1 & A2 & A3 & A4 & A5) & _ & K).
      specialize (K noprob). subst p1. unfold has_grade. rewrite A1, A2, A3, A4. assert (SL : u_lower (m_uni M) w' = w') by (apply (low_stable word [] w' pt'); exact E).
      assert (G : has_grade w' q).
      { apply (IH w' qs' q); [|rewrite SL; exact NW|exact R'|exact Iq']. rewrite SL. rewrite E, app_length in L. assert (0 < length pt') by (destruct pt'; [exfalso; exact (NPT Ipt)|cbn [length]; lia]). lia. }
      destruct G as (s & G & Es). exists (s * (9#10))%Q. split; [|apply score_mult; [exact Es|reflexivity]]. exact (graded_particle M letters particles prefixes word w' pt' _ _ _ s E Ipt NW Hy G).
    - subst p. rewrite C' in CB. cbn [gconf] in CB. subst mult'. unfold has_grade. cbn [p_word p_tag p_nf p_score]. exists (7#10)%Q. split; [|reflexivity]. apply graded_po.
      pose proof (proj1 (should_iff M (u_lower (m_uni M) word) true KA AD) eq_refl) as PA.
      destruct (adverb_tag _ _ _ _ _ _ HI N C') as (t' & T1 & _ & T3). rewrite T1 in T'. injection T' as <-. rewrite T3. split; [exact PA|auto].
    - clear Ec. rewrite C' in CB. cbn [gconf] in CB. destruct CB as [-> ->]. exact (hyph_grade n word ps p i b tm IH L PN NP H Ip MB N C').
    - clear Ec. rewrite C' in CB. cbn [gconf] in CB. destruct CB as [-> ->]. exact (hyph_grade n word ps p i b tm IH L PN NP H Ip MB N C').
    - clear Ec. rewrite C' in CB. cbn [gconf] in CB. destruct CB as (-> & -> & ->). destruct (kp_sound M word ps p i b tm prefixes (75#100) 3 St PN H Ip MB N C') as (pre & rest' & qs' & q & p1 & Ipre & E & L3 & R' & Iq' & PR' & (A1 & A2 & A3 & A4 & A5) & _ & K).
      specialize (K noprob). subst p1. unfold has_grade. rewrite A1, A2, A3, A4. assert (SL : u_lower (m_uni M) rest' = rest') by (apply (low_stable word pre rest' []); rewrite app_nil_r; exact E).
      assert (G : has_grade rest' q).
      { apply (IH rest' qs' q); [|rewrite SL; intros X; rewrite X in L3; cbn [length] in L3; lia|exact R'|exact Iq']. rewrite SL. rewrite E, app_length in L. assert (0 < length pre) by (destruct pre; [exfalso; exact (NP Ipre)|cbn [length]; lia]). lia. }
      destruct G as (s & G & Es). exists (s * (3#4))%Q. split; [|exact (score_mult _ _ _ _ Es three4)]. exact (graded_prefix M letters particles prefixes word pre rest' _ _ _ s E Ipre L3 G PR').
    - subst p. rewrite C' in CB. cbn [gconf] in CB. subst mult'. unfold has_grade. cbn [prefixed p_word p_tag p_nf p_score]. rewrite (entry_one _ _ _ _ DE). exists (1#2)%Q. split; [|reflexivity].
      apply word_splits_In in I1 as (E & B & L3). apply graded_guess with (rest := rest); [exact E|exact B|exact L3|exact (entry_form M _ _ _ WD DE)|apply productive_iff; exact PR].
    - clear Ec. rewrite C' in CB. cbn [gconf] in CB. destruct CB as [-> ->]. destruct (ks_sound M word ps p i b tm (1#2) 4 pc NE H Ip MB N C') as (L4 & p1 & PD & _ & K). specialize (K noprob). subst p1.
      destruct PD as (pid & pre & rest & dawg & start & e & fs & cnt & para & idx & Q1 & Q2 & Q3 & Q4 & Q5 & Q6 & Q7 & Q8 & _ & Q9). unfold has_grade. rewrite Q6.
      assert (VF : valid_form (m_dict M) para idx).
      { pose proof Q5 as X. apply filter_In in X as [X _]. unfold pred_records in X. apply in_flat_map in X as ([fs' vals] & X1 & X2). apply in_map_iff in X2 as (v & X2 & X3). cbn [fst snd] in X2, X3. injection X2 as -> ->.
        apply similar_items_In in X1 as [_ X1]. apply sget_In in X1. destruct WD as (_ & _ & WD & _). exact (WD dawg fs vals cnt para idx (nth_error_In _ _ Q3) X1 X3). }
      destruct (first_form_of _ _ _ _ _ _ WD VF Q8 Q7) as (pre1 & suf1 & R1 & F1). eexists. split; [|exact Q9].
      exact (graded_ending M letters particles prefixes word pid pre rest dawg start e fs cnt para idx pre1 (p_tag p) suf1 (p_nf p) L4 Q1 Q2 Q3 Q4 Q5 R1 F1).
    - subst p. unfold has_grade. cbn [p_word p_tag p_nf p_score]. exists 1%Q. split; [|reflexivity]. apply graded_nothing. destruct IB as (B1 & B2 & IB). rewrite C' in IB. apply single_tags in IB as (t' & T1 & T2). rewrite T1 in T'. injection T' as <-. rewrite T2.
      split; reflexivity.
  Qed.
End Induction.
Lemma graded_reading : forall M letters particles prefixes word ps p, wf_dict (m_dict M) -> lower_stable (m_uni M) -> knows_adjectives M -> shipped M letters particles prefixes -> digits_ok (m_uni M) -> pred_counts_pos (m_dict M) ->
  m_prob M = None -> u_lower (m_uni M) word <> [] -> morph_parse M word = Ok ps -> In p ps -> exists s, graded M letters particles prefixes word (p_word p) (p_nf p) (p_tag p) s /\ (p_score p == s)%Q.
Proof. intros M letters particles prefixes word ps p WD St KA SH DG PC NP NE H I. exact (graded_all M letters particles prefixes WD St KA SH DG PC NP (length (u_lower (m_uni M) word)) word ps p (Nat.le_refl _) NE H I). Qed.
Lemma count_le_sum : forall l r, In r l -> record_count r <= sum_counts l.
Proof. induction l as [|x l IH]; intros r I; [destruct I|]. cbn [sum_counts]. destruct I as [->|I]; [lia|]. specialize (IH r I). lia. Qed.
Lemma share_lt : forall cnt sum, cnt <= sum -> (0 <= inject_Z (Z.of_nat cnt) / inject_Z (Z.of_nat (1 + sum)) <= 1)%Q.
Proof.
  intros cnt sum L. assert (P : (0 < inject_Z (Z.of_nat (1 + sum)))%Q) by (change 0%Q with (inject_Z 0); rewrite <- Zlt_Qlt; lia). split.
  - apply Qle_shift_div_l; [exact P|]. rewrite Qmult_0_l. change 0%Q with (inject_Z 0). rewrite <- Zle_Qle. lia.
  - apply Qle_shift_div_r; [exact P|]. rewrite Qmult_1_l. rewrite <- Zle_Qle. lia.
Qed.
Lemma mult_le : forall s m k, (0 <= s <= 1)%Q -> (0 <= m)%Q -> (m <= k)%Q -> (0 <= s * m <= k)%Q.
Proof.
  intros s m k [S0 S1] M0 MK. split; [apply Qmult_le_0_compat; assumption|]. apply Qle_trans with (1 * m)%Q; [apply Qmult_le_compat_r; assumption|]. rewrite Qmult_1_l. exact MK.
Qed.
Lemma graded_range : forall M letters particles prefixes word w nf t s, graded M letters particles prefixes word w nf t s -> (0 <= s <= 1)%Q.
Proof.
  intros M letters particles prefixes word w nf t s G. induction G; try (split; unfold Qle; cbn; lia);
    try (match goal with H : (0 <= ?s <= 1)%Q |- (0 <= ?s * _ <= 1)%Q => apply (mult_le _ _ _ H); unfold Qle; cbn; lia end).
  match goal with H : In _ (productive_records _ _ _) |- _ => apply count_le_sum in H; cbn [record_count fst snd] in H; apply share_lt in H; apply (mult_le _ _ _ H); unfold Qle; cbn; lia end.
Qed.
Lemma graded_certain : forall M letters particles prefixes word w nf t s, graded M letters particles prefixes word w nf t s -> (9 # 10 < s)%Q ->
  s = 1%Q /\ (dictionary_form M (u_lower (m_uni M) word) w nf t \/ by_nothing (u_lower (m_uni M) word) w (t_gr t)).
Proof.
  intros M letters particles prefixes word w nf t s G LT.
  assert (no : forall x, (x <= 9 # 10)%Q -> (9 # 10 < x)%Q -> False) by (intros x A B; exact (Qlt_irrefl _ (Qlt_le_trans _ _ _ B A))).
  destruct G; try (exfalso; revert LT; apply no; unfold Qle; cbn; lia);
    try (exfalso; revert LT; apply no; match goal with H : graded _ _ _ _ _ _ _ _ ?s |- (?s * _ <= _)%Q => apply (mult_le _ _ _ (graded_range _ _ _ _ _ _ _ _ _ H)); unfold Qle; cbn; lia end).
  - split; [reflexivity|]. left. assumption.
  - split; [reflexivity|]. right. assumption.
  - exfalso. revert LT. apply no. match goal with H : In _ (productive_records _ _ _) |- _ => apply count_le_sum in H; cbn [record_count fst snd] in H; apply share_lt in H; apply (mult_le _ _ _ H); unfold Qle; cbn; lia end.
Qed.
