(** * Lemmas for C88: the answer for any word *)
From Coq Require Import String List NArith ZArith Bool QArith Lia Sorting.Permutation.
From Verif Require Import Py Uni Tagset Dawg Utils Shapes Dict Units Analyzer ConfigRu ConfigUk Compile Spec Spec2 Spec14 Spec15 Spec34 Spec35 Spec36 Spec38.
From Verif Require Import L_Base L_Run L_Agree L_Tagset L_Text L_Words L_Made L_Config L_Units L_Shapes L_ShapeU L_Case L_Groups L_Prob L_ByUnit L_Known L_Adverb L_Suffix L_Parse L_New L_Stages.
Import ListNotations.
Local Open Scope nat_scope.
Local Open Scope list_scope.

(** a unit that gives exactly the readings of a rule and does not touch the seen set *)
Definition plain_unit (M : morph) (word lower : str) (b : bunit) (P : rule) : Prop :=
  forall i ps s, unit_parse (morph_parse M) (morph_tag M) M i b word lower [] = Ok (ps, s) -> s = [] /\ gives ps P.
Fixpoint marked (bs : list bunit) : list (bunit * bool) := match bs with [] => [] | [b] => [(b, true)] | b :: r => (b, false) :: marked r end.
Lemma group_run : forall M word lower rest bs Ps, Forall2 (plain_unit M word lower) bs Ps -> bs <> [] -> forall i acc Qs r, gives acc (either Qs) ->
  run_parse (morph_parse M) (morph_tag M) M word lower i (marked bs ++ rest) acc [] = Ok r ->
  (applies (either (Qs ++ Ps)) /\ gives r (either (Qs ++ Ps))) \/
  (~ applies (either (Qs ++ Ps)) /\ run_parse (morph_parse M) (morph_tag M) M word lower (i + length bs) rest [] [] = Ok r).
Proof.
  intros M word lower rest bs Ps F. induction F as [|b P bs Ps E F IH]; intros NE i acc Qs r G H; [congruence|]. clear NE.
  assert (STEP : forall ps, gives ps P -> gives (acc ++ ps) (either (Qs ++ [P]))).
  { intros ps GP w g. rewrite analysed_app, (G w g), (GP w g). unfold either. split.
    - intros [(Q & I & X)|X]; [exists Q; split; [apply in_or_app; left; exact I|exact X]|exists P; split; [apply in_or_app; right; left; reflexivity|exact X]].
    - intros (Q & I & X). apply in_app_or in I as [I|[<-|[]]]; [left; exists Q; auto|right; exact X]. }
  destruct bs as [|b' bs].
  - inversion F; subst. cbn [marked app run_parse] in H. apply bind_ok in H as ([ps s] & U & H). destruct (E i ps s U) as [-> GP]. specialize (STEP ps GP). cbn [length]. rewrite Nat.add_1_r.
    destruct (acc ++ ps) as [|p l] eqn:A.
    + right. cbn [andb] in H. split; [|exact H]. intros (w & g & X). apply STEP in X. exact (analysed_none w g X).
    + left. cbn [andb] in H. apply Ok_inj in H. subst r. split; [|exact STEP]. exists (p_word p), (t_gr (p_tag p)). apply STEP. exists p. split; [left; reflexivity|auto].
  - change (marked (b :: b' :: bs) ++ rest) with ((b, false) :: (marked (b' :: bs) ++ rest)) in H. cbn [run_parse] in H. apply bind_ok in H as ([ps s] & U & H). destruct (E i ps s U) as [-> GP]. cbn [andb] in H.
    specialize (IH ltac:(discriminate) (S i) (acc ++ ps) (Qs ++ [P]) r (STEP ps GP) H). rewrite <- app_assoc in IH. cbn [app] in IH. cbn [length] in *. rewrite Nat.add_succ_r. exact IH.
Qed.
Lemma group_step : forall M word lower rest bs Ps i r rules, Forall2 (plain_unit M word lower) bs Ps -> bs <> [] ->
  run_parse (morph_parse M) (morph_tag M) M word lower i (marked bs ++ rest) [] [] = Ok r ->
  (run_parse (morph_parse M) (morph_tag M) M word lower (i + length bs) rest [] [] = Ok r -> first_rule rules r) -> first_rule (either Ps :: rules) r.
Proof.
  intros M word lower rest bs Ps i r rules F NE H K. destruct (group_run M word lower rest bs Ps F NE i [] [] r) as [X|[X Y]]; [|exact H|left; exact X|right; split; [exact X|exact (K Y)]].
  intros w g. split; [intros X; exfalso; exact (analysed_none w g X)|intros (Q & [] & _)].
Qed.
Lemma one_step : forall M word lower rest b P i r rules, plain_unit M word lower b P ->
  run_parse (morph_parse M) (morph_tag M) M word lower i ((b, true) :: rest) [] [] = Ok r ->
  (run_parse (morph_parse M) (morph_tag M) M word lower (S i) rest [] [] = Ok r -> first_rule rules r) -> first_rule (P :: rules) r.
Proof. intros M word lower rest b P i r rules E. apply rule_step. intros ps s U. exact (proj2 (E i ps s U)). Qed.
(** ** the units *)
Lemma dict_plain : forall M word b, b_cfg b = UDict -> plain_unit M word (u_lower (m_uni M) word) b (by_dictionary M (u_lower (m_uni M) word)).
Proof.
  intros M word b C i ps s H. unfold unit_parse in H. rewrite C in H. apply bind_ok in H as (qs & D & H). apply Ok_inj in H. injection H as -> <-. split; [reflexivity|]. intros w g. split.
  - intros (p & I & W & G). destruct (dict_parse_entry _ _ _ _ _ D I) as (v & vals & para & idx & nf & t & D1 & D2 & D3 & D4 & D5 & ->). cbn [p_tag p_word] in *. subst w g.
    exists vals, para, idx, t. split; [apply variants_spec; exact D1|]. repeat (split; [assumption|]). reflexivity.
  - intros (vals & para & idx & t & D1 & D2 & D3 & D4 & ->). destruct (dict_parse_complete _ _ _ _ _ _ _ _ D (proj2 (variants_spec _ _ _) D1) D2 D3) as (nf & t' & _ & T & I).
    rewrite D4 in T. apply Ok_inj in T. subst t'. eexists. split; [exact I|]. auto.
Qed.
Lemma init_plain : forall M word lower b first letters pat sc kind, initialised b -> b_cfg b = UInit first letters pat sc -> map t_gr (tags_of_pattern pat) = initial_tags kind ["masc"; "femn"]%string ->
  plain_unit M word lower b (by_initial letters kind word lower).
Proof.
  intros M word lower b first letters pat sc kind (C & C' & B) E T i ps s H. pose proof (init_unit_parse _ _ _ _ _ _ _ _ _ _ _ _ _ _ E H) as R. rewrite (proj1 (init_unit_tags _ _ _ _ _ _ _ _ E B)) in R.
  unfold unit_parse in H. rewrite E in H. apply Ok_inj in H. apply (f_equal snd) in H. cbn [snd] in H. split; [symmetry; exact H|]. clear H. intros w g. unfold by_initial. rewrite <- T. clear T. destruct (smem word letters) eqn:S; subst ps.
  - apply smem_In in S. split.
    + intros (p & I & W & G). apply in_map_iff in I as (t & <- & I). cbn [p_word p_tag] in W, G. subst w g. split; [exact S|]. split; [reflexivity|]. apply in_map. exact I.
    + intros (_ & -> & I). apply in_map_iff in I as (t & <- & I). eexists. split; [apply in_map_iff; exists t; split; [reflexivity|exact I]|]. auto.
  - split; [intros X; exfalso; exact (analysed_none w g X)|]. intros (I & _). apply smem_In in I. congruence.
Qed.
Lemma reading_gives : forall self score word lower gs ps, shape_reading self score word lower gs ps -> forall w g, analysed ps w g <-> w = lower /\ g = map u gs.
Proof.
  intros self score word lower gs ps (t & T & ->) w g. split.
  - intros (p & [<-|[]] & W & G). cbn [p_word p_tag] in W, G. split; [symmetry; exact W|]. rewrite <- G. exact T.
  - intros (-> & ->). eexists. split; [left; reflexivity|]. auto.
Qed.
Lemma int_dec : forall U w, digits_ok U -> int_literal U w \/ ~ int_literal U w.
Proof. intros U w D. destruct (number_iff U w D) as [A B]. destruct (number_shape U w) as [[]|]; [left; apply A; reflexivity|right; apply B; reflexivity|right; intros X; apply A in X; discriminate X]. Qed.
Lemma float_dec : forall U w, digits_ok U -> ~ int_literal U w -> float_literal U (replace_char (chr ",") (chr ".") w) \/ ~ float_literal U (replace_char (chr ",") (chr ".") w).
Proof. intros U w D NI. destruct (number_iff U w D) as [A B]. destruct (number_shape U w) as [[]|]; [exfalso; apply NI, A; reflexivity|left; apply B; reflexivity|right; intros X; assert (Y : @None num_shape = Some Real) by (apply B; auto); discriminate Y]. Qed.
Lemma shape_seen : forall M i b score word lower ps s, (b_cfg b = UNumber score \/ b_cfg b = UPunct score \/ b_cfg b = ULatin score \/ b_cfg b = URoman score) ->
  unit_parse (morph_parse M) (morph_tag M) M i b word lower [] = Ok (ps, s) -> s = [] /\ shape_parse (m_uni M) (Root i) b score word lower = Ok ps.
Proof. intros M i b score word lower ps s C H. unfold unit_parse in H. destruct C as [C|[C|[C|C]]]; rewrite C in H; apply bind_ok in H as (qs & E & H); apply Ok_inj in H; injection H as -> <-; auto. Qed.
Lemma number_plain : forall M word lower b score, digits_ok (m_uni M) -> initialised b -> b_cfg b = UNumber score -> plain_unit M word lower b (by_number (m_uni M) word lower).
Proof.
  intros M word lower b score D IB C i ps s H. destruct (shape_seen M i b score word lower ps s (or_introl C) H) as [-> S]. split; [reflexivity|]. destruct (number_unit _ _ _ _ _ _ _ D IB C S) as (A & B & E). intros w g. unfold by_number.
  destruct (int_dec (m_uni M) word D) as [I|I].
  - rewrite (reading_gives _ _ _ _ _ _ (A I) w g). split; [intros (-> & ->); split; [reflexivity|left; auto]|]. intros (-> & [(_ & ->)|(X & _)]); [auto|contradiction].
  - destruct (float_dec (m_uni M) word D I) as [F|F].
    + rewrite (reading_gives _ _ _ _ _ _ (B I F) w g). split; [intros (-> & ->); split; [reflexivity|right; auto]|]. intros (-> & [(X & _)|(_ & _ & ->)]); [contradiction|auto].
    + rewrite (E I F). split; [intros X; exfalso; exact (analysed_none w g X)|]. intros (_ & [(X & _)|(_ & X & _)]); contradiction.
Qed.
Lemma punct_plain : forall M word lower b score, initialised b -> b_cfg b = UPunct score -> plain_unit M word lower b (by_punctuation (m_uni M) word lower).
Proof.
  intros M word lower b score IB C i ps s H. destruct (shape_seen M i b score word lower ps s (or_intror (or_introl C)) H) as [-> S]. split; [reflexivity|]. destruct (punct_unit _ _ _ _ _ _ _ IB C S) as (A & B). intros w g. unfold by_punctuation.
  pose proof (punct_iff (m_uni M) word) as Q. destruct (is_punctuation (m_uni M) word).
  - rewrite (reading_gives _ _ _ _ _ _ (A eq_refl) w g). pose proof (proj1 Q eq_refl) as [Q1 Q2]. split; [intros (-> & ->); auto|]. intros (-> & -> & _). auto.
  - rewrite (B eq_refl). split; [intros X; exfalso; exact (analysed_none w g X)|]. intros (_ & _ & X). apply Q in X. discriminate X.
Qed.
Lemma latin_plain : forall M word lower b score, initialised b -> b_cfg b = ULatin score -> plain_unit M word lower b (by_latin (m_uni M) word lower).
Proof.
  intros M word lower b score IB C i ps s H. destruct (shape_seen M i b score word lower ps s (or_intror (or_intror (or_introl C))) H) as [-> S]. split; [reflexivity|]. intros w g. unfold by_latin.
  pose proof (latin_iff (m_uni M) word) as Q. destruct (latin_unit _ _ _ _ _ _ _ IB C S) as [(L & A)|(L & ->)]; rewrite L in Q.
  - rewrite (reading_gives _ _ _ _ _ _ A w g). pose proof (proj1 Q eq_refl) as [Q1 Q2]. split; [intros (-> & ->); auto|]. intros (-> & -> & _). auto.
  - split; [intros X; exfalso; exact (analysed_none w g X)|]. intros (_ & _ & X). apply Q in X. discriminate X.
Qed.
Lemma roman_plain : forall M word lower b score, initialised b -> b_cfg b = URoman score -> plain_unit M word lower b (by_roman word lower).
Proof.
  intros M word lower b score IB C i ps s H. destruct (shape_seen M i b score word lower ps s (or_intror (or_intror (or_intror C))) H) as [-> S]. split; [reflexivity|]. destruct (roman_unit _ _ _ _ _ _ _ IB C S) as (A & B). intros w g. unfold by_roman.
  pose proof (roman_exact word) as Q. destruct (is_roman_number word).
  - rewrite (reading_gives _ _ _ _ _ _ (A eq_refl) w g). pose proof (proj1 Q eq_refl) as Q1. split; [intros (-> & ->); auto|]. intros (-> & -> & _). auto.
  - rewrite (B eq_refl). split; [intros X; exfalso; exact (analysed_none w g X)|]. intros (_ & _ & X). apply Q in X. discriminate X.
Qed.
(** ** the two shipped lists of units *)
Lemma cons_split : forall {A B} (a a' : A) (b b' : B) l l', (a, b) :: l = (a', b') :: l' -> a = a' /\ b = b' /\ l = l'.
Proof. intros A B a a' b b' l l' H. injection H as H1 H2 H3. auto. Qed.
Ltac split_units H := repeat (let X := fresh "E" in let Y := fresh "T" in apply cons_split in H as (X & Y & H)).
Lemma heads_ru : forall M, has_units M RU_DEFAULT_UNITS -> exists d n p nu pu ro la a1 a2 a3 b1 b2 b3 b4,
  m_units M = marked [d; n; p] ++ (nu, true) :: (pu, true) :: marked [ro; la] ++ [(a1, true); (a2, true); (a3, true); (b1, true); (b2, false); (b3, true); (b4, true)] /\
  Forall initialised [d; n; p; nu; pu; ro; la] /\
  (b_cfg d = UDict /\ b_cfg n = UInit true RU_INITIAL_LETTERS name_pattern (1#10) /\ b_cfg p = UInit false RU_INITIAL_LETTERS patr_pattern (1#10) /\
   b_cfg nu = UNumber (9#10) /\ b_cfg pu = UPunct (9#10) /\ b_cfg ro = URoman (9#10) /\ b_cfg la = ULatin (9#10)) /\
  b_cfg a1 = UParticle RU_PARTICLES (9#10) /\ b_cfg a2 = UHAdverb (7#10) /\ b_cfg a3 = UHyph RU_KNOWN_PREFIXES (75#100) /\
  b_cfg b1 = UKnownPrefix RU_KNOWN_PREFIXES (75#100) 3 /\ b_cfg b2 = UUnknownPrefix (1#2) /\ b_cfg b3 = UKnownSuffix (1#2) 4 /\ b_cfg b4 = UUnkn.
Proof.
  intros M H. pose proof (has_units_bound _ _ H) as HB. apply has_units_cfg in H.
  assert (X : flat_cfg RU_DEFAULT_UNITS = [(UDict, false); (UInit true RU_INITIAL_LETTERS name_pattern (1#10), false); (UInit false RU_INITIAL_LETTERS patr_pattern (1#10), true);
     (UNumber (9#10), true); (UPunct (9#10), true); (URoman (9#10), false); (ULatin (9#10), true);
     (UParticle RU_PARTICLES (9#10), true); (UHAdverb (7#10), true); (UHyph RU_KNOWN_PREFIXES (75#100), true); (UKnownPrefix RU_KNOWN_PREFIXES (75#100) 3, true); (UUnknownPrefix (1#2), false); (UKnownSuffix (1#2) 4, true); (UUnkn, true)]).
  { unfold RU_DEFAULT_UNITS, flat_cfg, ru_units. cbn [mapM flatten_item mark_last bind concat app]. reflexivity. }
  rewrite X in H. clear X. generalize dependent (m_units M). intros l H HB.
  destruct l as [|[d x1] [|[n x2] [|[p x3] [|[nu x4] [|[pu x5] [|[ro x6] [|[la x7] [|[a1 s1] [|[a2 s2] [|[a3 s3] [|[b1 t1] [|[b2 t2] [|[b3 t3] [|[b4 t4] [|x l]]]]]]]]]]]]]]]; try (apply (f_equal (@length _)) in H; discriminate H).
  cbn [map fst snd] in H. split_units H. clear H. subst.
  exists d, n, p, nu, pu, ro, la, a1, a2, a3, b1, b2, b3, b4. split; [reflexivity|]. split; [|repeat (split; [assumption|]); repeat split; assumption].
  repeat match goal with K : Forall _ (_ :: _) |- _ => apply Forall_cons_iff in K as [? K] end. cbn [fst] in *. repeat (apply Forall_cons; [assumption|]). apply Forall_nil.
Qed.
Lemma heads_uk : forall M, has_units M UK_DEFAULT_UNITS -> exists d n p nu pu ro la a1 a3 b1 b2 b3 b4,
  m_units M = marked [d; n; p; ro; la] ++ (nu, true) :: (pu, true) :: [(a1, true); (a3, true); (b1, true); (b2, false); (b3, true); (b4, true)] /\
  Forall initialised [d; n; p; nu; pu; ro; la] /\
  (b_cfg d = UDict /\ b_cfg n = UInit true UK_INITIAL_LETTERS name_pattern (1#10) /\ b_cfg p = UInit false UK_INITIAL_LETTERS patr_pattern (1#10) /\
   b_cfg nu = UNumber (9#10) /\ b_cfg pu = UPunct (9#10) /\ b_cfg ro = URoman (9#10) /\ b_cfg la = ULatin (9#10)) /\
  b_cfg a1 = UParticle UK_PARTICLES (9#10) /\ b_cfg a3 = UHyph UK_KNOWN_PREFIXES (75#100) /\
  b_cfg b1 = UKnownPrefix UK_KNOWN_PREFIXES (75#100) 3 /\ b_cfg b2 = UUnknownPrefix (1#2) /\ b_cfg b3 = UKnownSuffix (1#2) 4 /\ b_cfg b4 = UUnkn.
Proof.
  intros M H. pose proof (has_units_bound _ _ H) as HB. apply has_units_cfg in H.
  assert (X : flat_cfg UK_DEFAULT_UNITS = [(UDict, false); (UInit true UK_INITIAL_LETTERS name_pattern (1#10), false); (UInit false UK_INITIAL_LETTERS patr_pattern (1#10), false); (URoman (9#10), false); (ULatin (9#10), true);
     (UNumber (9#10), true); (UPunct (9#10), true); 
     (UParticle UK_PARTICLES (9#10), true); (UHyph UK_KNOWN_PREFIXES (75#100), true); (UKnownPrefix UK_KNOWN_PREFIXES (75#100) 3, true); (UUnknownPrefix (1#2), false); (UKnownSuffix (1#2) 4, true); (UUnkn, true)]).
  { unfold UK_DEFAULT_UNITS, flat_cfg, uk_units. cbn [mapM flatten_item mark_last bind concat app]. reflexivity. }
  rewrite X in H. clear X. generalize dependent (m_units M). intros l H HB.
  destruct l as [|[d x1] [|[n x2] [|[p x3] [|[ro x6] [|[la x7] [|[nu x4] [|[pu x5] [|[a1 s1] [|[a3 s3] [|[b1 t1] [|[b2 t2] [|[b3 t3] [|[b4 t4] [|x l]]]]]]]]]]]]]]; try (apply (f_equal (@length _)) in H; discriminate H).
  cbn [map fst snd] in H. split_units H. clear H. subst.
  exists d, n, p, nu, pu, ro, la, a1, a3, b1, b2, b3, b4. split; [reflexivity|]. split; [|repeat (split; [assumption|]); repeat split; assumption].
  repeat match goal with K : Forall _ (_ :: _) |- _ => apply Forall_cons_iff in K as [? K] end. cbn [fst] in *. repeat (apply Forall_cons; [assumption|]). apply Forall_nil.
Qed.
Lemma every_ru : forall M word r, has_units M RU_DEFAULT_UNITS -> knows_adjectives M -> digits_ok (m_uni M) -> pred_counts_pos (m_dict M) -> u_lower (m_uni M) word <> [] ->
  run_parse (morph_parse M) (morph_tag M) M word (u_lower (m_uni M) word) 0 (m_units M) [] [] = Ok r -> first_rule (all_rules_ru M word (u_lower (m_uni M) word)) r.
Proof.
  intros M word r HU KA DG PC NE H. destruct (heads_ru M HU) as (d & n & p & nu & pu & ro & la & a1 & a2 & a3 & b1 & b2 & b3 & b4 & Eu & IB & (D1 & D2 & D3 & D4 & D5 & D6 & D7) & A1 & A2 & A3 & C1 & C2 & C3 & C4).
  repeat match goal with K : Forall _ (_ :: _) |- _ => apply Forall_cons_iff in K as [? K] end.
  assert (N8 : nth_error (m_units M) 8 = Some (a2, true)) by (rewrite Eu; reflexivity). assert (N13 : nth_error (m_units M) 13 = Some (b4, true)) by (rewrite Eu; reflexivity).
  rewrite Eu in H. unfold all_rules_ru, rules_ru.
  eapply (group_step M word _ _ [d; n; p]); [| |exact H|]; [|discriminate|].
  { apply Forall2_cons; [apply dict_plain; exact D1|]. apply Forall2_cons; [eapply (init_plain _ _ _ n); [assumption|exact D2|exact name_tags_eq]|]. apply Forall2_cons; [eapply (init_plain _ _ _ p); [assumption|exact D3|exact patr_tags_eq]|]. apply Forall2_nil. }
  clear H. intros H. cbn [length plus] in H.
  eapply one_step; [|exact H|]; [exact (number_plain M word _ nu _ DG ltac:(assumption) D4)|]. clear H. intros H.
  eapply one_step; [|exact H|]; [exact (punct_plain M word _ pu _ ltac:(assumption) D5)|]. clear H. intros H.
  eapply (group_step M word _ _ [ro; la]); [| |exact H|]; [|discriminate|].
  { apply Forall2_cons; [eapply (roman_plain _ _ _ ro); [assumption|exact D6]|]. apply Forall2_cons; [eapply (latin_plain _ _ _ la); [assumption|exact D7]|]. apply Forall2_nil. }
  clear H. intros H. cbn [length plus] in H.
  remember (u_lower (m_uni M) word) as lower eqn:EL.
  eapply rule_step; [eapply particle_exact; [exact A1|exact particles_nonempty|exact (proj1 shipped_particles)]|exact H|]. clear H. intros H.
  eapply rule_step; [eapply po_exact; [exact HU|exact N8|exact A2|exact KA]|exact H|]. clear H. intros H.
  eapply rule_step; [eapply hyphen_exact; [exact A3|exact ru_pre]|exact H|]. clear H. intros H.
  eapply rule_step; [intros ps s U w g; exact (kp_exact M _ b1 _ word lower ps s C1 ru_pre U w g)|exact H|]. clear H. intros H.
  eapply last_rules; [exact HU|exact N13|exact PC|exact NE|exact C2|exact C3|exact C4|exact H].
Qed.
Lemma every_uk : forall M word r, has_units M UK_DEFAULT_UNITS -> digits_ok (m_uni M) -> pred_counts_pos (m_dict M) -> u_lower (m_uni M) word <> [] ->
  run_parse (morph_parse M) (morph_tag M) M word (u_lower (m_uni M) word) 0 (m_units M) [] [] = Ok r -> first_rule (all_rules_uk M word (u_lower (m_uni M) word)) r.
Proof.
  intros M word r HU DG PC NE H. destruct (heads_uk M HU) as (d & n & p & nu & pu & ro & la & a1 & a3 & b1 & b2 & b3 & b4 & Eu & IB & (D1 & D2 & D3 & D4 & D5 & D6 & D7) & A1 & A3 & C1 & C2 & C3 & C4).
  repeat match goal with K : Forall _ (_ :: _) |- _ => apply Forall_cons_iff in K as [? K] end.
  assert (N12 : nth_error (m_units M) 12 = Some (b4, true)) by (rewrite Eu; reflexivity).
  rewrite Eu in H. unfold all_rules_uk, rules_uk.
  eapply (group_step M word _ _ [d; n; p; ro; la]); [| |exact H|]; [|discriminate|].
  { apply Forall2_cons; [apply dict_plain; exact D1|]. apply Forall2_cons; [eapply (init_plain _ _ _ n); [assumption|exact D2|exact name_tags_eq]|]. apply Forall2_cons; [eapply (init_plain _ _ _ p); [assumption|exact D3|exact patr_tags_eq]|].
    apply Forall2_cons; [eapply (roman_plain _ _ _ ro); [assumption|exact D6]|]. apply Forall2_cons; [eapply (latin_plain _ _ _ la); [assumption|exact D7]|]. apply Forall2_nil. }
  clear H. intros H. cbn [length plus] in H.
  eapply one_step; [|exact H|]; [exact (number_plain M word _ nu _ DG ltac:(assumption) D4)|]. clear H. intros H.
  eapply one_step; [|exact H|]; [exact (punct_plain M word _ pu _ ltac:(assumption) D5)|]. clear H. intros H.
  remember (u_lower (m_uni M) word) as lower eqn:EL.
  eapply rule_step; [eapply particle_exact; [exact A1|exact uk_part|exact (proj2 shipped_particles)]|exact H|]. clear H. intros H.
  eapply rule_step; [eapply hyphen_exact; [exact A3|exact uk_pre]|exact H|]. clear H. intros H.
  eapply rule_step; [intros ps s U w g; exact (kp_exact M _ b1 _ word lower ps s C1 uk_pre U w g)|exact H|]. clear H. intros H.
  eapply last_rules; [exact HU|exact N12|exact PC|exact NE|exact C2|exact C3|exact C4|exact H].
Qed.
Lemma every_russian : forall M word ps, has_units M RU_DEFAULT_UNITS -> knows_adjectives M -> lower_stable (m_uni M) -> digits_ok (m_uni M) -> pred_counts_pos (m_dict M) -> u_lower (m_uni M) word <> [] ->
  morph_parse M word = Ok ps -> first_rule (all_rules_ru M word (u_lower (m_uni M) word)) ps.
Proof. intros M word ps HU KA St DG PC NE H. exact (rules_parse M word ps _ (or_introl HU) St H (fun r => every_ru M word r HU KA DG PC NE)). Qed.
Lemma every_ukrainian : forall M word ps, has_units M UK_DEFAULT_UNITS -> lower_stable (m_uni M) -> digits_ok (m_uni M) -> pred_counts_pos (m_dict M) -> u_lower (m_uni M) word <> [] ->
  morph_parse M word = Ok ps -> first_rule (all_rules_uk M word (u_lower (m_uni M) word)) ps.
Proof. intros M word ps HU St DG PC NE H. exact (rules_parse M word ps _ (or_intror HU) St H (fun r => every_uk M word r HU DG PC NE)). Qed.
Lemma every_tags : forall M word ps ts, lower_stable (m_uni M) -> digits_ok (m_uni M) -> pred_counts_pos (m_dict M) -> u_lower (m_uni M) word <> [] -> morph_parse M word = Ok ps -> morph_tag M word = Ok ts ->
  (has_units M RU_DEFAULT_UNITS -> knows_adjectives M -> first_rule_tags (all_rules_ru M word (u_lower (m_uni M) word)) ts) /\
  (has_units M UK_DEFAULT_UNITS -> first_rule_tags (all_rules_uk M word (u_lower (m_uni M) word)) ts).
Proof.
  intros M word ps ts St DG PC NE HP HT. split.
  - intros HU KA. apply (rules_tags M word ps ts (or_introl HU) PC HP HT). apply every_russian; assumption.
  - intros HU. apply (rules_tags M word ps ts (or_intror HU) PC HP HT). apply every_ukrainian; assumption.
Qed.
