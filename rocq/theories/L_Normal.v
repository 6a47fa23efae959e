(** * Lemmas for C93: where a normal form comes from *)
From Coq Require Import String List NArith ZArith Bool QArith Lia.
From Verif Require Import Py Uni Tagset Dawg Utils Shapes Dict Units Analyzer ConfigRu ConfigUk Spec Spec2 Spec14 Spec15 Spec34 Spec35 Spec36 Spec38 Spec41.
From Verif Require Import L_Base L_Run L_Agree L_Tagset L_Text L_Words L_Made L_Config L_Total L_Para L_Units L_Shapes L_ShapeU L_Prob L_ByUnit L_Known L_Adverb L_Suffix L_Parse L_New L_Stages L_Every.
Import ListNotations.
Local Open Scope nat_scope.
Local Open Scope list_scope.

(** ** the first form *)
Lemma middle_cases : forall pre sf w, (exists a stem c, w = a ++ stem ++ c /\ length a = length pre /\ length c = length sf /\ middle pre sf w = stem) \/
  (length w < length pre + length sf /\ middle pre sf w = []).
Proof.
  intros pre sf w. destruct (Nat.le_gt_cases (length pre + length sf) (length w)) as [L|L].
  - left. set (a := firstn (length pre) w). set (w' := skipn (length pre) w). set (stem := firstn (length w' - length sf) w'). set (c := skipn (length w' - length sf) w').
    assert (E1 : w = a ++ w') by (symmetry; apply firstn_skipn). assert (E2 : w' = stem ++ c) by (symmetry; apply firstn_skipn).
    assert (L1 : length a = length pre) by (unfold a; rewrite firstn_length; lia). assert (LW : length w = length a + length w') by (rewrite E1 at 1; apply app_length).
    assert (L2 : length c = length sf) by (unfold c; rewrite skipn_length; lia).
    exists a, stem, c. rewrite E2 in E1. split; [exact E1|]. split; [exact L1|]. split; [exact L2|]. rewrite E1. clear - L1 L2. clearbody a stem c. clear w w'.
    destruct sf as [|x sf]; unfold middle.
    + destruct c; [|discriminate L2]. rewrite app_nil_r, <- L1. apply skipn_app_exact.
    + rewrite <- L1, <- L2. apply slice_mid. destruct c; [discriminate L2|discriminate].
  - right. split; [exact L|]. destruct sf as [|c sf]; unfold middle.
    + apply skipn_all2. cbn [length] in L. lia.
    + unfold slice. rewrite norm_idx_neg by (cbn [length]; lia). rewrite norm_idx_pos. cbn [length] in *. apply length_zero_iff_nil. rewrite firstn_length. rewrite skipn_length. lia.
Qed.
Lemma first_form_of : forall D para idx w nf t, wf_dict D -> valid_form D para idx -> build_normal_form D para idx w = Ok nf -> build_tag_info D para idx = Ok t ->
  exists pre suf, para_row D para idx pre t suf /\ first_form D para idx w nf.
Proof.
  intros D para idx w nf t W V N T. destruct (valid_row _ W _ _ V) as (pre & t' & suf & R). pose proof (para_row_tag _ _ _ _ _ _ R) as T'. rewrite T in T'. apply Ok_inj in T'. subst t'.
  exists pre, suf. split; [exact R|]. destruct (row0 _ _ _ _ _ _ W R) as (pre0 & t0 & suf0 & R0). rewrite (row_nf _ _ _ _ _ _ _ _ _ w R R0) in N. apply Ok_inj in N.
  destruct (Nat.eqb_spec idx 0) as [->|NZ]; [left; auto|]. right. split; [lia|]. exists pre, t, suf, pre0, t0, suf0. split; [exact R|]. split; [exact R0|].
  destruct (middle_cases pre suf w) as [(a & stem & c & E & L1 & L2 & Md)|(L & Md)]; rewrite Md in N; [left; exists a, stem, c; auto|right; auto].
Qed.
(** ** configurations *)
Definition conf (letters particles prefixes : list str) (c : ucfg) : Prop :=
  match c with
  | UInit _ ls pat _ => ls = letters /\ (map t_gr (tags_of_pattern pat) = initial_tags "Name" ["masc"; "femn"]%string \/ map t_gr (tags_of_pattern pat) = initial_tags "Patr" ["masc"; "femn"]%string)
  | UParticle ps _ => ps = particles
  | UHyph ps _ => ps = prefixes
  | UKnownPrefix ps _ n => ps = prefixes /\ n = 3
  | UKnownSuffix _ n => n = 4
  | _ => True
  end.
Lemma shipped_conf : forall M letters particles prefixes, shipped M letters particles prefixes ->
  Forall (fun bt => conf letters particles prefixes (b_cfg (fst bt)) /\ initialised (fst bt)) (m_units M) /\ ~ In [] prefixes /\ ~ In [] particles /\ shipped_units M /\ exists items, has_units M items.
Proof.
  intros M letters particles prefixes [(HU & -> & -> & ->)|(HU & -> & -> & ->)].
  - split; [|split; [exact ru_pre|split; [exact particles_nonempty|split; [left; exact HU|exists RU_DEFAULT_UNITS; exact HU]]]].
    pose proof (has_units_bound _ _ HU) as HB. destruct (heads_ru M HU) as (d & n & p & nu & pu & ro & la & a1 & a2 & a3 & b1 & b2 & b3 & b4 & Eu & _ & (D1 & D2 & D3 & D4 & D5 & D6 & D7) & A1 & A2 & A3 & C1 & C2 & C3 & C4).
    rewrite Eu in HB |- *. clear Eu. cbn [marked app] in *.
    repeat match goal with K : Forall _ (_ :: _) |- _ => apply Forall_cons_iff in K as [? K] end. cbn [fst] in *.
    repeat (apply Forall_cons; [cbn [fst]; split; [|assumption]; match goal with E : b_cfg ?b = _ |- conf _ _ _ (b_cfg ?b) => rewrite E end; cbn [conf]|]); try exact Logic.I; try apply Forall_nil; try reflexivity; try (split; reflexivity).
    + split; [reflexivity|left; exact name_tags_eq].
    + split; [reflexivity|right; exact patr_tags_eq].
  - split; [|split; [exact uk_pre|split; [exact uk_part|split; [right; exact HU|exists UK_DEFAULT_UNITS; exact HU]]]].
    pose proof (has_units_bound _ _ HU) as HB. destruct (heads_uk M HU) as (d & n & p & nu & pu & ro & la & a1 & a3 & b1 & b2 & b3 & b4 & Eu & _ & (D1 & D2 & D3 & D4 & D5 & D6 & D7) & A1 & A3 & C1 & C2 & C3 & C4).
    rewrite Eu in HB |- *. clear Eu. cbn [marked app] in *.
    repeat match goal with K : Forall _ (_ :: _) |- _ => apply Forall_cons_iff in K as [? K] end. cbn [fst] in *.
    repeat (apply Forall_cons; [cbn [fst]; split; [|assumption]; match goal with E : b_cfg ?b = _ |- conf _ _ _ (b_cfg ?b) => rewrite E end; cbn [conf]|]); try exact Logic.I; try apply Forall_nil; try reflexivity; try (split; reflexivity).
    + split; [reflexivity|left; exact name_tags_eq].
    + split; [reflexivity|right; exact patr_tags_eq].
Qed.
(** ** the units *)
Lemma some_unit : forall M word ps p, morph_parse M word = Ok ps -> In p ps -> exists i b tm, nth_error (m_units M) i = Some (b, tm) /\ made_by p = Some (Root i).
Proof.
  intros M word ps p H Hp. unfold morph_parse, fuel_for, parse_f in H. cbn [analyze fst snd] in H. apply bind_ok in H as (r & E & H).
  assert (X : exists p0, In p0 r /\ content p = content p0).
  { destruct (m_prob M) as [d|].
    - destruct (apply_to_parses_In _ _ _ _ _ H Hp) as (p0 & q & H0 & ->). exists p0. auto.
    - apply Ok_inj in H. subst. exists p. auto. }
  destruct X as (p0 & H0 & Ec). eapply run_parse_made in E as [[]|(j & b & tm & N & Md)]; eauto. exists j, b, tm. split; [exact N|].
  pose proof (made_by_unit _ _ _ _ _ _ _ _ Md) as B. unfold made_by in *. injection Ec as _ _ _ ->. exact B.
Qed.
Lemma entry_form : forall M self lower p, wf_dict (m_dict M) -> dict_entry M self lower p -> dictionary_form M lower (p_word p) (p_nf p) (p_tag p).
Proof.
  intros M self lower p W (w & vals & para & idx & nf & t & V & G & I & N & T & ->). cbn [p_word p_nf p_tag].
  assert (VF : valid_form (m_dict M) para idx) by (destruct W as (_ & W & _); exact (W w vals para idx (sget_In _ _ _ G) I)).
  destruct (first_form_of _ _ _ _ _ _ W VF N T) as (pre & suf & R & F). exists vals, para, idx, pre, suf. split; [apply variants_spec; exact V|]. auto.
Qed.
Lemma analysed_one : forall p, analysed [p] (p_word p) (t_gr (p_tag p)).
Proof. intros p. exists p. split; [left; reflexivity|auto]. Qed.
Lemma shape_own : forall M letters word b (i : nat) score t, digits_ok (m_uni M) -> initialised b ->
  (b_cfg b = UNumber score \/ b_cfg b = UPunct score \/ b_cfg b = ULatin score \/ b_cfg b = URoman score) -> shape_tag (m_uni M) b word = Ok (Some t) ->
  own_form M letters word (u_lower (m_uni M) word) (u_lower (m_uni M) word) (t_gr t).
Proof.
  intros M letters word b i score t DG IB C ST. set (lower := u_lower (m_uni M) word). set (p := MkParse lower t lower score [MStr (Root i) word]).
  assert (SP : shape_parse (m_uni M) (Root i) b score word lower = Ok [p]) by (unfold shape_parse; rewrite ST; reflexivity).
  assert (UP : unit_parse (morph_parse M) (morph_tag M) M i b word lower [] = Ok ([p], [])) by (unfold unit_parse; destruct C as [C|[C|[C|C]]]; rewrite C, SP; reflexivity).
  pose proof (analysed_one p) as A. cbn [p p_word p_tag] in A. unfold own_form, either. destruct C as [C|[C|[C|C]]].
  - destruct (number_plain M word lower b score DG IB C i [p] [] UP) as [_ G]. apply G in A. exists (by_number (m_uni M) word lower). split; [cbn [In]; tauto|exact A].
  - destruct (punct_plain M word lower b score IB C i [p] [] UP) as [_ G]. apply G in A. exists (by_punctuation (m_uni M) word lower). split; [cbn [In]; tauto|exact A].
  - destruct (latin_plain M word lower b score IB C i [p] [] UP) as [_ G]. apply G in A. exists (by_latin (m_uni M) word lower). split; [cbn [In]; tauto|exact A].
  - destruct (roman_plain M word lower b score IB C i [p] [] UP) as [_ G]. apply G in A. exists (by_roman word lower). split; [cbn [In]; tauto|exact A].
Qed.
Lemma init_own : forall M letters word b (i : nat) first pat score t, initialised b -> b_cfg b = UInit first letters pat score ->
  (map t_gr (tags_of_pattern pat) = initial_tags "Name" ["masc"; "femn"]%string \/ map t_gr (tags_of_pattern pat) = initial_tags "Patr" ["masc"; "femn"]%string) ->
  In word letters -> In t (b_tags b) -> own_form M letters word (u_lower (m_uni M) word) (u_lower (m_uni M) word) (t_gr t).
Proof.
  intros M letters word b i first pat score t IB C K I T. set (lower := u_lower (m_uni M) word).
  assert (UP : unit_parse (morph_parse M) (morph_tag M) M i b word lower [] = Ok (map (fun t => MkParse lower t lower score [MStr (Root i) word]) (b_tags b), [])).
  { unfold unit_parse. rewrite C. apply smem_In in I. rewrite I. reflexivity. }
  assert (A : analysed (map (fun t => MkParse lower t lower score [MStr (Root i) word]) (b_tags b)) lower (t_gr t)).
  { eexists. split; [apply in_map_iff; exists t; split; [reflexivity|exact T]|]. auto. }
  unfold own_form, either. destruct K as [K|K].
  - destruct (init_plain M word lower b first letters pat score "Name"%string IB C K i _ [] UP) as [_ G]. apply G in A. exists (by_initial letters "Name" word lower). split; [cbn [In]; tauto|exact A].
  - destruct (init_plain M word lower b first letters pat score "Patr"%string IB C K i _ [] UP) as [_ G]. apply G in A. exists (by_initial letters "Patr" word lower). split; [cbn [In]; tauto|exact A].
Qed.
Section Induction.
  Variables (M : morph) (letters particles prefixes : list str).
  Hypothesis wd : wf_dict (m_dict M).
  Hypothesis st : lower_stable (m_uni M).
  Hypothesis ka : knows_adjectives M.
  Hypothesis ship : shipped M letters particles prefixes.
  Hypothesis dg : digits_ok (m_uni M).
  Hypothesis pc : pred_counts_pos (m_dict M).
  Lemma sub_lower : forall word a b c, u_lower (m_uni M) word = a ++ b ++ c -> u_lower (m_uni M) b = b.
  Proof. intros word a b c E. exact (st word a b c E). Qed.
  Definition below (n : nat) : Prop := forall word ps p, length (u_lower (m_uni M) word) <= n -> u_lower (m_uni M) word <> [] -> morph_parse M word = Ok ps -> In p ps ->
    normal M letters particles prefixes word (p_word p) (p_nf p) (p_tag p).
  Lemma hyph_case : forall n word ps p i b tm mult, below n -> length (u_lower (m_uni M) word) <= S n -> Forall (fun bt => prefixes_nonempty (fst bt)) (m_units M) -> ~ In [] prefixes ->
    morph_parse M word = Ok ps -> In p ps -> made_by p = Some (Root i) -> nth_error (m_units M) i = Some (b, tm) -> b_cfg b = UHyph prefixes mult -> normal M letters particles prefixes word (p_word p) (p_nf p) (p_tag p).
  Proof.
    intros n word ps p i b tm mult IH L PN NP H Ip MB N C. pose proof st as St. destruct (hyph_parse_sound M word ps p i b tm prefixes mult St PN NP H Ip MB N C) as (NS & p1 & K & _ & l & r & OH & X).
    unfold content in K. injection K as K1 K2 K3 _. rewrite K1, K2, K3. clear K1 K2 K3. pose proof OH as (E & NL & NR & _ & _).
    assert (SL : u_lower (m_uni M) l = l) by (apply (sub_lower word [] l (u "-" ++ r)); exact E). assert (SR : u_lower (m_uni M) r = r) by (apply (sub_lower word (l ++ u "-") r []); rewrite app_nil_r, <- app_assoc; exact E).
    rewrite E, !app_length in L. change (length (u "-")) with 1 in L.
    assert (HR : forall rs c, morph_parse M r = Ok rs -> In c rs -> normal M letters particles prefixes r (p_word c) (p_nf c) (p_tag c)).
    { intros rs c R I. apply (IH r rs c); [rewrite SR; lia|rewrite SR; exact NR|exact R|exact I]. }
    destruct X as [(ls & rs & a & c & PL & PR & Ia & Ic & HP & SF & ->)|(rs & c & PR & Ic & HP & ->)]; cbn [p_word p_tag p_nf].
    - apply (normal_both M letters particles prefixes word l r (p_word a) (p_nf a) (p_tag a) (p_word c) (p_nf c) (p_tag c) OH NS); [|exact (HR rs c PR Ic)|exact HP|exact SF].
      apply (IH l ls a); [rewrite SL; lia|rewrite SL; exact NL|exact PL|exact Ia].
    - exact (normal_right M letters particles prefixes word l r (p_word c) (p_nf c) (p_tag c) OH NS (HR rs c PR Ic) HP).
  Qed.
  Lemma normal_all : forall n word ps p, length (u_lower (m_uni M) word) <= n -> u_lower (m_uni M) word <> [] -> morph_parse M word = Ok ps -> In p ps ->
    normal M letters particles prefixes word (p_word p) (p_nf p) (p_tag p).
  Proof.
    induction n as [|n IH]; intros word ps p L NE H Ip.
    { destruct (u_lower (m_uni M) word); [congruence|cbn [length] in L; lia]. }
    destruct (shipped_conf _ _ _ _ ship) as (CF & NP & NPT & SU & items & HI). pose proof wd as WD. pose proof st as St. pose proof ka as KA. destruct (shipped_facts M SU) as (_ & _ & PN).
    destruct (some_unit M word ps p H Ip) as (i & b & tm & N & MB). rewrite Forall_forall in CF. destruct (CF (b, tm) (nth_error_In _ _ N)) as [CB IB]. cbn [fst] in CB, IB. clear CF.
    destruct (parse_by_unit _ _ _ _ _ _ _ St PN H Ip MB N) as (p0 & Md & Ec & _). pose proof Ec as Ec'. unfold content in Ec'. injection Ec' as E1 E2 E3 _.
    destruct Md as [p' C' DE|first ls pat score t C' W' T'|score t C' ST|pts mult' w pt qs p' C' I1 I2 W1 W2 W3 R Iq|mult' t C' AD T'|skip mult' lw rw ls rs l r C' SP SO|skip mult' lw rw rs r C' SP SO|pfx mult' minrem prefix rest qs p' C' I1 R Iq PR|mult' prefix rest p' C' I1 DE PR|mult' minlen' p' C' L' KE|t C' T'].
    - rewrite E1, E2, E3. apply normal_known. exact (entry_form M _ _ _ WD DE).
    - cbn [p_word p_tag p_nf] in E1, E2, E3. rewrite E1, E2, E3. rewrite C' in CB. destruct CB as [-> K]. apply normal_token. exact (init_own M letters word b i first pat score t IB C' K W' T').
    - cbn [p_word p_tag p_nf] in E1, E2, E3. rewrite E1, E2, E3. apply normal_token. exact (shape_own M letters word b i score t dg IB C' ST).
    - clear E1 E2 E3. rewrite C' in CB. cbn [conf] in CB. subst pts. destruct (particle_sound M word ps p i b tm particles mult' St PN H Ip MB N C') as (w' & pt' & qs' & q & p1 & E & Ipt & Hy & NW & R' & Iq' & (A1 & A2 & A3 & A4 & A5) & K & _).
      unfold content in K. injection K as K1 K2 K3 _. rewrite K1, K2, K3, A1, A2, A3. assert (SL : u_lower (m_uni M) w' = w') by (apply (sub_lower word [] w' pt'); exact E).
      apply normal_particle with (rest := w'); [exact E|exact Ipt|exact NW|exact Hy|]. apply (IH w' qs' q); [|rewrite SL; exact NW|exact R'|exact Iq'].
      rewrite SL. rewrite E, app_length in L. assert (0 < length pt') by (destruct pt'; [exfalso; exact (NPT Ipt)|cbn [length]; lia]). lia.
    - cbn [p_word p_tag p_nf] in E1, E2, E3. rewrite E1, E2, E3. apply normal_token. pose proof (proj1 (should_iff M (u_lower (m_uni M) word) true KA AD) eq_refl) as PA.
      destruct (adverb_tag _ _ _ _ _ _ HI N C') as (t' & T1 & _ & T3). rewrite T1 in T'. injection T' as <-. rewrite T3. exists (by_po M (u_lower (m_uni M) word)). split; [cbn [In]; tauto|]. split; [exact PA|auto].
    - clear E1 E2 E3. rewrite C' in CB. cbn [conf] in CB. subst skip. exact (hyph_case n word ps p i b tm mult' IH L PN NP H Ip MB N C').
    - clear E1 E2 E3. rewrite C' in CB. cbn [conf] in CB. subst skip. exact (hyph_case n word ps p i b tm mult' IH L PN NP H Ip MB N C').
    - clear E1 E2 E3. rewrite C' in CB. cbn [conf] in CB. destruct CB as [-> ->]. destruct (kp_sound M word ps p i b tm prefixes mult' 3 St PN H Ip MB N C') as (pre & rest' & qs' & q & p1 & Ipre & E & L3 & R' & Iq' & PR' & (A1 & A2 & A3 & A4 & A5) & K & _).
      unfold content in K. injection K as K1 K2 K3 _. rewrite K1, K2, K3, A1, A2, A3. assert (SL : u_lower (m_uni M) rest' = rest') by (apply (sub_lower word pre rest' []); rewrite app_nil_r; exact E).
      apply normal_prefix with (rest := rest'); [exact E|exact Ipre|exact L3| |exact PR']. apply (IH rest' qs' q); [|rewrite SL; intros X; rewrite X in L3; cbn [length] in L3; lia|exact R'|exact Iq'].
      rewrite SL. rewrite E, app_length in L. assert (0 < length pre) by (destruct pre; [exfalso; exact (NP Ipre)|cbn [length]; lia]). lia.
    - cbn [prefixed p_word p_tag p_nf] in E1, E2, E3. rewrite E1, E2, E3. apply word_splits_In in I1 as (E & B & L3). apply normal_guess with (rest := rest); [exact E|exact B|exact L3|exact (entry_form M _ _ _ WD DE)|apply productive_iff; exact PR].
    - clear E1 E2 E3. rewrite C' in CB. cbn [conf] in CB. subst minlen'. destruct (ks_sound M word ps p i b tm mult' 4 pc NE H Ip MB N C') as (L4 & p1 & PD & K & _). unfold content in K. injection K as K1 K2 K3 _. rewrite K1, K2, K3.
      destruct PD as (pid & pre & rest & dawg & start & e & fs & cnt & para & idx & Q1 & Q2 & Q3 & Q4 & Q5 & Q6 & Q7 & Q8 & _). rewrite Q6.
      assert (VF : valid_form (m_dict M) para idx).
      { pose proof Q5 as X. apply filter_In in X as [X _]. unfold pred_records in X. apply in_flat_map in X as ([fs' vals] & X1 & X2). apply in_map_iff in X2 as (v & X2 & X3). cbn [fst snd] in X2, X3. injection X2 as -> ->.
        apply similar_items_In in X1 as [_ X1]. apply sget_In in X1. destruct WD as (_ & _ & WD & _). exact (WD dawg fs vals cnt para idx (nth_error_In _ _ Q3) X1 X3). }
      destruct (first_form_of _ _ _ _ _ _ WD VF Q8 Q7) as (pre1 & suf1 & R1 & F1).
      exact (normal_ending M letters particles prefixes word pid pre rest dawg start e fs cnt para idx pre1 (p_tag p1) suf1 (p_nf p1) L4 Q1 Q2 Q3 Q4 Q5 R1 F1).
    - cbn [p_word p_tag p_nf] in E1, E2, E3. rewrite E1, E2, E3. apply normal_token. destruct IB as (B1 & B2 & IB). rewrite C' in IB. apply single_tags in IB as (t' & T1 & T2). rewrite T1 in T'. injection T' as <-. rewrite T2.
      exists (by_nothing (u_lower (m_uni M) word)). split; [cbn [In]; tauto|]. split; reflexivity.
  Qed.
End Induction.
Lemma normal_reading : forall M letters particles prefixes word ps p, wf_dict (m_dict M) -> lower_stable (m_uni M) -> knows_adjectives M -> shipped M letters particles prefixes -> digits_ok (m_uni M) -> pred_counts_pos (m_dict M) ->
  u_lower (m_uni M) word <> [] -> morph_parse M word = Ok ps -> In p ps -> normal M letters particles prefixes word (p_word p) (p_nf p) (p_tag p).
Proof. intros M letters particles prefixes word ps p WD St KA SH DG PC NE H I. exact (normal_all M letters particles prefixes WD St KA SH DG PC (length (u_lower (m_uni M) word)) word ps p (Nat.le_refl _) NE H I). Qed.
Lemma normal_listed : forall M letters particles prefixes word nfs, wf_dict (m_dict M) -> lower_stable (m_uni M) -> knows_adjectives M -> shipped M letters particles prefixes -> digits_ok (m_uni M) -> pred_counts_pos (m_dict M) ->
  u_lower (m_uni M) word <> [] -> morph_normal_forms M word = Ok nfs -> forall nf, In nf nfs -> exists w t, normal M letters particles prefixes word w nf t.
Proof.
  intros M letters particles prefixes word nfs WD St KA SH DG PC NE H nf I. unfold morph_normal_forms in H. apply bind_ok in H as (ps & P & H). apply Ok_inj in H. subst nfs.
  apply (proj1 (proj2 (dedup_from_spec _ _))) in I as [I _]. apply in_map_iff in I as (p & <- & I). exists (p_word p), (p_tag p). exact (normal_reading M letters particles prefixes word ps p WD St KA SH DG PC NE P I).
Qed.
(** a dictionary whose words are made of their rows: the ends of the word are those of the form *)
Lemma normal_consistent : forall M lower w nf t, consistent_dict (m_dict M) -> dictionary_form M lower w nf t ->
  subst_of (m_subst M) lower w /\ exists para idx pre suf pre0 t0 suf0 stem, para_row (m_dict M) para idx pre t suf /\ para_row (m_dict M) para 0 pre0 t0 suf0 /\ w = pre ++ stem ++ suf /\ nf = pre0 ++ stem ++ suf0.
Proof.
  intros M lower w nf t C (vals & para & idx & pre & suf & V & G & I & R & F). split; [exact V|]. destruct (C w vals para idx (sget_In _ _ _ G) I) as (pre' & t' & suf' & stem & R' & E).
  destruct (para_row_fun _ _ _ _ _ _ _ _ _ R R') as (-> & -> & ->). destruct F as [(-> & ->)|(NZ & pre1 & t1 & suf1 & pre0 & t0 & suf0 & R1 & R0 & X)].
  - exists para, 0, pre, suf, pre, t, suf, stem. auto.
  - destruct (para_row_fun _ _ _ _ _ _ _ _ _ R R1) as (-> & -> & ->). exists para, idx, pre, suf, pre0, t0, suf0, stem. split; [exact R|]. split; [exact R0|]. split; [exact E|].
    destruct X as [(a & st & c & E' & L1 & L2 & ->)|(L & _)].
    + rewrite E in E'. apply app_inj_len in E' as [_ E']; [|symmetry; exact L1]. apply app_inj_len in E' as [<- _]; [reflexivity|]. pose proof (f_equal (@length _) E') as X. rewrite !app_length in X. lia.
    + exfalso. rewrite E, !app_length in L. lia.
Qed.
