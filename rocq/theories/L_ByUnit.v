(** * What single units contribute to parse() (C32 C50 C51 C52 C53 C58) *)
From Coq Require Import String List NArith ZArith Bool QArith Lia Permutation Sorted Lqa.
From Verif Require Import Py Uni Tagset Dawg Utils Shapes Dict Units Analyzer ConfigRu ConfigUk Spec Spec2.
From Verif Require Import L_Base L_Run L_Agree L_Made L_Words L_Config L_Parse L_Total L_Para L_Text.
Import ListNotations.
Local Open Scope nat_scope.
Local Open Scope list_scope.

(** ** Nested analyses are parse() itself *)
Lemma nested_parse : forall M f word w, lower_stable (m_uni M) -> Forall (fun bt => prefixes_nonempty (fst bt)) (m_units M) ->
  length (u_lower (m_uni M) word) <= f -> short (u_lower (m_uni M) word) w ->
  parse_f f M w = morph_parse M w /\ tag_f f M w = morph_tag M w.
Proof.
  intros M f word w St F Hf ((a & c & E) & L). unfold morph_parse, morph_tag, fuel_for.
  apply fuel_irrelevant; auto; rewrite (St word a w c E); lia.
Qed.

Section Nested.
  Variables (recP recP' : str -> res (list parse)) (recT recT' : str -> res (list tag)).
  Variables (M : morph) (i : nat) (b : bunit) (word lower : str).
  Hypothesis same : forall w, short lower w -> recP w = recP' w /\ recT w = recT' w.
  Hypothesis nonempty : prefixes_nonempty b.
  Lemma made_same : forall p, made recP recT M i b word lower p -> made recP' recT' M i b word lower p.
  Proof.
    intros p H. destruct H.
    - apply made_dict; auto.
    - eapply made_init; eauto.
    - eapply made_shape; eauto.
    - eapply made_particle; eauto. destruct (same w) as [<- _]; auto.
      destruct (split_particle lower particle w) as [E N]; auto. rewrite E. split; [exists [], particle; auto|].
      rewrite app_length. destruct particle; [congruence|simpl; lia].
    - eapply made_adverb; eauto. rewrite <- (adverb_same recP recP' recT recT'); auto.
    - destruct (split_once_spec _ _ _ _ H1) as [E _]. eapply made_both; eauto.
      + destruct (same lw) as [<- _]; auto. rewrite E. split; [exists [], (HY :: rw); auto|rewrite app_length; simpl; lia].
      + destruct (same rw) as [<- _]; auto. rewrite E. split; [exists (lw ++ [HY]), []; rewrite app_nil_r, <- app_assoc; auto|rewrite app_length; simpl; lia].
    - destruct (split_once_spec _ _ _ _ H1) as [E _]. eapply made_fixed; eauto.
      destruct (same rw) as [<- _]; auto. rewrite E. split; [exists (lw ++ [HY]), []; rewrite app_nil_r, <- app_assoc; auto|rewrite app_length; simpl; lia].
    - eapply made_kp; eauto. destruct (same rest) as [<- _]; auto. eapply kp_short; eauto.
    - eapply made_up; eauto.
    - eapply made_ks; eauto.
    - eapply made_unkn; eauto.
  Qed.
End Nested.

Lemma parse_by_unit : forall M word ps p i b tm, lower_stable (m_uni M) -> Forall (fun bt => prefixes_nonempty (fst bt)) (m_units M) ->
  morph_parse M word = Ok ps -> In p ps -> made_by p = Some (Root i) -> nth_error (m_units M) i = Some (b, tm) ->
  exists p0, made (morph_parse M) (morph_tag M) M i b word (u_lower (m_uni M) word) p0 /\
    content p = content p0 /\ (m_prob M = None -> p = p0).
Proof.
  intros M word ps p i b tm St F H Hp Mb Hi. unfold morph_parse, fuel_for, parse_f in H. cbn [analyze fst snd] in H.
  apply bind_ok in H as (r & E & H).
  assert (X : exists p0, In p0 r /\ content p = content p0 /\ (m_prob M = None -> p = p0)).
  { destruct (m_prob M) as [d|].
    - destruct (apply_to_parses_In _ _ _ _ _ H Hp) as (p0 & q & H0 & ->). exists p0. split; auto. split; auto. discriminate.
    - apply Ok_inj in H. subst. exists p. auto. }
  destruct X as (p0 & H0 & Ec & En). exists p0.
  eapply run_parse_made in E as [[]|(j & b' & tm' & N & Md)]; eauto.
  assert (J : Some (Root (0 + j)) = Some (Root i)).
  { rewrite <- (made_by_unit _ _ _ _ _ _ _ _ Md). rewrite <- Mb. unfold made_by. injection Ec as _ _ _ ->. auto. }
  injection J as ->. rewrite N in Hi. injection Hi as -> ->. split; auto.
  eapply made_same; [| |exact Md].
  - intros w Hw. apply (nested_parse M _ word); auto.
  - rewrite Forall_forall in F. apply (F (b, tm)). eapply nth_error_In; eauto.
Qed.

(** ** Hyphenated words *)
Lemma lstrip_suffix : forall f s, exists a, s = a ++ lstrip_by f s /\ forall c, In c a -> f c = true.
Proof.
  induction s as [|c s (a & E & H)]; [exists []; split; [auto|intros ? []]|]. simpl. destruct (f c) eqn:F.
  - exists (c :: a). split; [simpl; congruence|]. intros x [<-|Hx]; auto.
  - exists []. split; [auto|intros ? []].
Qed.
Lemma lstrip_same : forall f s, lstrip_by f s = s <-> (forall c r, s = c :: r -> f c = false).
Proof.
  intros f [|c s]; simpl; split; intros H; auto; try (intros; discriminate).
  - intros c' r E. inversion E; subst. destruct (f c') eqn:F; auto. exfalso.
    destruct (lstrip_suffix f r) as (a & Ea & _). assert (L : length (lstrip_by f r) = length (c' :: r)) by congruence.
    rewrite Ea in L at 2. simpl in L. rewrite app_length in L. lia.
  - rewrite (H c s); auto.
Qed.
Lemma strip_same : forall f s, strip_by f s = s <->
  (forall c r, s = c :: r -> f c = false) /\ (forall c r, s = r ++ [c] -> f c = false).
Proof.
  intros f s. unfold strip_by. split.
  - intros H. assert (L : lstrip_by f s = s).
    { destruct (lstrip_suffix f s) as (a & Ea & _). destruct (lstrip_suffix f (rev (lstrip_by f s))) as (a' & Ea' & _).
      set (x := lstrip_by f s) in *. set (y := lstrip_by f (rev x)) in *.
      assert (L1 : length s = length a + length x) by (rewrite Ea at 1; apply app_length).
      assert (L2 : length x = length a' + length y) by (rewrite <- (rev_length x), Ea' at 1; apply app_length).
      assert (L3 : length y = length s) by (rewrite <- H at 1; rewrite rev_length; auto).
      destruct a; [symmetry; exact Ea|simpl in L1; lia]. }
    split; [apply lstrip_same; exact L|]. rewrite L in H. apply (f_equal (@rev _)) in H. rewrite rev_involutive in H.
    intros c r E. rewrite lstrip_same in H. apply (H c (rev r)). rewrite E, rev_app_distr. auto.
  - intros [A B]. apply lstrip_same in A. rewrite A. replace (lstrip_by f (rev s)) with (rev s); [apply rev_involutive|].
    symmetry. apply lstrip_same. intros c r E. apply (B c (rev r)). rewrite <- (rev_involutive s), E. auto.
Qed.
Lemma filter_none : forall c s, length (filter (N.eqb c) s) = 0 <-> ~ In c s.
Proof.
  intros c s. induction s as [|x s IH]; simpl; [tauto|]. destruct (N.eqb_spec c x); simpl.
  - split; [lia|]. intros H. exfalso. apply H. auto.
  - rewrite IH. split; [intros H [->|H1]; auto|intros H H1; auto].
Qed.
Lemma inner_hyphen : forall w,
  (mem_char HY w && str_eqb (strip_by (N.eqb HY) w) w && (count_char HY (strip_by (N.eqb HY) w) =? 1)) = true <->
  exists l r, one_inner_hyphen w l r.
Proof.
  intros w. rewrite !andb_true_iff, mem_char_In, str_eqb_eq, Nat.eqb_eq. split.
  - intros [[H S] C]. rewrite S in C. apply strip_same in S as [A B].
    apply in_split in H as (l & r & ->). exists l, r.
    unfold count_char in C. rewrite filter_app, app_length in C. simpl in C.
    assert (length (filter (N.eqb HY) l) = 0 /\ length (filter (N.eqb HY) r) = 0) as [Cl Cr] by (unfold char in *; lia).
    apply filter_none in Cl, Cr. split; [auto|]. split; [|split; [|split; auto]].
    + intros ->. specialize (A HY r eq_refl). discriminate.
    + intros ->. specialize (B HY l eq_refl). discriminate.
  - intros (l & r & -> & L & R & Hl & Hr).
    assert (S : strip_by (N.eqb HY) (l ++ u "-" ++ r) = l ++ u "-" ++ r).
    { apply strip_same. split.
      - intros c x E. destruct l as [|a l]; [congruence|]. simpl in E. inversion E; subst. apply N.eqb_neq. intros <-. apply Hl. left; auto.
      - intros c x E. apply N.eqb_neq. intros <-. apply Hr. destruct (exists_last R) as (r' & z & ->).
        rewrite !app_assoc in E. apply app_inj_tail in E as [_ ->]. apply in_app_iff; right; left; auto. }
    rewrite S. split; [split; auto|].
    + apply in_app_iff; right; left; auto.
    + unfold count_char. rewrite !filter_app, !app_length. apply filter_none in Hl, Hr. unfold char, HY in *. cbn [filter u] in *. 
      change (chr "-") with 45%N in *. rewrite Hl, Hr. reflexivity.
Qed.
Lemma is_prefixed_iff : forall ext ps w, ~ In [] ps -> (matcher_is_prefixed ext ps w = true <-> starts_with_any ps w).
Proof.
  intros ext ps w N. unfold matcher_is_prefixed, starts_with_any. destruct ext.
  - unfold dawg_is_prefixed, dawg_prefixes. destruct (filter _ _) as [|p l] eqn:E.
    + split; [discriminate|]. intros (p & rest & Hp & ->). exfalso.
      assert (In p []) as []. rewrite <- E. apply filter_In. split; [|apply smem_In; auto].
      apply nonempty_prefixes_In. split; [intros ->; auto|]. eauto.
    + split; auto. intros _. assert (In p (p :: l)) by (left; auto). rewrite <- E in H. apply filter_In in H as [H1 H2].
      apply nonempty_prefixes_In in H1 as (_ & r & ->). exists p, r. split; auto. apply smem_In; auto.
  - unfold py_is_prefixed. rewrite existsb_exists. split.
    + intros (p & Hp & H). apply prefixb_spec in H as (r & ->). eauto.
    + intros (p & r & Hp & ->). exists p. split; auto. apply prefixb_app.
Qed.
Lemma hyph_should_iff : forall M skip w, ~ In [] skip ->
  (hyph_should_parse M skip w = true <-> (exists l r, one_inner_hyphen w l r) /\ ~ starts_with_any skip w).
Proof.
  intros M skip w N. unfold hyph_should_parse. rewrite andb_true_iff, inner_hyphen, negb_true_iff.
  rewrite <- (is_prefixed_iff (m_ext M)) by auto. rewrite not_true_iff_false. tauto.
Qed.
Lemma split_once_inner : forall w l r, one_inner_hyphen w l r -> split_once HY w = (l, Some r).
Proof.
  intros w l r (-> & L & R & Hl & Hr). clear - Hl. induction l as [|c l IH]; [reflexivity|].
  simpl. destruct (N.eqb_spec c HY) as [->|Hc]; [exfalso; apply Hl; left; auto|]. 
  simpl in IH. rewrite IH; auto. intros H; apply Hl; right; auto.
Qed.

Lemma features_In : forall t g, In g (similarity_features t) <-> feature t g.
Proof.
  intros t g. unfold similarity_features, feature. generalize (sinter_In (t_gr t) FEATURE_GRAMMEMES).
  set (s := sinter (t_gr t) FEATURE_GRAMMEMES). intros S.
  assert (X : In g (replace_grammemes s [(u "gen1", u "gent"); (u "loc1", u "loct")]) <-> exists g0, In g0 s /\ g = merged_case g0).
  { unfold replace_grammemes. cbn [fold_left].
    assert (Y : forall s a b g, In g (if smem a s then sunion (filter (fun x => negb (str_eqb x a)) s) [b] else s) <->
                exists g0, In g0 s /\ g = (if grammeme_dec g0 a then b else g0)).
    { clear. intros s a b g. destruct (smem a s) eqn:E.
      - rewrite sunion_In, filter_In. split.
        + intros [[H1 H2]|[<-|[]]].
          * exists g. split; auto. destruct (grammeme_dec g a); auto. subst. rewrite (proj2 (str_eqb_eq a a)) in H2 by auto. discriminate.
          * exists a. split; [apply smem_In; auto|]. destruct (grammeme_dec a a); congruence.
        + intros (g0 & H1 & ->). destruct (grammeme_dec g0 a); [right; left; auto|]. left. split; auto.
          destruct (str_eqb g0 a) eqn:F; auto. apply str_eqb_eq in F. congruence.
      - split.
        + intros H. exists g. split; auto. destruct (grammeme_dec g a); auto. subst. apply smem_In in H. congruence.
        + intros (g0 & H & ->). destruct (grammeme_dec g0 a); auto. subst. apply smem_In in H. congruence. }
    rewrite Y. split.
    - intros (g1 & H1 & ->). rewrite Y in H1. destruct H1 as (g0 & H0 & ->). exists g0. split; auto. unfold merged_case.
      destruct (grammeme_dec g0 (u "gen1")); [|reflexivity]. destruct (grammeme_dec (u "gent") (u "loc1")) as [E|]; [discriminate E|reflexivity].
    - intros (g0 & H0 & ->). exists (if grammeme_dec g0 (u "gen1") then u "gent" else g0). split; [apply Y; exists g0; auto|].
      unfold merged_case. destruct (grammeme_dec g0 (u "gen1")); [|reflexivity].
      destruct (grammeme_dec (u "gent") (u "loc1")) as [E|]; [discriminate E|reflexivity]. }
  rewrite X. split.
  - intros (g0 & H & E). apply S in H as [H1 H2]. exists g0. auto.
  - intros (g0 & H1 & H2 & E). exists g0. split; auto. apply S. auto.
Qed.
Lemma features_same : forall a b, seq_set (similarity_features a) (similarity_features b) = true <-> same_features a b.
Proof.
  intros a b. rewrite seq_set_iff. unfold same_features. split; intros H g; specialize (H g); rewrite !features_In in *; auto.
Qed.
Lemma has_pos_iff : forall t, tag_is_unknown t = false <-> has_pos t.
Proof.
  intros t. unfold tag_is_unknown, has_pos. destruct (t_gr t) as [|g r].
  - split; [discriminate|intros (g & r & E & _); discriminate].
  - rewrite negb_false_iff. split.
    + intros H. exists g, r. split; auto. apply (proj1 (smem_In _ _) H).
    + intros (g' & r' & E & H). inversion E; subst. apply (proj2 (smem_In _ _) H).
Qed.

Lemma hyph_made : forall recP recT M i b word lower p skip mult, made recP recT M i b word lower p -> b_cfg b = UHyph skip mult ->
  (exists lw rw ls rs l r, hyph_should_parse M skip lower = true /\ split_once HY lower = (lw, Some rw) /\
    recP lw = Ok ls /\ recP rw = Ok rs /\ In l ls /\ In r rs /\
    tag_is_unknown (p_tag l) = false /\ seq_set (similarity_features (p_tag l)) (similarity_features (p_tag r)) = true /\
    p = both_parse (Root i) mult l r) \/
  (exists lw rw rs r, hyph_should_parse M skip lower = true /\ split_once HY lower = (lw, Some rw) /\
    recP rw = Ok rs /\ In r rs /\ tag_is_unknown (p_tag r) = false /\ p = fixed_left_parse (Root i) mult lw r).
Proof.
  intros recP recT M i b word lower p skip mult H C. destruct H; try congruence.
  - destruct H as [H|[H|[H|H]]]; congruence.
  - assert (EE : UHyph skip mult = UHyph skip0 mult0) by congruence. inversion EE; subst. left.
    exists lw, rw, ls, rs, l, r. repeat split; auto.
  - assert (EE : UHyph skip mult = UHyph skip0 mult0) by congruence. inversion EE; subst. right.
    exists lw, rw, rs, r. repeat split; auto.
Qed.

(** HyphenatedWordsAnalyzer.parse returns exactly the hyphen readings *)
Lemma hyph_unit_exact : forall M i b skip mult word lower seen ps seen', b_cfg b = UHyph skip mult -> ~ In [] skip ->
  unit_parse (morph_parse M) (morph_tag M) M i b word lower seen = Ok (ps, seen') ->
  forall p, In p ps <-> ~ starts_with_any skip lower /\ hyphen_reading M (Root i) mult lower p.
Proof.
  intros M i b skip mult word lower seen ps seen' C N H p. unfold unit_parse in H. rewrite C in H. unfold hyph_parse in H.
  destruct (hyph_should_parse M skip lower) eqn:S; simpl in H.
  - apply hyph_should_iff in S as [(l & r & O) NS]; auto. rewrite (split_once_inner _ _ _ O) in H.
    apply bind_ok in H as (ls & E1 & H). apply bind_ok in H as (rs & E2 & H). apply Ok_inj in H. inversion H; subst. clear H.
    rewrite in_app_iff. split.
    + intros H. split; auto. exists l, r, ls, rs. repeat (split; [assumption|]). destruct H as [H|H].
      * left. unfold variable_both in H. apply in_flat_map in H as (a & Ha & H). destruct (tag_is_unknown (p_tag a)) eqn:U; [destruct H|].
        apply in_map_iff in H as (c & <- & H). apply filter_In in H as [Hc F]. exists a, c.
        split; [auto|]. split; [auto|]. split; [apply has_pos_iff; auto|]. split; [apply features_same; auto|reflexivity].
      * right. unfold fixed_left in H. apply in_map_iff in H as (c & <- & H). apply filter_In in H as [Hc F]. apply negb_true_iff in F.
        exists c. split; [auto|]. split; [apply has_pos_iff; auto|reflexivity].
    + intros [_ (l' & r' & ls' & rs' & O' & E1' & E2' & H)].
      pose proof (split_once_inner _ _ _ O) as S1. rewrite (split_once_inner _ _ _ O') in S1. inversion S1; subst l' r'.
      rewrite E1 in E1'. inversion E1'; subst ls'. rewrite E2 in E2'. inversion E2'; subst rs'.
      destruct H as [(a & c & Ha & Hc & P & F & ->)|(c & Hc & P & ->)].
      * left. unfold variable_both. apply in_flat_map. exists a. split; auto. apply has_pos_iff in P. rewrite P.
        apply in_map_iff. exists c. split; auto. apply filter_In. split; auto. apply features_same; auto.
      * right. unfold fixed_left. apply in_map_iff. exists c. split; auto. apply filter_In. split; auto.
        apply has_pos_iff in P. rewrite P. auto.
  - apply Ok_inj in H. inversion H; subst. split; [intros []|]. intros [NS (l & r & ls & rs & O & _)].
    assert (T : hyph_should_parse M skip lower = true) by (apply hyph_should_iff; auto; split; eauto). congruence.
Qed.
Lemma hyph_parse_sound : forall M word ps p i b tm skip mult, lower_stable (m_uni M) ->
  Forall (fun bt => prefixes_nonempty (fst bt)) (m_units M) -> ~ In [] skip ->
  morph_parse M word = Ok ps -> In p ps -> made_by p = Some (Root i) -> nth_error (m_units M) i = Some (b, tm) ->
  b_cfg b = UHyph skip mult -> 
  ~ starts_with_any skip (u_lower (m_uni M) word) /\
  exists p0, content p = content p0 /\ (m_prob M = None -> p = p0) /\ exists l r, one_inner_hyphen (u_lower (m_uni M) word) l r /\
    ((exists ls rs a c, morph_parse M l = Ok ls /\ morph_parse M r = Ok rs /\ In a ls /\ In c rs /\ has_pos (p_tag a) /\ same_features (p_tag a) (p_tag c) /\
        p0 = {| p_word := p_word a ++ u "-" ++ p_word c; p_tag := p_tag a; p_nf := p_nf a ++ u "-" ++ p_nf c;
               p_score := p_score a * mult; p_stack := [MHyphBoth (Root i) (p_stack a) (p_stack c)] |}) \/
     (exists rs c, morph_parse M r = Ok rs /\ In c rs /\ has_pos (p_tag c) /\
        p0 = {| p_word := l ++ u "-" ++ p_word c; p_tag := p_tag c; p_nf := l ++ u "-" ++ p_nf c;
               p_score := p_score c * mult; p_stack := [MHyphFixed (Root i) l (p_stack c)] |})).
Proof.
  intros M word ps p i b tm skip mult St F N H Hp Mb Hi C.
  destruct (parse_by_unit _ _ _ _ _ _ _ St F H Hp Mb Hi) as (p0 & Md & Ec & Ep).
  destruct (hyph_made _ _ _ _ _ _ _ _ _ _ Md C) as [(lw & rw & ls & rs & l & r & S & Sp & E1 & E2 & I1 & I2 & U & Fe & ->)|(lw & rw & rs & r & S & Sp & E2 & I2 & U & ->)].
  - apply hyph_should_iff in S as [(l' & r' & O) NS]; auto. rewrite (split_once_inner _ _ _ O) in Sp. inversion Sp; subst lw rw.
    split; auto. eexists. split; [exact Ec|]. split; [exact Ep|]. exists l', r'. split; auto. left. exists ls, rs, l, r.
    split; [auto|]. split; [auto|]. split; [auto|]. split; [auto|]. split; [apply has_pos_iff; auto|]. split; [apply features_same; auto|reflexivity].
  - apply hyph_should_iff in S as [(l' & r' & O) NS]; auto. rewrite (split_once_inner _ _ _ O) in Sp. inversion Sp; subst lw rw.
    split; auto. eexists. split; [exact Ec|]. split; [exact Ep|]. exists l', r'. split; auto. right. exists rs, r.
    split; [auto|]. split; [auto|]. split; [apply has_pos_iff; auto|reflexivity].
Qed.

(** ** Unknown prefixes *)
Lemma up_sound : forall M word ps p i b tm mult, lower_stable (m_uni M) ->
  Forall (fun bt => prefixes_nonempty (fst bt)) (m_units M) ->
  morph_parse M word = Ok ps -> In p ps -> made_by p = Some (Root i) -> nth_error (m_units M) i = Some (b, tm) ->
  b_cfg b = UUnknownPrefix mult ->
  exists prefix rest w para idx, u_lower (m_uni M) word = prefix ++ rest /\ 1 <= length prefix <= 5 /\ 3 <= length rest /\
    subst_of (m_subst M) rest w /\ (exists vals, In (w, vals) (d_words (m_dict M)) /\ In (para, idx) vals) /\
    p_word p = prefix ++ w /\ (forall g, In g (t_gr (p_tag p)) -> ~ In g NON_PRODUCTIVE) /\
    p_stack p = [MDict (Sub i) w para idx; MStr (Root i) prefix].
Proof.
  intros M word ps p i b tm mult St F H Hp Mb Hi C.
  destruct (parse_by_unit _ _ _ _ _ _ _ St F H Hp Mb Hi) as (p0 & Md & Ec & _). injection Ec as E1 E2 E3 E4.
  destruct Md; try congruence; [destruct H0 as [H0|[H0|[H0|H0]]]; congruence|].
  destruct H2 as (w & vals & para & idx & nf & t & Hw & Hv & Hpi & _ & _ & ->). apply word_splits_In in H1 as (E & L1 & L2).
  exists prefix, rest, w, para, idx. cbn [prefixed p_word p_tag p_nf p_stack] in *.
  split; [auto|]. split; [auto|]. split; [auto|]. split; [apply variants_spec; auto|]. split; [exists vals; split; auto; apply sget_In; auto|].
  split; [auto|]. split; [rewrite E2; apply is_productive_spec; auto|auto].
Qed.

(** ** Particles *)
Definition no_suffixb (ps : list str) : bool := forallb (fun a => forallb (fun b => str_eqb a b || negb (suffixb a b)) ps) ps.
Lemma app_suffix : forall (a b pa pb : str), a ++ pa = b ++ pb -> length pa <= length pb -> exists r, pb = r ++ pa.
Proof.
  intros a b pa pb E L. exists (firstn (length pb - length pa) pb).
  assert (X : skipn (length a - length b) pb = pa).
  { assert (Lab : length b <= length a) by (apply (f_equal (@length _)) in E; rewrite !app_length in E; lia).
    apply (f_equal (skipn (length a))) in E. rewrite skipn_app_exact in E. rewrite E. rewrite skipn_app.
    rewrite (skipn_all2 b) by lia. auto. }
  assert (L2 : length a - length b = length pb - length pa) by (apply (f_equal (@length _)) in E; rewrite !app_length in E; lia).
  rewrite <- L2. rewrite <- (firstn_skipn (length a - length b) pb) at 1. rewrite X. auto.
Qed.
Lemma no_suffixb_ok : forall ps, no_suffixb ps = true -> at_most_one_ending ps.
Proof.
  intros ps H a b pa pb Ha Hb E. unfold no_suffixb in H. rewrite forallb_forall in H.
  assert (K : forall x y, In x ps -> In y ps -> suffixb x y = true -> x = y).
  { intros x y Hx Hy S. specialize (H x Hx). rewrite forallb_forall in H. specialize (H y Hy). rewrite S in H.
    rewrite orb_false_r in H. apply str_eqb_eq in H. auto. }
  destruct (Nat.le_ge_cases (length pa) (length pb)).
  - destruct (app_suffix a b pa pb E) as (r & ->); auto. apply K; auto. apply suffixb_spec. eauto.
  - destruct (app_suffix b a pb pa (eq_sym E)) as (r & ->); auto. symmetry. apply K; auto. apply suffixb_spec. eauto.
Qed.
Lemma shipped_particles : at_most_one_ending RU_PARTICLES /\ at_most_one_ending UK_PARTICLES.
Proof. split; apply no_suffixb_ok; vm_compute; reflexivity. Qed.

Lemma particle_splits_iff : forall particles lower w pt, ~ In [] particles -> (In (w, pt) (particle_splits particles lower) <->
  In pt particles /\ In (chr "-") lower /\ lower = w ++ pt /\ w <> []).
Proof.
  intros particles lower w pt N. split.
  - intros H. apply particle_splits_In in H as (H1 & H2 & H3 & H4 & H5). destruct (split_particle _ _ _ H3 H4 H5) as [E _]. auto.
  - intros (H1 & H2 & -> & H4). unfold particle_splits. change (chr "-") with HY in H2. rewrite (proj2 (mem_char_In _ _) H2). apply filter_In. split.
    + apply in_map_iff. exists pt. split; [f_equal; apply slice_to_app; intros ->; auto|]. apply filter_In. split; auto. apply suffixb_spec. eauto.
    + destruct w; auto.
Qed.
Lemma reattached_suffixed : forall self mult e q, reattached self mult e q (suffixed self mult e q).
Proof. intros. unfold reattached, suffixed. simpl. auto. Qed.

Lemma particle_unit_exact : forall M i b particles mult word lower seen ps seen', b_cfg b = UParticle particles mult ->
  ~ In [] particles -> at_most_one_ending particles ->
  unit_parse (morph_parse M) (morph_tag M) M i b word lower seen = Ok (ps, seen') ->
  (~ (exists w pt, In pt particles /\ In (chr "-") lower /\ lower = w ++ pt /\ w <> []) -> ps = []) /\
  (forall w pt, In pt particles -> In (chr "-") lower -> lower = w ++ pt -> w <> [] ->
     exists qs, morph_parse M w = Ok qs /\
       (forall p, In p ps -> exists q, In q qs /\ reattached (Root i) mult pt q p) /\
       (seen = [] -> forall q, In q qs -> exists p, In p ps /\ p_word p = p_word q ++ pt /\ t_gr (p_tag p) = t_gr (p_tag q))).
Proof.
  intros M i b particles mult word lower seen ps seen' C N One H. unfold unit_parse in H. rewrite C in H. unfold particle_parse in H.
  destruct (particle_splits particles lower) as [|[w0 pt0] rest] eqn:E.
  - apply Ok_inj in H. inversion H; subst. split; auto. intros w pt H1 H2 H3 H4. exfalso.
    pose proof (proj2 (particle_splits_iff particles lower w pt N) (conj H1 (conj H2 (conj H3 H4)))) as I. rewrite E in I. destruct I.
  - assert (I : In (w0, pt0) (particle_splits particles lower)) by (rewrite E; left; auto).
    apply particle_splits_iff in I as (I1 & I2 & I3 & I4); auto.
    split; [intros K; exfalso; apply K; exists w0, pt0; auto|]. intros w pt H1 H2 H3 H4.
    assert (pt = pt0) by (apply (One w w0); congruence). subst pt0.
    assert (w = w0) by (rewrite I3 in H3; apply app_inv_tail in H3; auto). subst w0.
    apply bind_ok in H as (qs & Eq & H). exists qs. split; auto. apply Ok_inj in H.
    apply add_parses_spec in H as (new & -> & -> & A & B). split.
    + intros p Hp. apply A in Hp. apply in_map_iff in Hp as (q & <- & Hq). exists q. split; auto. apply reattached_suffixed.
    + intros -> q Hq. destruct (B (suffixed (Root i) mult pt q)) as [Hn|Hs]; [apply in_map; auto|exists (suffixed (Root i) mult pt q); auto|].
      rewrite app_nil_r in Hs. unfold seen_mem in Hs. apply existsb_exists in Hs as (k & Hk & Ek).
      apply in_rev in Hk. apply in_map_iff in Hk as (p & <- & Hp). exists p. split; auto. unfold key_of in Ek. simpl in Ek.
      apply andb_true_iff in Ek as [Ek _]. apply andb_true_iff in Ek as [Ew Et]. apply str_eqb_eq in Ew. split; [auto|].
      symmetry. apply tag_eqb_iff. auto.
Qed.
Lemma particle_sound : forall M word ps p i b tm particles mult, lower_stable (m_uni M) ->
  Forall (fun bt => prefixes_nonempty (fst bt)) (m_units M) ->
  morph_parse M word = Ok ps -> In p ps -> made_by p = Some (Root i) -> nth_error (m_units M) i = Some (b, tm) ->
  b_cfg b = UParticle particles mult ->
  exists w pt qs q p0, u_lower (m_uni M) word = w ++ pt /\ In pt particles /\ In (chr "-") (w ++ pt) /\ w <> [] /\
    morph_parse M w = Ok qs /\ In q qs /\ reattached (Root i) mult pt q p0 /\ content p = content p0 /\ (m_prob M = None -> p = p0).
Proof.
  intros M word ps p i b tm particles mult St F H Hp Mb Hi C.
  destruct (parse_by_unit _ _ _ _ _ _ _ St F H Hp Mb Hi) as (p0 & Md & Ec & Ep).
  destruct Md; try congruence; [destruct H0 as [H0|[H0|[H0|H0]]]; congruence|].
  assert (EE : UParticle particles mult = UParticle particles0 mult0) by congruence. inversion EE; subst particles0 mult0.
  destruct (split_particle _ _ _ H3 H4 H5) as [E _].
  exists w, particle, ps0, p0, (suffixed (Root i) mult particle p0). rewrite <- E. split; [reflexivity|]. repeat (split; [assumption|]).
  split; [apply reattached_suffixed|auto].
Qed.

(** ** The optional C extension *)
Lemma sorted_unique : forall {A} (R : A -> A -> Prop) l1 l2, StronglySorted R l1 -> StronglySorted R l2 -> Permutation l1 l2 ->
  (forall x y, In x l1 -> In y l1 -> R x y -> R y x -> x = y) -> l1 = l2.
Proof.
  intros A R l1. induction l1 as [|x l1 IH]; intros l2 S1 S2 P An.
  - apply Permutation_nil in P. auto.
  - destruct l2 as [|y l2]; [apply Permutation_sym, Permutation_nil in P; discriminate|].
    inversion S1; subst. inversion S2; subst. rewrite Forall_forall in H2, H4.
    assert (x = y).
    { assert (Hx : In x (y :: l2)) by (eapply Permutation_in; [exact P|left; auto]).
      assert (Hy : In y (x :: l1)) by (eapply Permutation_in; [apply Permutation_sym; exact P|left; auto]).
      destruct Hx as [->|Hx]; auto. destruct Hy as [->|Hy]; auto. apply An; simpl; auto. }
    subst y. f_equal. apply IH; auto.
    + eapply Permutation_cons_inv; eauto.
    + intros a c Ha Hc. apply An; right; auto.
Qed.
Lemma prefix_len : forall (a b r s : str), a ++ r = b ++ s -> length a = length b -> a = b.
Proof. intros a b r s E L. apply (f_equal (firstn (length a))) in E. rewrite firstn_app_exact in E. rewrite L, firstn_app_exact in E. auto. Qed.
Lemma nonempty_prefixes_NoDup : forall s, NoDup (nonempty_prefixes s).
Proof.
  induction s as [|c s IH]; simpl; constructor.
  - intros H. apply in_map_iff in H as (p & E & H). apply nonempty_prefixes_In in H as [N _]. inversion E; subst. auto.
  - apply FinFun.Injective_map_NoDup; auto. intros x y E. inversion E; auto.
Qed.
Lemma matchers_perm : forall ps w, NoDup ps -> ~ In [] ps -> Permutation (dawg_prefixes ps w) (py_prefixes ps w).
Proof.
  intros ps w ND N.
  assert (Py : forall p, In p (py_prefixes ps w) <-> In p ps /\ exists r, w = p ++ r).
  { intros p. unfold py_prefixes. destruct (py_is_prefixed ps w) eqn:E.
    - rewrite filter_In, prefixb_spec. tauto.
    - split; [intros []|]. intros [Hp Hr]. unfold py_is_prefixed in E. apply prefixb_spec in Hr.
      assert (existsb (fun q => prefixb q w) ps = true) by (apply existsb_exists; eauto). congruence. }
  apply Permutation.NoDup_Permutation.
  - apply NoDup_filter, nonempty_prefixes_NoDup.
  - unfold py_prefixes. destruct (py_is_prefixed ps w); [apply NoDup_filter; auto|constructor].
  - intros p. rewrite Py. unfold dawg_prefixes. rewrite filter_In, nonempty_prefixes_In, smem_In.
    split; [tauto|]. intros [Hp Hr]. split; auto. split; auto. intros ->; auto.
Qed.
Lemma kp_splits_ext : forall M prefixes minrem w, NoDup prefixes -> ~ In [] prefixes ->
  kp_splits (other_ext M) prefixes minrem w = kp_splits M prefixes minrem w.
Proof.
  intros M prefixes minrem w ND N. unfold kp_splits. f_equal. f_equal.
  assert (X : sort_desc len_geb (dawg_prefixes prefixes w) = sort_desc len_geb (py_prefixes prefixes w)).
  { assert (T : forall a b c, len_geb a b = true -> len_geb b c = true -> len_geb a c = true).
    { unfold len_geb. intros a b c H H'. apply Nat.leb_le in H, H'. apply Nat.leb_le. lia. }
    assert (Tot : forall a b, len_geb a b = false -> len_geb b a = true).
    { unfold len_geb. intros a b H. apply Nat.leb_gt in H. apply Nat.leb_le. lia. }
    apply (sorted_unique (fun a b => len_geb a b = true)); [exact (sort_desc_sorted len_geb Tot T _)|exact (sort_desc_sorted len_geb Tot T _)| |].
    - eapply perm_trans; [apply Permutation_sym, sort_desc_perm|]. eapply perm_trans; [apply matchers_perm; auto|apply sort_desc_perm].
    - intros x y Hx Hy L1 L2. unfold len_geb in L1, L2. apply Nat.leb_le in L1, L2.
      assert (K : forall z, In z (sort_desc len_geb (dawg_prefixes prefixes w)) -> exists r, w = z ++ r).
      { intros z Hz. eapply Permutation_in in Hz; [|apply Permutation_sym, sort_desc_perm]. apply filter_In in Hz as [Hz _].
        apply nonempty_prefixes_In in Hz as [_ Hz]. auto. }
      destruct (K x Hx) as (r & Er), (K y Hy) as (s & Es). apply (prefix_len x y r s); [congruence|lia]. }
  cbn [m_ext other_ext]. destruct (m_ext M); simpl; auto.
Qed.
Lemma hyph_should_ext : forall M skip w, ~ In [] skip -> hyph_should_parse (other_ext M) skip w = hyph_should_parse M skip w.
Proof.
  intros M skip w N. unfold hyph_should_parse. f_equal. f_equal. apply eq_true_iff_eq.
  rewrite !is_prefixed_iff by auto. tauto.
Qed.
Lemma ks_lengths_ext : forall M self sub pid dawg lower is st,
  ks_lengths (other_ext M) self sub pid dawg lower st is = ks_lengths M self sub pid dawg lower st is.
Proof.
  induction is as [|i is IH]; intros st; [reflexivity|]. cbn [ks_lengths].
  change (ks_at (other_ext M) self sub pid dawg lower st i) with (ks_at M self sub pid dawg lower st i).
  destruct (ks_at M self sub pid dawg lower st i); simpl; auto. rewrite IH. auto.
Qed.
Lemma kst_lengths_ext : forall M dawg lower is st, kst_lengths (other_ext M) dawg lower st is = kst_lengths M dawg lower st is.
Proof.
  induction is as [|i is IH]; intros st; [reflexivity|]. cbn [kst_lengths].
  change (kst_at (other_ext M) dawg lower st i) with (kst_at M dawg lower st i).
  destruct (kst_at M dawg lower st i); simpl; auto. rewrite IH. auto.
Qed.
Lemma ks_parse_other : forall M self sub mult minlen word lower seen,
  ks_parse (other_ext M) self sub mult minlen word lower seen = ks_parse M self sub mult minlen word lower seen.
Proof.
  intros. unfold ks_parse. destruct (_ <? _); auto.
  replace (foldM (ks_prefix (other_ext M) self sub mult lower) ([], seen) (ks_prefixes (m_dict (other_ext M)) lower))
    with (foldM (ks_prefix M self sub mult lower) ([], seen) (ks_prefixes (m_dict M) lower)); auto.
  apply foldM_ext. intros st [pid pre] _. unfold ks_prefix. cbn [m_dict other_ext].
  destruct (nth_res (d_pred (m_dict M)) pid); simpl; auto. rewrite ks_lengths_ext. auto.
Qed.
Lemma ks_tag_other : forall M minlen word lower seen,
  ks_tag (other_ext M) minlen word lower seen = ks_tag M minlen word lower seen.
Proof.
  intros. unfold ks_tag. destruct (_ <? _); auto.
  replace (foldM (kst_prefix (other_ext M) lower) {| kt_res := []; kt_seen := seen; kt_found := false |} (ks_prefixes (m_dict (other_ext M)) lower))
    with (foldM (kst_prefix M lower) {| kt_res := []; kt_seen := seen; kt_found := false |} (ks_prefixes (m_dict M) lower)); auto.
  apply foldM_ext. intros st [pid pre] _. unfold kst_prefix. cbn [m_dict other_ext].
  destruct (nth_res (d_pred (m_dict M)) _); simpl; auto. rewrite kst_lengths_ext. auto.
Qed.
Lemma unit_ext : forall recP recT M i b word lower, proper_prefixes (b_cfg b) ->
  (forall seen, unit_parse recP recT (other_ext M) i b word lower seen = unit_parse recP recT M i b word lower seen) /\
  (forall seen, unit_tag recP recT (other_ext M) i b word lower seen = unit_tag recP recT M i b word lower seen).
Proof.
  intros recP recT M i b word lower P. unfold unit_parse, unit_tag, proper_prefixes in *.
  destruct (b_cfg b); try (split; reflexivity).
  - split; intros seen; unfold hyph_parse; rewrite hyph_should_ext by tauto; reflexivity.
  - split; intros seen; unfold kp_parse, kp_tag; rewrite kp_splits_ext by tauto; reflexivity.
  - split; intros seen; [rewrite ks_parse_other|rewrite ks_tag_other]; reflexivity.
Qed.
Lemma run_ext : forall recP recT M word lower us, Forall (fun bt => proper_prefixes (b_cfg (fst bt))) us -> forall i,
  (forall acc seen, run_parse recP recT (other_ext M) word lower i us acc seen = run_parse recP recT M word lower i us acc seen) /\
  (forall acc seen, run_tag recP recT (other_ext M) word lower i us acc seen = run_tag recP recT M word lower i us acc seen).
Proof.
  intros recP recT M word lower us F. induction F as [|[b tm] us P F IH]; intros i; [split; reflexivity|].
  destruct (unit_ext recP recT M i b word lower P) as [A B]. destruct (IH (S i)) as [C D].
  split; intros acc seen; cbn [run_parse run_tag].
  - rewrite A. destruct (unit_parse recP recT M i b word lower seen) as [[ps s]|]; simpl; auto. rewrite C. auto.
  - rewrite B. destruct (unit_tag recP recT M i b word lower seen) as [[ps s]|]; simpl; auto. rewrite D. auto.
Qed.
Lemma unit_rec_ext : forall recP recP' recT recT' M i b word lower, (forall w, recP w = recP' w) -> (forall w, recT w = recT' w) ->
  (forall seen, unit_parse recP recT M i b word lower seen = unit_parse recP' recT' M i b word lower seen) /\
  (forall seen, unit_tag recP recT M i b word lower seen = unit_tag recP' recT' M i b word lower seen).
Proof.
  intros recP recP' recT recT' M i b word lower HP HT.
  assert (A : adverb_should_parse recT M lower = adverb_should_parse recT' M lower) by (unfold adverb_should_parse; rewrite HT; reflexivity).
  assert (Hh : forall skip mult seen, hyph_parse recP M (Root i) skip mult lower seen = hyph_parse recP' M (Root i) skip mult lower seen).
  { intros. unfold hyph_parse. destruct (negb _); auto. destruct (split_once HY lower) as [lw [rw|]]; auto. rewrite !HP. auto. }
  split; intros seen; unfold unit_parse, unit_tag; destruct (b_cfg b); auto.
  - unfold particle_parse. destruct (particle_splits particles lower) as [|[w pt] r]; auto. rewrite HP. auto.
  - rewrite A. auto.
  - unfold kp_parse. apply foldM_ext. intros st [prefix rest] _. rewrite HP. auto.
  - unfold particle_tag. destruct (particle_splits particles lower) as [|[w pt] r]; auto. rewrite HT. auto.
  - rewrite A. auto.
  - rewrite Hh. auto.
  - unfold kp_tag. apply foldM_ext. intros st [prefix rest] _. rewrite HT. auto.
Qed.
Lemma run_rec_ext : forall recP recP' recT recT' M word lower, (forall w, recP w = recP' w) -> (forall w, recT w = recT' w) -> forall us i,
  (forall acc seen, run_parse recP recT M word lower i us acc seen = run_parse recP' recT' M word lower i us acc seen) /\
  (forall acc seen, run_tag recP recT M word lower i us acc seen = run_tag recP' recT' M word lower i us acc seen).
Proof.
  intros recP recP' recT recT' M word lower HP HT us. induction us as [|[b tm] us IH]; intros i; [split; reflexivity|].
  destruct (unit_rec_ext recP recP' recT recT' M i b word lower HP HT) as [A B]. destruct (IH (S i)) as [C D].
  split; intros acc seen; cbn [run_parse run_tag].
  - rewrite A. destruct (unit_parse recP' recT' M i b word lower seen) as [[ps s]|]; simpl; auto. rewrite C. auto.
  - rewrite B. destruct (unit_tag recP' recT' M i b word lower seen) as [[ps s]|]; simpl; auto. rewrite D. auto.
Qed.
Lemma analyze_ext : forall M, Forall (fun bt => proper_prefixes (b_cfg (fst bt))) (m_units M) -> forall n word,
  parse_f n (other_ext M) word = parse_f n M word /\ tag_f n (other_ext M) word = tag_f n M word.
Proof.
  intros M F n. unfold parse_f, tag_f. induction n as [|n IH]; intros word; [split; reflexivity|]. cbn [analyze fst snd].
  cbn [m_uni m_units m_prob other_ext].
  assert (HP : forall w, fst (analyze n (other_ext M)) w = fst (analyze n M) w) by (intros; apply IH).
  assert (HT : forall w, snd (analyze n (other_ext M)) w = snd (analyze n M) w) by (intros; apply IH).
  destruct (run_rec_ext _ _ _ _ (other_ext M) word (u_lower (m_uni M) word) HP HT (m_units M) 0) as [A B].
  destruct (run_ext (fst (analyze n M)) (snd (analyze n M)) M word (u_lower (m_uni M) word) (m_units M) F 0) as [C D].
  rewrite A, B, C, D. auto.
Qed.
Lemma ext_same : forall M word, Forall (fun bt => proper_prefixes (b_cfg (fst bt))) (m_units M) ->
  morph_parse (other_ext M) word = morph_parse M word /\ morph_tag (other_ext M) word = morph_tag M word.
Proof. intros M word F. apply (analyze_ext M F (fuel_for M word) word). Qed.

(** ** Iteration over known words *)
Lemma iter_items : forall M prefix l, iter_known_word_parses M prefix = Ok l ->
  map (fun p => (p_word p, p_stack p)) l =
  flat_map (fun wv : str * list (nat * nat) => map (fun v => (fst wv, [MDict (Root 0) (fst wv) (fst v) (snd v)])) (snd wv))
           (filter (fun wv => prefixb prefix (fst wv)) (d_words (m_dict M))).
Proof.
  intros M prefix l H. unfold iter_known_word_parses in H. apply bind_ok in H as (r & E & H). apply Ok_inj in H. subst l.
  rewrite map_map. unfold iter_known_words in E.
  assert (X : map (fun x : str * tag * str * nat * nat => let '(w, t, nf, para, idx) := x in (w, [MDict (Root 0) w para idx])) r =
    map (fun wv : str * (nat * nat) => (fst wv, [MDict (Root 0) (fst wv) (fst (snd wv)) (snd (snd wv))])) (iteritems (d_words (m_dict M)) prefix)).
  { revert r E. induction (iteritems (d_words (m_dict M)) prefix) as [|[w [para idx]] items IH]; intros r E; simpl in E.
    - apply Ok_inj in E. subst. auto.
    - apply bind_ok in E as (x & E1 & E). apply bind_ok in E as (y & E2 & E). apply Ok_inj in E. subst.
      apply bind_ok in E1 as (t & _ & E1). apply bind_ok in E1 as (nf & _ & E1). apply Ok_inj in E1. subst. simpl. f_equal. apply IH; auto. }
  rewrite <- (map_ext (fun x : str * tag * str * nat * nat => let '(w, t, nf, para, idx) := x in (w, [MDict (Root 0) w para idx]))).
  2:{ intros [[[[w t] nf] para] idx]. reflexivity. }
  rewrite X. unfold iteritems. clear. induction (d_words (m_dict M)) as [|[w vals] ws IH]; auto. simpl.
  destruct (prefixb prefix w); simpl; rewrite ?map_app, IH; auto. f_equal. rewrite map_map. reflexivity.
Qed.
Lemma iter_known : forall M prefix, wf_dict (m_dict M) -> consistent_dict (m_dict M) ->
  exists ps, iter_known_word_parses M prefix = Ok ps /\
    (map (fun p => (p_word p, p_stack p)) ps =
     flat_map (fun wv : str * list (nat * nat) => map (fun v => (fst wv, [MDict (Root 0) (fst wv) (fst v) (snd v)])) (snd wv))
              (filter (fun wv => prefixb prefix (fst wv)) (d_words (m_dict M)))) /\
    (forall p, In p ps -> exists para idx pre sf,
       p_stack p = [MDict (Root 0) (p_word p) para idx] /\ p_score p = 1%Q /\ (exists rest, p_word p = prefix ++ rest) /\
       (exists vals, In (p_word p, vals) (d_words (m_dict M)) /\ In (para, idx) vals) /\
       para_row (m_dict M) para idx pre (p_tag p) sf /\ normal_form_of (m_dict M) para idx (p_word p) (p_nf p)).
Proof.
  intros M prefix W Co.
  assert (T : tot (iter_known_words (m_dict M) prefix)).
  { unfold iter_known_words. apply tot_mapM. intros [w [para idx]] H. unfold iteritems in H. apply in_flat_map in H as ([w' vals] & H1 & H).
    simpl in H. destruct (prefixb prefix w'); [|destruct H]. apply in_map_iff in H as (v & E & H). inversion E; subst.
    destruct W as (W1 & W2 & W3 & W4). pose proof (W2 _ _ _ _ H1 H) as V.
    assert (WW : wf_dict (m_dict M)) by (split; [auto|split; [auto|split; auto]]).
    destruct (tot_tag_info _ WW _ _ V) as (t & -> & _). cbn [bind]. destruct (tot_normal_form _ WW _ _ w V) as (nf & ->). apply tot_ok. }
  destruct T as (r & E).
  assert (H : exists ps, iter_known_word_parses M prefix = Ok ps) by (unfold iter_known_word_parses; rewrite E; cbn [bind]; eauto).
  destruct H as (ps & H). exists ps. split; auto. split; [apply iter_items; auto|]. intros p Hp.
  unfold iter_known_word_parses in H. rewrite E in H. cbn [bind] in H. apply Ok_inj in H. subst ps.
  apply in_map_iff in Hp as ([[[[w t] nf] para] idx] & <- & Hx). unfold iter_known_words in E.
  eapply mapM_In in E as ([w' [para' idx']] & Hi & E); [|exact Hx]. simpl in E.
  apply bind_ok in E as (t' & E1 & E). apply bind_ok in E as (nf' & E2 & E). apply Ok_inj in E. inversion E; subst. clear E.
  unfold iteritems in Hi. apply in_flat_map in Hi as ([w' vals] & H1 & Hi). simpl in Hi.
  destruct (prefixb prefix w') eqn:Pf; [|destruct Hi]. apply in_map_iff in Hi as (v & Ev & Hv). inversion Ev; subst. clear Ev.
  destruct (Co _ _ _ _ H1 Hv) as (pre & t0 & sf & stem & R & Ew). rewrite (para_row_tag _ _ _ _ _ _ R) in E1. apply Ok_inj in E1. subst t0.
  destruct (row0 _ _ _ _ _ _ W R) as (pre0 & t0 & sf0 & R0).
  exists para, idx, pre, sf. cbn [p_stack p_word p_score p_tag p_nf].
  split; [auto|]. split; [auto|]. split; [apply prefixb_spec in Pf; auto|]. split; [eauto|]. split; [auto|].
  subst w. rewrite (row_nf_app _ _ _ _ _ _ _ _ _ stem R R0) in E2. apply Ok_inj in E2. subst nf.
  exists pre, t, sf, pre0, t0, sf0, stem. auto.
Qed.
(** ... and dictionary lookup of the word finds it *)
Lemma run_parse_keeps : forall recP recT M word lower us i acc seen r p,
  run_parse recP recT M word lower i us acc seen = Ok r -> In p acc -> In p r.
Proof.
  intros recP recT M word lower; induction us as [|[b tm] us IH]; intros i acc seen r p H Hp; simpl in H.
  - apply Ok_inj in H. subst; auto.
  - apply bind_ok in H as ([ps s] & _ & H). destruct (tm && _).
    + apply Ok_inj in H. subst. apply in_app_iff; auto.
    + eapply IH; eauto. apply in_app_iff; auto.
Qed.
Lemma sget_nodup : forall {V} (d : list (str * V)) k v, NoDup (map fst d) -> In (k, v) d -> sget k d = Some v.
Proof.
  intros V d k v ND H. unfold sget. induction d as [|[k' v'] d IH]; [destruct H|]. simpl in *. inversion ND; subst.
  destruct H as [H|H].
  - inversion H; subst. rewrite (proj2 (str_eqb_eq k k) eq_refl). auto.
  - destruct (str_eqb k k') eqn:E; [|auto]. apply str_eqb_eq in E. subst k'. exfalso. apply H2. apply in_map_iff. exists (k, v). auto.
Qed.
Lemma iter_parsed : forall M prefix ps p qs b tm us, iter_known_word_parses M prefix = Ok ps -> In p ps ->
  NoDup (map fst (d_words (m_dict M))) -> m_units M = (b, tm) :: us -> b_cfg b = UDict -> m_prob M = None ->
  u_lower (m_uni M) (p_word p) = p_word p -> morph_parse M (p_word p) = Ok qs -> In p qs.
Proof.
  intros M prefix ps p qs b tm us H Hp ND Hu C Pr Lo Hq. unfold morph_parse, fuel_for, parse_f in Hq. cbn [analyze fst] in Hq.
  apply bind_ok in Hq as (r & E & Hq). rewrite Pr in Hq. apply Ok_inj in Hq. subst qs. rewrite Lo, Hu in E. cbn [run_parse] in E.
  apply bind_ok in E as ([ds s] & E1 & E). unfold unit_parse in E1. rewrite C in E1. apply bind_ok in E1 as (ds' & E1 & E2). apply Ok_inj in E2. inversion E2; subst ds' s. clear E2.
  assert (I : In p ds).
  { unfold iter_known_word_parses in H. apply bind_ok in H as (l & El & H). apply Ok_inj in H. subst ps.
    apply in_map_iff in Hp as ([[[[w t] nf] para] idx] & <- & Hx). unfold iter_known_words in El.
    eapply mapM_In in El as ([w' [para' idx']] & Hi & El); [|exact Hx]. simpl in El.
    apply bind_ok in El as (t' & T1 & El). apply bind_ok in El as (nf' & T2 & El). apply Ok_inj in El. inversion El; subst. clear El.
    unfold iteritems in Hi. apply in_flat_map in Hi as ([w' vals] & H1 & Hi). simpl in Hi.
    destruct (prefixb prefix w') eqn:Pf; [|destruct Hi]. apply in_map_iff in Hi as (v & Ev & Hv). inversion Ev; subst. clear Ev.
    cbn [p_word] in *. assert (V : In w (variants (m_subst M) w)) by (left; auto).
    destruct (dict_parse_complete _ _ _ _ _ _ _ _ E1 V (sget_nodup _ _ _ ND H1) Hv) as (nf' & t' & A & B & I).
    rewrite A in T2. rewrite B in T1. apply Ok_inj in T1, T2. subst. exact I. }
  cbn [app] in E. destruct (tm && _); [apply Ok_inj in E; subst; auto|eapply run_parse_keeps; eauto].
Qed.
