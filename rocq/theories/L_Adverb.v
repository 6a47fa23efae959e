(** * Lemmas for C84 *)
From Coq Require Import String List NArith ZArith Bool QArith Lia.
From Verif Require Import Py Uni Tagset Dawg Utils Shapes Dict Units Analyzer ConfigRu ConfigUk Compile Spec Spec2 Spec14 Spec34.
From Verif Require Import L_Base L_Run L_Agree L_Tagset L_Text L_Words L_Made L_Config L_Units L_Case L_Reinit L_Groups L_Prob L_ByUnit.
Import ListNotations.
Local Open Scope nat_scope.
Local Open Scope list_scope.

Lemma ssub_iff : forall a b, ssub a b = true <-> forall g, In g a -> In g b.
Proof.
  intros a b. unfold ssub. rewrite forallb_forall. split; intros H g I; [apply smem_In; apply H; exact I|apply smem_In; apply H; exact I].
Qed.
Lemma any_known : forall C gs ts, (forall g, In g gs -> In g (tc_known C)) ->
  exists r, any_contains C gs ts = Ok r /\ (r = true <-> exists t, In t ts /\ forall g, In g gs -> In g (t_gr t)).
Proof.
  intros C gs ts K. induction ts as [|t ts (r & E & H)]; cbn [any_contains].
  - exists false. split; [reflexivity|]. split; [discriminate|]. intros (t & [] & _).
  - rewrite (known_contains_set C gs t K). cbn [bind]. destruct (ssub gs (t_gr t)) eqn:S.
    + exists true. split; [reflexivity|]. split; [|reflexivity]. intros _. exists t. split; [left; reflexivity|]. apply ssub_iff. exact S.
    + exists r. split; [exact E|]. rewrite H. split.
      * intros (x & I & G). exists x. split; [right; exact I|exact G].
      * intros (x & [<-|I] & G); [apply ssub_iff in G; congruence|]. exists x. split; assumption.
Qed.
Lemma should_iff : forall M lower r, knows_adjectives M -> adverb_should_parse (morph_tag M) M lower = Ok r -> (r = true <-> po_adverb M lower).
Proof.
  intros M lower r K H. unfold adverb_should_parse in H. destruct (prefixb (u "по-") lower) eqn:P.
  - apply prefixb_spec in P as (rest & ->). rewrite app_length in H. change (length (u "по-")) with 3 in H. destruct (Nat.ltb_spec (3 + length rest) 5) as [L|L]; cbn [orb negb] in H.
    + apply Ok_inj in H. subst r. split; [discriminate|]. intros (rest' & ts & t & E & L' & _). apply app_inv_head in E. subst rest'. lia.
    + change 3%Z with (Z.of_nat 3) in H. rewrite slice_from_pos in H. change (skipn 3 (u "по-" ++ rest)) with rest in H. apply bind_ok in H as (ts & T & H).
      destruct (any_known (m_tc M) (map u ["ADJF"; "sing"; "datv"]%string) ts K) as (r' & E & X). rewrite E in H. apply Ok_inj in H. subst r'. rewrite X. split.
      * intros (t & I & G). exists rest, ts, t. split; [reflexivity|]. split; [lia|]. split; [exact T|]. split; [exact I|exact G].
      * intros (rest' & ts' & t & E' & _ & T' & I & G). apply app_inv_head in E'. subst rest'. rewrite T in T'. apply Ok_inj in T'. subst ts'. exists t. split; [exact I|exact G].
  - rewrite orb_true_r in H. apply Ok_inj in H. subst r. split; [discriminate|]. intros (rest & ts & t & E & _). exfalso. assert (X : prefixb (u "по-") lower = true) by (apply prefixb_spec; exists rest; exact E). congruence.
Qed.
Lemma c84_unit : forall M i b mult word lower seen ps seen', b_cfg b = UHAdverb mult -> knows_adjectives M ->
  unit_parse (morph_parse M) (morph_tag M) M i b word lower seen = Ok (ps, seen') ->
  (po_adverb M lower -> exists t, nth_error (b_tags b) 0 = Some t /\ ps = [MkParse lower t lower mult [MStr (Root i) word]]) /\ (~ po_adverb M lower -> ps = []).
Proof.
  intros M i b mult word lower seen ps seen' C K H. unfold unit_parse in H. rewrite C in H. apply bind_ok in H as (r & A & H). pose proof (should_iff M lower r K A) as X. destruct r.
  - apply bind_ok in H as (t & T & H). apply Ok_inj in H. injection H as <- _. split.
    + intros _. exists t. split; [|reflexivity]. unfold nth_res in T. destruct (nth_error (b_tags b) 0) as [x|]; [|discriminate T]. apply Ok_inj in T. subst x. reflexivity.
    + intros N. exfalso. apply N. apply X. reflexivity.
  - apply Ok_inj in H. injection H as <- _. split; [|reflexivity]. intros Y. apply X in Y. discriminate Y.
Qed.
(** the tag of the unit *)
Lemma adverb_tag : forall M items i b tm mult, has_units M items -> nth_error (m_units M) i = Some (b, tm) -> b_cfg b = UHAdverb mult ->
  exists t, b_tags b = [t] /\ t_str t = u "ADVB" /\ t_gr t = [u "ADVB"].
Proof.
  intros M items i b tm mult (C & C' & H) N Cf. apply bind_ok in H as (fl & _ & H). destruct (bind_all_In _ _ _ _ _ H (nth_error_In _ _ N)) as (A & B & c & P & _). cbn [fst] in P.
  pose proof (bind_unit_cfg _ _ _ _ P) as E. rewrite Cf in E. subst c. cbn [bind_unit] in P. apply bind_ok in P as (t & T & P). apply Ok_inj in P. injection P as _ P. exists t. rewrite <- P. cbn [b_tags].
  split; [reflexivity|]. destruct (mk_tag_ok _ _ _ T) as (T1 & T2 & _). split; [exact T1|]. rewrite T2. vm_compute. reflexivity.
Qed.
Lemma c84_parse : forall M items word ps p i b tm mult, has_units M items -> Forall (fun bt => prefixes_nonempty (fst bt)) (m_units M) -> lower_stable (m_uni M) -> knows_adjectives M ->
  morph_parse M word = Ok ps -> In p ps -> made_by p = Some (Root i) -> nth_error (m_units M) i = Some (b, tm) -> b_cfg b = UHAdverb mult ->
  po_adverb M (u_lower (m_uni M) word) /\ adverb_reading (Root i) word (u_lower (m_uni M) word) p /\ (m_prob M = None -> p_score p = mult).
Proof.
  intros M items word ps p i b tm mult HU F St K H Hp Mb Hi Cf.
  destruct (parse_by_unit _ _ _ _ _ _ _ St F H Hp Mb Hi) as (p0 & Md & Ec & Ep). destruct (adverb_tag _ _ _ _ _ _ HU Hi Cf) as (t & T1 & T2 & T3).
  destruct Md; try congruence; [match goal with X : _ \/ _ |- _ => destruct X as [X|[X|[X|X]]]; congruence end|].
  assert (EE : UHAdverb mult = UHAdverb mult0) by congruence. injection EE as <-.
  match goal with X : adverb_should_parse _ _ _ = Ok true |- _ => pose proof (proj1 (should_iff M _ _ K X) eq_refl) as PA end.
  match goal with X : nth_error (b_tags b) 0 = Some _ |- _ => rewrite T1 in X; injection X as <- end.
  split; [exact PA|]. split.
  - unfold content in Ec. injection Ec as E1 E2 E3 E4. cbn [p_word p_tag p_nf p_stack] in *. unfold adverb_reading. rewrite E2. split; [exact E1|]. split; [exact E3|]. split; [exact T2|]. split; [exact T3|exact E4].
  - intros P. rewrite (Ep P). reflexivity.
Qed.
(** ** nothing before the unit answers *)
Lemma unknown_items : forall M word, word_is_known M word false = false -> similar_items (d_words (m_dict M)) (m_subst M) (u_lower (m_uni M) word) = [].
Proof.
  intros M word K.
  destruct (similar_items (d_words (m_dict M)) (m_subst M) (u_lower (m_uni M) word)) as [|[w vals] l] eqn:E; [reflexivity|]. exfalso.
  assert (I : In (w, vals) (similar_items (d_words (m_dict M)) (m_subst M) (u_lower (m_uni M) word))) by (rewrite E; left; reflexivity).
  unfold similar_items in I. apply in_flat_map in I as (v & Iv & I). destruct (sget v (d_words (m_dict M))) as [x|] eqn:G; [|destruct I]. destruct I as [I|[]]. injection I as -> ->.
  assert (X : word_is_known M word false = true); [|congruence]. unfold word_is_known. apply known_iff. exists w, vals. split; [apply variants_spec; exact Iv|exact G].
Qed.
Lemma unknown_dict : forall M word self, word_is_known M word false = false -> dict_parse M self (u_lower (m_uni M) word) = Ok [].
Proof. intros M word self K. unfold dict_parse. rewrite (unknown_items M word K). reflexivity. Qed.
Lemma ru_adverb : forall M, has_units M RU_DEFAULT_UNITS -> exists us b us2, m_units M = us ++ (b, true) :: us2 /\ b_cfg b = UHAdverb (7#10) /\
  map (fun bt => b_cfg (fst bt)) us = map fst (firstn 8 (flat_cfg RU_DEFAULT_UNITS)).
Proof.
  intros M H. apply has_units_cfg in H.
  assert (X : flat_cfg RU_DEFAULT_UNITS = firstn 8 (flat_cfg RU_DEFAULT_UNITS) ++ (UHAdverb (7#10), true) :: skipn 9 (flat_cfg RU_DEFAULT_UNITS)).
  { unfold RU_DEFAULT_UNITS, flat_cfg, ru_units. cbn [mapM flatten_item mark_last bind concat app firstn skipn]. reflexivity. }
  rewrite X in H. apply map_eq_app in H as (us & l & E & A & B). apply map_eq_cons in B as ([b tm] & us2 & -> & B & _). cbn [fst snd] in B. injection B as B1 B2. subst tm.
  exists us, b, us2. split; [exact E|]. split; [exact B1|]. rewrite <- A. rewrite map_map. reflexivity.
Qed.
Lemma early_shape : map fst (firstn 8 (flat_cfg RU_DEFAULT_UNITS)) =
  [UDict; UInit true RU_INITIAL_LETTERS name_pattern (1#10); UInit false RU_INITIAL_LETTERS patr_pattern (1#10); UNumber (9#10); UPunct (9#10); URoman (9#10); ULatin (9#10); UParticle RU_PARTICLES (9#10)].
Proof. unfold RU_DEFAULT_UNITS, flat_cfg, ru_units. cbn [mapM flatten_item mark_last bind concat app firstn map fst]. reflexivity. Qed.
Lemma particles_nonempty : ~ In [] RU_PARTICLES.
Proof. intros I. assert (X : smem [] RU_PARTICLES = false) by (vm_compute; reflexivity). apply smem_In in I. congruence. Qed.
Lemma early_quiet : forall recP recT M word j b, no_other_unit M word -> In (b_cfg b) (map fst (firstn 8 (flat_cfg RU_DEFAULT_UNITS))) ->
  unit_parse recP recT M j b word (u_lower (m_uni M) word) [] = Ok ([], []).
Proof.
  intros recP recT M word j b (K & NI & (c & r & E & F) & NP) I. rewrite early_shape in I.
  destruct (foreign_shape (m_uni M) c r F) as (S1 & S2 & S3 & S4). rewrite <- E in S1, S2, S3, S4.
  assert (IL : smem word RU_INITIAL_LETTERS = false) by (destruct (smem word RU_INITIAL_LETTERS) eqn:X; [apply smem_In in X; contradiction|reflexivity]).
  unfold unit_parse. cbn [In] in I. destruct I as [C|[C|[C|[C|[C|[C|[C|[C|[]]]]]]]]]; rewrite <- C.
  - rewrite (unknown_dict M word (Root j) K). reflexivity.
  - rewrite IL. reflexivity.
  - rewrite IL. reflexivity.
  - unfold shape_parse, shape_tag. rewrite <- C, S1. reflexivity.
  - unfold shape_parse, shape_tag. rewrite <- C, S2. reflexivity.
  - unfold shape_parse, shape_tag. rewrite <- C, S4. reflexivity.
  - unfold shape_parse, shape_tag. rewrite <- C, S3. reflexivity.
  - unfold particle_parse. destruct (particle_splits RU_PARTICLES (u_lower (m_uni M) word)) as [|[w pt] l] eqn:Sp; [reflexivity|]. exfalso. apply NP.
    assert (X : In (w, pt) (particle_splits RU_PARTICLES (u_lower (m_uni M) word))) by (rewrite Sp; left; reflexivity).
    apply (particle_splits_iff _ _ _ _ particles_nonempty) in X as (X1 & _ & X2 & X3). exists w, pt. split; [exact X1|]. split; [exact X2|exact X3].
Qed.
Lemma run_skip : forall recP recT M word lower us rest i, (forall j b tm, In (b, tm) us -> unit_parse recP recT M j b word lower [] = Ok ([], [])) ->
  run_parse recP recT M word lower i (us ++ rest) [] [] = run_parse recP recT M word lower (i + length us) rest [] [].
Proof.
  intros recP recT M word lower us rest. induction us as [|[b tm] us IH]; intros i Q; cbn [app length]; [rewrite Nat.add_0_r; reflexivity|].
  cbn [run_parse]. rewrite (Q i b tm) by (left; reflexivity). cbn [bind app]. rewrite andb_false_r. rewrite IH by (intros j b' tm' I; apply (Q j b' tm'); right; exact I). rewrite Nat.add_succ_r. reflexivity.
Qed.
Lemma c84_only : forall M word ps, has_units M RU_DEFAULT_UNITS -> lower_stable (m_uni M) -> knows_adjectives M -> no_other_unit M word -> po_adverb M (u_lower (m_uni M) word) ->
  morph_parse M word = Ok ps -> exists i b tm p, nth_error (m_units M) i = Some (b, tm) /\ b_cfg b = UHAdverb (7#10) /\ ps = [p] /\ adverb_reading (Root i) word (u_lower (m_uni M) word) p /\ get_lexeme M p = Ok [p] /\ normalized M p = Ok p.
Proof.
  intros M word ps HU St K NO PA H. destruct (ru_adverb M HU) as (us & b & us2 & Eu & Cf & Early).
  destruct (shipped_facts M (or_introl HU)) as (_ & _ & F).
  assert (N : nth_error (m_units M) (length us) = Some (b, true)) by (rewrite Eu, nth_error_app2, Nat.sub_diag by lia; reflexivity).
  destruct (adverb_tag _ _ _ _ _ _ HU N Cf) as (t & T1 & T2 & T3).
  set (p0 := MkParse (u_lower (m_uni M) word) t (u_lower (m_uni M) word) (7#10) [MStr (Root (length us)) word]).
  assert (R : run_parse (parse_f (length (u_lower (m_uni M) word)) M) (tag_f (length (u_lower (m_uni M) word)) M) M word (u_lower (m_uni M) word) 0 (m_units M) [] [] = Ok [p0] \/
              exists e, run_parse (parse_f (length (u_lower (m_uni M) word)) M) (tag_f (length (u_lower (m_uni M) word)) M) M word (u_lower (m_uni M) word) 0 (m_units M) [] [] = Err e).
  { rewrite Eu. rewrite run_skip.
    - cbn [run_parse]. unfold unit_parse at 1 2. rewrite Cf.
      rewrite (adverb_same (parse_f (length (u_lower (m_uni M) word)) M) (morph_parse M) (tag_f (length (u_lower (m_uni M) word)) M) (morph_tag M)).
      2:{ intros w Hw. apply (nested_parse M _ word); auto. }
      destruct (adverb_should_parse (morph_tag M) M (u_lower (m_uni M) word)) as [r|e] eqn:A; [|right; exists e; reflexivity].
      apply (should_iff M _ _ K A) in PA. subst r. left. cbn [bind]. rewrite T1. cbn [nth_res nth_error bind app andb]. reflexivity.
    - intros j b' tm' I. apply early_quiet; [exact NO|]. rewrite <- Early. apply in_map_iff. exists (b', tm'). split; [reflexivity|exact I]. }
  unfold morph_parse, fuel_for, parse_f in H. cbn [analyze fst snd] in H. apply bind_ok in H as (r & E & H).
  unfold parse_f, tag_f in R. destruct R as [R|(e & R)]; rewrite R in E; [|discriminate E]. apply Ok_inj in E. subst r.
  assert (X : exists q, ps = [MkParse (u_lower (m_uni M) word) t (u_lower (m_uni M) word) q [MStr (Root (length us)) word]]).
  { destruct (m_prob M) as [d|].
    - pose proof (apply_to_parses_length _ _ _ _ H) as L. destruct ps as [|p [|p' ps]]; try discriminate L.
      destruct (apply_to_parses_In _ _ _ _ _ H (or_introl eq_refl)) as (x & q & Ix & Ex). destruct Ix as [<-|[]]. exists q. rewrite Ex. reflexivity.
    - apply Ok_inj in H. subst ps. exists (7#10)%Q. reflexivity. }
  destruct X as (q & ->). exists (length us), b, true, (MkParse (u_lower (m_uni M) word) t (u_lower (m_uni M) word) q [MStr (Root (length us)) word]). split; [exact N|]. split; [exact Cf|]. split; [reflexivity|].
  split; [repeat split; assumption|]. unfold get_lexeme, normalized, last_unit. cbn [p_stack rev app bind m_unit].
  unfold nth_res. cbn [lexeme_f normalized_f]. unfold nth_res. rewrite N. cbn [bind fst]. rewrite Cf. split; reflexivity.
Qed.
(** ** tag() *)
Lemma early_quiet_tag : forall recP recT M word j b, no_other_unit M word -> In (b_cfg b) (map fst (firstn 8 (flat_cfg RU_DEFAULT_UNITS))) ->
  unit_tag recP recT M j b word (u_lower (m_uni M) word) [] = Ok ([], []).
Proof.
  intros recP recT M word j b (K & NI & (c & r & E & F) & NP) I. rewrite early_shape in I.
  destruct (foreign_shape (m_uni M) c r F) as (S1 & S2 & S3 & S4). rewrite <- E in S1, S2, S3, S4.
  assert (IL : smem word RU_INITIAL_LETTERS = false) by (destruct (smem word RU_INITIAL_LETTERS) eqn:X; [apply smem_In in X; contradiction|reflexivity]).
  unfold unit_tag. cbn [In] in I. destruct I as [C|[C|[C|[C|[C|[C|[C|[C|[]]]]]]]]]; rewrite <- C.
  - unfold dict_tag, similar_item_values. rewrite (unknown_items M word K). reflexivity.
  - rewrite IL. reflexivity.
  - rewrite IL. reflexivity.
  - unfold shape_tags, shape_tag. rewrite <- C, S1. reflexivity.
  - unfold shape_tags, shape_tag. rewrite <- C, S2. reflexivity.
  - unfold shape_tags, shape_tag. rewrite <- C, S4. reflexivity.
  - unfold shape_tags, shape_tag. rewrite <- C, S3. reflexivity.
  - unfold particle_tag. destruct (particle_splits RU_PARTICLES (u_lower (m_uni M) word)) as [|[w pt] l] eqn:Sp; [reflexivity|]. exfalso. apply NP.
    assert (X : In (w, pt) (particle_splits RU_PARTICLES (u_lower (m_uni M) word))) by (rewrite Sp; left; reflexivity).
    apply (particle_splits_iff _ _ _ _ particles_nonempty) in X as (X1 & _ & X2 & X3). exists w, pt. split; [exact X1|]. split; [exact X2|exact X3].
Qed.
Lemma run_skip_tag : forall recP recT M word lower us rest i, (forall j b tm, In (b, tm) us -> unit_tag recP recT M j b word lower [] = Ok ([], [])) ->
  run_tag recP recT M word lower i (us ++ rest) [] [] = run_tag recP recT M word lower (i + length us) rest [] [].
Proof.
  intros recP recT M word lower us rest. induction us as [|[b tm] us IH]; intros i Q; cbn [app length]; [rewrite Nat.add_0_r; reflexivity|].
  cbn [run_tag]. rewrite (Q i b tm) by (left; reflexivity). cbn [bind app]. rewrite andb_false_r. rewrite IH by (intros j b' tm' I; apply (Q j b' tm'); right; exact I). rewrite Nat.add_succ_r. reflexivity.
Qed.
Lemma c84_only_tag : forall M word ts, has_units M RU_DEFAULT_UNITS -> lower_stable (m_uni M) -> knows_adjectives M -> no_other_unit M word -> po_adverb M (u_lower (m_uni M) word) ->
  morph_tag M word = Ok ts -> exists t, ts = [t] /\ t_str t = u "ADVB" /\ t_gr t = [u "ADVB"].
Proof.
  intros M word ts HU St K NO PA H. destruct (ru_adverb M HU) as (us & b & us2 & Eu & Cf & Early).
  destruct (shipped_facts M (or_introl HU)) as (_ & _ & F).
  assert (N : nth_error (m_units M) (length us) = Some (b, true)) by (rewrite Eu, nth_error_app2, Nat.sub_diag by lia; reflexivity).
  destruct (adverb_tag _ _ _ _ _ _ HU N Cf) as (t & T1 & T2 & T3).
  assert (R : run_tag (parse_f (length (u_lower (m_uni M) word)) M) (tag_f (length (u_lower (m_uni M) word)) M) M word (u_lower (m_uni M) word) 0 (m_units M) [] [] = Ok [t] \/
              exists e, run_tag (parse_f (length (u_lower (m_uni M) word)) M) (tag_f (length (u_lower (m_uni M) word)) M) M word (u_lower (m_uni M) word) 0 (m_units M) [] [] = Err e).
  { rewrite Eu. rewrite run_skip_tag.
    - cbn [run_tag]. unfold unit_tag at 1 2. rewrite Cf.
      rewrite (adverb_same (parse_f (length (u_lower (m_uni M) word)) M) (morph_parse M) (tag_f (length (u_lower (m_uni M) word)) M) (morph_tag M)).
      2:{ intros w Hw. apply (nested_parse M _ word); auto. }
      destruct (adverb_should_parse (morph_tag M) M (u_lower (m_uni M) word)) as [r|e] eqn:A; [|right; exists e; reflexivity].
      apply (should_iff M _ _ K A) in PA. subst r. left. cbn [bind negb]. rewrite T1. cbn [nth_res nth_error bind]. unfold tag_mem. cbn [existsb app andb]. reflexivity.
    - intros j b' tm' I. apply early_quiet_tag; [exact NO|]. rewrite <- Early. apply in_map_iff. exists (b', tm'). split; [reflexivity|exact I]. }
  unfold morph_tag, fuel_for, tag_f in H. cbn [analyze fst snd] in H. apply bind_ok in H as (r & E & H).
  unfold parse_f, tag_f in R. destruct R as [R|(e & R)]; rewrite R in E; [|discriminate E]. apply Ok_inj in E. subst r.
  exists t. split; [|split; assumption]. destruct (m_prob M) as [d|]; apply Ok_inj in H; subst ts; reflexivity.
Qed.
