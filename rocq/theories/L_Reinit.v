(** * Parsing and inflection under two states of the tag class *)
From Coq Require Import String List NArith ZArith Bool QArith.
From Verif Require Import Py Uni Tagset Dawg Utils Shapes Dict Units Analyzer Compile Json Storage Convert CyrTags Spec Spec18 L_Base L_Run L_Tagset L_Tags2 L_ByUnit L_Create.
Import ListNotations.
Local Open Scope nat_scope.
Local Open Scope list_scope.

Definition ADVERB_TEST : sset := map u ["ADJF"; "sing"; "datv"]%string.
Lemma known_contains_set : forall C gs t, (forall g, In g gs -> In g (tc_known C)) -> contains_set C gs t = Ok (ssub gs (t_gr t)).
Proof.
  intros C gs t H. unfold contains_set, assert_known. destruct (ssub gs (t_gr t)); [reflexivity|].
  assert (S : ssub gs (tc_known C) = true) by (apply forallb_forall; intros g I; apply smem_In; exact (H g I)). rewrite S. reflexivity.
Qed.
Section Two.
  Variables (M : morph) (E : tagclass).
  Hypothesis HA : forall ts, any_contains E ADVERB_TEST ts = any_contains (m_tc M) ADVERB_TEST ts.
  Let M' := set_tc M E.
  Lemma adverb_two : forall recT lower, adverb_should_parse recT M' lower = adverb_should_parse recT M lower.
  Proof. intros. unfold adverb_should_parse. destruct (_ || _); [reflexivity|]. destruct (recT _); [|reflexivity]. cbn [bind]. apply HA. Qed.
  Lemma ks_lengths_two : forall self sub pid d lower is st, ks_lengths M' self sub pid d lower st is = ks_lengths M self sub pid d lower st is.
  Proof. intros self sub pid d lower. induction is as [|i is IH]; intros st; [reflexivity|]. cbn [ks_lengths]. change (ks_at M' self sub pid d lower st i) with (ks_at M self sub pid d lower st i). destruct (ks_at M _ _ _ _ _ _ _); [|reflexivity]. cbn [bind]. destruct (_ <? _); auto. Qed.
  Lemma kst_lengths_two : forall d lower is st, kst_lengths M' d lower st is = kst_lengths M d lower st is.
  Proof. intros d lower. induction is as [|i is IH]; intros st; [reflexivity|]. cbn [kst_lengths]. change (kst_at M' d lower st i) with (kst_at M d lower st i). destruct (kst_at M _ _ _ _); [|reflexivity]. cbn [bind]. destruct (kt_found _); auto. Qed.
  Lemma ks_parse_two : forall self sub mult n word lower seen, ks_parse M' self sub mult n word lower seen = ks_parse M self sub mult n word lower seen.
  Proof.
    intros. unfold ks_parse. destruct (_ <? _); [reflexivity|]. change (m_dict M') with (m_dict M). rewrite (foldM_same _ _ (ks_prefix M' self sub mult lower) (ks_prefix M self sub mult lower)); [reflexivity|].
    intros a [pid pr]. unfold ks_prefix. change (m_dict M') with (m_dict M). destruct (nth_res _ _); [|reflexivity]. cbn [bind]. rewrite ks_lengths_two. reflexivity.
  Qed.
  Lemma ks_tag_two : forall n word lower seen, ks_tag M' n word lower seen = ks_tag M n word lower seen.
  Proof.
    intros. unfold ks_tag. destruct (_ <? _); [reflexivity|]. change (m_dict M') with (m_dict M). rewrite (foldM_same _ _ (kst_prefix M' lower) (kst_prefix M lower)); [reflexivity|].
    intros a [pid pr]. unfold kst_prefix. change (m_dict M') with (m_dict M). destruct (nth_res _ _); [|reflexivity]. cbn [bind]. rewrite kst_lengths_two. reflexivity.
  Qed.
  Lemma unit_two : forall recP recT i b word lower,
    (forall seen, unit_parse recP recT M' i b word lower seen = unit_parse recP recT M i b word lower seen) /\
    (forall seen, unit_tag recP recT M' i b word lower seen = unit_tag recP recT M i b word lower seen).
  Proof. intros. split; intros seen; unfold unit_parse, unit_tag; destruct (b_cfg b); try reflexivity; try (rewrite adverb_two; reflexivity); [apply ks_parse_two|apply ks_tag_two]. Qed.
  Lemma run_two : forall recP recT word lower us i,
    (forall acc seen, run_parse recP recT M' word lower i us acc seen = run_parse recP recT M word lower i us acc seen) /\
    (forall acc seen, run_tag recP recT M' word lower i us acc seen = run_tag recP recT M word lower i us acc seen).
  Proof.
    intros recP recT word lower us. induction us as [|[b t] us IH]; intros i; [split; reflexivity|]. destruct (unit_two recP recT i b word lower) as [A B]. destruct (IH (S i)) as [C D].
    split; intros acc seen; cbn [run_parse run_tag].
    - rewrite A. destruct (unit_parse _ _ _ _ _ _ _ _) as [[ps s]|]; [|reflexivity]. cbn [bind]. rewrite C. reflexivity.
    - rewrite B. destruct (unit_tag _ _ _ _ _ _ _ _) as [[ps s]|]; [|reflexivity]. cbn [bind]. rewrite D. reflexivity.
  Qed.
  Lemma analyze_two : forall n w, parse_f n M' w = parse_f n M w /\ tag_f n M' w = tag_f n M w.
  Proof.
    induction n as [|n IH]; intros w; [split; reflexivity|]. unfold parse_f, tag_f in *. cbn [analyze fst snd].
    assert (HP : forall w, fst (analyze n M') w = fst (analyze n M) w) by (intros; apply IH). assert (HT : forall w, snd (analyze n M') w = snd (analyze n M) w) by (intros; apply IH).
    change (m_uni M') with (m_uni M). change (m_units M') with (m_units M). change (m_prob M') with (m_prob M).
    destruct (run_rec_ext _ _ _ _ M' w (u_lower (m_uni M) w) HP HT (m_units M) 0) as [A B]. destruct (run_two (fst (analyze n M)) (snd (analyze n M)) w (u_lower (m_uni M) w) (m_units M) 0) as [C D].
    rewrite A, B, C, D. auto.
  Qed.
  Hypothesis HM : forall t, contains E (u "masc") t = contains (m_tc M) (u "masc") t.
  Lemma gender_two : forall b t, gender_tags M' b t = gender_tags M b t.
  Proof. intros b t. unfold gender_tags. change (m_tc M') with E. rewrite HM. reflexivity. Qed.
  Lemma lexeme_two : forall n r p, lexeme_f n M' r p = lexeme_f n M r p.
  Proof.
    induction n as [|n IH]; intros r p; [reflexivity|]. cbn [lexeme_f]. destruct r as [i|i]; [|reflexivity]. change (m_units M') with (m_units M). destruct (nth_res (m_units M) i) as [[b t]|]; [|reflexivity]. cbn [bind fst].
    destruct (b_cfg b); try reflexivity; try (destruct (method_info (p_stack p)) as [[base this]|]; [|reflexivity]; cbn [bind]; try (destruct (method_arg1 this); [|reflexivity]; cbn [bind]); rewrite IH; reflexivity).
    - destruct first; [|reflexivity]. rewrite gender_two. reflexivity.
    - rewrite (hyph_forms_ext _ _ _ _ IH). reflexivity.
  Qed.
  Lemma normalized_two : forall n r p, normalized_f n M' r p = normalized_f n M r p.
  Proof.
    induction n as [|n IH]; intros r p; [reflexivity|]. cbn [normalized_f]. destruct r as [i|i]; [|reflexivity]. change (m_units M') with (m_units M). destruct (nth_res (m_units M) i) as [[b t]|]; [|reflexivity]. cbn [bind fst].
    destruct (b_cfg b); try reflexivity; try (destruct (method_info (p_stack p)) as [[base this]|]; [|reflexivity]; cbn [bind]; try (destruct (method_arg1 this); [|reflexivity]; cbn [bind]); rewrite IH; reflexivity).
    - destruct first; [|reflexivity]. rewrite gender_two. reflexivity.
    - rewrite (hyph_forms_ext (lexeme_f n M') (lexeme_f n M) _ _ (lexeme_two n)). reflexivity.
  Qed.
End Two.
Lemma any_known : forall C ts, (forall g, In g ADVERB_TEST -> In g (tc_known C)) -> any_contains C ADVERB_TEST ts = Ok (existsb (fun t => ssub ADVERB_TEST (t_gr t)) ts).
Proof.
  intros C ts H. induction ts as [|t ts IH]; [reflexivity|]. cbn [any_contains existsb]. rewrite known_contains_set by exact H. cbn [bind]. destruct (ssub _ _); [reflexivity|exact IH].
Qed.
Lemma known_contains : forall C g t, In g (tc_known C) -> contains C g t = Ok (smem g (t_gr t)).
Proof.
  intros C g t H. unfold contains. destruct (smem g (t_gr t)); [reflexivity|]. unfold grammeme_is_known, assert_initialized. destruct (tc_known C) as [|x l] eqn:K; [destruct H|]. cbn [bind].
  assert (S : smem g (x :: l) = true) by (apply smem_In; exact H). rewrite S. reflexivity.
Qed.

(** the names known after saving or loading *)
Lemma cyr_init_parent : forall K rows, tc_known (fst (cyr_init_grammemes K rows)) = tc_known (fst K) /\
  tc_lat2cyr (fst (cyr_init_grammemes K rows)) = tc_lat2cyr (fst K) /\ tc_cyr2lat (fst (cyr_init_grammemes K rows)) = tc_cyr2lat (fst K).
Proof. intros [C Y] rows. cbn. auto. Qed.
Lemma save_classes_written : forall io big K rows x info ops, save_full io big K rows x info = (save_classes K rows x, (ops, Ok tt)) ->
  save_classes K rows x = init_grammemes_of (cyr_init_grammemes K rows) rows.
Proof.
  intros io big [C Y] rows x info ops H. unfold save_full in H. apply (f_equal snd) in H. cbn [snd fst] in H. unfold save_compiled_dict, sthen in H. unfold save_classes.
  destruct (snd (json_write (u "grammemes.json") (grammemes_json rows))) eqn:E1; [|rewrite H in E1; discriminate E1].
  cbn [snd fst] in H.
  change (y_alias (snd (cyr_init_grammemes (C, Y) rows))) with (alias_map (y_alias Y) rows).
  destruct (snd (json_write (u "gramtab-opencorpora-ext.json") (jstrs (map (from_internal_ext (alias_map (y_alias Y) rows)) (x_gramtab x))))) eqn:E2; [reflexivity|].
  exfalso. apply (f_equal snd) in H. cbn [snd] in H. rewrite E2 in H. discriminate H.
Qed.

(** ** The tables after saving *)
Lemma init_extra : forall C rows, tc_extra (init_grammemes C rows) = expand_extra rows (tc_extra C).
Proof.
  intros C rows. unfold init_grammemes.
  assert (G : forall extra l D, tc_extra (fold_left (set_row rows extra) l D) = tc_extra D).
  { intros extra l. induction l as [|[i r] l IH]; intros D; [reflexivity|]. cbn [fold_left]. rewrite IH. reflexivity. }
  rewrite G. cbn [tc_extra]. rewrite (proj1 (add_rows_extra rows _)). reflexivity.
Qed.
Lemma after_extra : forall K rows, tc_extra (fst (cyr_init_grammemes K rows)) = expand_extra rows (tc_extra (fst K)).
Proof. intros [C Y] rows. cbn [cyr_init_grammemes fst tc_extra]. rewrite init_extra. reflexivity. Qed.

Lemma descends_twice : forall rows e x y, NoDup (map g_name rows) -> shallow rows -> descends rows e x -> descends rows x y -> descends rows e y.
Proof.
  intros rows e x y ND SH (r & Ir & Nr & Hr) (s & Is & Ns & Hs).
  assert (U : forall a b, In a rows -> In b rows -> g_name a = g_name b -> a = b).
  { intros a b Ia Ib E. apply In_nth_error in Ia as (i & Ei), Ib as (j & Ej).
    assert (i = j). { apply (proj1 (NoDup_nth_error (map g_name rows)) ND); [rewrite map_length; apply nth_error_Some; congruence|]. rewrite !nth_error_map, Ei, Ej. cbn. congruence. }
    subst j. congruence. }
  destruct Hs as [Hs|(q & s' & Hs & Is' & Ns' & Hs')].
  - destruct Hr as [Hr|(q' & r' & Hr & Ir' & Nr' & Hr')].
    + exists s. split; [exact Is|]. split; [exact Ns|]. right. exists x, r. auto.
    + exfalso. assert (E : g_parent r' = None). { apply (SH s r r'); [exact Is|exact Ir|exact Ir'|congruence|congruence]. } congruence.
  - destruct Hr as [Hr|(q' & r' & Hr & Ir' & Nr' & Hr')].
    + exfalso. assert (E : g_parent r = None). { apply (SH s s' r); [exact Is|exact Is'|exact Ir|congruence|congruence]. } congruence.
    + exfalso. assert (E : g_parent r = None). { apply (SH s s' r); [exact Is|exact Is'|exact Ir|congruence|congruence]. } congruence.
Qed.
Lemma expand_In : forall rows (e : list (str * sset)) g (E : sset), sget g e = Some E -> (forall x, In x E -> x <> []) -> NoDup (map g_name rows) ->
  exists E', sget g (expand_extra rows e) = Some E' /\ forall x, In x E' <-> In x E \/ exists y, In y E /\ descends rows y x.
Proof.
  intros rows e g E H NE ND. rewrite sget_expand, H. eexists. split; [reflexivity|]. intros x. rewrite fold_children. split.
  - intros [I|(y & Iy & I)]; [left; exact I|]. right. exists y. split; [exact Iy|]. apply children_In; auto.
  - intros [I|(y & Iy & I)]; [left; exact I|]. right. exists y. split; [exact Iy|]. apply children_In; auto.
Qed.
Lemma init_extra_nonempty : forall rows (e : list (str * sset)), NoDup (map g_name rows) -> ~ In [] (map g_name rows) -> (forall k (E : sset), sget k e = Some E -> ~ In [] E) ->
  forall k (E : sset), sget k (expand_extra rows e) = Some E -> ~ In [] E.
Proof.
  intros rows e ND NN H k E HE I. rewrite sget_expand in HE. destruct (sget k e) as [E0|] eqn:E0e; [|discriminate HE]. cbn [option_map] in HE. injection HE as <-.
  apply fold_children in I as [I|(y & Iy & I)]; [exact (H k E0 E0e I)|]. unfold children in I. apply in_map_iff in I as (r & Er & I). apply filter_In in I as (I & _). apply NN. apply in_map_iff. exists r. auto.
Qed.
(** initialising again with the same table does not change what is incompatible with a grammeme of the table *)
Lemma resave_incompat : forall K C0 rows g, NoDup (map g_name rows) -> ~ In [] (map g_name rows) -> ~ In (Some []) (map g_parent rows) -> shallow rows ->
  (forall k E, sget k (tc_extra C0) = Some E -> ~ In [] E) -> tc_extra (fst K) = expand_extra rows (tc_extra C0) -> In g (map g_name rows) ->
  forall x, In x (incompat_of (fst (init_grammemes_of (cyr_init_grammemes K rows) rows)) g) <-> In x (incompat_of (init_grammemes C0 rows) g).
Proof.
  intros K C0 rows g ND NN NP SH NX EX Ig x. apply in_map_iff in Ig as (r & Nr & Ir). cbn [init_grammemes_of fst].
  assert (X2 : tc_extra (fst (cyr_init_grammemes K rows)) = expand_extra rows (expand_extra rows (tc_extra C0))) by (rewrite after_extra, EX; reflexivity).
  assert (NX1 : forall k E, sget k (expand_extra rows (tc_extra C0)) = Some E -> ~ In [] E) by (apply init_extra_nonempty; auto).
  assert (NX2 : forall k E, sget k (tc_extra (fst (cyr_init_grammemes K rows))) = Some E -> ~ In [] E) by (rewrite X2; apply init_extra_nonempty; auto).
  assert (R : exists r', In r' rows /\ g_name r' = g /\ g_parent r' = g_parent r) by (exists r; auto).
  rewrite (init_incompat _ rows g (g_parent r) ND NP NX2 R x), (init_incompat C0 rows g (g_parent r) ND NP NX R x). rewrite X2.
  assert (EQ : (exists E, sget g (expand_extra rows (expand_extra rows (tc_extra C0))) = Some E /\ (In x E \/ exists e, In e E /\ descends rows e x)) <->
               (exists E, sget g (tc_extra C0) = Some E /\ (In x E \/ exists e, In e E /\ descends rows e x))).
  { destruct (sget g (tc_extra C0)) as [E0|] eqn:S0.
    - assert (N0 : forall y, In y E0 -> y <> []) by (intros y I ->; exact (NX g E0 S0 I)).
      destruct (expand_In rows _ g E0 S0 N0 ND) as (E1 & S1 & I1).
      assert (N1 : forall y, In y E1 -> y <> []) by (intros y I ->; exact (NX1 g E1 S1 I)).
      destruct (expand_In rows _ g E1 S1 N1 ND) as (E2 & S2 & I2).
      assert (cl : forall y z, In y E1 -> descends rows y z -> In z E1).
      { intros y z Iy D. apply I1. apply I1 in Iy as [Iy|(w & Iw & D')]; [right; exists y; auto|]. right. exists w. split; [exact Iw|]. eapply descends_twice; eauto. }
      rewrite S2. split.
      + intros (E & HE & H). injection HE as <-. exists E0. split; [reflexivity|]. apply I1.
        assert (c2 : forall z, In z E2 -> In z E1) by (intros z Iz; apply I2 in Iz as [Iz|(y & Iy & D)]; [exact Iz|eapply cl; eauto]).
        destruct H as [H|(e & Ie & D)]; [apply c2; exact H|]. eapply cl; [apply c2; exact Ie|exact D].
      + intros (E & HE & H). injection HE as <-. exists E2. split; [reflexivity|]. left. apply I2. left. apply I1. exact H.
    - rewrite !sget_expand, S0. cbn [option_map]. split; intros (E & HE & _); discriminate HE. }
  rewrite EQ. tauto.
Qed.
Lemma sdiff_same : forall (acc a b : sset), (forall x, In x a <-> In x b) -> sdiff acc a = sdiff acc b.
Proof.
  intros acc a b H. unfold sdiff. apply filter_ext. intros x. f_equal. destruct (smem x a) eqn:A, (smem x b) eqn:B; auto.
  - apply smem_In, H, smem_In in A. congruence.
  - apply smem_In, H, smem_In in B. congruence.
Qed.
Lemma updated_two : forall C D t req, (tc_known C = [] <-> tc_known D = []) -> (forall g, In g req -> (In g (tc_known C) <-> In g (tc_known D))) ->
  (forall g, In g req -> In g (tc_known C) -> forall x, In x (incompat_of C g) <-> In x (incompat_of D g)) -> updated_grammemes C t req = updated_grammemes D t req.
Proof.
  intros C D t req HE HK HI. unfold updated_grammemes. generalize (sunion (t_gr t) req) as acc. induction req as [|g req IH]; intros acc; [reflexivity|]. cbn [foldM].
  unfold grammeme_is_known at 1 3. unfold assert_initialized.
  assert (Z : smem g (tc_known C) = smem g (tc_known D)).
  { destruct (smem g (tc_known C)) eqn:A, (smem g (tc_known D)) eqn:B; auto.
    - apply smem_In, (HK g (or_introl eq_refl)), smem_In in A. congruence.
    - apply smem_In, (HK g (or_introl eq_refl)), smem_In in B. congruence. }
  destruct (tc_known C) as [|x l] eqn:KC, (tc_known D) as [|y l'] eqn:KD; try reflexivity; [destruct HE as [HE _]; specialize (HE eq_refl); discriminate HE|destruct HE as [_ HE]; specialize (HE eq_refl); discriminate HE|].
  cbn [bind]. rewrite <- Z. destruct (smem g (x :: l)) eqn:S; [|reflexivity]. cbn [bind]. 
  rewrite (sdiff_same acc (incompat_of C g) (incompat_of D g)) by (apply HI; [left; reflexivity|apply smem_In; exact S]).
  apply IH; intros g' I'; [apply HK; right; exact I'|apply HI; right; exact I'].
Qed.
