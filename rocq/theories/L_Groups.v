(** * The loop over units (C57), dictionary words (C05), is_known (C06) *)
From Coq Require Import String List NArith ZArith Bool QArith Lia.
From Verif Require Import Py Uni Tagset Dawg Utils Shapes Dict Units Analyzer ConfigRu ConfigUk Spec L_Base L_Run L_Made L_Words L_Config L_Total L_Para L_Parse.
Import ListNotations.
Local Open Scope nat_scope.
Local Open Scope list_scope.

Lemma run_parse_tried : forall recP recT M word lower us i acc seen r,
  run_parse recP recT M word lower i us acc seen = Ok r ->
  exists outs, tried recP recT M word lower i us seen outs /\ r = acc ++ concat outs /\
    length outs <= length us /\
    (forall j b, S j < length outs -> nth_error us j = Some (b, true) -> acc ++ concat (firstn (S j) outs) = []) /\
    (length outs = length us \/
     exists j b, S j = length outs /\ nth_error us j = Some (b, true) /\ acc ++ concat outs <> []).
Proof.
  intros recP recT M word lower; induction us as [|[b t] us IH]; intros i acc seen r H; simpl in H.
  - inversion H; subst. exists []. simpl. rewrite app_nil_r. split; [constructor|]. repeat split; auto. intros; lia.
  - apply bind_ok in H as ([ps s'] & E & H). destruct (t && _) eqn:T.
    + apply andb_true_iff in T as [-> T]. apply Ok_inj in H. subst r. exists [ps]. simpl. rewrite app_nil_r.
      split; [econstructor; [eauto|constructor]|]. split; [auto|]. split; [lia|]. split; [intros; lia|].
      right. exists 0, b. split; auto. split; auto. destruct (acc ++ ps); congruence.
    + apply IH in H as (outs & Tr & -> & L & F & S). exists (ps :: outs). simpl.
      split; [econstructor; eauto|]. rewrite app_assoc. split; [auto|]. split; [lia|]. split.
      * intros [|j] b' Lj N; simpl in N.
        -- inversion N; subst. simpl in T. simpl. rewrite app_nil_r. destruct (acc ++ ps); [auto|discriminate].
        -- simpl. rewrite app_assoc. apply (F j b'); [lia|auto].
      * destruct S as [S|(j & b' & S1 & S2 & S3)]; [left; lia|]. right. exists (S j), b'. auto.
Qed.
Lemma run_tag_tried : forall recP recT M word lower us i acc seen r,
  run_tag recP recT M word lower i us acc seen = Ok r ->
  exists outs, tried_tags recP recT M word lower i us seen outs /\ r = acc ++ concat outs /\
    length outs <= length us /\
    (forall j b, S j < length outs -> nth_error us j = Some (b, true) -> acc ++ concat (firstn (S j) outs) = []) /\
    (length outs = length us \/
     exists j b, S j = length outs /\ nth_error us j = Some (b, true) /\ acc ++ concat outs <> []).
Proof.
  intros recP recT M word lower; induction us as [|[b t] us IH]; intros i acc seen r H; simpl in H.
  - inversion H; subst. exists []. simpl. rewrite app_nil_r. split; [constructor|]. repeat split; auto. intros; lia.
  - apply bind_ok in H as ([ps s'] & E & H). destruct (t && _) eqn:T.
    + apply andb_true_iff in T as [-> T]. apply Ok_inj in H. subst r. exists [ps]. simpl. rewrite app_nil_r.
      split; [econstructor; [eauto|constructor]|]. split; [auto|]. split; [lia|]. split; [intros; lia|].
      right. exists 0, b. split; auto. split; auto. destruct (acc ++ ps); congruence.
    + apply IH in H as (outs & Tr & -> & L & F & S). exists (ps :: outs). simpl.
      split; [econstructor; eauto|]. rewrite app_assoc. split; [auto|]. split; [lia|]. split.
      * intros [|j] b' Lj N; simpl in N.
        -- inversion N; subst. simpl in T. simpl. rewrite app_nil_r. destruct (acc ++ ps); [auto|discriminate].
        -- simpl. rewrite app_assoc. apply (F j b'); [lia|auto].
      * destruct S as [S|(j & b' & S1 & S2 & S3)]; [left; lia|]. right. exists (S j), b'. auto.
Qed.
Lemma parse_first_success : forall n M word ps, parse_f (S n) M word = Ok ps ->
  exists outs, tried (parse_f n M) (tag_f n M) M word (u_lower (m_uni M) word) 0 (m_units M) [] outs /\
    first_success (m_units M) outs /\
    match m_prob M with
    | None => ps = concat outs
    | Some d => apply_to_parses d (u_lower (m_uni M) word) (concat outs) = Ok ps
    end.
Proof.
  intros n M word ps H. unfold parse_f in H. simpl in H. apply bind_ok in H as (r & E & H).
  apply run_parse_tried in E as (outs & T & -> & F). exists outs. split; [exact T|]. split; [exact F|].
  destruct (m_prob M); [exact H|]. apply Ok_inj in H. auto.
Qed.
Lemma tag_first_success : forall n M word ts, tag_f (S n) M word = Ok ts ->
  exists outs, tried_tags (parse_f n M) (tag_f n M) M word (u_lower (m_uni M) word) 0 (m_units M) [] outs /\
    first_success (m_units M) outs /\
    match m_prob M with
    | None => ts = concat outs
    | Some d => ts = apply_to_tags d (u_lower (m_uni M) word) (concat outs)
    end.
Proof.
  intros n M word ps H. unfold tag_f in H. simpl in H. apply bind_ok in H as (r & E & H).
  apply run_tag_tried in E as (outs & T & -> & F). exists outs. split; [exact T|]. split; [exact F|].
  destruct (m_prob M); apply Ok_inj in H; auto.
Qed.
Lemma mark_last_spec : forall {A} (l : list A) d, l <> [] -> mark_last l = map (fun c => (c, false)) (removelast l) ++ [(last l d, true)].
Proof.
  induction l as [|x l IH]; intros d N; [congruence|]. destruct l as [|y l]; auto.
  change (mark_last (x :: y :: l)) with ((x, false) :: mark_last (y :: l)). rewrite (IH d) by congruence. auto.
Qed.
Lemma flatten_spec : forall items fl, mapM flatten_item items = Ok fl -> concat fl = flat_map with_terminal items.
Proof.
  induction items as [|it items IH]; intros fl H; simpl in H; [inversion H; auto|].
  apply bind_ok in H as (y & E & H). apply bind_ok in H as (ys & E2 & H). apply Ok_inj in H. subst. simpl. rewrite (IH _ E2). f_equal.
  destruct it as [c|[|c l]]; try discriminate.
  - inversion E; auto.
  - unfold flatten_item in E. apply Ok_inj in E. subst y. apply mark_last_spec. congruence.
Qed.
Lemma terminal_flags : forall C items C' us, init_units C items = Ok (C', us) ->
  map (fun bt => (b_cfg (fst bt), snd bt)) us = flat_map with_terminal items /\ ~ In (Group []) items.
Proof.
  intros C items C' us H. apply init_units_cfg in H as (fl & E & H). split; [rewrite H; apply flatten_spec; auto|].
  intro N. eapply mapM_In_l in E as (y & E & _); eauto. discriminate.
Qed.

(** ** C05 *)
Definition entries_of (D : dict) (w : str) : list (nat * nat) :=
  match sget w (d_words D) with Some v => v | None => [] end.
Lemma dict_parse_list : forall M self lower ps, dict_parse M self lower = Ok ps ->
  map (fun p => (p_word p, p_stack p)) ps =
  flat_map (fun w => map (fun v => (w, [MDict self w (fst v) (snd v)])) (entries_of (m_dict M) w)) (variants (m_subst M) lower).
Proof.
  intros M self lower ps H. unfold dict_parse in H. apply rmap_ok in H as (a & H & ->). unfold similar_items in H.
  revert a H. induction (variants (m_subst M) lower) as [|v vs IH]; intros a H; simpl in H.
  - inversion H; auto.
  - cbn [flat_map]. unfold entries_of at 1. destruct (sget v (d_words (m_dict M))) as [vals|] eqn:E; [|apply IH; auto].
    rewrite mapM_app in H. apply bind_ok in H as (x & E1 & H). apply bind_ok in H as (y & E2 & H). apply Ok_inj in H. subst a.
    rewrite concat_app, map_app. rewrite (IH _ E2). f_equal. clear -E1.
    cbn [mapM] in E1. apply bind_ok in E1 as (l & E1 & H). apply Ok_inj in H. subst x. cbn [concat]. rewrite app_nil_r.
    revert l E1. induction vals as [|[para idx] vals IH]; intros l H; cbn [mapM] in H; [inversion H; auto|].
    apply bind_ok in H as (p & E & H). apply bind_ok in H as (r & Er & H). apply Ok_inj in H. subst l.
    apply bind_ok in E as (nf & _ & E). apply bind_ok in E as (t & _ & E). apply Ok_inj in E. subst p. cbn [map p_word p_stack fst snd].
    f_equal. apply IH; auto.
Qed.
Lemma alts_neq : forall r s, subst_proper r -> ~ In s (alts r s).
Proof.
  intros r s P. induction s as [|c s IH]; simpl; [auto|]. rewrite in_app_iff. intros [H|H].
  - destruct (rget c r) as [c'|] eqn:E; [|destruct H]. destruct H as [H|H]; [inversion H; apply (P _ _ E); auto|]. apply in_map_iff in H as (x & Hx & _). inversion Hx. apply (P _ _ E). auto.
  - apply in_map_iff in H as (x & Hx & H). inversion Hx; subst. auto.
Qed.
Lemma NoDup_map_inj : forall {A B} (f : A -> B) l, (forall x y, f x = f y -> x = y) -> NoDup l -> NoDup (map f l).
Proof.
  induction l as [|x l IH]; intros I N; simpl; [constructor|]. inversion N; subst. constructor; auto.
  intro H. apply in_map_iff in H as (y & E & H). apply I in E. subst. auto.
Qed.
Lemma NoDup_app_disj : forall {A} (a b : list A), NoDup a -> NoDup b -> (forall x, In x a -> ~ In x b) -> NoDup (a ++ b).
Proof.
  induction a as [|x a IH]; intros b Na Nb D; simpl; auto. inversion Na; subst. constructor.
  - rewrite in_app_iff. intros [H|H]; auto. apply (D x); [left; auto|auto].
  - apply IH; auto. intros y Hy. apply D. right; auto.
Qed.
Lemma variants_NoDup : forall r s, subst_proper r -> NoDup (variants r s).
Proof.
  intros r s P. unfold variants. induction s as [|c s IH]; [repeat constructor; auto|].
  constructor; [apply (alts_neq r (c :: s)); auto|]. simpl. inversion IH; subst. apply NoDup_app_disj.
  - destruct (rget c r) as [c'|]; [|constructor]. apply (NoDup_map_inj (cons c') (s :: alts r s)); [intros x y E; inversion E; auto|auto].
  - apply NoDup_map_inj; [intros x y E; inversion E; auto|auto].
  - intros x H3 H4. destruct (rget c r) as [c'|] eqn:E; [|destruct H3]. apply in_map_iff in H4 as (y & <- & _).
    destruct H3 as [H3|H3]; [inversion H3; apply (P _ _ E); auto|]. apply in_map_iff in H3 as (z & Hz & _). inversion Hz. apply (P _ _ E); auto.
Qed.

Lemma ru_flat : forall l p x, exists rest, flat_cfg (ru_units l p x) =
  (UDict, false) :: (UInit true l name_pattern (1#10)%Q, false) :: (UInit false l patr_pattern (1#10)%Q, true) :: rest.
Proof. intros. eexists. unfold flat_cfg, ru_units. cbn [mapM flatten_item mark_last bind concat app]. reflexivity. Qed.
Lemma uk_flat : forall l p x, exists rest, flat_cfg (uk_units l p x) =
  (UDict, false) :: (UInit true l name_pattern (1#10)%Q, false) :: (UInit false l patr_pattern (1#10)%Q, false) ::
  (URoman (9#10)%Q, false) :: (ULatin (9#10)%Q, true) :: rest.
Proof. intros. eexists. unfold flat_cfg, uk_units. cbn [mapM flatten_item mark_last bind concat app]. reflexivity. Qed.
Lemma map_cons_inv : forall {A B} (f : A -> B) l y ys, map f l = y :: ys -> exists x xs, l = x :: xs /\ f x = y /\ map f xs = ys.
Proof. intros A B f [|x xs] y ys H; [discriminate|]. simpl in H. inversion H. eauto. Qed.
Lemma ru_head : forall M, has_units M RU_DEFAULT_UNITS -> exists b0 b1 b2 us,
  m_units M = (b0, false) :: (b1, false) :: (b2, true) :: us /\ b_cfg b0 = UDict /\
  b_cfg b1 = UInit true RU_INITIAL_LETTERS name_pattern (1#10)%Q /\ b_cfg b2 = UInit false RU_INITIAL_LETTERS patr_pattern (1#10)%Q.
Proof.
  intros M H. apply has_units_cfg in H. unfold RU_DEFAULT_UNITS in H.
  destruct (ru_flat RU_INITIAL_LETTERS RU_PARTICLES RU_KNOWN_PREFIXES) as (rest & E). rewrite E in H. clear E.
  apply map_cons_inv in H as ([b0 t0] & l0 & E0 & F0 & H). apply map_cons_inv in H as ([b1 t1] & l1 & E1 & F1 & H).
  apply map_cons_inv in H as ([b2 t2] & l2 & E2 & F2 & _). cbn [fst snd] in *.
  apply pair_equal_spec in F0 as [F0 G0]. apply pair_equal_spec in F1 as [F1 G1]. apply pair_equal_spec in F2 as [F2 G2].
  exists b0, b1, b2, l2. rewrite E0, E1, E2, G0, G1, G2. split; [reflexivity|]. split; [exact F0|]. split; [exact F1|exact F2].
Qed.
Lemma uk_head : forall M, has_units M UK_DEFAULT_UNITS -> exists b0 b1 b2 b3 b4 us,
  m_units M = (b0, false) :: (b1, false) :: (b2, false) :: (b3, false) :: (b4, true) :: us /\ b_cfg b0 = UDict /\
  b_cfg b1 = UInit true UK_INITIAL_LETTERS name_pattern (1#10)%Q /\ b_cfg b2 = UInit false UK_INITIAL_LETTERS patr_pattern (1#10)%Q /\
  b_cfg b3 = URoman (9#10)%Q /\ b_cfg b4 = ULatin (9#10)%Q.
Proof.
  intros M H. apply has_units_cfg in H. unfold UK_DEFAULT_UNITS in H.
  destruct (uk_flat UK_INITIAL_LETTERS UK_PARTICLES UK_KNOWN_PREFIXES) as (rest & E). rewrite E in H. clear E.
  apply map_cons_inv in H as ([b0 t0] & l0 & E0 & F0 & H). apply map_cons_inv in H as ([b1 t1] & l1 & E1 & F1 & H).
  apply map_cons_inv in H as ([b2 t2] & l2 & E2 & F2 & H). apply map_cons_inv in H as ([b3 t3] & l3 & E3 & F3 & H).
  apply map_cons_inv in H as ([b4 t4] & l4 & E4 & F4 & _). cbn [fst snd] in *.
  apply pair_equal_spec in F0 as [F0 G0]. apply pair_equal_spec in F1 as [F1 G1]. apply pair_equal_spec in F2 as [F2 G2].
  apply pair_equal_spec in F3 as [F3 G3]. apply pair_equal_spec in F4 as [F4 G4].
  exists b0, b1, b2, b3, b4, l4. rewrite E0, E1, E2, E3, E4, G0, G1, G2, G3, G4. split; [reflexivity|].
  split; [exact F0|]. split; [exact F1|]. split; [exact F2|]. split; [exact F3|exact F4].
Qed.

Lemma dict_parse_nonempty : forall M self lower ps, in_dictionary M lower -> dict_parse M self lower = Ok ps -> ps <> [].
Proof.
  intros M self lower ps (w & vals & Hw & Hv & N) H. destruct vals as [|[para idx] vals]; [congruence|].
  apply variants_spec in Hw.
  destruct (dict_parse_complete _ _ _ _ _ _ para idx H Hw Hv (or_introl eq_refl)) as (nf & t & _ & _ & Hp).
  intro E. rewrite E in Hp. destruct Hp.
Qed.
Lemma run_ru : forall recP recT M word lower b0 b1 b2 us r,
  b_cfg b0 = UDict -> b_cfg b1 = UInit true RU_INITIAL_LETTERS name_pattern (1#10)%Q ->
  b_cfg b2 = UInit false RU_INITIAL_LETTERS patr_pattern (1#10)%Q ->
  in_dictionary M lower -> ~ In word RU_INITIAL_LETTERS ->
  run_parse recP recT M word lower 0 ((b0, false) :: (b1, false) :: (b2, true) :: us) [] [] = Ok r ->
  dict_parse M (Root 0) lower = Ok r.
Proof.
  intros recP recT M word lower b0 b1 b2 us r H0 H1 H2 ID NI H. apply smem_false in NI.
  cbn [run_parse] in H. unfold unit_parse at 1 in H. rewrite H0 in H.
  apply bind_ok in H as ([ps s] & E & H). apply bind_ok in E as (ps' & E & E'). apply Ok_inj in E'. inversion E'; subst ps' s. clear E'.
  cbn [andb app] in H. unfold unit_parse at 1 in H. rewrite H1 in H. rewrite NI in H. cbn [bind andb] in H.
  unfold unit_parse at 1 in H. rewrite H2 in H. rewrite NI in H. cbn [bind andb] in H. rewrite !app_nil_r in H.
  pose proof (dict_parse_nonempty _ _ _ _ ID E). destruct ps; [congruence|]. apply Ok_inj in H. subst. auto.
Qed.
Lemma run_uk : forall recP recT M word lower b0 b1 b2 b3 b4 us r,
  b_cfg b0 = UDict -> b_cfg b1 = UInit true UK_INITIAL_LETTERS name_pattern (1#10)%Q ->
  b_cfg b2 = UInit false UK_INITIAL_LETTERS patr_pattern (1#10)%Q -> b_cfg b3 = URoman (9#10)%Q -> b_cfg b4 = ULatin (9#10)%Q ->
  in_dictionary M lower -> ~ In word UK_INITIAL_LETTERS -> is_roman_number word = false -> is_latin (m_uni M) word = Ok false ->
  run_parse recP recT M word lower 0 ((b0, false) :: (b1, false) :: (b2, false) :: (b3, false) :: (b4, true) :: us) [] [] = Ok r ->
  dict_parse M (Root 0) lower = Ok r.
Proof.
  intros recP recT M word lower b0 b1 b2 b3 b4 us r H0 H1 H2 H3 H4 ID NI NR NL H. apply smem_false in NI.
  cbn [run_parse] in H. unfold unit_parse at 1 in H. rewrite H0 in H.
  apply bind_ok in H as ([ps s] & E & H). apply bind_ok in E as (ps' & E & E'). apply Ok_inj in E'. inversion E'; subst ps' s. clear E'.
  cbn [andb app] in H. unfold unit_parse at 1 in H. rewrite H1 in H. rewrite NI in H. cbn [bind andb] in H.
  unfold unit_parse at 1 in H. rewrite H2 in H. rewrite NI in H. cbn [bind andb] in H. rewrite !app_nil_r in H.
  unfold unit_parse at 1 in H. rewrite H3 in H. unfold shape_parse at 1, shape_tag at 1 in H. rewrite H3, NR in H. cbn [bind andb] in H. rewrite app_nil_r in H.
  unfold unit_parse at 1 in H. rewrite H4 in H. unfold shape_parse at 1, shape_tag at 1 in H. rewrite H4, NL in H. cbn [bind andb] in H. rewrite app_nil_r in H.
  pose proof (dict_parse_nonempty _ _ _ _ ID E). destruct ps; [congruence|]. apply Ok_inj in H. subst. auto.
Qed.
Lemma dict_parse_readings : forall M lower ps, wf_dict (m_dict M) -> consistent_dict (m_dict M) ->
  dict_parse M (Root 0) lower = Ok ps -> dictionary_readings M lower ps.
Proof.
  intros M lower ps W Cn H. split.
  - exists (variants (m_subst M) lower). split; [apply variants_spec|]. split; [intro P; apply variants_NoDup; auto|].
    apply dict_parse_list; auto.
  - intros p Hp. eapply dict_parse_entry in Hp as (w & vals & para & idx & nf & t & H1 & H2 & H3 & H4 & H5 & ->); eauto.
    destruct (Cn _ _ _ _ (sget_pair _ _ _ H2) H3) as (pre & t' & sf & stem & R & Ew).
    destruct (row0 _ _ _ _ _ _ W R) as (pre0 & t0 & sf0 & R0).
    rewrite (para_row_tag _ _ _ _ _ _ R) in H5. inversion H5; subst t'.
    rewrite Ew, (row_nf_app _ _ _ _ _ _ _ _ _ stem R R0) in H4. inversion H4; subst nf.
    exists para, idx, pre, sf. cbn. repeat split; auto. exists pre, t, sf, pre0, t0, sf0, stem. auto.
Qed.
Lemma ru_dictionary_word : forall n M word ps, has_units M RU_DEFAULT_UNITS -> m_prob M = None ->
  wf_dict (m_dict M) -> consistent_dict (m_dict M) ->
  in_dictionary M (u_lower (m_uni M) word) -> ~ In word RU_INITIAL_LETTERS ->
  parse_f n M word = Ok ps -> dictionary_readings M (u_lower (m_uni M) word) ps.
Proof.
  intros n M word ps HU HP W Cn ID NI H. destruct n as [|n]; [discriminate|]. unfold parse_f in H. simpl in H. rewrite HP in H.
  apply bind_ok in H as (r & E & H). apply Ok_inj in H. subst r. apply ru_head in HU as (b0 & b1 & b2 & us & Eu & H0 & H1 & H2).
  rewrite Eu in E. apply dict_parse_readings; auto. exact (run_ru _ _ _ _ _ b0 b1 b2 us _ H0 H1 H2 ID NI E).
Qed.
Lemma uk_dictionary_word : forall n M word ps, has_units M UK_DEFAULT_UNITS -> m_prob M = None ->
  wf_dict (m_dict M) -> consistent_dict (m_dict M) ->
  in_dictionary M (u_lower (m_uni M) word) -> ~ In word UK_INITIAL_LETTERS ->
  is_roman_number word = false -> is_latin (m_uni M) word = Ok false ->
  parse_f n M word = Ok ps -> dictionary_readings M (u_lower (m_uni M) word) ps.
Proof.
  intros n M word ps HU HP W Cn ID NI NR NL H. destruct n as [|n]; [discriminate|]. unfold parse_f in H. simpl in H. rewrite HP in H.
  apply bind_ok in H as (r & E & H). apply Ok_inj in H. subst r. apply uk_head in HU as (b0 & b1 & b2 & b3 & b4 & us & Eu & H0 & H1 & H2 & H3 & H4).
  rewrite Eu in E. apply dict_parse_readings; auto. exact (run_uk _ _ _ _ _ b0 b1 b2 b3 b4 us _ H0 H1 H2 H3 H4 ID NI NR NL E).
Qed.

(** ** C06 *)
Lemma subst_of_nil : forall a b, subst_of [] a b <-> b = a.
Proof.
  intros a b. split.
  - intro H. induction H as [|x y a b [->|H] _ IH]; auto; [rewrite IH; auto|discriminate].
  - intros ->. apply subst_of_refl.
Qed.
Lemma dawg_mem_iff : forall {V} (d : rdawg V) w, dawg_mem d w = true <-> exists vals, sget w d = Some vals.
Proof. intros. unfold dawg_mem, din, sget. destruct (dget str_eqb w d); split; eauto; try discriminate. intros (v & E). discriminate. Qed.
Lemma known_iff : forall D r w, dict_word_is_known D w (Some r) = true <-> exists v vals, subst_of r w v /\ sget v (d_words D) = Some vals.
Proof.
  intros D r w. destruct r as [|x r].
  - simpl. rewrite dawg_mem_iff. split.
    + intros (vals & E). exists w, vals. split; auto. apply subst_of_refl.
    + intros (v & vals & H & E). apply subst_of_nil in H. subst. eauto.
  - unfold dict_word_is_known. split.
    + intro H. destruct (similar_keys _ _ _) as [|k ks] eqn:E; [discriminate|]. assert (Hk : In k (similar_keys (d_words D) (x :: r) w)) by (rewrite E; left; auto).
      apply in_map_iff in Hk as ([k' vals] & <- & Hk). apply similar_items_In in Hk as [Hk Hv]. apply variants_spec in Hk. eauto.
    + intros (v & vals & H & E). apply variants_spec in H.
      assert (Hk : In v (similar_keys (d_words D) (x :: r) w)).
      { apply in_map_iff. exists (v, vals). split; auto. apply similar_items_In. auto. }
      destruct (similar_keys _ _ _); [destruct Hk|auto].
Qed.
Lemma known_strict_iff : forall D w, dict_word_is_known D w None = true <-> exists vals, sget w (d_words D) = Some vals.
Proof. intros. apply dawg_mem_iff. Qed.
Lemma strict_implies : forall M w, word_is_known M w true = true -> word_is_known M w false = true.
Proof.
  intros M w H. unfold word_is_known in *. simpl in *. apply known_strict_iff in H as (vals & H). apply known_iff.
  exists (u_lower (m_uni M) w), vals. split; auto. apply subst_of_refl.
Qed.
Lemma word_known_iff : forall M w, no_empty_entry (m_dict M) ->
  (word_is_known M w false = true <-> in_dictionary M (u_lower (m_uni M) w)).
Proof.
  intros M w N. unfold word_is_known. rewrite known_iff. split; intros (v & vals & H & E).
  - exists v, vals. repeat split; auto. apply (N v). apply sget_pair; auto.
  - destruct E. eauto.
Qed.
Lemma word_known_strict_iff : forall M w,
  (word_is_known M w true = true <-> exists vals, sget (u_lower (m_uni M) w) (d_words (m_dict M)) = Some vals).
Proof. intros. apply known_strict_iff. Qed.
Lemma subst_of_trans : forall r a b c, subst_idempotent r -> subst_of r a b -> subst_of r b c -> subst_of r a c.
Proof.
  intros r a b c I H. revert c. induction H as [|x y a b H0 _ IH]; intros c H2; inversion H2 as [|? z ? c2 Hz Hc]; subst; [constructor|]. unfold subst_of in IH.
  constructor; auto. destruct H0 as [->|H0]; auto. destruct Hz as [->|Hz]; auto.
  destruct (I _ _ H0) as [E|E]; rewrite E in Hz; [discriminate Hz|]. right. congruence.
Qed.
(** what the units of the first group return *)
Definition firstish (c : ucfg) : Prop := match c with UDict | UInit _ _ _ _ | URoman _ | ULatin _ => True | _ => False end.
Lemma made_firstish : forall recP recT M i b word lower p, firstish (b_cfg b) -> made recP recT M i b word lower p ->
  p_word p = lower \/ exists vals, sget (p_word p) (d_words (m_dict M)) = Some vals.
Proof.
  intros recP recT M i b word lower p F Md. destruct Md; auto; try (rewrite H in F; destruct F; fail).
  destruct H0 as (w & vals & para & idx & nf & t & _ & H2 & _ & _ & _ & ->). right. eauto.
Qed.
Lemma first_group_words : forall recP recT M word lower us r k bk p,
  run_parse recP recT M word lower 0 us [] [] = Ok r -> In p r ->
  (exists b0 t0 us', us = (b0, t0) :: us' /\ b_cfg b0 = UDict) -> in_dictionary M lower ->
  nth_error us k = Some (bk, true) -> (forall j b t, j <= k -> nth_error us j = Some (b, t) -> firstish (b_cfg b)) ->
  p_word p = lower \/ exists vals, sget (p_word p) (d_words (m_dict M)) = Some vals.
Proof.
  intros recP recT M word lower us r k bk p H Hp (b0 & t0 & us' & Eu & Hb) ID Nk F.
  apply run_parse_tried in H as (outs & T & -> & L & St & En). simpl in *.
  assert (Lk : length outs <= S k).
  { destruct (le_lt_dec (length outs) (S k)) as [|Lo]; auto. exfalso. specialize (St k bk Lo Nk).
    subst us. inversion T as [|i b t us0 seen ps seen' outs' E T']; subst; [simpl in Lo; lia|].
    unfold unit_parse in E. rewrite Hb in E. apply bind_ok in E as (ps' & E & E'). apply Ok_inj in E'. inversion E'; subst.
    apply dict_parse_nonempty in E; auto. simpl in St. destruct ps; [congruence|discriminate]. }
  assert (G : forall i us seen outs, tried recP recT M word lower i us seen outs -> forall p, In p (concat outs) ->
    exists j b t, j < length outs /\ nth_error us j = Some (b, t) /\ made recP recT M (i + j) b word lower p).
  { clear. intros i us seen outs T. induction T as [|i b t us seen ps seen' outs E T IH]; intros p Hp; [destruct Hp|].
    simpl in Hp. apply in_app_iff in Hp as [Hp|Hp].
    - exists 0, b, t. split; [simpl; lia|]. split; auto. rewrite Nat.add_0_r. eapply unit_parse_made; eauto.
    - apply IH in Hp as (j & b' & t' & A & B & Cc). exists (S j), b', t'. split; [simpl; lia|]. split; auto.
      rewrite Nat.add_succ_r. exact Cc. }
  apply (G _ _ _ _ T) in Hp as (j & b & t & A & B & Md). eapply made_firstish; [|exact Md]. eapply F; [|exact B]. lia.
Qed.
Lemma parse_raw : forall n M word ps, parse_f (S n) M word = Ok ps ->
  exists r, run_parse (parse_f n M) (tag_f n M) M word (u_lower (m_uni M) word) 0 (m_units M) [] [] = Ok r /\
    match m_prob M with None => ps = r | Some d => apply_to_parses d (u_lower (m_uni M) word) r = Ok ps end.
Proof.
  intros n M word ps H. unfold parse_f in H. simpl in H. apply bind_ok in H as (r & E & H). exists r. split; [exact E|].
  destruct (m_prob M); [exact H|]. apply Ok_inj in H. auto.
Qed.
Lemma raw_In : forall M lower r ps p,
  match m_prob M with None => ps = r | Some d => apply_to_parses d lower r = Ok ps end -> In p ps ->
  exists q s, In q r /\ p = with_score q s.
Proof.
  intros M lower r ps p H Hp. destruct (m_prob M) as [d|].
  - eapply apply_to_parses_In in Hp as (q & s & Hq & E); eauto.
  - subst. exists p, (p_score p). rewrite with_score_same. auto.
Qed.
Lemma is_known_agree : forall n M word ps p, shipped_units M -> lower_stable (m_uni M) ->
  subst_idempotent (m_subst M) -> no_empty_entry (m_dict M) ->
  parse_f n M word = Ok ps -> In p ps -> parse_is_known M p = word_is_known M word false.
Proof.
  intros n M word ps p SU LS SI NE H Hp. destruct n as [|n]; [discriminate|].
  pose proof H as H'. apply parse_raw in H as (r & Er & Ea).
  destruct (word_is_known M word false) eqn:K.
  - apply word_known_iff in K; auto. apply (raw_In M _ _ _ _ Ea) in Hp as (q & s & Hq & ->).
    assert (G : p_word q = u_lower (m_uni M) word \/ exists vals, sget (p_word q) (d_words (m_dict M)) = Some vals).
    { destruct SU as [SU|SU].
      - apply ru_head in SU as (b0 & b1 & b2 & us & Eu & H0 & H1 & H2). rewrite Eu in Er.
        apply (first_group_words _ _ _ _ _ _ _ 2 b2 _ Er Hq); [exists b0, false; eexists; split; [reflexivity|exact H0]|exact K|reflexivity|].
        intros [|[|[|j]]] b t Lj N; [| | |lia]; cbn [nth_error] in N; inversion N; subst; [rewrite H0|rewrite H1|rewrite H2]; exact I.
      - apply uk_head in SU as (b0 & b1 & b2 & b3 & b4 & us & Eu & H0 & H1 & H2 & H3 & H4). rewrite Eu in Er.
        apply (first_group_words _ _ _ _ _ _ _ 4 b4 _ Er Hq); [exists b0, false; eexists; split; [reflexivity|exact H0]|exact K|reflexivity|].
        intros [|[|[|[|[|j]]]]] b t Lj N; [| | | | |lia]; cbn [nth_error] in N; inversion N; subst; [rewrite H0|rewrite H1|rewrite H2|rewrite H3|rewrite H4]; exact I. }
    unfold parse_is_known. cbn [with_score p_word]. apply known_iff. destruct G as [->|(vals & E)].
    + destruct K as (w & vals & A & B & _). eauto.
    + exists (p_word q), vals. split; auto. apply subst_of_refl.
  - destruct (parse_is_known M p) eqn:Kp; auto. unfold parse_is_known in Kp. apply known_iff in Kp as (v & vals & A & B).
    assert (W : word_is_known M word false = true).
    { unfold word_is_known. apply known_iff. exists v, vals. split; auto. eapply subst_of_trans; eauto.
      apply (parse_word (S n) M word ps p); auto. }
    congruence.
Qed.
