(** * Creating and pickling analyzers: lemmas *)
From Coq Require Import String List NArith ZArith Bool Lia QArith.
From Verif Require Import Py Uni Tagset Dawg Utils Shapes Dict Units Analyzer ConfigRu ConfigUk Json Storage Create Spec9.
From Verif Require Import L_Base L_Tagset L_ByUnit.
Import ListNotations.
Local Open Scope nat_scope.
Local Open Scope list_scope.

(** ** the parts of the tag class that do not belong to the dictionary *)
Definition upd (E : tagclass) (C : tagclass) : tagclass :=
  {| tc_known := tc_known C; tc_lat2cyr := tc_lat2cyr C; tc_cyr2lat := tc_cyr2lat C; tc_extra := tc_extra E; tc_incompat := tc_incompat E; tc_indices := tc_indices E |}.
Lemma add_known_upd : forall E C a b o, add_known (upd E C) a b o = upd E (add_known C a b o).
Proof. intros. unfold add_known. cbn [upd tc_known]. destruct (negb o && smem a (tc_known C)); reflexivity. Qed.
Lemma mk_tag_upd : forall E C s, mk_tag (upd E C) s = mk_tag C s. Proof. reflexivity. Qed.
Lemma contains_upd : forall E C g t, contains (upd E C) g t = contains C g t. Proof. reflexivity. Qed.
Lemma init_single_upd : forall E C a b, init_single (upd E C) a b = rmap (fun p => (upd E (fst p), snd p)) (init_single C a b).
Proof. intros. unfold init_single. rewrite add_known_upd, mk_tag_upd. destruct (mk_tag _ _); reflexivity. Qed.
Lemma bind_unit_upd : forall E C c, bind_unit (upd E C) c = rmap (fun p => (upd E (fst p), snd p)) (bind_unit C c).
Proof.
  intros E C c. destruct c; unfold bind_unit; cbv zeta; rewrite ?init_single_upd; try reflexivity; try (destruct (init_single C _ _) as [[C' t]|e]; reflexivity).
  - destruct first; rewrite !add_known_upd.
    + unfold gender_case_tags. change (mapM (fun gc => mk_tag (upd E ?D) (pattern (fst gc) (snd gc))) ?l) with (mapM (fun gc => mk_tag D (pattern (fst gc) (snd gc))) l).
      match goal with |- context [mapM ?f ?l] => destruct (mapM f l) as [tags|]; [|reflexivity] end. cbn [bind].
      change (contains (upd E ?D)) with (contains D). destruct (filterM _ tags) as [ms|]; [|reflexivity]. cbn [bind]. destruct (filterM _ tags) as [fs|]; [|reflexivity]. cbn [bind].
      destruct (guard _ _); reflexivity.
    + unfold gender_case_tags. change (mapM (fun gc => mk_tag (upd E ?D) (pattern (fst gc) (snd gc))) ?l) with (mapM (fun gc => mk_tag D (pattern (fst gc) (snd gc))) l).
      match goal with |- context [mapM ?f ?l] => destruct (mapM f l) as [tags|]; reflexivity end.
  - rewrite !add_known_upd, !mk_tag_upd. destruct (mk_tag _ _); [|reflexivity]. cbn [bind]. destruct (mk_tag _ _); reflexivity.
  - rewrite mk_tag_upd. destruct (mk_tag C _); reflexivity.
Qed.
Lemma bind_all_upd : forall E l C, bind_all (upd E C) l = rmap (fun p => (upd E (fst p), snd p)) (bind_all C l).
Proof.
  intros E. induction l as [|[c b] l IH]; intros C; [reflexivity|]. cbn [bind_all]. rewrite bind_unit_upd. destruct (bind_unit C c) as [[C1 x]|]; [|reflexivity]. cbn [rmap bind fst snd].
  rewrite IH. destruct (bind_all C1 l) as [[C2 y]|]; reflexivity.
Qed.
Lemma init_units_upd : forall E C items, init_units (upd E C) items = rmap (fun p => (upd E (fst p), snd p)) (init_units C items).
Proof. intros. unfold init_units. destruct (mapM flatten_item items); [|reflexivity]. cbn [bind]. apply bind_all_upd. Qed.
Definition sim (C D : tagclass) : Prop := D = upd D C.
Lemma sim_fields : forall C D, tc_known C = tc_known D -> tc_lat2cyr C = tc_lat2cyr D -> tc_cyr2lat C = tc_cyr2lat D -> sim C D.
Proof. intros C [k l c e i x] H1 H2 H3. unfold sim, upd. cbn in *. rewrite H1, H2, H3. auto. Qed.
Lemma add_row_sim : forall rows C D, sim C D -> sim (fold_left add_row rows C) (fold_left add_row rows D).
Proof.
  induction rows as [|r rows IH]; intros C D H; [exact H|]. cbn [fold_left]. apply IH. unfold add_row. unfold sim in *. rewrite H. rewrite add_known_upd. unfold upd. unfold add_known. destruct (_ && _); reflexivity.
Qed.
Lemma set_rows_known : forall rows extra l C, sim C (fold_left (set_row rows extra) l C).
Proof.
  intros rows extra l. assert (G : forall D C, sim C D -> sim C (fold_left (set_row rows extra) l D)).
  { induction l as [|[i r] l IH]; intros D C H; [exact H|]. cbn [fold_left]. apply IH. unfold sim in *. cbn [set_row]. rewrite H. reflexivity. }
  intros C. apply G. destruct C. reflexivity.
Qed.
Lemma sim_trans : forall A B C, sim A B -> sim B C -> sim A C.
Proof. intros A B C H1 H2. unfold sim in *. rewrite H2. rewrite H1. reflexivity. Qed.
Lemma sim_sym : forall A B, sim A B -> sim B A.
Proof. intros A B H. unfold sim in *. rewrite H. destruct A. reflexivity. Qed.
Lemma init_sim : forall C D rows, sim (init_grammemes C rows) (init_grammemes D rows).
Proof.
  intros C D rows. unfold init_grammemes. eapply sim_trans; [apply sim_sym; apply set_rows_known|]. eapply sim_trans; [|apply set_rows_known].
  assert (S : sim (fold_left add_row rows (reset_known C)) (fold_left add_row rows (reset_known D))) by (apply add_row_sim; reflexivity).
  unfold sim in *. rewrite S. reflexivity.
Qed.

(** ** the same parses *)
Definition set_tc (M : morph) (C : tagclass) : morph :=
  {| m_uni := m_uni M; m_ext := m_ext M; m_dict := m_dict M; m_units := m_units M; m_prob := m_prob M; m_subst := m_subst M; m_tc := C |}.
Section Same.
  Variables (M : morph) (E : tagclass).
  Let M' := set_tc M (upd E (m_tc M)).
  Lemma any_upd : forall gs ts, any_contains (upd E (m_tc M)) gs ts = any_contains (m_tc M) gs ts.
  Proof. intros gs. induction ts as [|t ts IH]; [reflexivity|]. cbn [any_contains]. change (contains_set (upd E (m_tc M)) gs t) with (contains_set (m_tc M) gs t). destruct (contains_set _ _ _) as [[]|]; cbn [bind]; auto. Qed.
  Lemma adverb_upd : forall recT lower, adverb_should_parse recT M' lower = adverb_should_parse recT M lower.
  Proof. intros. unfold adverb_should_parse. destruct (_ || _); [reflexivity|]. destruct (recT _); [|reflexivity]. cbn [bind]. apply any_upd. Qed.
  Lemma ks_lengths_upd : forall self sub pid d lower is st, ks_lengths M' self sub pid d lower st is = ks_lengths M self sub pid d lower st is.
  Proof. intros self sub pid d lower. induction is as [|i is IH]; intros st; [reflexivity|]. cbn [ks_lengths]. change (ks_at M' self sub pid d lower st i) with (ks_at M self sub pid d lower st i). destruct (ks_at M _ _ _ _ _ _ _); [|reflexivity]. cbn [bind]. destruct (_ <? _); auto. Qed.
  Lemma kst_lengths_upd : forall d lower is st, kst_lengths M' d lower st is = kst_lengths M d lower st is.
  Proof. intros d lower. induction is as [|i is IH]; intros st; [reflexivity|]. cbn [kst_lengths]. change (kst_at M' d lower st i) with (kst_at M d lower st i). destruct (kst_at M _ _ _ _); [|reflexivity]. cbn [bind]. destruct (kt_found _); auto. Qed.
  Lemma foldM_same : forall A B (f g : A -> B -> res A) l a, (forall a b, f a b = g a b) -> foldM f a l = foldM g a l.
  Proof. intros A B f g l. induction l as [|x l IH]; intros a H; [reflexivity|]. cbn [foldM]. rewrite H. destruct (g a x); [|reflexivity]. cbn [bind]. auto. Qed.
  Lemma ks_parse_upd : forall self sub mult n word lower seen, ks_parse M' self sub mult n word lower seen = ks_parse M self sub mult n word lower seen.
  Proof.
    intros. unfold ks_parse. destruct (_ <? _); [reflexivity|]. change (m_dict M') with (m_dict M). rewrite (foldM_same _ _ (ks_prefix M' self sub mult lower) (ks_prefix M self sub mult lower)); [reflexivity|].
    intros a [pid pr]. unfold ks_prefix. change (m_dict M') with (m_dict M). destruct (nth_res _ _); [|reflexivity]. cbn [bind]. rewrite ks_lengths_upd. reflexivity.
  Qed.
  Lemma ks_tag_upd : forall n word lower seen, ks_tag M' n word lower seen = ks_tag M n word lower seen.
  Proof.
    intros. unfold ks_tag. destruct (_ <? _); [reflexivity|]. change (m_dict M') with (m_dict M). rewrite (foldM_same _ _ (kst_prefix M' lower) (kst_prefix M lower)); [reflexivity|].
    intros a [pid pr]. unfold kst_prefix. change (m_dict M') with (m_dict M). destruct (nth_res _ _); [|reflexivity]. cbn [bind]. rewrite kst_lengths_upd. reflexivity.
  Qed.
  Lemma unit_upd : forall recP recT i b word lower,
    (forall seen, unit_parse recP recT M' i b word lower seen = unit_parse recP recT M i b word lower seen) /\
    (forall seen, unit_tag recP recT M' i b word lower seen = unit_tag recP recT M i b word lower seen).
  Proof. intros. split; intros seen; unfold unit_parse, unit_tag; destruct (b_cfg b); try reflexivity; try (rewrite adverb_upd; reflexivity); [apply ks_parse_upd|apply ks_tag_upd]. Qed.
  Lemma run_upd : forall recP recT word lower us i,
    (forall acc seen, run_parse recP recT M' word lower i us acc seen = run_parse recP recT M word lower i us acc seen) /\
    (forall acc seen, run_tag recP recT M' word lower i us acc seen = run_tag recP recT M word lower i us acc seen).
  Proof.
    intros recP recT word lower us. induction us as [|[b t] us IH]; intros i; [split; reflexivity|]. destruct (unit_upd recP recT i b word lower) as [A B]. destruct (IH (S i)) as [C D].
    split; intros acc seen; cbn [run_parse run_tag].
    - rewrite A. destruct (unit_parse _ _ _ _ _ _ _ _) as [[ps s]|]; [|reflexivity]. cbn [bind]. rewrite C. reflexivity.
    - rewrite B. destruct (unit_tag _ _ _ _ _ _ _ _) as [[ps s]|]; [|reflexivity]. cbn [bind]. rewrite D. reflexivity.
  Qed.
  Lemma analyze_upd : forall n w, parse_f n M' w = parse_f n M w /\ tag_f n M' w = tag_f n M w.
  Proof.
    induction n as [|n IH]; intros w; [split; reflexivity|]. unfold parse_f, tag_f in *. cbn [analyze fst snd].
    assert (HP : forall w, fst (analyze n M') w = fst (analyze n M) w) by (intros; apply IH). assert (HT : forall w, snd (analyze n M') w = snd (analyze n M) w) by (intros; apply IH).
    change (m_uni M') with (m_uni M). change (m_units M') with (m_units M). change (m_prob M') with (m_prob M).
    destruct (run_rec_ext _ _ _ _ M' w (u_lower (m_uni M) w) HP HT (m_units M) 0) as [A B]. destruct (run_upd (fst (analyze n M)) (snd (analyze n M)) w (u_lower (m_uni M) w) (m_units M) 0) as [C D].
    rewrite A, B, C, D. auto.
  Qed.
  Lemma hyph_forms_ext : forall lex lex' self form, (forall r p, lex r p = lex' r p) -> hyph_forms lex self form = hyph_forms lex' self form.
  Proof.
    intros lex lex' self form H. unfold hyph_forms. destruct (p_stack form) as [|m l]; [reflexivity|]. destruct l; destruct m; try reflexivity; destruct (negb _); try reflexivity.
    - destruct (last_unit _); [|reflexivity]. cbn [bind]. rewrite H. reflexivity.
    - destruct (without_right_part _); [|reflexivity]. cbn [bind]. destruct (without_left_part _); [|reflexivity]. cbn [bind]. destruct (last_unit lefts); [|reflexivity]. cbn [bind]. rewrite H.
      destruct (lex' _ _); [|reflexivity]. cbn [bind]. destruct (last_unit rights); [|reflexivity]. cbn [bind]. rewrite H. reflexivity.
  Qed.
  Lemma lexeme_upd : forall n r p, lexeme_f n M' r p = lexeme_f n M r p.
  Proof.
    induction n as [|n IH]; intros r p; [reflexivity|]. cbn [lexeme_f]. destruct r as [i|i]; [|reflexivity]. change (m_units M') with (m_units M). destruct (nth_res (m_units M) i) as [[b t]|]; [|reflexivity]. cbn [bind fst].
    destruct (b_cfg b); try reflexivity; try (destruct (method_info (p_stack p)) as [[base this]|]; [|reflexivity]; cbn [bind]; try (destruct (method_arg1 this); [|reflexivity]; cbn [bind]); rewrite IH; reflexivity).
    - rewrite (hyph_forms_ext _ _ _ _ IH). reflexivity.
  Qed.
End Same.

(** ** finding the folder *)
Lemma dict_of_get : forall (l d : list (str * str)) k, sget k (fold_left (fun d (kv : str * str) => sset_ (fst kv) (snd kv) d) l d) =
  match find (fun kv : str * str => str_eqb k (fst kv)) (rev l) with Some kv => Some (snd kv) | None => sget k d end.
Proof.
  induction l as [|[k' v] l IH]; intros d k; [reflexivity|]. cbn [fold_left fst snd rev]. rewrite IH.
  assert (F : forall A (f : A -> bool) a b, find f (a ++ b) = match find f a with Some x => Some x | None => find f b end) by (clear; induction a as [|x a IH]; intros; [reflexivity|]; cbn [find app]; destruct (f x); auto).
  rewrite F. destruct (find _ (rev l)) as [kv|]; [reflexivity|]. cbn [find fst].
  destruct (str_eqb k k') eqn:E.
  - apply str_eqb_eq in E. subst k'. cbn [snd]. apply sget_set_same.
  - apply sget_set_other. intro H. subst k'. rewrite str_eqb_refl in E. discriminate E.
Qed.
Lemma find_last_rev : forall (r : list (str * str)) k p,
  (exists a b, rev r = a ++ (k, p) :: b /\ ~ In k (map fst b)) <-> (exists kv, find (fun kv : str * str => str_eqb k (fst kv)) r = Some kv /\ snd kv = p).
Proof.
  intros r0 k p. symmetry. induction r0 as [|[k' v] r IH]; cbn [find fst rev].
  - split; [intros (kv & H & _); discriminate H|intros (a & b & H & _); destruct a; discriminate H].
  - destruct (str_eqb k k') eqn:E.
    + apply str_eqb_eq in E. subst k'. split.
      * intros (kv & H & H2). injection H as <-. cbn [snd] in H2. subst v. exists (rev r), []. auto.
      * intros (a & b & H & N). exists (k, v). split; [auto|]. destruct b as [|x b] using rev_ind.
        -- apply app_inj_tail in H as [_ H]. injection H as H. auto.
        -- exfalso. rewrite app_comm_cons, app_assoc in H. apply app_inj_tail in H as [_ H]. subst x. apply N. rewrite map_app. apply in_or_app. right. left. reflexivity.
    + rewrite IH. assert (K : k <> k') by (intro H; subst; rewrite str_eqb_refl in E; discriminate E). split; intros (a & b & H & N).
      * exists a, (b ++ [(k', v)]). rewrite H, <- app_assoc. split; [reflexivity|]. rewrite map_app. intro I. apply in_app_or in I as [I|[I|[]]]; [exact (N I)|]. cbn [fst] in I. auto.
      * destruct b as [|x b] using rev_ind.
        -- apply app_inj_tail in H as [_ H]. injection H as H _. destruct (K (eq_sym H)).
        -- clear IHb. rewrite app_comm_cons, app_assoc in H. apply app_inj_tail in H as [H _]. exists a, b. split; [exact H|]. intro I. apply N. rewrite map_app. apply in_or_app. left. exact I.
Qed.
Lemma find_last : forall (l : list (str * str)) k p,
  (exists kv, find (fun kv : str * str => str_eqb k (fst kv)) (rev l) = Some kv /\ snd kv = p) <-> exists a b, l = a ++ (k, p) :: b /\ ~ In k (map fst b).
Proof.
  intros l k p. rewrite <- find_last_rev, rev_involutive. reflexivity.
Qed.
Lemma installed_iff : forall W l p, sget l (lang_dict_paths W) = Some p <-> installed W l p.
Proof.
  intros W l p. unfold lang_dict_paths, installed, dict_of.
  assert (G : sget l (fold_left (fun d (kv : str * str) => sset_ (fst kv) (snd kv) d) (w_packages W) []) = Some p <-> exists a b, w_packages W = a ++ (l, p) :: b /\ ~ In l (map fst b)).
  { rewrite dict_of_get, <- find_last. destruct (find _ _) as [kv|].
    - split; [intros H; injection H as H; exists kv; auto|intros (x & H & <-); injection H as ->; auto].
    - split; [intros H; discriminate H|intros (x & H & _); discriminate H]. }
  destruct (w_old W) as [q|].
  - destruct (list_eq_dec N.eq_dec l (u "ru-old")) as [->|N].
    + rewrite sget_set_same. split; [intros H; injection H as ->; auto|intros [(_ & H)|([H|H] & _)]; [injection H as ->; auto|destruct (H eq_refl)|discriminate H]].
    + rewrite sget_set_other by exact N. rewrite G. split; [intros H; right; auto|intros [(H & _)|(_ & H)]; [destruct (N H)|exact H]].
  - rewrite G. split; [intros H; right; auto|intros [(_ & H)|(_ & H)]; [discriminate H|exact H]].
Qed.
Lemma create_lang : forall a, match a_path a, a_lang a with None, None => Some (u "ru") | _, l => l end = requested a.
Proof. intros a. unfold requested. destruct (a_path a), (a_lang a); reflexivity. Qed.
Lemma picks_iff : forall W a p, choose_dictionary_path W (a_path a) (requested a) = Ok p <-> picks W a p.
Proof.
  intros W a p. unfold choose_dictionary_path. split.
  - destruct (a_path a) as [q|] eqn:A; [intros H; injection H as ->; apply picks_path; auto|]. destruct (w_env W) as [q|] eqn:V; [intros H; injection H as ->; apply picks_env; auto|].
    destruct (requested a) as [l|] eqn:R; [|intros H; discriminate H]. unfold lang_dict_path. destruct (sget l _) as [q|] eqn:S; [|intros H; discriminate H]. intros H; injection H as ->. eapply picks_package; eauto. apply installed_iff. auto.
  - intros [q A|q A V|q l A V R I]; rewrite ?A, ?V; [reflexivity|reflexivity|]. rewrite R. unfold lang_dict_path. apply installed_iff in I. rewrite I. reflexivity.
Qed.
Lemma picks_fun : forall W a p q, picks W a p -> picks W a q -> p = q.
Proof. intros W a p q A B. apply picks_iff in A, B. rewrite A in B. injection B as B. auto. Qed.
Lemma picks_dec : forall W a, (exists p, picks W a p) \/ choose_dictionary_path W (a_path a) (requested a) = Err ValueError.
Proof.
  intros W a. destruct (choose_dictionary_path W (a_path a) (requested a)) as [p|e] eqn:E; [left; exists p; apply picks_iff; auto|right]. unfold choose_dictionary_path, lang_dict_path in E.
  destruct (a_path a); [discriminate E|]. destruct (w_env W); [discriminate E|]. destruct (requested a); [|auto]. destruct (sget _ _); [discriminate E|auto].
Qed.
Lemma create_none : forall W C a, (~ exists p, picks W a p) -> create W C a = ([], C, Err ValueError).
Proof. intros W C a N. destruct (picks_dec W a) as [H|H]; [destruct (N H)|]. unfold create. rewrite create_lang, H. reflexivity. Qed.
Lemma create_unreadable : forall W C a p C1 e, picks W a p -> load_dict (w_io W) (w_big W) (w_folder W p) C = (C1, Err e) -> create W C a = ([], C1, Err e).
Proof. intros W C a p C1 e P L. apply picks_iff in P. unfold create. rewrite create_lang, P, L. reflexivity. Qed.

Definition sub_choice (W : world) (a : args) (lg : jval) : warned replaces :=
  match a_sub a with SubGiven r => quiet (Ok r) | SubAuto => let '(w, c) := lang_default_config W lg in (w, rmap c_sub c) end.
Definition unit_choice (W : world) (a : args) (lg : jval) : warned (list uitem) :=
  match a_units a with Some us => quiet (Ok us) | None => let '(w, c) := lang_default_config W lg in (w, rmap c_units c) end.
Record created (W : world) (C : tagclass) (a : args) (ws : list warning) (C' : tagclass) (z : analyzer) (p : str) (l : loaded_dictionary) (C1 : tagclass) : Prop := {
  cr_picks : picks W a p;
  cr_load : load_dict (w_io W) (w_big W) (w_folder W p) C = (C1, Ok l);
  cr_dict : dictionary l = Ok (m_dict (z_morph z));
  cr_prob : get_prob_estimator W (a_est a) (ld_meta l) p = Ok (m_prob (z_morph z));
  cr_sub : snd (sub_choice W a (z_lang z)) = Ok (m_subst (z_morph z));
  cr_units : snd (unit_choice W a (z_lang z)) = Ok (z_units z);
  cr_init : init_units C1 (z_units z) = Ok (C', m_units (z_morph z));
  cr_lang : z_lang z = snd (choose_language (meta_get (u "language_code") (ld_meta l)) (requested a));
  cr_warn : ws = fst (choose_language (meta_get (u "language_code") (ld_meta l)) (requested a)) ++ fst (sub_choice W a (z_lang z)) ++ fst (unit_choice W a (z_lang z));
  cr_rest : m_uni (z_morph z) = w_uni W /\ m_ext (z_morph z) = w_ext W /\ m_tc (z_morph z) = C' /\ z_path_arg z = a_path a /\ z_lang_arg z = a_lang a /\ z_result z = a_result a }.
Lemma finish_ok : forall W a p lang l C w C' z, finish W a p lang l C = (w, Ok (C', z)) <->
  dictionary l = Ok (m_dict (z_morph z)) /\ get_prob_estimator W (a_est a) (ld_meta l) p = Ok (m_prob (z_morph z)) /\
  snd (sub_choice W a (z_lang z)) = Ok (m_subst (z_morph z)) /\ snd (unit_choice W a (z_lang z)) = Ok (z_units z) /\
  init_units C (z_units z) = Ok (C', m_units (z_morph z)) /\ z_lang z = snd (choose_language (meta_get (u "language_code") (ld_meta l)) lang) /\
  w = fst (choose_language (meta_get (u "language_code") (ld_meta l)) lang) ++ fst (sub_choice W a (z_lang z)) ++ fst (unit_choice W a (z_lang z)) /\
  m_uni (z_morph z) = w_uni W /\ m_ext (z_morph z) = w_ext W /\ m_tc (z_morph z) = C' /\ z_path_arg z = a_path a /\ z_lang_arg z = a_lang a /\ z_result z = a_result a.
Proof.
  intros W a p lang l C w C' z. unfold finish. fold (sub_choice W a). 
  destruct (dictionary l) as [D|e]; cbn [quiet wbind snd fst]; [|split; [intros H; discriminate H|intros (H & _); discriminate H]].
  destruct (choose_language (meta_get (u "language_code") (ld_meta l)) lang) as [w1 lg]. cbn [quiet wbind snd fst].
  destruct (get_prob_estimator W (a_est a) (ld_meta l) p) as [pr|e]; cbn [quiet wbind snd fst]; [|split; [intros H; discriminate H|intros (_ & H & _); discriminate H]].
  fold (sub_choice W a lg). fold (unit_choice W a lg).
  destruct (sub_choice W a lg) as [w2 [sub|e]] eqn:S; cbn [quiet wbind snd fst]; [|split; [intros H; discriminate H|intros (_ & _ & H & _ & _ & E & _); subst lg; rewrite S in H; discriminate H]].
  destruct (unit_choice W a lg) as [w3 [us|e]] eqn:V; cbn [quiet wbind snd fst]; [|split; [intros H; discriminate H|intros (_ & _ & _ & H & _ & E & _); subst lg; rewrite V in H; discriminate H]].
  destruct (init_units C us) as [b|e] eqn:I; cbn [quiet wbind snd fst].
  - split.
    + intros H. injection H as <- <- <-. cbn. rewrite S, V. cbn [fst snd]. rewrite I. destruct b as [b1 b2]. cbn [fst snd]. rewrite !app_nil_r. repeat (split; [reflexivity|]). reflexivity.
    + destruct z as [[mu me md ms mp mb mt] zl zp za zr zu]. cbn. intros (H1 & H2 & H3 & H4 & H5 & H6 & H7 & H8 & H9 & H10 & H11 & H12 & H13). subst zl. rewrite S in *. rewrite V in *. cbn [fst snd] in *.
      injection H1 as <-. injection H2 as <-. injection H3 as <-. injection H4 as <-. rewrite I in H5. injection H5 as ->. cbn [fst snd]. subst. rewrite !app_nil_r. reflexivity.
  - split; [intros H; discriminate H|]. intros (_ & _ & _ & H4 & H5 & H6 & _). subst lg. rewrite V in H4. cbn [snd] in H4. injection H4 as H4. rewrite <- H4, I in H5. discriminate H5.
Qed.
Lemma create_ok : forall W C a ws C' z, create W C a = (ws, C', Ok z) <-> exists p l C1, created W C a ws C' z p l C1.
Proof.
  intros W C a ws C' z. split.
  - intros H. unfold create in H. rewrite create_lang in H. destruct (choose_dictionary_path _ _ _) as [p|e] eqn:P; [|discriminate H]. apply picks_iff in P.
    destruct (load_dict _ _ _ C) as [C1 [l|e]] eqn:L; [|discriminate H]. destruct (finish W a p (requested a) l C1) as [w [[C2 z']|e]] eqn:F; [|discriminate H]. injection H as <- <- <-.
    apply finish_ok in F as (H1 & H2 & H3 & H4 & H5 & H6 & H7 & H8). exists p, l, C1. constructor; auto.
  - intros (p & l & C1 & [P L D E S V I Z Wn (R1 & R2 & R3 & R4 & R5 & R6)]). unfold create. rewrite create_lang. rewrite (proj2 (picks_iff W a p) P), L.
    rewrite (proj2 (finish_ok W a p (requested a) l C1 ws C' z)); [reflexivity|]. repeat (split; [assumption|]). assumption.
Qed.
