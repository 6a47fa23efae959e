(** * Saving and loading the gramtab with Cyrillic names *)
From Coq Require Import String List NArith ZArith Bool Lia.
From Verif Require Import Py Uni Tagset Dawg Dict Units Analyzer Compile Json Storage Convert CyrTags Spec Spec18 L_Base L_Tagset L_Tags2 L_Json L_Json2 L_Utf8 L_Storage L_Storage2 L_Reinit L_Reinit2 L_CyrTags L_Create.
Import ListNotations.
Local Open Scope nat_scope.
Local Open Scope list_scope.

Lemma save_full_ok : forall io big K rows x info K' ops, save_full io big K rows x info = (K', (ops, Ok tt)) ->
  exists fs, saved_files io big (y_alias (snd K)) rows x info fs /\ ops = writes fs /\ fst K' = init_grammemes (fst (cyr_init_grammemes K rows)) rows.
Proof.
  intros io big K rows x info K' ops H. assert (S : save_compiled_dict io big (y_alias (snd K)) rows x info = (ops, Ok tt)) by (apply (f_equal snd) in H; exact H).
  destruct (save_ok io big (y_alias (snd K)) rows x info) as (fs & F & E); [rewrite S; reflexivity|]. rewrite S in E. exists fs. split; [exact F|]. split; [exact E|].
  assert (Q : K' = save_classes K rows x) by (apply (f_equal fst) in H; symmetry; exact H). subst K'.
  rewrite (save_classes_written io big K rows x info ops H). reflexivity.
Qed.
Lemma ext_file : forall io big al rows x info fs d, saved_files io big al rows x info fs ->
  (let* j := read_json (frun (writes fs) d) (u "gramtab-opencorpora-ext.json") in as_strs j) = Ok (map (from_internal_ext (alias_map al rows)) (x_gramtab x)).
Proof.
  intros io big al rows x info fs d S. pose proof (files_nodup _ _ _ _ _ _ _ S) as ND. destruct S as (bg & be & bi & bs & bm & B1 & B2 & B3 & PF & B5 & B6 & E).
  assert (G : sget (u "gramtab-opencorpora-ext.json") (frun (writes fs) d) = Some be).
  { apply writes_get; [exact ND|]. rewrite E. apply in_or_app. left. right. left. reflexivity. }
  unfold read_json, read_file. rewrite G. cbn [bind]. rewrite (file_rt false _ _ (proj1 (jstrs_ok _)) B2). cbn [bind rd]. apply as_strs_ok.
Qed.
Lemma ext_saved : forall U io big K rows x info K' ops d, save_full io big K rows x info = (K', (ops, Ok tt)) ->
  u_space U (chr " ") = true -> u_space U (chr ",") = false -> NoDup (map g_name rows) -> separable rows -> (forall r, In r rows -> plain U (g_name r)) ->
  NoDup (map fst (y_alias (snd K))) -> (forall k, In k (map fst (y_alias (snd K))) -> In k (map g_name rows)) ->
  (forall t, In t (x_gramtab x) -> table_text rows t) ->
  (let* j := read_json (frun ops d) (u "gramtab-opencorpora-ext.json") in as_strs j) = Ok (map (lat2cyr U (fst K')) (x_gramtab x)).
Proof.
  intros U io big K rows x info K' ops d H Sp Sc ND SEP PL NA KA T. apply save_full_ok in H as (fs & F & -> & ->). rewrite (ext_file _ _ _ _ _ _ _ d F). f_equal.
  apply map_ext_in. intros t I. apply ext_of_table; auto.
Qed.
Lemma ext_load : forall io big al rows x info fs d K, saved_files io big al rows x info fs ->
  fst (load_dict_ext io big (frun (writes fs) d) K) = cyr_init_grammemes K rows /\
  (forall t, In t (x_gramtab x) -> (exists g, In g (split_tag (from_internal_ext (alias_map al rows) t)) /\ ~ In g (map g_name rows)) -> rows <> [] ->
     snd (load_dict_ext io big (frun (writes fs) d) K) = Err ValueError).
Proof.
  intros io big al rows x info fs d K S. pose proof (files_nodup _ _ _ _ _ _ _ S) as ND. pose proof (ext_file _ _ _ _ _ _ _ d S) as EF.
  destruct S as (bg & be & bi & bs & bm & B1 & B2 & B3 & PF & B5 & B6 & E).
  assert (G : forall f b, In (f, b) fs -> sget f (frun (writes fs) d) = Some b) by (intros f b I; apply writes_get; assumption).
  assert (HM : sget (u "meta.json") (frun (writes fs) d) = Some bm) by (apply G; rewrite E; apply in_or_app; right; apply in_or_app; right; left; reflexivity).
  assert (HG : sget (u "grammemes.json") (frun (writes fs) d) = Some bg) by (apply G; rewrite E; apply in_or_app; left; left; reflexivity).
  set (dd := frun (writes fs) d) in *. clearbody dd.
  assert (EQ : load_dict_ext io big dd K = (cyr_init_grammemes K rows,
     let K' := cyr_init_grammemes K rows in
         let* texts := load_gramtab_ext (save_meta x info) dd in
         let* gramtab := mapM (mk_tag (cyr_view K')) texts in
         let* js := read_json dd (u "suffixes.json") in
         let* suffixes := as_strs js in
         let* pb := read_file dd (u "paradigms.array") in
         let* paradigms := load_paradigms big pb in
         let* wb := read_file dd (u "words.dawg") in
         let* words := io_read_words io wb in
         let* prefixes := load_prefixes (save_meta x info) dd in
         let* preds := load_preds io dd (length prefixes) in
         Ok (MkLoaded (save_meta x info) gramtab suffixes paradigms words preds prefixes))).
  { unfold load_dict_ext. rewrite (load_meta_ok dd (save_meta x info) bm); [|rewrite meta_keys_eq; exact meta_keys_nodup|intros k v Hkv; exact (proj1 (meta_vals _ _ _ _ Hkv))|exact B6|exact HM].
    rewrite no_reals_meta by (intros k v Hkv; exact (proj2 (meta_vals _ _ _ _ Hkv))). cbn [bind]. change (assert_format (save_meta x info)) with (Ok tt). cbn [bind].
    unfold read_json at 1, read_file at 1. rewrite HG. cbn [bind]. rewrite (file_rt false _ _ (grammemes_ok rows) B1). cbn [bind rd]. rewrite as_rows_ok. cbn [bind]. reflexivity. }
  rewrite EQ. cbn [fst snd]. split; [reflexivity|]. intros t It (g & Ig & Ng) NR.
  change (load_gramtab_ext (save_meta x info) dd) with (let* j := read_json dd (u "gramtab-opencorpora-ext.json") in as_strs j). rewrite EF. cbn [bind].
  assert (KN : forall h, In h (tc_known (cyr_view (cyr_init_grammemes K rows))) <-> In h (map g_name rows)).
  { intros h. replace (tc_known (cyr_view (cyr_init_grammemes K rows))) with (y_known (snd (cyr_init_grammemes K rows))) by (destruct (cyr_init_grammemes K rows); reflexivity). apply cyr_known. }
  rewrite (mapM_value_error _ _ (from_internal_ext (alias_map al rows) t)); [reflexivity| | |].
  - intros N. destruct rows as [|r rows]; [congruence|]. assert (J : In (g_name r) (map g_name (r :: rows))) by (left; reflexivity). apply KN in J. rewrite N in J. destruct J.
  - apply in_map. exact It.
  - exists g. split; [exact Ig|]. intros J. apply Ng, KN, J.
Qed.
Lemma ext_groups : forall rows al groups, NoDup (map g_name rows) -> separable rows -> NoDup (map fst al) -> (forall k, In k (map fst al) -> In k (map g_name rows)) ->
  (forall l, In l groups -> l <> [] /\ forall g, In g l -> In g (map g_name rows)) ->
  from_internal_ext (alias_map al rows) (text groups) = text (map (map (fin (alias_map al rows))) groups).
Proof.
  intros rows al groups ND [S1 S2] NA KA H.
  assert (HM : forall n a, In (n, a) (alias_map al rows) -> exists r, In r rows /\ g_name r = n /\ g_alias r = a) by (intros n a; apply alias_In; assumption).
  change (from_internal_ext (alias_map al rows) (text groups)) with (fold_left step_ext (alias_map al rows) (text groups)). apply ext_text.
  - exact (proj1 (alias_keys rows al NA KA)).
  - intros n a I. destruct (HM n a I) as (r & Ir & <- & <-). apply S1. exact Ir.
  - intros n a n' a' I I'. destruct (HM n a I) as (r & Ir & <- & <-). destruct (HM n' a' I') as (r' & Ir' & <- & <-). apply S2; assumption.
  - intros l p Il Ip n a I O. destruct (HM n a I) as (r & Ir & <- & <-). destruct (H l Il) as [_ K]. specialize (K p Ip). apply in_map_iff in K as (r' & <- & Ir'). symmetry. exact (proj1 (S2 r r' Ir Ir') O).
Qed.
Lemma ext_unloadable : forall io big K0 rows x info K' ops d K t r, save_full io big K0 rows x info = (K', (ops, Ok tt)) ->
  NoDup (map g_name rows) -> separable rows ->
  NoDup (map fst (y_alias (snd K0))) -> (forall k, In k (map fst (y_alias (snd K0))) -> In k (map g_name rows)) ->
  (forall r, In r rows -> ~ In (chr ",") (g_alias r) /\ ~ In (chr " ") (g_alias r)) ->
  In t (x_gramtab x) -> In r rows -> table_text_with rows (g_name r) t -> ~ In (g_alias r) (map g_name rows) ->
  snd (load_dict_ext io big (frun ops d) K) = Err ValueError.
Proof.
  intros io big K0 rows x info K' ops d K t r H ND SEP NA KA AL It Ir (groups & l & -> & HG & Il & Ip) NI. apply save_full_ok in H as (fs & F & -> & _).
  apply (proj2 (ext_load _ _ _ _ _ _ _ d K F) _ It); [|intros ->; destruct Ir]. change (join (u " ") (map (join (u ",")) groups)) with (text groups). rewrite ext_groups by assumption.
  assert (FI : forall q, In q rows -> fin (alias_map (y_alias (snd K0)) rows) (g_name q) = g_alias q) by (intros q Iq; unfold fin; rewrite alias_get by assumption; reflexivity).
  apply (text_piece (map g_name rows) _ (map (fin (alias_map (y_alias (snd K0)) rows)) l) (g_alias r)).
  - intros n In_. apply in_map_iff in In_ as (q & <- & Iq). exact (proj2 (proj2 (proj2 (proj1 SEP q Iq)))).
  - intros l0 I0. apply in_map_iff in I0 as (l1 & <- & I1). destruct (HG l1 I1) as [NE K1]. split; [destruct l1; [congruence|discriminate]|].
    intros g Ig. apply in_map_iff in Ig as (g1 & <- & Ig1). specialize (K1 g1 Ig1). apply in_map_iff in K1 as (q & <- & Iq). rewrite (FI q Iq). exact (AL q Iq).
  - apply in_map. exact Il.
  - apply in_map_iff. exists (g_name r). split; [apply FI; exact Ir|exact Ip].
  - exact NI.
Qed.
(** what the main class keeps *)
Lemma ext_parent : forall io big d K, tc_known (fst (fst (load_dict_ext io big d K))) = tc_known (fst K) /\
  tc_lat2cyr (fst (fst (load_dict_ext io big d K))) = tc_lat2cyr (fst K) /\ tc_cyr2lat (fst (fst (load_dict_ext io big d K))) = tc_cyr2lat (fst K) /\
  (y_own (snd K) <> None -> tc_incompat (fst (fst (load_dict_ext io big d K))) = tc_incompat (fst K)).
Proof.
  intros io big d [C Y]. unfold load_dict_ext. destruct (let* m := load_meta d (u "meta.json") in _) as [[m rows]|e]; [|cbn [fst snd]; auto].
  cbn [fst snd cyr_init_grammemes tc_known tc_lat2cyr tc_cyr2lat tc_incompat]. repeat split. intros N. destruct (y_own Y); [reflexivity|congruence].
Qed.
Lemma contains_known_eq : forall C D g t, tc_known C = tc_known D -> contains C g t = contains D g t.
Proof. intros C D g t E. unfold contains, grammeme_is_known, assert_initialized. rewrite E. reflexivity. Qed.
Lemma contains_set_known_eq : forall C D gs t, tc_known C = tc_known D -> contains_set C gs t = contains_set D gs t.
Proof. intros C D gs t E. unfold contains_set, grammeme_is_known, assert_known, assert_initialized. rewrite E. reflexivity. Qed.
Lemma any_known_eq : forall C D gs ts, tc_known C = tc_known D -> any_contains C gs ts = any_contains D gs ts.
Proof. intros C D gs ts E. induction ts as [|t ts IH]; [reflexivity|]. cbn [any_contains]. rewrite (contains_set_known_eq C D gs t E), IH. reflexivity. Qed.
Lemma ext_parses : forall io big d K M, m_tc M = fst K ->
  let M' := in_state M (fst (fst (load_dict_ext io big d K))) in
  (forall word, morph_parse M' word = morph_parse M word /\ morph_tag M' word = morph_tag M word) /\
  (forall p, get_lexeme M' p = get_lexeme M p /\ normalized M' p = normalized M p) /\
  (y_own (snd K) <> None -> forall p req, inflect M' p req = inflect M p req).
Proof.
  intros io big d K M HM. destruct (ext_parent io big d K) as (KE & _ & _ & HI). set (C := fst (fst (load_dict_ext io big d K))) in *. clearbody C. cbn zeta. rewrite <- HM in *.
  assert (GL : forall p, get_lexeme (in_state M C) p = get_lexeme M p /\ normalized (in_state M C) p = normalized M p).
  { intros p. unfold get_lexeme, normalized. change (in_state M C) with (set_tc M C).
    assert (Hm : forall t, contains C (u "masc") t = contains (m_tc M) (u "masc") t) by (intros t; apply contains_known_eq; exact KE).
    destruct (last_unit (p_stack p)); [|split; reflexivity]. cbn [bind]. split; [apply lexeme_two; exact Hm|apply normalized_two; exact Hm]. }
  split; [|split; [exact GL|]].
  - intros word. unfold morph_parse, morph_tag. change (in_state M C) with (set_tc M C). change (fuel_for (set_tc M C) word) with (fuel_for M word).
    apply analyze_two. intros ts. first [apply any_known_eq|symmetry; apply any_known_eq]; congruence.
  - intros N p req. specialize (HI N). 
    assert (UP : forall t rq, updated_grammemes C t rq = updated_grammemes (m_tc M) t rq).
    { intros t rq. apply updated_two; [rewrite KE; tauto|intros g _; rewrite KE; tauto|]. intros g _ _ x. unfold incompat_of. rewrite HI. tauto. }
    unfold inflect. rewrite (proj1 (GL p)). change (m_tc (in_state M C)) with C.
    destruct (get_lexeme M p) as [lex|]; [|reflexivity]. cbn [bind]. destruct (filter (has_all req) lex); cbn [bind]; rewrite UP; reflexivity.
Qed.
