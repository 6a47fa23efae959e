(** * C56, C29: creating and pickling analyzers *)
From Coq Require Import String List NArith ZArith Bool.
From Verif Require Import Py Uni Tagset Dawg Utils Shapes Dict Units Analyzer ConfigRu ConfigUk Json Storage Create Spec9 Ex.
From Verif Require Import L_ExS L_Create L_Create2 L_ExW.
Import ListNotations.
Local Open Scope nat_scope.
Local Open Scope list_scope.

(** the arguments, the environment variable and the installed packages select at most one folder: the path argument, else the
    environment variable, else the last package for the requested language.  That folder is the one read: if it cannot be loaded the
    exception is the loader's, otherwise the analyzer works on its dictionary *)
Theorem C56_folder : forall W C a p, picks W a p ->
  (forall q, picks W a q -> q = p) /\
  (forall C1 e, load_dict (w_io W) (w_big W) (w_folder W p) C = (C1, Err e) -> create W C a = ([], C1, Err e)) /\
  (forall ws C' z, create W C a = (ws, C', Ok z) ->
     exists C1 l, load_dict (w_io W) (w_big W) (w_folder W p) C = (C1, Ok l) /\ dictionary l = Ok (m_dict (z_morph z))).
Proof. intros W C a p P. split; [intros q Q; exact (picks_fun _ _ _ _ Q P)|exact (created_folder W C a p P)]. Qed.
Print Assumptions C56_folder.
(** nothing selected: ValueError, no warning, tag class untouched *)
Theorem C56_not_installed : forall W C a, (~ exists p, picks W a p) -> create W C a = ([], C, Err ValueError).
Proof. exact create_none. Qed.
Print Assumptions C56_not_installed.
(** the effective language, and exactly when which warning is given; 'ru' counts as requested when neither a path nor a language was
    given, even if the folder comes from the environment variable *)
Theorem C56_language : forall W C a ws C' z p m dl, create W C a = (ws, C', Ok z) -> picks W a p ->
  load_meta (w_folder W p) (u "meta.json") = Ok m -> declares m dl ->
  (requested a = None -> dl = JNull -> z_lang z = JStr (u "ru")) /\ (requested a = None -> dl <> JNull -> z_lang z = dl) /\ (forall l, requested a = Some l -> z_lang z = JStr l) /\
  (In WNoLanguage ws <-> requested a = None /\ dl = JNull) /\
  (forall d l, In (WMismatch d l) ws <-> requested a = Some l /\ d = dl /\ dl <> JStr l) /\
  (forall c, In (WUnknownLanguage c) ws <-> z_lang z = JStr c /\ unknown_language W c /\ (a_units a = None \/ a_sub a = SubAuto)).
Proof. exact created_language. Qed.
Print Assumptions C56_language.
(** units and letter substitutions: the given ones, else the defaults of the effective language *)
Theorem C56_defaults : forall W C a ws C' z, create W C a = (ws, C', Ok z) ->
  (forall us, a_units a = Some us -> z_units z = us) /\ (a_units a = None -> language_units (z_lang z) (z_units z)) /\
  (forall r, a_sub a = SubGiven r -> m_subst (z_morph z) = r) /\ (a_sub a = SubAuto -> language_substitutes (z_lang z) (m_subst (z_morph z))) /\
  (exists C1, init_units C1 (z_units z) = Ok (C', m_units (z_morph z))) /\ m_uni (z_morph z) = w_uni W.
Proof. exact created_defaults. Qed.
Print Assumptions C56_defaults.
(** the P(t|w) table: none, that of the given class, or the one in the folder if the metadata announce it *)
Theorem C56_estimator : forall W C a ws C' z p m, create W C a = (ws, C', Ok z) -> picks W a p ->
  load_meta (w_folder W p) (u "meta.json") = Ok m -> right_table W a p m (m_prob (z_morph z)).
Proof. exact created_estimator. Qed.
Print Assumptions C56_estimator.
Example C56_estimator_case : exists ws C' z m, create demo_world tc_initial p_args = (ws, C', Ok z) /\ picks demo_world p_args (u "/dicts/p") /\
  load_meta (w_folder demo_world (u "/dicts/p")) (u "meta.json") = Ok m /\ announces_estimates m /\ m_prob (z_morph z) = Some demo_cpd.
Proof. exact estimator_case. Qed.
Example C56_case : picks demo_world no_args (u "/dicts/ru") /\
  (exists ws C' z m, create demo_world tc_initial no_args = (ws, C', Ok z) /\ load_meta ru_folder (u "meta.json") = Ok m /\ declares m (JStr (u "ru")) /\ ws = [] /\ z_lang z = JStr (u "ru") /\
     language_units (z_lang z) (z_units z) /\ requested no_args = Some (u "ru") /\ word_is_known (z_morph z) (u "елка") false = true) /\
  (exists ws C' z, create demo_world tc_initial (MkArgs (Some (u "/dicts/ru")) (Some (u "uk")) None None EstAuto SubAuto) = (ws, C', Ok z) /\ ws = [WMismatch (JStr (u "ru")) (u "uk")] /\ m_subst (z_morph z) = [(chr "г", chr "ґ")]) /\
  (exists ws C' z, create demo_world tc_initial (MkArgs (Some (u "/dicts/ru")) (Some (u "be")) None None EstAuto SubAuto) = (ws, C', Ok z) /\
     ws = [WMismatch (JStr (u "ru")) (u "be"); WUnknownLanguage (u "be"); WUnknownLanguage (u "be")]) /\
  create demo_world tc_initial (MkArgs None (Some (u "be")) None None EstAuto SubAuto) = ([], tc_initial, Err ValueError) /\
  create demo_world tc_initial (MkArgs (Some (u "/nowhere")) None None None EstAuto SubAuto) = ([], tc_initial, Err FileError).
Proof. exact create_case. Qed.

(** unpickling an analyzer whose probability_estimator_cls and char_substitutes were left alone gives the same analyzer *)
Theorem C29_same : forall W C a ws C' z, create W C a = (ws, C', Ok z) -> a_est a = EstAuto -> a_sub a = SubAuto ->
  exists ws', create W C (reduce z) = (ws', C', Ok z).
Proof. intros W C a ws C' z H E S. apply (unpickle_forgets W C a ws C' z ws C' z H). rewrite (forget_same a E S). exact H. Qed.
Print Assumptions C29_same.
(** in general it gives the analyzer the same call without these two arguments would have created *)
Theorem C29_forgets : forall W C a ws C' z ws0 C0 z0, create W C a = (ws, C', Ok z) -> create W C (forget a) = (ws0, C0, Ok z0) ->
  exists ws', create W C (reduce z) = (ws', C0, Ok z0).
Proof. exact unpickle_forgets. Qed.
Print Assumptions C29_forgets.
(** in another process (another tag class state, other installed packages, other environment), as long as the folder it selects has the same
    contents: every parse, tag and lexeme is the same *)
Theorem C29_elsewhere : forall W W' C D a ws C' z p p', create W C a = (ws, C', Ok z) -> a_est a = EstAuto -> a_sub a = SubAuto ->
  picks W a p -> picks W' (reduce z) p' -> w_folder W' p' = w_folder W p -> same_libraries W W' ->
  exists ws' D' z', create W' D (reduce z) = (ws', D', Ok z') /\ same_analyzer z z'.
Proof. exact unpickle_elsewhere. Qed.
Print Assumptions C29_elsewhere.
(** the estimator and the substitutions are not kept: another P(t|w) table, another answer to word_is_known *)
Theorem C29_drops_refuted : exists W C a ws C' z ws' C'' z', create W C a = (ws, C', Ok z) /\ create W C (reduce z) = (ws', C'', Ok z') /\
  m_prob (z_morph z) = None /\ m_prob (z_morph z') = Some demo_cpd /\ m_subst (z_morph z) = [] /\ m_subst (z_morph z') = [(chr "е", chr "ё")] /\
  word_is_known (z_morph z) (u "елка") false = false /\ word_is_known (z_morph z') (u "елка") false = true.
Proof. exact drops. Qed.
Print Assumptions C29_drops_refuted.
Example C29_case : exists ws C' z, create demo_world tc_initial no_args = (ws, C', Ok z) /\ a_est no_args = EstAuto /\ a_sub no_args = SubAuto /\ picks demo_world (reduce z) (u "/dicts/ru") /\
  same_libraries demo_world demo_world /\ word_is_known (z_morph z) (u "елка") false = true.
Proof. exact pickle_case. Qed.
