(** * Unit groups, dictionary lookup, totality, re-weighting, initials (C04 C05 C06 C09 C19 C20 C57) *)
From Coq Require Import String List NArith ZArith Bool QArith.
From Verif Require Import Py Uni Tagset Dawg Utils Shapes Dict Units Analyzer ConfigRu ConfigUk Compile Spec Ex.
From Verif Require Import L_Base L_Run L_Agree L_Made L_Words L_Config L_Ex L_Parse L_Total L_Para L_Groups L_Prob L_Units L_ExU.
Import ListNotations.
Local Open Scope nat_scope.
Local Open Scope list_scope.

(** ** C57 *)
Theorem C57_parse_first_success : forall n M word ps, parse_f (S n) M word = Ok ps ->
  exists outs, tried (parse_f n M) (tag_f n M) M word (u_lower (m_uni M) word) 0 (m_units M) [] outs /\
    first_success (m_units M) outs /\
    match m_prob M with
    | None => ps = concat outs
    | Some d => apply_to_parses d (u_lower (m_uni M) word) (concat outs) = Ok ps
    end.
Proof. exact parse_first_success. Qed.
Print Assumptions C57_parse_first_success.

Theorem C57_tag_first_success : forall n M word ts, tag_f (S n) M word = Ok ts ->
  exists outs, tried_tags (parse_f n M) (tag_f n M) M word (u_lower (m_uni M) word) 0 (m_units M) [] outs /\
    first_success (m_units M) outs /\
    match m_prob M with
    | None => ts = concat outs
    | Some d => ts = apply_to_tags d (u_lower (m_uni M) word) (concat outs)
    end.
Proof. exact tag_first_success. Qed.
Print Assumptions C57_tag_first_success.

Theorem C57_terminal_units : forall C items C' us, init_units C items = Ok (C', us) ->
  map (fun bt => (b_cfg (fst bt), snd bt)) us = flat_map with_terminal items /\ ~ In (Group []) items.
Proof. exact terminal_flags. Qed.
Print Assumptions C57_terminal_units.

(** "суперкот" is predicted by two units of different groups; the first group wins *)
Example C57_case : exists p, morph_parse demo (u "суперкот") = Ok [p] /\ made_by p = Some (Root 10) /\
  exists ps seen, unit_parse (parse_f 9 demo) (tag_f 9 demo) demo 11 (MkUnit (UUnknownPrefix (1#2)) [] [] []) (u "суперкот") (u "суперкот") [] = Ok (ps, seen) /\
  ps <> [].
Proof.
  eexists. split; [vm_compute; reflexivity|]. split; [vm_compute; reflexivity|]. do 2 eexists.
  split; [vm_compute; reflexivity|discriminate].
Qed.

(** ** C04 *)
Theorem C04_normal_forms : forall M word,
  match morph_parse M word with
  | Ok ps => exists nfs, morph_normal_forms M word = Ok nfs /\ dedup_of (map p_nf ps) nfs
  | Err e => morph_normal_forms M word = Err e
  end.
Proof. exact normal_forms_dedup. Qed.
Print Assumptions C04_normal_forms.

Example C04_case : (exists p q, morph_parse demo (u "кота") = Ok [p; q]) /\ morph_normal_forms demo (u "кота") = Ok [u "кот"].
Proof. split; [do 2 eexists|]; vm_compute; reflexivity. Qed.

(** ** C05 *)
Theorem C05_russian : forall n M word ps, has_units M RU_DEFAULT_UNITS -> m_prob M = None ->
  wf_dict (m_dict M) -> consistent_dict (m_dict M) ->
  in_dictionary M (u_lower (m_uni M) word) -> ~ In word RU_INITIAL_LETTERS ->
  parse_f n M word = Ok ps -> dictionary_readings M (u_lower (m_uni M) word) ps.
Proof. exact ru_dictionary_word. Qed.
Print Assumptions C05_russian.

(** the first Ukrainian group also contains the Roman-number and Latin units *)
Theorem C05_ukrainian : forall n M word ps, has_units M UK_DEFAULT_UNITS -> m_prob M = None ->
  wf_dict (m_dict M) -> consistent_dict (m_dict M) ->
  in_dictionary M (u_lower (m_uni M) word) -> ~ In word UK_INITIAL_LETTERS ->
  is_roman_number word = false -> is_latin (m_uni M) word = Ok false ->
  parse_f n M word = Ok ps -> dictionary_readings M (u_lower (m_uni M) word) ps.
Proof. exact uk_dictionary_word. Qed.
Print Assumptions C05_ukrainian.

(** with an estimator, the same readings, re-weighted (C19) *)
Theorem C05_with_estimator : forall n M d word ps,
  (has_units M RU_DEFAULT_UNITS /\ ~ In word RU_INITIAL_LETTERS) \/
  (has_units M UK_DEFAULT_UNITS /\ ~ In word UK_INITIAL_LETTERS /\ is_roman_number word = false /\ is_latin (m_uni M) word = Ok false) ->
  m_prob M = Some d -> wf_dict (m_dict M) -> consistent_dict (m_dict M) ->
  in_dictionary M (u_lower (m_uni M) word) -> parse_f n M word = Ok ps ->
  exists found, dictionary_readings M (u_lower (m_uni M) word) found /\ reweighted d (u_lower (m_uni M) word) found ps.
Proof. exact dictionary_word_prob. Qed.
Print Assumptions C05_with_estimator.

Example C05_case : has_units demo RU_DEFAULT_UNITS /\ m_prob demo = None /\ wf_dict (m_dict demo) /\
  consistent_dict (m_dict demo) /\ subst_proper (m_subst demo) /\
  in_dictionary demo (u_lower (m_uni demo) (u "ЕЛКИ")) /\
  exists p q, morph_parse demo (u "ЕЛКИ") = Ok [p; q] /\ p_word p = u "ёлки" /\ p_nf q = u "ёлка".
Proof.
  split; [destruct (construct_units _ _ _ _ _ _ _ _ _ _ _ demo_eq) as (H & _); exact H|]. split; [vm_compute; reflexivity|].
  split; [exact demo_wf_dict|]. split; [exact demo_consistent|]. split; [exact e_yo_proper|]. split.
  - assert (E : u_lower (m_uni demo) (u "ЕЛКИ") = u "елки") by (vm_compute; reflexivity). rewrite E. clear E.
    assert (S : m_subst demo = e_yo) by (vm_compute; reflexivity).
    exists (u "ёлки"). eexists. split; [|split; [vm_compute; reflexivity|discriminate]]. unfold subst_of. rewrite S. clear S.
    vm_compute. constructor; [right; reflexivity|].
    constructor; [left; reflexivity|]. constructor; [left; reflexivity|]. constructor; [left; reflexivity|constructor].
  - do 2 eexists. split; [vm_compute; reflexivity|]. split; vm_compute; reflexivity.
Qed.

(** ** C06 *)
Theorem C06_strict_implies_known : forall M w, word_is_known M w true = true -> word_is_known M w false = true.
Proof. exact strict_implies. Qed.
Print Assumptions C06_strict_implies_known.

Theorem C06_known_iff : forall M w, no_empty_entry (m_dict M) ->
  (word_is_known M w false = true <-> in_dictionary M (u_lower (m_uni M) w)).
Proof. exact word_known_iff. Qed.
Print Assumptions C06_known_iff.

Theorem C06_strictly_known_iff : forall M w,
  (word_is_known M w true = true <-> exists vals, sget (u_lower (m_uni M) w) (d_words (m_dict M)) = Some vals).
Proof. exact word_known_strict_iff. Qed.
Print Assumptions C06_strictly_known_iff.

Theorem C06_parse_is_known : forall n M word ps p, shipped_units M -> lower_stable (m_uni M) ->
  subst_idempotent (m_subst M) -> no_empty_entry (m_dict M) ->
  parse_f n M word = Ok ps -> In p ps -> parse_is_known M p = word_is_known M word false.
Proof. exact is_known_agree. Qed.
Print Assumptions C06_parse_is_known.

Example C06_case : shipped_units demo /\ lower_stable (m_uni demo) /\ subst_idempotent (m_subst demo) /\ no_empty_entry (m_dict demo) /\
  word_is_known demo (u "елка") false = true /\ word_is_known demo (u "елка") true = false /\
  word_is_known demo (u "ёлка") true = true /\ word_is_known demo (u "суперкот") false = false.
Proof.
  split; [exact demo_shipped|]. split; [exact demo_stable|]. split; [exact e_yo_idem|]. split; [exact demo_no_empty|].
  split; [vm_compute; reflexivity|]. split; [vm_compute; reflexivity|]. split; vm_compute; reflexivity.
Qed.

(** ** C09 *)
(** an analyzer with the shipped units can be constructed, whatever was loaded before *)
Theorem C09_construct : forall U ext C rows gt mk prob subst items,
  items = RU_DEFAULT_UNITS \/ items = UK_DEFAULT_UNITS ->
  (forall g, In g (map u ["NOUN"; "anim"; "masc"; "femn"; "Sgtm"; "Fixd"; "Abbr"; "sing";
                          "nomn"; "gent"; "datv"; "accs"; "ablt"; "loct"; "ADVB"]%string) -> In g (map g_name rows)) ->
  (forall s, In s gt -> forall g, In g (split_tag s) -> In g (map g_name rows)) ->
  exists C' M, construct U ext C rows gt mk prob subst items = Ok (C', M) /\
    m_dict M = mk (map (fun s => MkTag s (split_tag s)) gt).
Proof. exact construct_ok. Qed.
Print Assumptions C09_construct.

(** and parses every word *)
Theorem C09_total : forall U ext C rows gt mk subst items C' M word,
  construct U ext C rows gt mk None subst items = Ok (C', M) ->
  items = RU_DEFAULT_UNITS \/ items = UK_DEFAULT_UNITS ->
  (forall g, In g ["ADJF"; "sing"; "datv"]%string -> In (u g) (map g_name rows)) ->
  wf_dict (m_dict M) -> names_ok U -> lower_stable U ->
  (exists ps, morph_parse M word = Ok ps) /\ (exists ts, morph_tag M word = Ok ts).
Proof. exact shipped_total. Qed.
Print Assumptions C09_total.

Theorem C09_any_units : forall n M word, wf_morph M -> m_prob M = None -> length (u_lower (m_uni M) word) < n ->
  (exists ps, parse_f n M word = Ok ps) /\ (exists ts, tag_f n M word = Ok ts).
Proof. exact analyze_tot. Qed.
Print Assumptions C09_any_units.

Theorem C09_with_estimator : forall n M d word, wf_morph M -> m_prob M = Some d -> no_mixture M d ->
  scores_pos M -> pred_counts_pos (m_dict M) -> length (u_lower (m_uni M) word) < n ->
  (exists ps, parse_f n M word = Ok ps) /\ (exists ts, tag_f n M word = Ok ts).
Proof. exact analyze_tot_prob. Qed.
Print Assumptions C09_with_estimator.

(** a word has one reading with a known probability and one without: its prefixed
    compound makes parse() divide by zero *)
Theorem C09_mixture_refuted : exists M word, shipped_units M /\ wf_morph M /\ morph_parse M word = Err ZeroDivisionError /\
  exists ts, morph_tag M word = Ok ts.
Proof. exact zero_division. Qed.
Print Assumptions C09_mixture_refuted.

(** a letter that has no Unicode name *)
Theorem C09_unnamed_letter_refuted : exists M word, shipped_units M /\ wf_dict (m_dict M) /\ lower_stable (m_uni M) /\
  morph_parse M word = Err ValueError /\ morph_tag M word = Err ValueError.
Proof. exact unnamed_letter. Qed.
Print Assumptions C09_unnamed_letter_refuted.

Example C09_case :
  construct uni_named false tc_initial demo_rows (x_gramtab demo_compiled) demo_dict None e_yo RU_DEFAULT_UNITS = Ok (m_tc demo_n, demo_n) /\
  (forall g, In g ["ADJF"; "sing"; "datv"]%string -> In (u g) (map g_name demo_rows)) /\
  (forall s, In s (x_gramtab demo_compiled) -> forall g, In g (split_tag s) -> In g (map g_name demo_rows)) /\
  wf_dict (m_dict demo_n) /\ names_ok uni_named /\ lower_stable uni_named /\
  wf_morph demo_np /\ m_prob demo_np = Some demo_cpd /\ no_mixture demo_np demo_cpd /\ scores_pos demo_np /\ pred_counts_pos (m_dict demo_np).
Proof.
  split; [exact demo_n_eq|]. split; [exact demo_rows_adv|]. split; [exact demo_gramtab_known|]. split; [exact demo_n_wf_dict|].
  split; [exact uni_named_ok|]. split; [exact uni_named_stable|]. split; [exact demo_np_wf|]. split; [exact demo_np_prob|].
  split; [exact demo_np_no_mixture|]. split; [exact demo_np_scores|exact demo_np_counts].
Qed.

(** ** C19 *)
(** [concat outs]: the parses found, before the estimator is applied *)
Theorem C19_parse_reweighted : forall n M d word ps, m_prob M = Some d -> parse_f (S n) M word = Ok ps ->
  exists outs, tried (parse_f n M) (tag_f n M) M word (u_lower (m_uni M) word) 0 (m_units M) [] outs /\
    first_success (m_units M) outs /\ reweighted d (u_lower (m_uni M) word) (concat outs) ps.
Proof. exact parse_reweighted. Qed.
Print Assumptions C19_parse_reweighted.

Theorem C19_tag_reordered : forall n M d word ts, m_prob M = Some d -> tag_f (S n) M word = Ok ts ->
  exists outs, tried_tags (parse_f n M) (tag_f n M) M word (u_lower (m_uni M) word) 0 (m_units M) [] outs /\
    first_success (m_units M) outs /\
    stable_desc (fun t => prob d (u_lower (m_uni M) word) (t_str t)) (concat outs) ts.
Proof. exact tag_reordered. Qed.
Print Assumptions C19_tag_reordered.

Example C19_case : m_prob demo_np = Some demo_cpd /\
  (exists p q, morph_parse demo_np (u "кота") = Ok [p; q] /\ (p_score p == 7#10)%Q /\ (p_score q == 3#10)%Q) /\
  (exists p q, morph_parse demo_np (u "ёлки") = Ok [p; q] /\ (p_score p == 1#2)%Q /\ (p_score q == 1#2)%Q).
Proof.
  split; [exact demo_np_prob|]. split; do 2 eexists; (split; [vm_compute; reflexivity|]); split; vm_compute; reflexivity.
Qed.

(** ** C20 *)
Theorem C20_recognised : forall n M letters word ps,
  (has_units M RU_DEFAULT_UNITS /\ letters = RU_INITIAL_LETTERS) \/ (has_units M UK_DEFAULT_UNITS /\ letters = UK_INITIAL_LETTERS) ->
  m_prob M = None -> parse_f n M word = Ok ps ->
  (In word letters ->
     grammemes_of (by_unit 1 ps) = initial_tags "Name" ["masc"; "femn"]%string /\
     grammemes_of (by_unit 2 ps) = initial_tags "Patr" ["masc"; "femn"]%string /\
     forall p, In p (by_unit 1 ps ++ by_unit 2 ps) ->
       p_word p = u_lower (m_uni M) word /\ p_nf p = u_lower (m_uni M) word /\ p_score p = (1#10)%Q) /\
  (~ In word letters -> by_unit 1 ps = [] /\ by_unit 2 ps = []).
Proof. exact initials_parsed. Qed.
Print Assumptions C20_recognised.

(** unit 1 reads first names, unit 2 patronymics *)
Theorem C20_lexeme : forall M letters p,
  (has_units M RU_DEFAULT_UNITS /\ letters = RU_INITIAL_LETTERS) \/ (has_units M UK_DEFAULT_UNITS /\ letters = UK_INITIAL_LETTERS) ->
  (made_by p = Some (Root 1) -> In (t_gr (p_tag p)) (initial_tags "Name" ["masc"; "femn"]%string) -> In (u "masc") (tc_known (m_tc M)) ->
     exists lex q g, get_lexeme M p = Ok lex /\ normalized M p = Ok q /\ In (u g) (t_gr (p_tag p)) /\ In g ["masc"; "femn"]%string /\
       grammemes_of lex = initial_tags "Name" [g] /\ (forall f, In f (q :: lex) -> with_tag f (p_tag p) = p) /\
       Some (p_tag q) = option_map p_tag (nth_error lex 0)) /\
  (made_by p = Some (Root 2) ->
     exists lex q, get_lexeme M p = Ok lex /\ normalized M p = Ok q /\
       grammemes_of lex = initial_tags "Patr" ["masc"; "femn"]%string /\ (forall f, In f (q :: lex) -> with_tag f (p_tag p) = p) /\
       Some (p_tag q) = option_map p_tag (nth_error lex 0)).
Proof. exact initials_lexeme. Qed.
Print Assumptions C20_lexeme.

Example C20_case : In (u "Ш") RU_INITIAL_LETTERS /\ ~ In (u "ш") RU_INITIAL_LETTERS /\
  (exists ps, morph_parse demo (u "Ш") = Ok ps /\ length (by_unit 1 ps) = 12 /\ length (by_unit 2 ps) = 12) /\
  In (u "masc") (tc_known (m_tc demo)).
Proof.
  split; [apply smem_In; vm_compute; reflexivity|]. split; [apply smem_false; vm_compute; reflexivity|].
  split; [|refine (proj1 (smem_In (u "masc") (tc_known (m_tc demo))) _); vm_compute; reflexivity].
  assert (E : match morph_parse demo (u "Ш") with Ok ps => (length (by_unit 1 ps) =? 12) && (length (by_unit 2 ps) =? 12) | Err _ => false end = true)
    by (vm_compute; reflexivity).
  destruct (morph_parse demo (u "Ш")) as [ps|]; [|discriminate E]. exists ps. apply andb_true_iff in E as [E1 E2].
  apply Nat.eqb_eq in E1, E2. split; [reflexivity|]. split; [exact E1|exact E2].
Qed.
