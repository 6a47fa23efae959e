(** * Dictionary compilation (C35-C40) *)
From Coq Require Import String List NArith ZArith Bool QArith Permutation Sorted.
From Verif Require Import Py Uni Tagset Dawg Utils Shapes Dict Units Analyzer ConfigRu ConfigUk Compile Preprocess Spec Spec2 Spec3 Ex.
From Verif Require Import L_Base L_Ex L_Units L_ExU L_Compile L_Compile2 L_Compile3 L_Compile4 L_Join L_Pre L_EndToEnd L_ExC.
Import ListNotations.
Local Open Scope nat_scope.
Local Open Scope list_scope.

(** ** C35 *)
Theorem C35_total : forall lx pp, lx <> [] -> exists stem rows, to_paradigm lx pp = Ok (stem, rows).
Proof. exact to_paradigm_total. Qed.
Print Assumptions C35_total.
(** the i-th row, prefixed to and suffixed to the stem, gives back the i-th form and its tag; all prefixes are allowed *)
Theorem C35_lossless : forall lx pp stem rows, to_paradigm lx pp = Ok (stem, rows) ->
  Forall2 (row_of_form stem) lx rows /\ forall suffix tag prefix, In (suffix, tag, prefix) rows -> prefix = [] \/ In prefix pp.
Proof. intros lx pp stem rows H. destruct (to_paradigm_spec _ _ _ _ H) as (A & B & _). split; [exact A|]. intros s t p I. exact (B _ I). Qed.
Print Assumptions C35_lossless.
(** the stem: the form itself, the longest common substring, or empty (then all prefixes are empty) *)
Theorem C35_stem : forall lx pp stem rows, to_paradigm lx pp = Ok (stem, rows) ->
  (length lx = 1 /\ map fst lx = [stem]) \/
  (1 < length lx /\ stem = longest_common_substring (map fst lx)) \/
  (stem = [] /\ forall suffix tag prefix, In (suffix, tag, prefix) rows -> prefix = []).
Proof.
  intros lx pp stem rows H. destruct (to_paradigm_spec _ _ _ _ H) as (_ & _ & [C|[C|[C1 C2]]]); auto. right. right. split; [exact C1|]. intros s t p I. exact (C2 _ I).
Qed.
Print Assumptions C35_stem.
Example C35_case :
  to_paradigm [form "красный" "A"; form "краснее" "B"; form "покраснее" "C"] [[]; u "по"] =
    Ok (u "красн", [(u "ый", u "A", []); (u "ее", u "B", []); (u "ее", u "C", u "по")]) /\
  to_paradigm [form "человек" "A"; form "люди" "B"] [[]; u "по"] = Ok ([], [(u "человек", u "A", []); (u "люди", u "B", [])]).
Proof. vm_compute. auto. Qed.

(** ** C36 *)
(** every form of every (joined) lexeme is stored; its tag and normal form are those of the source, and the lexeme
    the dictionary gives for it is the source lexeme *)
Theorem C36_forms : forall o src links lxs x D, join_lexemes src links = Ok lxs -> compile_parsed_dict o src links = Ok x -> loaded x D ->
  forall lx, In lx lxs -> exists k, forall i w t, nth_error lx i = Some (w, t) ->
  stored D w k i /\
  exists tg nf tnf, t_str tg = t /\ nth_error lx 0 = Some (nf, tnf) /\ build_tag_info D k i = Ok tg /\ build_normal_form D k i w = Ok nf /\
  forall M self sc nf', m_dict M = D -> exists fam, dict_lexeme M self (MkParse w tg nf' sc [MDict self w k i]) = Ok fam /\
    map (fun f => (p_word f, t_str (p_tag f))) fam = lx.
Proof. exact forms_stored. Qed.
Print Assumptions C36_forms.
(** and nothing else is stored *)
Theorem C36_source : forall o src links lxs x D, join_lexemes src links = Ok lxs -> compile_parsed_dict o src links = Ok x -> loaded x D ->
  forall w k i, stored D w k i ->
  exists lx t, In lx lxs /\ nth_error lx i = Some (w, t) /\
  exists tg nf tnf, t_str tg = t /\ nth_error lx 0 = Some (nf, tnf) /\ build_tag_info D k i = Ok tg /\ build_normal_form D k i w = Ok nf.
Proof. exact stored_source. Qed.
Print Assumptions C36_source.
(** iter_known_words(prefix) lists exactly the stored forms whose word starts with the prefix *)
Theorem C36_iter : forall o src links lxs x D pfx, join_lexemes src links = Ok lxs -> compile_parsed_dict o src links = Ok x -> loaded x D ->
  exists l, iter_known_words D pfx = Ok l /\
  forall w tg nf k i, In (w, tg, nf, k, i) l <->
    stored D w k i /\ (exists r, w = pfx ++ r) /\ build_tag_info D k i = Ok tg /\ build_normal_form D k i w = Ok nf.
Proof. exact iter_stored. Qed.
Print Assumptions C36_iter.
(** a compiled dictionary has all the properties assumed of dictionaries in the other theorems *)
Theorem C36_wellformed : forall o src links lxs x D, join_lexemes src links = Ok lxs -> compile_parsed_dict o src links = Ok x -> loaded x D ->
  wf_dict D /\ consistent_dict D /\ no_empty_entry D /\ NoDup (map fst (d_words D)) /\ pred_counts_pos D /\ pred_consistent D.
Proof. exact parsed_wf. Qed.
Print Assumptions C36_wellformed.
(** compilation of non-empty lexemes fails only when a number does not fit into 16 bits *)
Theorem C36_failures : forall o src links lxs, join_lexemes src links = Ok lxs -> In [] (o_prefixes o) ->
  (exists x, compile_parsed_dict o src links = Ok x) \/ compile_parsed_dict o src links = Err OverflowError \/ compile_parsed_dict o src links = Err StructError.
Proof. exact parsed_failures. Qed.
Print Assumptions C36_failures.
(** it does fail when the empty string is not among the paradigm prefixes *)
Theorem C36_no_empty_prefix_refuted : exists o src links lxs, join_lexemes src links = Ok lxs /\ (forall lx, In lx lxs -> lx <> []) /\
  o_prefixes o <> [] /\ compile_parsed_dict o src links = Err KeyError.
Proof. exact no_empty_prefix. Qed.
Print Assumptions C36_no_empty_prefix_refuted.
(** parse() of a source form, in any letter case, finds it with its tag, normal form and lexeme *)
Theorem C36_parse_russian : forall n o src links lxs x M word ps lx i w t,
  join_lexemes src links = Ok lxs -> compile_parsed_dict o src links = Ok x -> loaded x (m_dict M) ->
  has_units M RU_DEFAULT_UNITS -> m_prob M = None -> In lx lxs -> nth_error lx i = Some (w, t) ->
  u_lower (m_uni M) word = w -> ~ In word RU_INITIAL_LETTERS -> parse_f n M word = Ok ps ->
  exists p nf tnf fam, In p ps /\ p_word p = w /\ t_str (p_tag p) = t /\ nth_error lx 0 = Some (nf, tnf) /\ p_nf p = nf /\
    get_lexeme M p = Ok fam /\ map (fun f => (p_word f, t_str (p_tag f))) fam = lx.
Proof. exact ru_parsed. Qed.
Print Assumptions C36_parse_russian.
Theorem C36_parse_ukrainian : forall n o src links lxs x M word ps lx i w t,
  join_lexemes src links = Ok lxs -> compile_parsed_dict o src links = Ok x -> loaded x (m_dict M) ->
  has_units M UK_DEFAULT_UNITS -> m_prob M = None -> In lx lxs -> nth_error lx i = Some (w, t) ->
  u_lower (m_uni M) word = w -> ~ In word UK_INITIAL_LETTERS -> is_roman_number word = false -> is_latin (m_uni M) word = Ok false ->
  parse_f n M word = Ok ps ->
  exists p nf tnf fam, In p ps /\ p_word p = w /\ t_str (p_tag p) = t /\ nth_error lx 0 = Some (nf, tnf) /\ p_nf p = nf /\
    get_lexeme M p = Ok fam /\ map (fun f => (p_word f, t_str (p_tag f))) fam = lx.
Proof. exact uk_parsed. Qed.
Print Assumptions C36_parse_ukrainian.
Example C36_case : exists lxs, join_lexemes demo_lexemes demo_links = Ok lxs /\ compile_parsed_dict demo_options demo_lexemes demo_links = Ok demo_compiled /\
  loaded demo_compiled (m_dict demo) /\ has_units demo RU_DEFAULT_UNITS /\ m_prob demo = None /\ length lxs = 5 /\
  (exists lx, In lx lxs /\ nth_error lx 5 = Some (u "покраснее", u "COMP,Qual Cmp2")) /\
  exists p fam, morph_parse demo (u "Покраснее") = Ok [p] /\ p_nf p = u "красный" /\ get_lexeme demo p = Ok fam /\ length fam = 6.
Proof. exact compile_case. Qed.

(** ** C37 *)
(** a record (count c, paradigm k, form i) is stored under ending e in the table of prefix number pid exactly if: the form has
    that prefix; the paradigm is popular; c is the (non-zero) number of hits of the ending in the words with that form; the
    ending is frequent enough; and no form with the same part of speech and prefix has more hits *)
Theorem C37_records : forall o src links lxs x D, join_lexemes src links = Ok lxs -> compile_parsed_dict o src links = Ok x -> loaded x D ->
  exists ks, length ks = length lxs /\
  (forall w k i, stored D w k i <-> In (w, (k, i)) (all_entries lxs ks)) /\
  forall pid e c k i, predicts D pid e c k i <->
  prefix_number D k i pid /\ popular o ks k /\ 1 <= c /\ form_hits D o (all_entries lxs ks) e k i c /\
  (exists n, ending_frequency D o ks (all_entries lxs ks) e n /\ o_min_freq o <= n) /\
  (forall k' i' c' tg tg', prefix_number D k' i' pid -> popular o ks k' -> build_tag_info D k i = Ok tg -> build_tag_info D k' i' = Ok tg' ->
     pos_text (t_str tg') = pos_text (t_str tg) -> form_hits D o (all_entries lxs ks) e k' i' c' -> c' <= c).
Proof. exact records_spec. Qed.
Print Assumptions C37_records.
(** in a word not shorter than the length limit an ending is hit once iff the word has a stem and ends with it, and the ending
    covers the suffix and is not longer than the limit; otherwise not at all *)
Theorem C37_hits : forall pre sf maxlen e w, maxlen <= length w ->
  (ending_hits pre sf maxlen e w = 1 /\ length pre + length sf < length w /\ Nat.max (length sf) 1 <= length e <= maxlen /\ exists r, w = r ++ e) \/
  (ending_hits pre sf maxlen e w = 0 /\ ~ (length pre + length sf < length w /\ Nat.max (length sf) 1 <= length e <= maxlen /\ exists r, w = r ++ e)).
Proof. exact hits_exact. Qed.
Print Assumptions C37_hits.
Theorem C37_hits_at_least : forall pre sf maxlen e r, length pre + length sf < length (r ++ e) -> Nat.max (length sf) 1 <= length e <= maxlen ->
  1 <= ending_hits pre sf maxlen e (r ++ e).
Proof. exact hits_at_least. Qed.
Print Assumptions C37_hits_at_least.
(** every ending contains the suffix of its form *)
Theorem C37_ending : forall o src links lxs x D, join_lexemes src links = Ok lxs -> compile_parsed_dict o src links = Ok x -> loaded x D ->
  length (d_pred D) = length (d_prefixes D) /\
  forall pid e c k i, predicts D pid e c k i -> exists prefix t suffix r, nth_error (d_prefixes D) pid = Some prefix /\ para_row D k i prefix t suffix /\ e = r ++ suffix.
Proof. exact records_ending. Qed.
Print Assumptions C37_ending.
(** the counts of short words are inflated: one word, one entry, count four *)
Theorem C37_short_words_refuted : exists o src links lxs x D k i e, join_lexemes src links = Ok lxs /\ compile_parsed_dict o src links = Ok x /\ loaded x D /\
  lxs = [[(e, u "NOUN")]] /\ (forall w k' i', stored D w k' i' -> w = e /\ k' = k /\ i' = i) /\ predicts D 0 e 4 k i.
Proof. exact short_words. Qed.
Print Assumptions C37_short_words_refuted.
Example C37_case : exists k, predicts (m_dict demo) 0 (u "ота") 2 k 1 /\ predicts (m_dict demo) 1 (u "ее") 1 1 5 /\
  predicts (m_dict demo) 0 (u "ее") 1 1 4.
Proof. exact predicts_case. Qed.

(** ** C38 *)
Theorem C38_keeps_forms : forall lx links, NoDup (map fst lx) -> links_exist lx (effective links) -> acyclic (effective links) ->
  exists out, join_lexemes lx links = Ok out /\ Permutation (concat out) (concat (map snd lx)) /\ ~ In [] out.
Proof. exact join_forms. Qed.
Print Assumptions C38_keeps_forms.
(** when no lexeme is linked twice: one lexeme per chain top, in the order of ids, starting with the forms of the top lexeme and
    containing exactly the forms of the lexemes under it *)
Theorem C38_joined_to_top : forall lx links, NoDup (map fst lx) -> links_exist lx (effective links) -> acyclic (effective links) -> NoDup (map snd (effective links)) ->
  exists own out roots, join_lexemes lx links = Ok out /\ top_of (effective links) own /\ StronglySorted N.lt roots /\
    (forall i, In i roots <-> In i (map fst lx) /\ own i = i /\ group lx own i <> []) /\
    Forall2 (fun i l => Permutation l (group lx own i) /\ exists r, l = forms_of lx i ++ r) roots out.
Proof. exact join_owner. Qed.
Print Assumptions C38_joined_to_top.
(** a self link loses the forms of the lexeme *)
Theorem C38_self_link_refuted : exists lx links out, NoDup (map fst lx) /\ links_exist lx (effective links) /\
  join_lexemes lx links = Ok out /\ concat (map snd lx) <> [] /\ concat out = [].
Proof. exact self_link. Qed.
Print Assumptions C38_self_link_refuted.
(** after a self link, a link from that lexeme never finds its target: the loop follows the same entry for ever *)
Theorem C38_cycle_refuted : exists lx links st, NoDup (map fst lx) /\ links_exist lx (effective links) /\ join_lexemes_st lx links = Ok st /\
  (forall fuel, chase fuel (snd st) 1 = Err RecursionError) /\ forall t, join_lexemes lx (links ++ [(1%N, 2%N, t)]) = Err RecursionError \/ smem t EXCLUDED_LINK_TYPES = true.
Proof. exact cycle_link. Qed.
Print Assumptions C38_cycle_refuted.
Example C38_case : NoDup (map fst demo_lexemes) /\ links_exist demo_lexemes (effective demo_links) /\ acyclic (effective demo_links) /\
  NoDup (map snd (effective demo_links)) /\ effective demo_links = [(2%N, 3%N)] /\
  exists l1 l2 l4 l5 l6, join_lexemes demo_lexemes demo_links = Ok [l1; l2; l4; l5; l6] /\ l2 = forms_of demo_lexemes 2%N ++ forms_of demo_lexemes 3%N.
Proof. exact join_case. Qed.

(** ** C39 *)
Theorem C39_same_grammemes : forall lx skip, (forall id l w t, In (id, l) lx -> In (w, t) l -> short (split_tag t)) ->
  Forall2 (fun o n : N * lexeme => fst n = fst o /\
    Forall2 (fun a b : str * str => fst b = fst a /\ exists ga gb, reads_as (snd a) ga /\ reads_as (snd b) gb /\ same_grammemes gb ga) (snd o) (snd n))
    lx (simplify_tags lx skip).
Proof. exact simplify_same. Qed.
Print Assumptions C39_same_grammemes.
(** what a tag text becomes before duplicates are replaced *)
Theorem C39_redundant : forall t gs, reads_as t gs -> short gs -> reads_as (replace_redundant t) (map common_case gs).
Proof. exact redundant_reads. Qed.
Print Assumptions C39_redundant.
(** loc1 can be left, or even put in place of loct *)
Theorem C39_loc1_left_refuted : exists lx w t t', lx <> [] /\ (forall id l w t, In (id, l) lx -> In (w, t) l -> short (split_tag t)) /\
  (exists id l, In (id, l) lx /\ In (w, t) l) /\ (exists id l, In (id, l) (simplify_tags lx true) /\ In (w, t') l) /\
  ~ In (u "loc1") (split_tag t) /\ In (u "loc1") (split_tag t').
Proof. exact loc1_left. Qed.
Print Assumptions C39_loc1_left_refuted.
Example C39_case : (forall id l w t, In (id, l) demo_lexemes -> In (w, t) l -> short (split_tag t)) /\
  simplify_tags [(1%N, [form "а" "NOUN,masc sing,gen1"; form "б" "NOUN,masc sing,gent"; form "в" "NOUN,masc gent,sing"; form "в" "NOUN,masc gent,sing"; form "г" "NOUN sing,loc1"])] true =
    [(1%N, [form "а" "NOUN,masc gent,sing"; form "б" "NOUN,masc gent,sing"; form "в" "NOUN,masc gent,sing"; form "в" "NOUN,masc gent,sing"; form "г" "NOUN sing,loct"])].
Proof. exact simplify_case. Qed.

(** ** C40 *)
Theorem C40_drop : forall lx, map fst (drop_unsupported lx) = map fst lx /\
  Forall2 (fun o n : N * lexeme => exists f, snd n = filter f (snd o) /\
    forall w t, In (w, t) (snd o) -> (f (w, t) = false <-> exists a b, t = a ++ u "Init" ++ b)) lx (drop_unsupported lx).
Proof. exact drop_spec. Qed.
Print Assumptions C40_drop.
Example C40_case : drop_unsupported [(1%N, [form "а" "NOUN,anim,Init"; form "б" "NOUN"]); (7%N, [form "в" "Init"])] = [(1%N, [form "б" "NOUN"]); (7%N, [])].
Proof. vm_compute. reflexivity. Qed.
