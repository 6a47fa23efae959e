(** * C76, C77: a dictionary answers what its source lexemes say *)
From Coq Require Import String List NArith ZArith Bool QArith.
From Verif Require Import Py Uni Tagset Dawg Dict Units Analyzer ConfigRu ConfigUk Compile Spec Spec3 Spec26 Ex L_Says L_ExSoap.
Import ListNotations.
Local Open Scope nat_scope.
Local Open Scope list_scope.

(** C76. The answers for a known word are exactly what the (joined) source lexemes say: every occurrence of the word, or of a spelling with substituted characters, as a form of a source lexeme
    gives a parse with that form, its tag text, the first form as normal form and the whole source lexeme as lexeme; there are no other parses. Estimates may be present. *)
Theorem C76_exact : forall n o src links lxs x M word ps, join_lexemes src links = Ok lxs -> compile_parsed_dict o src links = Ok x -> loaded x (m_dict M) ->
  ordinary M word -> (exists a, says lxs (m_subst M) (u_lower (m_uni M) word) a) -> parse_f n M word = Ok ps ->
  (forall p, In p ps -> exists fam, get_lexeme M p = Ok fam) /\ forall a, shows M ps a <-> says lxs (m_subst M) (u_lower (m_uni M) word) a.
Proof. exact source_exact. Qed.
Print Assumptions C76_exact.

(** Hence two dictionaries compiled from the same lexemes know the same words and answer the same for them: the order of the lexemes, their numbers, repetitions, the compile options
    (also the paradigm prefixes), P(t|w) estimates make no difference *)
Theorem C76_independent : forall n1 n2 o1 src1 links1 lxs1 x1 M1 o2 src2 links2 lxs2 x2 M2,
  join_lexemes src1 links1 = Ok lxs1 -> compile_parsed_dict o1 src1 links1 = Ok x1 -> loaded x1 (m_dict M1) ->
  join_lexemes src2 links2 = Ok lxs2 -> compile_parsed_dict o2 src2 links2 = Ok x2 -> loaded x2 (m_dict M2) ->
  (forall lx, In lx lxs1 <-> In lx lxs2) -> m_subst M1 = m_subst M2 -> m_uni M1 = m_uni M2 ->
  forall word, word_is_known M1 word false = word_is_known M2 word false /\
  (word_is_known M1 word false = true -> ordinary M1 word -> ordinary M2 word -> forall ps1 ps2, parse_f n1 M1 word = Ok ps1 -> parse_f n2 M2 word = Ok ps2 ->
     forall a, shows M1 ps1 a <-> shows M2 ps2 a).
Proof. exact source_indep. Qed.
Print Assumptions C76_independent.

(** the order of the answers does depend on the order of the lexemes, and so does the first answer *)
Theorem C76_order_refuted : exists o src1 src2 x1 x2 M1 M2 ps1 ps2, join_lexemes src1 [] = Ok [wash; soap] /\ join_lexemes src2 [] = Ok [soap; wash] /\
  compile_parsed_dict o src1 [] = Ok x1 /\ loaded x1 (m_dict M1) /\ compile_parsed_dict o src2 [] = Ok x2 /\ loaded x2 (m_dict M2) /\
  morph_parse M1 (u "мыло") = Ok ps1 /\ morph_parse M2 (u "мыло") = Ok ps2 /\ map p_nf ps1 = [u "мыть"; u "мыло"] /\ map p_nf ps2 = [u "мыло"; u "мыть"].
Proof.
  destruct n_a2 as (ps1 & E1 & F1). destruct n_r2 as (ps2 & E2 & F2). exists opt_1, src_a, src_r, (built opt_1 src_a), (built opt_1 src_r), (built_morph opt_1 src_a), (built_morph opt_1 src_r), ps1, ps2.
  split; [exact j_a|]. split; [exact j_r|]. split; [exact c_a|]. split; [exact l_a|]. split; [exact c_r|]. split; [exact l_r|]. split; [exact E1|]. split; [exact E2|]. split; [exact F1|exact F2].
Qed.
Print Assumptions C76_order_refuted.
(** and predictions for unknown words depend on the options *)
Theorem C76_prediction_refuted : exists o1 o2 src1 src2 x1 x2 M1 M2 ps1 ps2, join_lexemes src1 [] = Ok [wash; cat] /\ join_lexemes src2 [] = Ok [cat; wash; cat] /\
  compile_parsed_dict o1 src1 [] = Ok x1 /\ loaded x1 (m_dict M1) /\ compile_parsed_dict o2 src2 [] = Ok x2 /\ loaded x2 (m_dict M2) /\
  morph_parse M1 (u "мылоам") = Ok ps1 /\ morph_parse M2 (u "мылоам") = Ok ps2 /\ map p_nf ps1 = [u "мыло"] /\ map p_nf ps2 = [u "мылоам"].
Proof.
  destruct n_b1 as (ps1 & E1 & F1). destruct n_c1 as (ps2 & E2 & F2). exists opt_1, opt_9, src_b, src_c, (built opt_1 src_b), (built opt_9 src_c), (built_morph opt_1 src_b), (built_morph opt_9 src_c), ps1, ps2.
  split; [exact j_b|]. split; [exact j_c|]. split; [exact c_b|]. split; [exact l_b|]. split; [exact c_c|]. split; [exact l_c|]. split; [exact E1|]. split; [exact E2|]. split; [exact F1|exact F2].
Qed.
Print Assumptions C76_prediction_refuted.

(** C77. Parsing any form of the lexeme of a known word finds the form again, with the same tag, the same normal form and the same lexeme *)
Theorem C77_reparse : forall n n' o src links lxs x M word ps w t nf lx j w' t' ps',
  join_lexemes src links = Ok lxs -> compile_parsed_dict o src links = Ok x -> loaded x (m_dict M) ->
  ordinary M word -> word_is_known M word false = true -> parse_f n M word = Ok ps -> shows M ps (w, t, nf, lx) ->
  nth_error lx j = Some (w', t') -> u_lower (m_uni M) w' = w' -> ordinary M w' -> parse_f n' M w' = Ok ps' -> shows M ps' (w', t', nf, lx).
Proof. exact reparse. Qed.
Print Assumptions C77_reparse.
(** normal forms are normal forms of themselves, of the same lexeme *)
Theorem C77_normal_form : forall n n' o src links lxs x M word ps p ps',
  join_lexemes src links = Ok lxs -> compile_parsed_dict o src links = Ok x -> loaded x (m_dict M) ->
  ordinary M word -> word_is_known M word false = true -> parse_f n M word = Ok ps -> In p ps ->
  u_lower (m_uni M) (p_nf p) = p_nf p -> ordinary M (p_nf p) -> parse_f n' M (p_nf p) = Ok ps' ->
  exists q fam fam', In q ps' /\ p_word q = p_nf p /\ p_nf q = p_nf p /\ get_lexeme M p = Ok fam /\ get_lexeme M q = Ok fam' /\
    map (fun f => (p_word f, t_str (p_tag f))) fam = map (fun f => (p_word f, t_str (p_tag f))) fam'.
Proof. exact normal_fixed. Qed.
Print Assumptions C77_normal_form.
(** but lemmatising with the first parse is not idempotent: мылом -> мыло -> мыть *)
Theorem C77_first_refuted : exists o src lxs x M ps ps', join_lexemes src [] = Ok lxs /\ compile_parsed_dict o src [] = Ok x /\ loaded x (m_dict M) /\ ordinary M (u "мылом") /\ ordinary M (u "мыло") /\
  morph_parse M (u "мылом") = Ok ps /\ morph_parse M (u "мыло") = Ok ps' /\ map p_nf ps = [u "мыло"] /\ map p_nf ps' = [u "мыть"; u "мыло"].
Proof.
  destruct n_a1 as (ps1 & E1 & F1). destruct n_a2 as (ps2 & E2 & F2). exists opt_1, src_a, [wash; soap], (built opt_1 src_a), (built_morph opt_1 src_a), ps1, ps2.
  split; [exact j_a|]. split; [exact c_a|]. split; [exact l_a|]. split; [left; split; [exact u_a|apply not_initial; vm_compute; reflexivity]|]. split; [left; split; [exact u_a|apply not_initial; vm_compute; reflexivity]|].
  split; [exact E1|]. split; [exact E2|]. split; [exact F1|exact F2].
Qed.
Print Assumptions C77_first_refuted.
(** nor are the normal forms of predicted words fixed: мылоам is likened to котам, but мыло is only known as a form of мыть *)
Theorem C77_predicted_refuted : exists o src lxs x M ps ps', join_lexemes src [] = Ok lxs /\ compile_parsed_dict o src [] = Ok x /\ loaded x (m_dict M) /\ ordinary M (u "мылоам") /\ ordinary M (u "мыло") /\
  morph_parse M (u "мылоам") = Ok ps /\ morph_parse M (u "мыло") = Ok ps' /\ map p_nf ps = [u "мыло"] /\ map p_nf ps' = [u "мыть"].
Proof.
  destruct n_b1 as (ps1 & E1 & F1). destruct n_b2 as (ps2 & E2 & F2). exists opt_1, src_b, [wash; cat], (built opt_1 src_b), (built_morph opt_1 src_b), ps1, ps2.
  split; [exact j_b|]. split; [exact c_b|]. split; [exact l_b|]. split; [left; split; [exact u_b|apply not_initial; vm_compute; reflexivity]|]. split; [left; split; [exact u_b|apply not_initial; vm_compute; reflexivity]|].
  split; [exact E1|]. split; [exact E2|]. split; [exact F1|exact F2].
Qed.
Print Assumptions C77_predicted_refuted.

(** two dictionaries with the same lexemes, other options, another order and a repetition *)
Example C76_case : join_lexemes src_b [] = Ok [wash; cat] /\ compile_parsed_dict opt_1 src_b [] = Ok (built opt_1 src_b) /\ loaded (built opt_1 src_b) (m_dict (built_morph opt_1 src_b)) /\
  join_lexemes src_c [] = Ok [cat; wash; cat] /\ compile_parsed_dict opt_9 src_c [] = Ok (built opt_9 src_c) /\ loaded (built opt_9 src_c) (m_dict (built_morph opt_9 src_c)) /\
  (forall lx, In lx [wash; cat] <-> In lx [cat; wash; cat]) /\ m_subst (built_morph opt_1 src_b) = m_subst (built_morph opt_9 src_c) /\ m_uni (built_morph opt_1 src_b) = m_uni (built_morph opt_9 src_c) /\
  word_is_known (built_morph opt_1 src_b) (u "Мыло") false = true /\ ordinary (built_morph opt_1 src_b) (u "Мыло") /\ ordinary (built_morph opt_9 src_c) (u "Мыло") /\
  says [wash; cat] (m_subst (built_morph opt_1 src_b)) (u_lower (m_uni (built_morph opt_1 src_b)) (u "Мыло")) (u "мыло", u "VERB neut,sing", u "мыть", wash).
Proof.
  split; [exact j_b|]. split; [exact c_b|]. split; [exact l_b|]. split; [exact j_c|]. split; [exact c_c|]. split; [exact l_c|].
  split; [intros lx; cbn [In]; tauto|]. split; [vm_compute; reflexivity|]. split; [vm_compute; reflexivity|]. split; [vm_compute; reflexivity|].
  split; [left; split; [exact u_b|apply not_initial; vm_compute; reflexivity]|]. split; [left; split; [exact u_c|apply not_initial; vm_compute; reflexivity]|].
  exists wash, 1, (u "мыло"), (u "VERB neut,sing"), (u "мыть"), (u "VERB"). split; [reflexivity|]. split; [left; reflexivity|]. split; [reflexivity|]. split; [reflexivity|].
  assert (E : u_lower (m_uni (built_morph opt_1 src_b)) (u "Мыло") = u "мыло") by (vm_compute; reflexivity). rewrite E. apply L_EndToEnd.subst_refl.
Qed.
Example C77_case : exists ps, morph_parse (built_morph opt_1 src_a) (u "мыло") = Ok ps /\ map p_nf ps = [u "мыть"; u "мыло"] /\ word_is_known (built_morph opt_1 src_a) (u "мыло") false = true /\
  u_lower (m_uni (built_morph opt_1 src_a)) (u "мыть") = u "мыть" /\ ordinary (built_morph opt_1 src_a) (u "мыть").
Proof.
  destruct n_a2 as (ps & E & F). exists ps. split; [exact E|]. split; [exact F|]. split; [vm_compute; reflexivity|]. split; [vm_compute; reflexivity|].
  left. split; [exact u_a|apply not_initial; vm_compute; reflexivity].
Qed.
