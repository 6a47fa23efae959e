(** * Properties of Parse.lexeme and Parse.normalized (C10 C11 C12 C13) *)
From Coq Require Import String List NArith ZArith Bool QArith.
From Verif Require Import Py Uni Tagset Dawg Utils Shapes Dict Units Analyzer ConfigRu ConfigUk Compile Spec Ex.
From Verif Require Import L_Base L_Ex L_ExU L_Parse L_LexParse L_ExL.
Import ListNotations.
Local Open Scope nat_scope.
Local Open Scope list_scope.

(** Throughout: [shipped_units M] — the analyzer has the Russian or the Ukrainian default units;
    [wf_dict], [consistent_dict] — every dictionary entry is a form of its paradigm;
    [simple_stack] — the methods_stack of the parse contains no "both parts inflect" hyphen method
    and its dictionary items are real forms (paradigm prefix and suffix do not overlap in the word);
    [reading] — (word, tag, normal_form, methods_stack), i.e. the parse without its score. *)

(** ** C10 *)
Theorem C10_lexeme_contains : forall n M word ps p,
  shipped_units M -> wf_dict (m_dict M) -> consistent_dict (m_dict M) -> In (u "masc") (tc_known (m_tc M)) ->
  parse_f n M word = Ok ps -> In p ps -> simple_stack (m_dict M) (p_stack p) ->
  exists lex f, get_lexeme M p = Ok lex /\ In f lex /\ reading f = reading p.
Proof.
  intros n M word ps p H1 H2 H3 H4 H5 H6 H7.
  destruct (shipped_lex n M word ps p H1 H2 H3 H4 H5 H6 H7) as (lex & q & f0 & L & _ & (f & Hf & R) & _).
  exists lex, f. exact (conj L (conj Hf R)).
Qed.
Print Assumptions C10_lexeme_contains.

(** When the stack is simple: only the "both parts" hyphen method is excluded, and a paradigm
    prefix must leave room for the longest predicted suffix. *)
Theorem C10_when_simple : forall M, consistent_dict (m_dict M) -> pred_consistent (m_dict M) ->
  forall n word ps p, parse_f n M word = Ok ps -> In p ps ->
    (forall m, In m (p_stack p) -> no_both m) ->
    (forall w para idx, In (w, para, idx) (flat_map dict_items (p_stack p)) ->
       forall prefix t suffix, para_row (m_dict M) para idx prefix t suffix ->
         prefix = [] \/ length prefix + d_maxsuf (m_dict M) <= length w) ->
    simple_stack (m_dict M) (p_stack p).
Proof.
  intros M H1 H2 n word ps p H3 H4 H5 H6. refine (simple_if_roomy M H1 H2 n word ps p H3 H4 H5 _).
  intros [[w para] idx] Hx. exact (H6 w para idx Hx).
Qed.
Print Assumptions C10_when_simple.

Example C10_case : shipped_units demo /\ wf_dict (m_dict demo) /\ consistent_dict (m_dict demo) /\ pred_consistent (m_dict demo) /\
  In (u "masc") (tc_known (m_tc demo)) /\
  (* кота: dictionary; суперкота: known prefix; бокоту: predicted by its ending *)
  (exists ps p lex, morph_parse demo (u "кота") = Ok ps /\ In p ps /\ simple_stack (m_dict demo) (p_stack p) /\
     get_lexeme demo p = Ok lex /\ length lex = 7 /\ length (p_stack p) = 1) /\
  (exists ps p lex, morph_parse demo (u "суперкота") = Ok ps /\ In p ps /\ simple_stack (m_dict demo) (p_stack p) /\
     get_lexeme demo p = Ok lex /\ length lex = 7 /\ length (p_stack p) = 2) /\
  (exists ps p lex, morph_parse demo (u "бубоговикроту") = Ok ps /\ In p ps /\ simple_stack (m_dict demo) (p_stack p) /\
     get_lexeme demo p = Ok lex /\ length lex = 7 /\ length (p_stack p) = 2).
Proof.
  split; [exact demo_shipped|]. split; [exact demo_wf_dict|]. split; [exact demo_consistent|]. split; [exact demo_pred_consistent|].
  split; [exact demo_masc|].
  split; [|split]; refine (caseb_ok demo _ _ _ _); vm_compute; reflexivity.
Qed.

(** a "both parts inflect" parse that is not in its own lexeme *)
Theorem C10_both_parts_refuted : exists M word ps p lex,
  shipped_units M /\ wf_dict (m_dict M) /\ consistent_dict (m_dict M) /\ pred_consistent (m_dict M) /\
  morph_parse M word = Ok ps /\ In p ps /\ (exists r a b, p_stack p = [MHyphBoth r a b]) /\
  get_lexeme M p = Ok lex /\ forall f, In f lex -> p_word f <> p_word p.
Proof.
  destruct both_witness as (M & word & ps & p & lex & q & H1 & H2 & H3 & H4 & H5 & H6 & H7 & H8 & H9 & H10 & _).
  exists M, word, ps, p, lex. exact (conj H1 (conj H2 (conj H3 (conj H4 (conj H6 (conj H7 (conj H8 (conj H9 H10)))))))).
Qed.
Print Assumptions C10_both_parts_refuted.

(** a predicted parse whose paradigm prefix and suffix overlap in the word *)
Theorem C10_overlap_refuted : exists M word ps p lex,
  shipped_units M /\ wf_dict (m_dict M) /\ consistent_dict (m_dict M) /\ pred_consistent (m_dict M) /\
  morph_parse M word = Ok ps /\ In p ps /\ (forall m, In m (p_stack p) -> no_both m) /\
  get_lexeme M p = Ok lex /\ forall f, In f lex -> p_word f <> p_word p.
Proof.
  destruct lap_witness as (M & word & ps & p & lex & H1 & H2 & H3 & H4 & H5 & H6 & H7 & H8 & H9 & H10).
  exists M, word, ps, p, lex. exact (conj H1 (conj H2 (conj H3 (conj H4 (conj H6 (conj H7 (conj H8 (conj H9 H10)))))))).
Qed.
Print Assumptions C10_overlap_refuted.

(** ** C11 *)
Theorem C11_lexeme_closed : forall n M word ps p,
  shipped_units M -> wf_dict (m_dict M) -> consistent_dict (m_dict M) -> In (u "masc") (tc_known (m_tc M)) ->
  parse_f n M word = Ok ps -> In p ps -> simple_stack (m_dict M) (p_stack p) ->
  exists lex, get_lexeme M p = Ok lex /\ forall f, In f lex -> get_lexeme M f = Ok lex.
Proof.
  intros n M word ps p H1 H2 H3 H4 H5 H6 H7.
  destruct (shipped_lex n M word ps p H1 H2 H3 H4 H5 H6 H7) as (lex & q & f0 & L & _ & _ & F & _).
  exists lex. exact (conj L (fun f Hf => proj2 (F f Hf))).
Qed.
Print Assumptions C11_lexeme_closed.
Example C11_case : (exists ps p lex, morph_parse demo (u "суперкота") = Ok ps /\ In p ps /\ simple_stack (m_dict demo) (p_stack p) /\
     get_lexeme demo p = Ok lex /\ length lex = 7 /\ length (p_stack p) = 2).
Proof. refine (caseb_ok demo _ _ _ _); vm_compute; reflexivity. Qed.

(** ** C12 *)
Theorem C12_same_normal_form : forall n M word ps p,
  shipped_units M -> wf_dict (m_dict M) -> consistent_dict (m_dict M) -> In (u "masc") (tc_known (m_tc M)) ->
  parse_f n M word = Ok ps -> In p ps -> simple_stack (m_dict M) (p_stack p) ->
  exists lex, get_lexeme M p = Ok lex /\ lex <> [] /\ forall f, In f lex -> p_nf f = p_nf p.
Proof.
  intros n M word ps p H1 H2 H3 H4 H5 H6 H7.
  destruct (shipped_lex n M word ps p H1 H2 H3 H4 H5 H6 H7) as (lex & q & f0 & L & _ & (f & Hf & _) & F & _).
  exists lex. split; [exact L|]. split; [intro E; rewrite E in Hf; exact Hf|]. exact (fun f Hf => proj1 (F f Hf)).
Qed.
Print Assumptions C12_same_normal_form.
Example C12_case : (exists ps p lex, morph_parse demo (u "бубоговикроту") = Ok ps /\ In p ps /\ simple_stack (m_dict demo) (p_stack p) /\
     get_lexeme demo p = Ok lex /\ length lex = 7 /\ length (p_stack p) = 2).
Proof. refine (caseb_ok demo _ _ _ _); vm_compute; reflexivity. Qed.

(** ** C13 *)
Theorem C13_normalized : forall n M word ps p,
  shipped_units M -> wf_dict (m_dict M) -> consistent_dict (m_dict M) -> In (u "masc") (tc_known (m_tc M)) ->
  parse_f n M word = Ok ps -> In p ps -> simple_stack (m_dict M) (p_stack p) ->
  exists lex f0 q, get_lexeme M p = Ok lex /\ nth_error lex 0 = Some f0 /\ normalized M p = Ok q /\
    reading q = reading f0 /\ p_word q = p_nf p /\ normalized M q = Ok q.
Proof.
  intros n M word ps p H1 H2 H3 H4 H5 H6 H7.
  destruct (shipped_lex n M word ps p H1 H2 H3 H4 H5 H6 H7) as (lex & q & f0 & L & N & _ & _ & Z & R & W & I).
  exists lex, f0, q. exact (conj L (conj Z (conj N (conj R (conj W I))))).
Qed.
Print Assumptions C13_normalized.
Example C13_case : (exists ps p lex, morph_parse demo (u "кота") = Ok ps /\ In p ps /\ simple_stack (m_dict demo) (p_stack p) /\
     get_lexeme demo p = Ok lex /\ length lex = 7 /\ length (p_stack p) = 1).
Proof. refine (caseb_ok demo _ _ _ _); vm_compute; reflexivity. Qed.

(** for a "both parts inflect" parse normalized.word can differ from normal_form *)
Theorem C13_both_parts_refuted : exists M word ps p q,
  shipped_units M /\ wf_dict (m_dict M) /\ consistent_dict (m_dict M) /\ pred_consistent (m_dict M) /\
  morph_parse M word = Ok ps /\ In p ps /\ (exists r a b, p_stack p = [MHyphBoth r a b]) /\
  normalized M p = Ok q /\ p_word q <> p_nf p.
Proof.
  destruct both_witness as (M & word & ps & p & lex & q & H1 & H2 & H3 & H4 & H5 & H6 & H7 & H8 & _ & _ & H9 & H10).
  exists M, word, ps, p, q. exact (conj H1 (conj H2 (conj H3 (conj H4 (conj H6 (conj H7 (conj H8 (conj H9 H10)))))))).
Qed.
Print Assumptions C13_both_parts_refuted.
