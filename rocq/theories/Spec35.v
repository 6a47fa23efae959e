(** * Specification vocabulary for words outside the dictionary (C85) *)
From Coq Require Import String List NArith ZArith Bool QArith.
From Verif Require Import Py Uni Tagset Dawg Dict Units Analyzer ConfigRu ConfigUk Spec Spec2 Spec14 Spec15.
Import ListNotations.
Local Open Scope nat_scope.
Local Open Scope list_scope.

(** the default units of a shipped language, with its initials and its known prefixes *)
Definition language (M : morph) (letters prefixes : list str) : Prop :=
  (has_units M RU_DEFAULT_UNITS /\ letters = RU_INITIAL_LETTERS /\ prefixes = RU_KNOWN_PREFIXES) \/
  (has_units M UK_DEFAULT_UNITS /\ letters = UK_INITIAL_LETTERS /\ prefixes = UK_KNOWN_PREFIXES).
(** a word outside the dictionary: no initial, no hyphen, and it starts with a letter of a non-Latin script *)
Definition new_word (M : morph) (letters : list str) (word : str) : Prop :=
  word_is_known M word false = false /\ ~ In word letters /\ (exists c r, word = c :: r /\ foreign_letter (m_uni M) c) /\ ~ In (chr "-") (u_lower (m_uni M) word) /\ u_lower (m_uni M) word <> [].
(** a known prefix before at least three letters, which have a reading of an open class *)
Definition by_known_prefix (M : morph) (prefixes : list str) (lower w : str) (g : sset) : Prop :=
  exists prefix rest qs q, In prefix prefixes /\ lower = prefix ++ rest /\ 3 <= length rest /\ morph_parse M rest = Ok qs /\ In q qs /\ productive (p_tag q) /\
    w = prefix ++ p_word q /\ g = t_gr (p_tag q).
(** one to five letters before a dictionary word of at least three letters, of an open class *)
Definition by_unknown_prefix (M : morph) (lower w : str) (g : sset) : Prop :=
  exists prefix rest v vals para idx t, lower = prefix ++ rest /\ 1 <= length prefix <= 5 /\ 3 <= length rest /\
    subst_of (m_subst M) rest v /\ sget v (d_words (m_dict M)) = Some vals /\ In (para, idx) vals /\ build_tag_info (m_dict M) para idx = Ok t /\ productive t /\
    w = prefix ++ v /\ g = t_gr t.
(** at least four letters, with an ending from the prediction table; of the recorded endings that tell something the longest *)
Definition by_ending (M : morph) (word lower w : str) (g : sset) : Prop :=
  4 <= length word /\ exists pid pre rest dawg start e fs cnt para idx t,
    nth_error (d_prefixes (m_dict M)) pid = Some pre /\ lower = pre ++ rest /\ nth_error (d_pred (m_dict M)) pid = Some dawg /\
    longest_informative M dawg lower start e /\ In (fs, (cnt, para, idx)) (productive_records M dawg e) /\ build_tag_info (m_dict M) para idx = Ok t /\
    w = start ++ fs /\ g = t_gr t.
Definition by_analogy (M : morph) (word lower w : str) (g : sset) : Prop := by_unknown_prefix M lower w g \/ by_ending M word lower w g.
(** [ps] has a reading of the word [w] with the grammemes [g] *)
Definition analysed (ps : list parse) (w : str) (g : sset) : Prop := exists p, In p ps /\ p_word p = w /\ t_gr (p_tag p) = g.
(** the reading of a word nothing is known about *)
Definition unknown_reading (lower : str) (p : parse) : Prop := p_word p = lower /\ p_nf p = lower /\ t_gr (p_tag p) = [u "UNKN"].
