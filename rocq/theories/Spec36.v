(** * Specification vocabulary: the rules for words outside the dictionary, in order (C86) *)
From Coq Require Import String List NArith ZArith Bool QArith.
From Verif Require Import Py Uni Tagset Dawg Dict Units Analyzer ConfigRu ConfigUk Spec Spec2 Spec14 Spec15 Spec34 Spec35.
Import ListNotations.
Local Open Scope nat_scope.
Local Open Scope list_scope.

(** a word outside the dictionary, no initial, that starts with a letter of a non-Latin script *)
Definition outside_word (M : morph) (letters : list str) (word : str) : Prop :=
  word_is_known M word false = false /\ ~ In word letters /\ (exists c r, word = c :: r /\ foreign_letter (m_uni M) c) /\ u_lower (m_uni M) word <> [].
(** a rule: which readings (word and grammemes) it gives *)
Definition rule := str -> sset -> Prop.
Definition applies (P : rule) : Prop := exists w g, P w g.
Definition gives (ps : list parse) (P : rule) : Prop := forall w g, analysed ps w g <-> P w g.
(** [ps] has exactly the readings of the first rule that applies *)
Fixpoint first_rule (rules : list rule) (ps : list parse) : Prop :=
  match rules with
  | [] => False
  | P :: r => (applies P /\ gives ps P) \/ (~ applies P /\ first_rule r ps)
  end.
(** a particle behind the word *)
Definition by_particle (M : morph) (particles : list str) (lower : str) : rule := fun w g =>
  exists rest pt qs q, In pt particles /\ In (chr "-") lower /\ lower = rest ++ pt /\ rest <> [] /\ morph_parse M rest = Ok qs /\ In q qs /\ w = p_word q ++ pt /\ g = t_gr (p_tag q).
(** "по-" before a dative adjective *)
Definition by_po (M : morph) (lower : str) : rule := fun w g => po_adverb M lower /\ w = lower /\ g = [u "ADVB"].
(** one inner hyphen: two parts inflected alike, or a fixed left part *)
Definition by_hyphen (M : morph) (prefixes : list str) (lower : str) : rule := fun w g =>
  ~ starts_with_any prefixes lower /\ exists l r ls rs, one_inner_hyphen lower l r /\ morph_parse M l = Ok ls /\ morph_parse M r = Ok rs /\
    ((exists a b, In a ls /\ In b rs /\ has_pos (p_tag a) /\ same_features (p_tag a) (p_tag b) /\ w = p_word a ++ u "-" ++ p_word b /\ g = t_gr (p_tag a)) \/
     (exists b, In b rs /\ has_pos (p_tag b) /\ w = l ++ u "-" ++ p_word b /\ g = t_gr (p_tag b))).
Definition by_nothing (lower : str) : rule := fun w g => w = lower /\ g = [u "UNKN"].
Definition rules_ru (M : morph) (word lower : str) : list rule :=
  [by_particle M RU_PARTICLES lower; by_po M lower; by_hyphen M RU_KNOWN_PREFIXES lower; by_known_prefix M RU_KNOWN_PREFIXES lower; by_analogy M word lower; by_nothing lower].
Definition rules_uk (M : morph) (word lower : str) : list rule :=
  [by_particle M UK_PARTICLES lower; by_hyphen M UK_KNOWN_PREFIXES lower; by_known_prefix M UK_KNOWN_PREFIXES lower; by_analogy M word lower; by_nothing lower].
(** the same for tags: [ts] has exactly the grammeme sets of the first rule that applies *)
Fixpoint first_rule_tags (rules : list rule) (ts : list tag) : Prop :=
  match rules with
  | [] => False
  | P :: r => (applies P /\ forall g, In g (map t_gr ts) <-> exists w, P w g) \/ (~ applies P /\ first_rule_tags r ts)
  end.
