(** * Specification vocabulary for counting (C81, C82) *)
From Coq Require Import String List NArith ZArith Bool QArith.
From Verif Require Import Py Uni Tagset Dawg Dict Units Analyzer Spec.
Import ListNotations.
Local Open Scope nat_scope.
Local Open Scope list_scope.

(** the tag has the grammeme [g] of the category, and no other one of it *)
Definition the_only (category : list str) (t : tag) (g : str) : Prop :=
  In g category /\ In g (t_gr t) /\ forall x, In x category -> In x (t_gr t) -> x = g.
(** all grammemes of the tag are known; where one of them excludes another one (as the plural excludes the genders), all forms of the
    lexeme with the first one have the second one *)
Definition coherent (C : tagclass) (lex : list parse) (t : tag) : Prop :=
  forall g, In g (t_gr t) -> In g (tc_known C) /\
    forall x, In x (t_gr t) -> In x (incompat_of C g) -> forall h, In h lex -> In g (t_gr (p_tag h)) -> In x (t_gr (p_tag h)).
(** the tag of a noun: one part of speech, one case, one number *)
Definition noun_tag (t : tag) : Prop :=
  the_only PARTS_OF_SPEECH t (u "NOUN") /\ (exists c, the_only CASES t c) /\ exists m, the_only NUMBERS t m.
(** the tag of an adjective or participle; plural forms have no gender *)
Definition adjective_tag (t : tag) : Prop :=
  (exists pos, (pos = u "ADJF" \/ pos = u "PRTF") /\ the_only PARTS_OF_SPEECH t pos) /\ (exists c, the_only CASES t c) /\ (exists m, the_only NUMBERS t m) /\
  (In (u "plur") (t_gr t) -> forall g, In g GENDERS -> ~ In g (t_gr t)).
Definition lexeme_of (kind : tag -> Prop) (C : tagclass) (lex : list parse) : Prop :=
  forall h, In h lex -> coherent C lex (p_tag h) /\ kind (p_tag h).
Definition direct (c : str) : Prop := c = u "nomn" \/ c = u "accs".
(** the cases that agreement keeps *)
Definition oblique (c : str) : Prop := In c (map u ["gent"; "datv"; "ablt"; "loct"; "gen1"; "gen2"; "loc1"; "loc2"]%string).
Definition has_case (p : parse) (c : str) : Prop := the_only CASES (p_tag p) c.
(** [p] is a reading of the word by an analyzer with the shipped units, through one word of the dictionary; [lex] is its lexeme *)
Definition simple_reading (M : morph) (word : str) (p : parse) (lex : list parse) : Prop :=
  shipped_units M /\ wf_dict (m_dict M) /\ consistent_dict (m_dict M) /\ In (u "masc") (tc_known (m_tc M)) /\
  (exists ps, morph_parse M word = Ok ps /\ In p ps) /\ simple_stack (m_dict M) (p_stack p) /\ get_lexeme M p = Ok lex.
