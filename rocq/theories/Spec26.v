(** * Specification vocabulary for C76, C77: what the lexemes of a source say about a word *)
From Coq Require Import String List NArith ZArith Bool QArith.
From Verif Require Import Py Uni Tagset Dawg Dict Units Analyzer ConfigRu ConfigUk Shapes Compile Spec.
Import ListNotations.
Local Open Scope nat_scope.
Local Open Scope list_scope.

(** an answer: word, tag text, normal form, and the lexeme as words with tag texts *)
Definition answer := (str * str * str * list (str * str))%type.
(** what lexemes [lxs] say about the lower-case word [lower], when characters may be replaced according to [r] *)
Definition says (lxs : list lexeme) (r : replaces) (lower : str) (a : answer) : Prop :=
  exists lx i w t nf tnf, a = (w, t, nf, lx) /\ In lx lxs /\ nth_error lx i = Some (w, t) /\ nth_error lx 0 = Some (nf, tnf) /\ subst_of r lower w.
(** what the parses [ps] of an analyzer show *)
Definition shows (M : morph) (ps : list parse) (a : answer) : Prop :=
  exists p fam, In p ps /\ get_lexeme M p = Ok fam /\ a = (p_word p, t_str (p_tag p), p_nf p, map (fun f => (p_word f, t_str (p_tag f))) fam).
(** parse() of an analyzer with the standard units of Russian or of Ukrainian, for a word that is not an initial (nor, in Ukrainian, written in Latin letters) *)
Definition ordinary (M : morph) (word : str) : Prop :=
  (has_units M RU_DEFAULT_UNITS /\ ~ In word RU_INITIAL_LETTERS) \/
  (has_units M UK_DEFAULT_UNITS /\ ~ In word UK_INITIAL_LETTERS /\ is_roman_number word = false /\ is_latin (m_uni M) word = Ok false).
