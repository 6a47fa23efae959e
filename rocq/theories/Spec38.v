(** * Specification vocabulary: what the analyzer answers for any word (C88) *)
From Coq Require Import String List NArith ZArith Bool QArith.
From Verif Require Import Py Uni Tagset Dawg Shapes Dict Units Analyzer ConfigRu ConfigUk Spec Spec2 Spec14 Spec15 Spec34 Spec35 Spec36.
Import ListNotations.
Local Open Scope nat_scope.
Local Open Scope list_scope.

(** a dictionary form that the lower-cased word spells, with or without its dots *)
Definition by_dictionary (M : morph) (lower : str) : rule := fun w g =>
  exists vals para idx t, subst_of (m_subst M) lower w /\ sget w (d_words (m_dict M)) = Some vals /\ In (para, idx) vals /\ build_tag_info (m_dict M) para idx = Ok t /\ g = t_gr t.
(** a capital letter as an initial: six cases of a first name or a patronymic, for each gender *)
Definition by_initial (letters : list str) (kind : string) (word lower : str) : rule := fun w g => In word letters /\ w = lower /\ In g (initial_tags kind ["masc"; "femn"]%string).
(** texts that int() accepts, and others that float() accepts once commas are written as points *)
Definition by_number (U : uni) (word lower : str) : rule := fun w g => w = lower /\
  ((int_literal U word /\ g = map u ["NUMB"; "intg"]%string) \/
   (~ int_literal U word /\ float_literal U (replace_char (chr ",") (chr ".") word) /\ g = map u ["NUMB"; "real"]%string)).
(** punctuation, possibly with white space *)
Definition by_punctuation (U : uni) (word lower : str) : rule := fun w g => w = lower /\ g = [u "PNCT"] /\
  (exists c, In c word /\ u_space U c = false) /\ (forall c, In c word -> u_space U c = false -> u_punct U c = true).
(** at least one letter, all letters Latin *)
Definition by_latin (U : uni) (word lower : str) : rule := fun w g => w = lower /\ g = [u "LATN"] /\
  (exists c, In c word /\ u_alpha U c = true) /\ (forall c, In c word -> u_alpha U c = true -> u_latin U c = Some true).
(** a Roman number below 5000 (or only a line break) *)
Definition by_roman (word lower : str) : rule := fun w g => w = lower /\ g = [u "ROMN"] /\
  (word = [10%N] \/ exists n v, 1 <= n < 5000 /\ Forall2 roman_letter (roman n) v /\ (word = v \/ word = v ++ [10%N])).
Definition either (l : list rule) : rule := fun w g => exists P, In P l /\ P w g.
(** all rules of the Russian analyzer, in order *)
Definition all_rules_ru (M : morph) (word lower : str) : list rule :=
  either [by_dictionary M lower; by_initial RU_INITIAL_LETTERS "Name" word lower; by_initial RU_INITIAL_LETTERS "Patr" word lower] ::
  by_number (m_uni M) word lower :: by_punctuation (m_uni M) word lower :: either [by_roman word lower; by_latin (m_uni M) word lower] ::
  rules_ru M word lower.
(** ... and of the Ukrainian one *)
Definition all_rules_uk (M : morph) (word lower : str) : list rule :=
  either [by_dictionary M lower; by_initial UK_INITIAL_LETTERS "Name" word lower; by_initial UK_INITIAL_LETTERS "Patr" word lower; by_roman word lower; by_latin (m_uni M) word lower] ::
  by_number (m_uni M) word lower :: by_punctuation (m_uni M) word lower ::
  rules_uk M word lower.
