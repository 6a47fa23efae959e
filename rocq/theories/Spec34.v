(** * Specification vocabulary for adverbs with по- (C84) *)
From Coq Require Import String List NArith ZArith Bool QArith.
From Verif Require Import Py Uni Tagset Dawg Dict Units Analyzer ConfigRu Spec Spec14.
Import ListNotations.
Local Open Scope nat_scope.
Local Open Scope list_scope.

(** an adjective in the dative singular *)
Definition dative_adjective (t : tag) : Prop := forall g, In g (map u ["ADJF"; "sing"; "datv"]%string) -> In g (t_gr t).
(** "по-" and at least two more letters, which can be read as an adjective in the dative singular *)
Definition po_adverb (M : morph) (lower : str) : Prop :=
  exists rest ts t, lower = u "по-" ++ rest /\ 2 <= length rest /\ morph_tag M rest = Ok ts /\ In t ts /\ dative_adjective t.
Definition knows_adjectives (M : morph) : Prop := forall g, In g (map u ["ADJF"; "sing"; "datv"]%string) -> In g (tc_known (m_tc M)).
(** the one reading as an adverb *)
Definition adverb_reading (self : uref) (word lower : str) (p : parse) : Prop :=
  p_word p = lower /\ p_nf p = lower /\ t_str (p_tag p) = u "ADVB" /\ t_gr (p_tag p) = [u "ADVB"] /\ p_stack p = [MStr self word].
(** an unknown Russian word: not in the dictionary, not an initial, starts with a letter of a non-Latin script, no particle at the end *)
Definition no_other_unit (M : morph) (word : str) : Prop :=
  word_is_known M word false = false /\ ~ In word RU_INITIAL_LETTERS /\ (exists c r, word = c :: r /\ foreign_letter (m_uni M) c) /\
  ~ exists w pt, In pt RU_PARTICLES /\ u_lower (m_uni M) word = w ++ pt /\ w <> [].
