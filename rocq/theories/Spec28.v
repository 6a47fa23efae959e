(** * Specification vocabulary for forms of forms (C78) *)
From Coq Require Import String List NArith ZArith Bool QArith.
From Verif Require Import Py Uni Tagset Dawg Dict Units Analyzer Spec Spec2.
Import ListNotations.
Local Open Scope nat_scope.
Local Open Scope list_scope.

(** the parses a program can come to hold: results of parse() and of iter_known_word_parses(), the members of their lexemes, their
    normalized forms, the results of their inflections, and so on *)
Inductive obtainable (M : morph) : parse -> Prop :=
| ob_parse : forall word ps p, morph_parse M word = Ok ps -> In p ps -> obtainable M p
| ob_known : forall prefix ps p, iter_known_word_parses M prefix = Ok ps -> In p ps -> obtainable M p
| ob_member : forall p lex f, obtainable M p -> get_lexeme M p = Ok lex -> In f lex -> obtainable M f
| ob_normal : forall p q, obtainable M p -> normalized M p = Ok q -> obtainable M q
| ob_inflect : forall p req q, obtainable M p -> inflect M p req = Ok (Some q) -> obtainable M q.

(** no tag of the dictionary has half a million grammemes *)
Definition modest_tags (D : dict) : Prop := forall t, In t (d_gramtab D) -> (N.of_nat (length (t_gr t)) < 500000)%N.

(** the rare cases have their common counterparts in the grammeme table *)
Definition commons_known (C : tagclass) : Prop := forall g g', rare g g' -> In g' (tc_known C).
