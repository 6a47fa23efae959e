(** * Specification: letter case (C64) *)
From Coq Require Import String List NArith ZArith Bool QArith.
From Verif Require Import Py Uni Tagset Dawg Utils Shapes Dict Units Spec.
Import ListNotations.
Local Open Scope nat_scope.
Local Open Scope list_scope.

(** the public shape tests (pymorphy2.shapes and the number test) give the same answers for both spellings *)
Definition same_shape (U : uni) (w w' : str) : Prop :=
  number_shape U w = number_shape U w' /\ is_punctuation U w = is_punctuation U w' /\
  is_latin U w = is_latin U w' /\ is_roman_number w = is_roman_number w'.
(** [w] is not one of the letters configured as initials *)
Definition not_initial (M : morph) (w : str) : Prop :=
  forall b tm first letters pat score, In (b, tm) (m_units M) -> b_cfg b = UInit first letters pat score -> ~ In w letters.
(** two spellings of the same lower-case word *)
Definition respelled (M : morph) (w w' : str) : Prop :=
  u_lower (m_uni M) w = u_lower (m_uni M) w' /\ length w = length w' /\ same_shape (m_uni M) w w' /\ not_initial M w /\ not_initial M w'.
(** the same parse; if its methods stack is a single method that quotes the word, it quotes the respective spelling *)
Definition same_but_quote (w w' : str) (p p' : parse) : Prop :=
  p_word p' = p_word p /\ p_tag p' = p_tag p /\ p_nf p' = p_nf p /\ p_score p' = p_score p /\
  (p_stack p' = p_stack p \/ exists i, p_stack p = [MStr (Root i) w] /\ p_stack p' = [MStr (Root i) w']).
Definition same_parses (w w' : str) (r r' : res (list parse)) : Prop :=
  match r, r' with
  | Ok ps, Ok ps' => Forall2 (same_but_quote w w') ps ps'
  | Err e, Err e' => e' = e
  | _, _ => False
  end.
(** a letter of a non-Latin script (the dotted and dotless i, 304 and 305, match the ASCII I case-insensitively) *)
Definition foreign_letter (U : uni) (c : char) : Prop :=
  (128 <= c)%N /\ c <> 304%N /\ c <> 305%N /\ u_alpha U c = true /\ u_latin U c = Some false /\
  u_space U c = false /\ u_digit U c = None /\ u_punct U c = false.
