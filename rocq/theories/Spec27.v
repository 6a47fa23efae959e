(** * Specification vocabulary for whole lexemes of a document (C60) *)
From Coq Require Import String List NArith ZArith Bool.
From Verif Require Import Py Uni Tagset Dawg Dict Units Analyzer ConfigRu ConfigUk Shapes Compile Preprocess Json Storage XmlParse Convert Spec Spec3 Spec7 Spec8.
Import ListNotations.
Local Open Scope nat_scope.
Local Open Scope list_scope.

(** the document's lemma [id] has the forms [forms], in document order: the text of each with the grammemes of the lemma and its own;
    the lemma is the last one with its id and says something about all its forms *)
Definition document_lexeme (doc : xelem) (id : str) (forms : list (str * list str)) : Prop :=
  exists e l base, last_lemma doc e /\ x_get (u "id") e = Some id /\ x_iter (u "l") e = [l] /\ grammemes_of l base /\
    (forall f, In f (x_iter (u "f") e) -> ~ says_nothing base f) /\
    Forall2 (fun f tg => x_get (u "t") f = Some (fst tg) /\ exists own, grammemes_of f own /\ snd tg = base ++ own) (x_iter (u "f") e) forms.
(** a <link> that is followed: those of types 7, 21, 23 and 27 are not *)
Definition follows (doc k : xelem) : Prop :=
  In k (x_iter (u "link") doc) /\ exists t, x_get (u "type") k = Some t /\ ~ In t (map u ["7"; "21"; "23"; "27"]%string).
(** no link touches the lemma [id] *)
Definition unlinked (doc : xelem) (id : str) : Prop := forall k, follows doc k -> x_get (u "from") k <> Some id /\ x_get (u "to") k <> Some id.
(** no link leads to the lemma [id] *)
Definition top_lemma (doc : xelem) (id : str) : Prop := forall k, follows doc k -> x_get (u "to") k <> Some id.
(** links lead, in any number of steps, from the first lemma to the second *)
Inductive leads (doc : xelem) (a : str) : str -> Prop :=
  | leads_here : leads doc a a
  | leads_link : forall b c k, leads doc a b -> follows doc k -> x_get (u "from") k = Some b -> x_get (u "to") k = Some c -> leads doc a c.
(** no lemma is the target of two links *)
Definition linked_once (doc : xelem) : Prop :=
  forall l1 k1 l2 k2 l3, x_iter (u "link") doc = l1 ++ k1 :: l2 ++ k2 :: l3 -> follows doc k1 -> follows doc k2 -> x_get (u "to") k1 <> x_get (u "to") k2.
(** the word and the grammemes of one form *)
Definition is_form (U : uni) (f : parse) (tg : str * list str) : Prop := p_word f = u_lower U (fst tg) /\ same_grammemes (t_gr (p_tag f)) (snd tg).
(** an analyzer's lexeme [fam] is the lexeme [forms]: form by form, the word is the text in lower case, the grammemes are the same *)
Definition is_lexeme (U : uni) (fam : list parse) (forms : list (str * list str)) : Prop :=
  Forall2 (is_form U) fam forms.
(** [word] is not an initial of the dictionary's language (nor, for Ukrainian, written in Latin letters) *)
Definition ordinary_word (U : uni) (lang : option str) (word : str) : Prop :=
  (lang <> Some (u "uk") -> ~ In word RU_INITIAL_LETTERS) /\
  (lang = Some (u "uk") -> ~ In word UK_INITIAL_LETTERS /\ is_roman_number word = false /\ is_latin U word = Ok false).
