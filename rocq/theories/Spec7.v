(** * Specification vocabulary for XML dictionaries (C55) *)
From Coq Require Import String List NArith ZArith Bool.
From Verif Require Import Py Uni Tagset Dawg Dict Units Analyzer Compile Json XmlParse Spec.
Import ListNotations.
Local Open Scope nat_scope.
Local Open Scope list_scope.

(** the v attributes of the <g> elements in [e], in document order *)
Definition grammemes_of (e : xelem) (vs : list str) : Prop := map (x_get (u "v")) (x_iter (u "g") e) = map Some vs.
(** the pair for one <f>: the word in lower case; the lemma's grammemes, a space, the form's grammemes *)
Definition form_of (U : uni) (base : list str) (f : xelem) (wt : str * str) : Prop :=
  exists text gs, x_get (u "t") f = Some text /\ grammemes_of f gs /\
    fst wt = u_lower U text /\ snd wt = strip_by (u_space U) (join (u ",") base ++ u " " ++ join (u ",") gs).
(** neither the lemma nor the form has any grammeme text *)
Definition says_nothing (base : list str) (f : xelem) : Prop :=
  exists gs, grammemes_of f gs /\ join (u ",") base ++ join (u ",") gs = [].
(** [fs] are the forms of the <lemma> [e] *)
Definition lemma_forms (U : uni) (e : xelem) (fs : lexeme) : Prop :=
  (x_kids e = [] /\ fs = []) \/
  (x_kids e <> [] /\ exists l base, x_iter (u "l") e = [l] /\ grammemes_of l base /\
     ((exists f, In f (x_iter (u "f") e) /\ says_nothing base f /\ fs = []) \/
      ((forall f, In f (x_iter (u "f") e) -> ~ says_nothing base f) /\ Forall2 (form_of U base) (x_iter (u "f") e) fs))).
(** every <g> has a v, every <f> has a t *)
Definition complete (e : xelem) : Prop :=
  (forall g, In g (x_iter (u "g") e) -> x_get (u "v") g <> None) /\ (forall f, In f (x_iter (u "f") e) -> x_get (u "t") f <> None).

(** the recorded elements are not nested in one another *)
Definition flat (doc : xelem) : Prop :=
  forall e, In e (preorder doc) -> interesting e = true -> forall k d, In k (x_kids e) -> In d (preorder k) -> interesting d = false.
(** the row of a <grammeme> *)
Definition grammeme_row (e : xelem) (r : xgram) : Prop :=
  exists n a d, find (has_tag (u "name")) (x_kids e) = Some n /\ find (has_tag (u "alias")) (x_kids e) = Some a /\
    find (has_tag (u "description")) (x_kids e) = Some d /\ r = (x_text n, x_get (u "parent") e, x_text a, x_text d).
Definition link_row (e : xelem) : xlink := (x_get (u "from") e, x_get (u "to") e, x_get (u "type") e).
(** [e] is the last <lemma> of the document with its id *)
Definition last_lemma (doc e : xelem) : Prop :=
  exists l r, x_iter (u "lemma") doc = l ++ e :: r /\ forall e', In e' r -> x_get (u "id") e' <> x_get (u "id") e.
Definition lexeme_with (id : option str) (P : parsed) : option lexeme := dget (opt_eqb str_eqb) id (xp_lexemes P).
(** the <dictionary> element is among the first 1002 elements of the file *)
Definition dictionary_element (doc e : xelem) : Prop :=
  exists l r, preorder doc = l ++ e :: r /\ x_tag e = u "dictionary" /\ (forall d, In d l -> x_tag d <> u "dictionary") /\ length l <= 1001.
(** ids written in decimal: the numbers the compiler model uses *)
Definition numbered (P : parsed) (src : lexemes) (links : list link) : Prop :=
  xp_lexemes P = map (fun l => (Some (dec_N (fst l)), snd l)) src /\
  xp_links P = map (fun l : link => let '(a, b, t) := l in (Some (dec_N a), Some (dec_N b), Some t)) links.
