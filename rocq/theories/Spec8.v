(** * Specification vocabulary for whole conversions (C60) *)
From Coq Require Import String List NArith ZArith Bool.
From Verif Require Import Py Uni Tagset Dawg Dict Units Analyzer Compile Preprocess Json Storage XmlParse Convert Spec Spec3 Spec7.
Import ListNotations.
Local Open Scope nat_scope.
Local Open Scope list_scope.

(** grammeme names in the document: no commas or white space, at most four characters *)
Definition plain_grammemes (U : uni) (doc : xelem) : Prop :=
  forall g, In g (x_iter (u "g") doc) -> exists v, x_get (u "v") g = Some v /\ plain U v /\ length v <= 4.
(** every grammeme used, and what it is replaced by, is declared *)
Definition declared (doc : xelem) (rows : list grow) : Prop :=
  forall g v, In g (x_iter (u "g") doc) -> x_get (u "v") g = Some v -> In v (map g_name rows) /\ In (common_case v) (map g_name rows).
(** [text] with grammemes [gs] is a form of a lemma of the document; the lemma is the last one with its id and says something about
    all its forms *)
Definition document_form (doc : xelem) (text : str) (gs : list str) : Prop :=
  exists e l f base own, last_lemma doc e /\ x_iter (u "l") e = [l] /\ grammemes_of l base /\ In f (x_iter (u "f") e) /\
    (forall f', In f' (x_iter (u "f") e) -> ~ says_nothing base f') /\
    x_get (u "t") f = Some text /\ grammemes_of f own /\ gs = base ++ own.
