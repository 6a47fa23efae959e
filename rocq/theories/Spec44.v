(** * Specification vocabulary: initials and entries (C97) *)
From Coq Require Import String List NArith ZArith Bool QArith.
From Verif Require Import Py Uni Tagset Dawg Dict Units Analyzer Spec Spec2 Spec14.
Import ListNotations.
Local Open Scope nat_scope.
Local Open Scope list_scope.

(** no (paradigm, form) pair is stored twice under one word *)
Definition entries_distinct (D : dict) : Prop := forall w vals, sget w (d_words D) = Some vals -> NoDup vals.
(** the letters configured as initials are not in lower case *)
Definition initials_upper (M : morph) : Prop :=
  forall b tm first letters pat score l, In (b, tm) (m_units M) -> b_cfg b = UInit first letters pat score -> In l letters -> u_lower (m_uni M) l <> l.
