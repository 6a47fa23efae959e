(** * Specification vocabulary: where tags come from (C59) *)
From Coq Require Import String List NArith ZArith Bool QArith.
From Verif Require Import Py Uni Tagset Dawg Dict Units Analyzer.
Import ListNotations.
Local Open Scope nat_scope.
Local Open Scope list_scope.

(** a tag of the dictionary's tag table, or one a unit built when it was initialised *)
Definition tag_source (M : morph) (t : tag) : Prop :=
  In t (d_gramtab (m_dict M)) \/ exists b tm, In (b, tm) (m_units M) /\ In t (b_tags b ++ b_masc b ++ b_femn b).
