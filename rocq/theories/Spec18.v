(** * Specification vocabulary for C67 and C68 *)
From Coq Require Import String List NArith ZArith Bool.
From Verif Require Import Py Uni Tagset Dawg Dict Units Analyzer Spec.
Import ListNotations.
Local Open Scope nat_scope.
Local Open Scope list_scope.

(** the same analyzer object, used when the shared tag class is in the state [C] *)
Definition in_state (M : morph) (C : tagclass) : morph := MkMorph (m_uni M) (m_ext M) (m_dict M) (m_units M) (m_prob M) (m_subst M) C.
(** no grammeme of the table has three ancestors one above the other *)
Definition shallow (rows : list grow) : Prop :=
  forall a b c, In a rows -> In b rows -> In c rows -> g_parent a = Some (g_name b) -> g_parent b = Some (g_name c) -> g_parent c = None.
(** the grammemes that only the units of an analyzer add *)
Definition unit_names (items : list uitem) : list str := map fst (flat_map unit_aliases (items_units items)).

(** [x] is a part of the text [s] *)
Definition occurs (x s : str) : Prop := exists a b, s = a ++ x ++ b.
(** the grammeme names and the Cyrillic names of a table can be told apart: nothing is empty, no comma or space in a grammeme name,
    no grammeme name inside another one or inside a Cyrillic name *)
Definition separable (rows : list grow) : Prop :=
  (forall r, In r rows -> g_name r <> [] /\ g_alias r <> [] /\ ~ In (chr ",") (g_name r) /\ ~ In (chr " ") (g_name r)) /\
  (forall r r', In r rows -> In r' rows -> (occurs (g_name r) (g_name r') -> g_name r = g_name r') /\ ~ occurs (g_name r) (g_alias r')).
(** a tag text made of grammemes of the table: lists separated by single spaces *)
Definition table_text (rows : list grow) (s : str) : Prop :=
  exists groups, s = join (u " ") (map (join (u ",")) groups) /\ forall l, In l groups -> l <> [] /\ forall g, In g l -> In g (map g_name rows).
(** ... with the grammeme [g] in it *)
Definition table_text_with (rows : list grow) (g s : str) : Prop :=
  exists groups l, s = join (u " ") (map (join (u ",")) groups) /\
    (forall l, In l groups -> l <> [] /\ forall g, In g l -> In g (map g_name rows)) /\ In l groups /\ In g l.
