(** * Specification vocabulary for C71: how many analyses does one parse() need *)
From Coq Require Import String List NArith ZArith Bool QArith.
From Verif Require Import Py Uni Tagset Dawg Dict Units Analyzer ConfigRu Spec14.
Import ListNotations.
Local Open Scope nat_scope.
Local Open Scope list_scope.

(** how many shorter words a unit can ask for *)
Definition unit_branches (c : ucfg) : nat :=
  match c with
  | UKnownPrefix ps _ _ => length ps
  | UHyph _ _ => 2
  | UParticle _ _ | UHAdverb _ => 1
  | _ => 0
  end.
Definition branches (M : morph) : nat := list_sum (map (fun bt => unit_branches (b_cfg (fst bt))) (m_units M)).
(** no text of the list is the beginning of another *)
Definition prefix_free (ps : list str) : Prop := forall p q, In p ps -> In q ps -> (exists r, q = p ++ r) -> p = q.
Definition prefix_unit (c : ucfg) : bool := match c with UKnownPrefix _ _ _ => true | _ => false end.
(** a piece of a text *)
Definition piece_of (lower x : str) : Prop := exists a b, lower = a ++ x ++ b.
Fixpoint repeated (k : nat) (s : str) : str := match k with 0 => [] | S k => s ++ repeated k s end.
(** a lower-case, hyphen-free word that starts with a letter of a non-Latin script, is not one of the
    initials and is not in the dictionary *)
Definition unheard (M : morph) (w : str) : Prop :=
  u_lower (m_uni M) w = w /\ (exists c r, w = c :: r /\ foreign_letter (m_uni M) c) /\
  ~ In w RU_INITIAL_LETTERS /\ ~ In (chr "-") w /\ word_is_known M w false = false.
