(** * Specification vocabulary: what tells two readings apart (C96) *)
From Coq Require Import String List NArith ZArith Bool QArith.
From Verif Require Import Py Uni Tagset Dawg Dict Units Analyzer Spec Spec2 Spec41.
Import ListNotations.
Local Open Scope nat_scope.
Local Open Scope list_scope.

(** what a reading is based on: the paradigm of the dictionary row it starts from, or, in a word with a hyphen, the analysis of its right part; nothing for tokens recognised by their shape *)
Definition basis (p : parse) : option (nat + list method) :=
  match p_stack p with
  | MDict _ _ para _ :: _ => Some (inl para)
  | MHyphFixed _ _ rs :: _ => Some (inr rs)
  | MHyphBoth _ _ rs :: _ => Some (inr rs)
  | _ => None
  end.
(** the word, the grammemes and the basis of a reading *)
Definition identity (p : parse) : str * sset * option (nat + list method) := (p_word p, t_gr (p_tag p), basis p).
(** the text is not split at a hyphen: it does not have exactly one, inside it, or it starts with a known prefix *)
Definition not_compound (prefixes : list str) (lower : str) : Prop := forall l r, one_inner_hyphen lower l r -> starts_with_any prefixes lower.
(** the text has no particle at its end *)
Definition no_particle (particles : list str) (lower : str) : Prop := forall rest pt, In pt particles -> lower = rest ++ pt -> rest = [].
