(** * Specification vocabulary for C72: doubles *)
From Coq Require Import List NArith ZArith Bool QArith.
From Verif Require Import Py Uni Tagset Dawg Dict Units Analyzer Spec Spec21.
Import ListNotations.
Local Open Scope nat_scope.
Local Open Scope list_scope.

(** the multipliers of the units that analyze a shorter word are not below 1/2, all other scores not below 2^-10
    (the shipped configurations: 0.75 and more; 0.1 and more) *)
Definition nesting (c : ucfg) : bool :=
  match c with UParticle _ _ | UHyph _ _ | UKnownPrefix _ _ _ => true | _ => false end.
Definition scores_not_tiny (M : morph) : Prop :=
  Forall (fun bt => if nesting (b_cfg (fst bt)) then (1 # 2 <= unit_score (b_cfg (fst bt)))%Q
                    else (1 # 1024 <= unit_score (b_cfg (fst bt)))%Q) (m_units M).
(** if a P(t|w) table is used: the word and every piece of its lower-case form have at most 2^k readings *)
Definition few_readings (M : morph) (word : str) (k : nat) : Prop :=
  m_prob M <> None -> forall v ps, v = word \/ piece_of (u_lower (m_uni M) word) v ->
  morph_parse M v = Ok ps -> length ps <= 2 ^ k.
