(** * Specification of scores (C63) *)
From Coq Require Import String List NArith ZArith Bool QArith.
From Verif Require Import Py Uni Tagset Dawg Dict Units Spec.
Import ListNotations.
Local Open Scope nat_scope.
Local Open Scope list_scope.

(** every score and multiplier a unit is configured with is a positive probability *)
Definition scores_prob (M : morph) : Prop :=
  Forall (fun bt => (0 < unit_score (b_cfg (fst bt)) <= 1)%Q) (m_units M).
(** no entry of the P(t|w) table exceeds 1 (the table holds millionths) *)
Definition table_prob (M : morph) : Prop :=
  forall d k n, m_prob M = Some d -> In (k, n) d -> (n <= 1000000)%N.
(** the documentation's "parses are sorted by descending score" *)
Definition sorted_by_score (ps : list parse) : Prop :=
  forall i j p q, nth_error ps i = Some p -> nth_error ps j = Some q -> i < j -> (p_score q <= p_score p)%Q.
