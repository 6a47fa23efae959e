(** * Specification vocabulary for C74: combinations as lists of positions *)
From Coq Require Import List Arith Sorted.
Import ListNotations.
Local Open Scope nat_scope.

(** a choice of positions below [n]: at least one, each once, in increasing order *)
Definition selection (n : nat) (p : list nat) : Prop := p <> [] /\ StronglySorted lt p /\ Forall (fun i => i < n) p.
(** lexicographic order *)
Fixpoint lex (p q : list nat) : Prop :=
  match p, q with
  | _, [] => False
  | [], _ :: _ => True
  | a :: p', b :: q' => a < b \/ (a = b /\ lex p' q')
  end.
(** shorter selections first, equally long ones in lexicographic order *)
Definition before (p q : list nat) : Prop := length p < length q \/ (length p = length q /\ lex p q).
