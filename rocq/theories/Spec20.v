(** * Specification vocabulary for C70: reaching a form of a lexeme by its grammemes *)
From Coq Require Import String List NArith ZArith Bool QArith.
From Verif Require Import Py Uni Tagset Dawg Dict Units Analyzer Spec.
Import ListNotations.
Local Open Scope nat_scope.
Local Open Scope list_scope.

Definition alike_forms (f g : parse) : Prop := forall x, In x (t_gr (p_tag f)) <-> In x (t_gr (p_tag g)).
(** no form of the lexeme has all grammemes of [f] and more *)
Definition outermost (lex : list parse) (f : parse) : Prop :=
  forall h, In h lex -> (forall x, In x (t_gr (p_tag f)) -> In x (t_gr (p_tag h))) -> alike_forms f h.
(** [g] is the first form of the lexeme with the grammemes of [f] *)
Definition first_alike (lex : list parse) (f g : parse) : Prop :=
  exists a b, lex = a ++ g :: b /\ alike_forms f g /\ forall h, In h a -> ~ alike_forms f h.
