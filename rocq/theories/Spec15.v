(** * Specification: known prefixes (C65) *)
From Coq Require Import String List NArith ZArith Bool QArith.
From Verif Require Import Py Uni Tagset Dawg Dict Units Spec Spec2.
Import ListNotations.
Local Open Scope nat_scope.
Local Open Scope list_scope.

(** no grammeme of the tag forbids prediction *)
Definition productive (t : tag) : Prop := forall g, In g (t_gr t) -> ~ In g NON_PRODUCTIVE.
(** the parse [q] of the rest of the word with the prefix put back *)
Definition prefixed_as (self : uref) (mult : Q) (prefix : str) (q p : parse) : Prop :=
  p_word p = prefix ++ p_word q /\ p_tag p = p_tag q /\ p_nf p = prefix ++ p_nf q /\
  p_score p = (p_score q * mult)%Q /\ p_stack p = p_stack q ++ [MStr self prefix].
(** the text recorded by the last method of the stack *)
Definition last_text (p : parse) : str :=
  match last_opt (p_stack p) with Some (MStr _ s) => s | _ => [] end.
(** capital letters of the English and Ukrainian alphabets *)
Definition capital (c : char) : bool := rng 65 90 c || rng 1040 1071 c || (c =? 1028)%N || (c =? 1030)%N || (c =? 1031)%N || (c =? 1168)%N.
Definition lowers_capitals (U : uni) : Prop := forall c, capital c = true -> u_lower U [c] <> [c].
