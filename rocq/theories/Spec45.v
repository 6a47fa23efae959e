(** * Specification vocabulary: the units a form was made by (C98) *)
From Coq Require Import String List NArith ZArith Bool QArith.
From Verif Require Import Py Uni Tagset Dawg Dict Units Analyzer Spec Spec2 Spec14.
Import ListNotations.
Local Open Scope nat_scope.
Local Open Scope list_scope.

(** the units of a methods stack, those of the parts of compounds included *)
Fixpoint method_units (m : method) : list uref :=
  match m with
  | MDict r _ _ _ | MStr r _ => [r]
  | MHyphFixed r _ rs => r :: flat_map method_units rs
  | MHyphBoth r ls rs => r :: flat_map method_units ls ++ flat_map method_units rs
  end.
Definition stack_units (st : list method) : list uref := flat_map method_units st.
(** the unit [r] is not one for initials *)
Definition no_initial_unit (M : morph) (r : uref) : Prop := forall i b tm first letters pat sc, r = Root i -> nth_error (m_units M) i = Some (b, tm) -> b_cfg b <> UInit first letters pat sc.
(** no unit for initials took part in making the form *)
Definition without_initials (M : morph) (p : parse) : Prop := Forall (no_initial_unit M) (stack_units (p_stack p)).
