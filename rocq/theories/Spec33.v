(** * Specification vocabulary for substituted letters (C83) *)
From Coq Require Import String List NArith ZArith Bool QArith.
From Verif Require Import Py Uni Tagset Dawg Dict Units Analyzer Spec Spec26.
Import ListNotations.
Local Open Scope nat_scope.
Local Open Scope list_scope.

(** [plain] is [exact] with some substituted letters written without their dots (е for ё, г for ґ), letter case aside *)
Definition without_dots (M : morph) (exact plain : str) : Prop := subst_of (m_subst M) (u_lower (m_uni M) plain) (u_lower (m_uni M) exact).
(** a lower-case word of the dictionary could be meant by the spelling *)
Definition could_be (M : morph) (spelling : str) (w : str) : Prop := subst_of (m_subst M) (u_lower (m_uni M) spelling) w.
(** nothing of the first list is lost in the second one *)
Definition kept {A} (a b : list A) : Prop := forall x, In x a -> In x b.
