(** * Specification vocabulary: the reading a methods stack describes (C99) *)
From Coq Require Import String List NArith ZArith Bool QArith.
From Verif Require Import Py Uni Tagset Dawg Dict Units Analyzer Spec.
Import ListNotations.
Local Open Scope nat_scope.
Local Open Scope list_scope.

(** the same word, tag and normal form *)
Definition same_form (p q : parse) : Prop := p_word p = p_word q /\ p_tag p = p_tag q /\ p_nf p = p_nf q.
(** the same forms in the same order, scores aside; or the same error *)
Definition alike_list (r1 r2 : res (list parse)) : Prop := match r1, r2 with Ok a, Ok b => map reading a = map reading b | Err e, Err e' => e = e' | _, _ => False end.
Definition alike_one (r1 r2 : res parse) : Prop := match r1, r2 with Ok a, Ok b => reading a = reading b | Err e, Err e' => e = e' | _, _ => False end.
Definition alike_opt (r1 r2 : res (option parse)) : Prop := match r1, r2 with Ok a, Ok b => option_map reading a = option_map reading b | Err e, Err e' => e = e' | _, _ => False end.
