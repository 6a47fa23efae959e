(** * Specification vocabulary for C79: nesting depth and recursion limits *)
From Coq Require Import String List NArith Bool.
From Verif Require Import Py Uni Dawg Dict Units Analyzer Spec14 Spec21.
Import ListNotations.
Local Open Scope nat_scope.
Local Open Scope list_scope.

(** what is needed of Unicode: the letter of "не" is an ordinary letter of a non-Latin script, and lower-casing
    "не", "нене", "ненене" ... changes nothing *)
Definition plain_ne (U : uni) : Prop :=
  foreign_letter U (chr "н") /\ forall k, u_lower U (repeated k (u "не")) = repeated k (u "не").
(** the length of the longest word of the dictionary *)
Definition longest_word (M : morph) : nat := fold_right Nat.max 0 (map (fun kv => length (fst kv)) (d_words (m_dict M))).
