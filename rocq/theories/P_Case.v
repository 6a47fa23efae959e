(** * Letter case (C64) *)
From Coq Require Import String List NArith ZArith Bool QArith Lia.
From Verif Require Import Py Uni Tagset Dawg Utils Shapes Dict Units Analyzer ConfigRu ConfigUk Compile Spec Spec14 Ex.
From Verif Require Import L_Base L_Ex L_Config L_Parse L_ExU L_Case.
Import ListNotations.
Local Open Scope nat_scope.
Local Open Scope list_scope.

(** ** C64 *)
Theorem C64_parse : forall M w w', respelled M w w' -> same_parses w w' (morph_parse M w) (morph_parse M w').
Proof. exact parse_case. Qed.
Print Assumptions C64_parse.

Theorem C64_tag : forall M w w', respelled M w w' -> morph_tag M w' = morph_tag M w.
Proof. exact tag_case. Qed.
Print Assumptions C64_tag.

(** for words that begin with a letter of a non-Latin script the shape tests are no obstacle *)
Theorem C64_letters : forall M c r c' r', foreign_letter (m_uni M) c -> foreign_letter (m_uni M) c' ->
  u_lower (m_uni M) (c :: r) = u_lower (m_uni M) (c' :: r') -> length r = length r' ->
  not_initial M (c :: r) -> not_initial M (c' :: r') -> respelled M (c :: r) (c' :: r').
Proof.
  intros M c r c' r' F F' L N I I'. split; [exact L|]. split; [cbn [length]; rewrite N; reflexivity|]. split; [|split; auto].
  destruct (foreign_shape (m_uni M) c r F) as (A & B & C & D). destruct (foreign_shape (m_uni M) c' r' F') as (A' & B' & C' & D').
  unfold same_shape. rewrite A, B, C, D, A', B', C', D'. auto.
Qed.
Print Assumptions C64_letters.

(** initials are different: a single capital letter is read as an initial, the small letter is not *)
Theorem C64_initials_refuted : exists M w w', shipped_units M /\ u_lower (m_uni M) w = u_lower (m_uni M) w' /\ length w = length w' /\ same_shape (m_uni M) w w' /\
  exists t, (match morph_tag M w with Ok ts => In t ts | Err _ => False end) /\ (match morph_tag M w' with Ok ts => ~ In t ts | Err _ => False end).
Proof. exact initials_differ. Qed.
Print Assumptions C64_initials_refuted.

Example C64_case : respelled demo_n (u "кота") (u "КоТА") /\ respelled demo_n (u "ЗЮКОТА") (u "Зюкота") /\
  (exists p q, morph_parse demo_n (u "КоТА") = Ok [p; q]) /\ (exists ps, morph_parse demo_n (u "ЗЮКОТА") = Ok ps /\ 2 <= length ps).
Proof. exact case_case. Qed.
