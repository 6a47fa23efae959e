(** * C79: how deep analyses nest, and what a recursion limit does *)
From Coq Require Import String List NArith ZArith Bool QArith Lia.
From Verif Require Import Py Uni Tagset Dawg Dict Shapes Units Analyzer ConfigRu ConfigUk Trace Spec Spec14 Spec21 Spec29 Ex.
From Verif Require Import L_Base L_Parse L_Config L_Words L_Total L_Trace3 L_Trace4 L_Depth L_Depth2 L_Ex L_ExU P_Trace.
Import ListNotations.
Local Open Scope nat_scope.
Local Open Scope list_scope.

(** [parse_f n M word]: morph.parse(word) when at most n parse()/tag() calls may be nested (CPython spends
    two stack frames on each: MorphAnalyzer.parse and the parse method of the unit).
    Half the length of the word is always enough. *)
Theorem C79_enough : forall M word n, lower_stable (m_uni M) -> shipped_units M -> length (u_lower (m_uni M) word) < 2 * n ->
  parse_f n M word <> Err RecursionError /\ tag_f n M word <> Err RecursionError /\
  parse_f n M word = morph_parse M word /\ tag_f n M word = morph_tag M word.
Proof. exact shipped_half. Qed.
Print Assumptions C79_enough.

(** But no allowance is enough for all words, whatever the dictionary: "не" repeated n + 2 + (length of the longest
    dictionary word) times needs more than n nested calls, in Russian and in Ukrainian. So with a recursion limit parse()
    does raise RecursionError for some words. *)
Theorem C79_limit_refuted : forall M, shipped_units M -> plain_ne (m_uni M) -> forall n,
  let word := repeated (n + 2 + longest_word M) (u "не") in
  parse_f n M word = Err RecursionError /\ tag_f n M word = Err RecursionError.
Proof. exact shipped_limit. Qed.
Print Assumptions C79_limit_refuted.

Lemma plain_named : plain_ne uni_named.
Proof.
  split; [exact (proj1 demo_letters)|]. intros k. change (u_lower uni_named) with (map cyr_lower1). apply lower_repeated. reflexivity.
Qed.
Example C79_case : shipped_units demo_n /\ plain_ne (m_uni demo_n) /\ lower_stable (m_uni demo_n) /\ longest_word demo_n = 9 /\
  parse_f 2 demo_n (repeated 13 (u "не")) = Err RecursionError /\ (exists ps, parse_f 14 demo_n (repeated 13 (u "не")) = Ok ps /\ ps <> []) /\
  parse_f 2 demo_n (u "некот") = morph_parse demo_n (u "некот").
Proof.
  split; [left; exact demo_n_units|]. rewrite demo_uni. split; [exact plain_named|]. split; [exact uni_named_stable|].
  split; [vm_compute; reflexivity|]. split; [vm_compute; reflexivity|]. split; [|vm_compute; reflexivity].
  eexists. split; [vm_compute; reflexivity|discriminate].
Qed.
