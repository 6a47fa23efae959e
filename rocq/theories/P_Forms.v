(** * Forms of forms (C78) *)
From Coq Require Import String List NArith ZArith Bool QArith Lia.
From Verif Require Import Py Uni Tagset Dawg Dict Utils Units Analyzer ConfigRu ConfigUk Spec Spec2 Spec28 Ex.
From Verif Require Import L_Base L_Ex L_ExL L_Forms.
Import ListNotations.
Local Open Scope nat_scope.
Local Open Scope list_scope.

(** ** C78 *)
(** whatever parse a program holds — a result of parse(), a member of its lexeme, its normal form, an inflected form, a member of the lexeme
    of that, and so on — the lexeme can be asked for and is not empty, the normal form can be asked for, and inflect() with grammemes of the
    table does not raise *)
Theorem C78_total : forall M p, shipped_units M -> wf_dict (m_dict M) -> modest_tags (m_dict M) -> In (u "masc") (tc_known (m_tc M)) -> lower_stable (m_uni M) ->
  obtainable M p ->
  (exists lex, get_lexeme M p = Ok lex /\ lex <> []) /\ (exists q, normalized M p = Ok q) /\
  (commons_known (m_tc M) -> forall req, (forall g, In g req -> In g (tc_known (m_tc M))) -> exists r, inflect M p req = Ok r).
Proof. exact obtainable_total. Qed.
Print Assumptions C78_total.

(** a hyphenated word whose parts both inflect, its normal form (not the word it names), and the lexeme of that *)
Example C78_case : shipped_units both_demo /\ wf_dict (m_dict both_demo) /\ modest_tags (m_dict both_demo) /\ In (u "masc") (tc_known (m_tc both_demo)) /\
  lower_stable (m_uni both_demo) /\ commons_known (m_tc both_demo) /\
  exists p q f, obtainable both_demo p /\ obtainable both_demo q /\ obtainable both_demo f /\ is_bothb p = true /\ is_bothb q = true /\ is_bothb f = true /\
    p_word p = u "аба-вга" /\ normalized both_demo p = Ok q /\ p_word q <> p_nf p /\ (exists lex, get_lexeme both_demo q = Ok lex /\ In f lex).
Proof.
  split; [exact both_shipped|]. split; [apply wf_dictb_ok; vm_compute; reflexivity|]. split.
  { intros t It. assert (A : forallb (fun t => length (t_gr t) <? 20) (d_gramtab (m_dict both_demo)) = true) by (vm_compute; reflexivity).
    rewrite forallb_forall in A. exact (small20 _ (A t It)). }
  split; [refine (proj1 (smem_In _ _) _); vm_compute; reflexivity|]. split; [exact uni_cyr_stable|]. split.
  { intros g g' R. refine (proj1 (smem_In _ _) _). unfold rare in R.
    assert (A : forallb (fun x => smem (snd x) (tc_known (m_tc both_demo))) (map (fun x => (u (fst x), u (snd x)))
      [("gen1", "gent"); ("gen2", "gent"); ("acc1", "accs"); ("acc2", "accs"); ("loc1", "loct"); ("loc2", "loct"); ("voct", "nomn")]%string) = true) by (vm_compute; reflexivity).
    rewrite forallb_forall in A. exact (A _ R). }
  assert (H : firstb (fun p => is_bothb p && str_eqb (p_word p) (u "аба-вга") && match normalized both_demo p with Ok q => is_bothb q && negb (str_eqb (p_word q) (p_nf p)) && firstb is_bothb (get_lexeme both_demo q) | Err _ => false end)
    (morph_parse both_demo (u "аба-вга")) = true) by (vm_compute; reflexivity).
  apply firstb_ok in H as (p & ps & E & H). apply andb_true_iff in H as [H H3]. apply andb_true_iff in H as [H1 H2].
  destruct (normalized both_demo p) as [q|] eqn:Q; [|discriminate H3]. apply andb_true_iff in H3 as [H3 H5]. apply andb_true_iff in H3 as [H3 H4].
  apply firstb_ok in H5 as (f & fs & L & H5). exists p, q, f.
  assert (Op : obtainable both_demo p) by (eapply ob_parse; [exact E|left; reflexivity]). assert (Oq : obtainable both_demo q) by (eapply ob_normal; eassumption).
  split; [exact Op|]. split; [exact Oq|]. split; [eapply ob_member; [exact Oq|exact L|left; reflexivity]|]. split; [exact H1|]. split; [exact H3|]. split; [exact H5|].
  split; [apply str_eqb_eq; exact H2|]. split; [exact Q|]. split; [intros X; rewrite X, (proj2 (str_eqb_eq _ _) eq_refl) in H4; discriminate H4|].
  exists (f :: fs). split; [exact L|left; reflexivity].
Qed.
