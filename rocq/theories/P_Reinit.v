(** * C67: saving (compiling) a dictionary re-initialises the tag class that existing analyzers use *)
From Coq Require Import String List NArith ZArith Bool QArith.
From Verif Require Import Py Uni Tagset Dawg Dict Units Analyzer ConfigRu Compile Json Storage Convert CyrTags Spec Spec18 Ex L_Base L_ExS L_ExT L_Reinit2.
Import ListNotations.
Local Open Scope nat_scope.
Local Open Scope list_scope.

(** Whatever the two registered tag classes were, after a successful save they know exactly the grammemes of the saved table. *)
Theorem C67_known : forall io big K rows x info C Y ops, save_full io big K rows x info = ((C, Y), (ops, Ok tt)) ->
  forall g, (In g (tc_known C) <-> In g (map g_name rows)) /\ (In g (y_known Y) <-> In g (map g_name rows)).
Proof. exact saved_known. Qed.
Print Assumptions C67_known.

(** So the grammemes that the units of an existing analyzer had added (PNCT, UNKN, NUMB, ...) are gone: a test such as
    'PNCT' in tag, which answered False before the save, raises ValueError after it. *)
Theorem C67_unit_grammemes_lost : forall U ext C0 dict_rows gt mk prob subst items C1 M Y io big rows x info C Y' ops g t,
  construct U ext C0 dict_rows gt mk prob subst items = Ok (C1, M) ->
  save_full io big (C1, Y) rows x info = ((C, Y'), (ops, Ok tt)) ->
  In g (unit_names items) -> ~ In g (map g_name rows) -> rows <> [] -> ~ In g (t_gr t) ->
  contains C1 g t = Ok false /\ contains C g t = Err ValueError.
Proof. exact units_lost. Qed.
Print Assumptions C67_unit_grammemes_lost.

(** Parses, tags, lexemes and normal forms of an existing analyzer do not change, as long as the saved table has the four
    grammemes that analysis itself asks for. *)
Theorem C67_parse : forall io big K M rows x info C Y ops, save_full io big K rows x info = ((C, Y), (ops, Ok tt)) ->
  (forall g, In g (map u ["ADJF"; "sing"; "datv"; "masc"]%string) -> In g (tc_known (m_tc M)) /\ In g (map g_name rows)) ->
  (forall word, morph_parse (in_state M C) word = morph_parse M word /\ morph_tag (in_state M C) word = morph_tag M word) /\
  (forall p, get_lexeme (in_state M C) p = get_lexeme M p /\ normalized (in_state M C) p = normalized M p).
Proof. exact saved_parse. Qed.
Print Assumptions C67_parse.

(** Without them even parse() of the existing analyzer breaks: here a dictionary of nouns is saved, and the Russian analyzer raises
    ValueError for a word that it parsed before. *)
Theorem C67_parse_refuted : exists C1 M rows x info C Y ops word,
  construct uni_cyr false tc_initial demo_rows (x_gramtab demo_compiled) demo_dict None e_yo RU_DEFAULT_UNITS = Ok (C1, M) /\
  save_full io_json false (C1, cyr_initial) rows x info = ((C, Y), (ops, Ok tt)) /\
  (exists ps, morph_parse M word = Ok ps /\ ps <> []) /\ morph_parse (in_state M C) word = Err ValueError.
Proof.
  pose (s := save_full io_json false (m_tc demo, cyr_initial) [gr "NOUN" "" "СУЩ"] demo_compiled demo_info).
  exists (m_tc demo), demo, [gr "NOUN" "" "СУЩ"], demo_compiled, demo_info, (fst (fst s)), (snd (fst s)), (fst (snd s)), (u "по-коту").
  split; [exact demo_eq'|]. split; [|split].
  - assert (E : snd (snd s) = Ok tt) by (vm_compute; reflexivity). change (s = (fst (fst s), snd (fst s), (fst (snd s), Ok tt))). rewrite <- E. destruct s as [[a b] [c d]]. reflexivity.
  - eexists. split; [vm_compute; reflexivity|discriminate].
  - vm_compute. reflexivity.
Qed.
Print Assumptions C67_parse_refuted.

(** Saving a dictionary with the grammeme table the analyzer was loaded with leaves inflect() as it was (unless a grammeme of a
    unit is required), for tables without chains of three parents. *)
Theorem C67_inflect : forall U ext C0 rows gt mk prob subst items C1 M Y io big x info C Y' ops p req,
  construct U ext C0 rows gt mk prob subst items = Ok (C1, M) ->
  save_full io big (C1, Y) rows x info = ((C, Y'), (ops, Ok tt)) ->
  NoDup (map g_name rows) -> ~ In [] (map g_name rows) -> ~ In (Some []) (map g_parent rows) -> shallow rows ->
  (forall k E, sget k (tc_extra C0) = Some E -> ~ In [] E) -> In (u "masc") (map g_name rows) ->
  (forall g, In g req -> In g (unit_names items) -> In g (map g_name rows)) ->
  inflect (in_state M C) p req = inflect M p req.
Proof. exact saved_inflect. Qed.
Print Assumptions C67_inflect.

(** convert_to_pymorphy2: the classes are touched only when the dictionary could be read and compiled and the folder may be written. *)
Theorem C67_convert : forall io big K ex ow o info,
  (forall read, (ex = true /\ ow = false) \/ (exists e, read = Err e) \/
     (exists src links rows e, read = Ok (src, links, rows) /\ compile_parsed_dict o (prepared src) links = Err e) ->
     fst (convert_full io big K ex ow read o info) = K) /\
  (forall src links rows x, compile_parsed_dict o (prepared src) links = Ok x -> ex = false \/ ow = true ->
     convert_full io big K ex ow (Ok (src, links, rows)) o info = save_full io big K rows x info).
Proof. intros io big K ex ow o info. split; [intros read; apply convert_classes|intros src links rows x; apply convert_saved]. Qed.
Print Assumptions C67_convert.

(** saving the demonstration dictionary while its analyzer is in use *)
Definition c67_saved : classes * saving := save_full io_json false (m_tc demo, cyr_initial) demo_rows demo_compiled demo_info.
Lemma shallow_b : forall rows, forallb (fun a => forallb (fun b => forallb (fun c =>
    negb (match g_parent a with Some p => str_eqb p (g_name b) | None => false end && match g_parent b with Some p => str_eqb p (g_name c) | None => false end) ||
    match g_parent c with None => true | Some _ => false end) rows) rows) rows = true -> shallow rows.
Proof.
  intros rows H a b c Ia Ib Ic Ea Eb. rewrite forallb_forall in H. specialize (H a Ia). rewrite forallb_forall in H. specialize (H b Ib). rewrite forallb_forall in H. specialize (H c Ic).
  rewrite Ea, Eb, !str_eqb_refl in H. destruct (g_parent c); [discriminate H|reflexivity].
Qed.
Fixpoint distinct_b (l : list str) : bool := match l with [] => true | x :: r => negb (smem x r) && distinct_b r end.
Lemma nodup_b : forall l : list str, distinct_b l = true -> NoDup l.
Proof.
  induction l as [|x l IH]; intros H; [constructor|]. cbn [distinct_b] in H. apply andb_true_iff in H as [A B]. constructor; [|exact (IH B)].
  intros I. apply smem_In in I. rewrite I in A. discriminate A.
Qed.
Lemma both_smem : forall l a b, forallb (fun g => smem g a && smem g b) l = true -> forall g, In g l -> In g a /\ In g b.
Proof. intros l a b H g I. rewrite forallb_forall in H. specialize (H g I). apply andb_true_iff in H as [A B]. split; apply smem_In; assumption. Qed.
Example C67_case :
  construct uni_cyr false tc_initial demo_rows (x_gramtab demo_compiled) demo_dict None e_yo RU_DEFAULT_UNITS = Ok (m_tc demo, demo) /\
  c67_saved = ((fst (fst c67_saved), snd (fst c67_saved)), (fst (snd c67_saved), Ok tt)) /\
  In (u "PNCT") (unit_names RU_DEFAULT_UNITS) /\ ~ In (u "PNCT") (map g_name demo_rows) /\ demo_rows <> [] /\
  (forall g, In g (map u ["ADJF"; "sing"; "datv"; "masc"]%string) -> In g (tc_known (m_tc demo)) /\ In g (map g_name demo_rows)) /\
  NoDup (map g_name demo_rows) /\ ~ In [] (map g_name demo_rows) /\ ~ In (Some []) (map g_parent demo_rows) /\ shallow demo_rows /\
  (forall k E, sget k (tc_extra tc_initial) = Some E -> ~ In [] E) /\
  (exists p r, morph_parse demo (u "коту") = Ok [p] /\ ~ In (u "PNCT") (t_gr (p_tag p)) /\ inflect demo p [u "plur"; u "gent"] = Ok (Some r) /\ p_word r = u "котов").
Proof.
  split; [exact demo_eq'|]. split.
  { assert (E : snd (snd c67_saved) = Ok tt) by (vm_compute; reflexivity). rewrite <- E. destruct c67_saved as [[a b] [c d]]. reflexivity. }
  split; [apply smem_In; vm_compute; reflexivity|]. split.
  { intros H. apply smem_In in H. vm_compute in H. discriminate H. }
  split; [discriminate|]. split.
  { assert (S : forallb (fun g => smem g (tc_known (m_tc demo)) && smem g (map g_name demo_rows)) (map u ["ADJF"; "sing"; "datv"; "masc"]%string) = true) by (vm_compute; reflexivity).
    exact (both_smem _ _ _ S). }
  split; [apply nodup_b; vm_compute; reflexivity|]. split.
  { intros H. apply smem_In in H. vm_compute in H. discriminate H. }
  split.
  { intros H. assert (B : existsb (fun o => match o with Some [] => true | _ => false end) (map g_parent demo_rows) = true) by (apply existsb_exists; exists (Some []); auto). vm_compute in B. discriminate B. }
  split; [apply shallow_b; vm_compute; reflexivity|]. split.
  { intros k E H. cbn [tc_initial tc_extra sget dget] in H. unfold sget, dget in H. destruct (str_eqb k (u "plur")); [|discriminate H]. injection H as <-. intros [H|[]]. discriminate H. }
  eexists. eexists. split; [vm_compute; reflexivity|]. split; [|split; [vm_compute; reflexivity|reflexivity]].
  intros H. apply smem_In in H. vm_compute in H. discriminate H.
Qed.
