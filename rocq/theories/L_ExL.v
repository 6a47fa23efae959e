(** * Concrete lexemes: examples and counter-examples for C10-C13 *)
From Coq Require Import String List NArith ZArith Bool QArith Lia.
From Verif Require Import Py Uni Tagset Dawg Utils Shapes Dict Units Analyzer ConfigRu ConfigUk Compile Ex Spec.
From Verif Require Import L_Base L_Run L_Made L_Words L_Config L_Ex L_Parse L_Total L_Para L_Units L_ExU L_Lexeme L_LexParse.
Import ListNotations.
Local Open Scope nat_scope.
Local Open Scope list_scope.

(** an analyzer over the given source lexemes, compiled and constructed by the modelled code *)
Definition compiled_of (o : coptions) (ls : lexemes) : compiled :=
  get_ok (MkCompiled [] [] [] [] [] o) (compile_parsed_dict o ls []).
Definition dict_of (o : coptions) (c : compiled) (gt : list tag) : dict :=
  MkDict (x_paradigms c) gt (o_prefixes o) (x_suffixes c) (x_words c) (x_pred c) (o_max_suffix o).

(** "аба" has two nominative singular forms and a second part "вга" *)
Definition both_opts : coptions := MkOpt 1 1 3 [[]].
Definition both_lexemes : lexemes :=
  [(1%N, [form "аба" "NOUN,anim,masc,Qual sing,nomn"; form "абу" "NOUN,anim,masc sing,nomn"]);
   (2%N, [form "вга" "NOUN,anim,masc sing,nomn"])].
Definition both_compiled : compiled := compiled_of both_opts both_lexemes.
Definition both_demo : morph := snd (get_ok (tc_initial, null_morph)
  (construct uni_cyr false tc_initial demo_rows (x_gramtab both_compiled) (dict_of both_opts both_compiled) None e_yo RU_DEFAULT_UNITS)).

Definition lap_opts : coptions := MkOpt 1 1 3 [[]; u "аб"].
Definition lap_lexemes : lexemes := [(1%N, [form "с" "NOUN,anim,masc sing,nomn"; form "абсбвг" "NOUN,anim,masc sing,gent"])].
Definition lap_compiled : compiled := compiled_of lap_opts lap_lexemes.
Definition lap_demo : morph := snd (get_ok (tc_initial, null_morph)
  (construct uni_cyr false tc_initial demo_rows (x_gramtab lap_compiled) (dict_of lap_opts lap_compiled) None e_yo RU_DEFAULT_UNITS)).

Definition pred_consistentb (D : dict) : bool :=
  forallb (fun pd => match nth_error (d_prefixes D) (fst pd) with None => false | Some prefix =>
    forallb (fun ev => forallb (fun v : nat * nat * nat => let '(_, para, idx) := v in
      match para_rowb D para idx with Some (pre, _, sf) => str_eqb pre prefix && suffixb sf (fst ev) | None => false end) (snd ev)) (snd pd) end)
    (enum (d_pred D)).
Lemma pred_consistentb_ok : forall D, pred_consistentb D = true -> pred_consistent D.
Proof.
  intros D H pid dawg e vals cnt para idx Hd He Hv. unfold pred_consistentb in H. rewrite forallb_forall in H.
  assert (Hin : In (pid, dawg) (enum (d_pred D))) by (apply (nth_error_In _ pid); rewrite enum_nth, Hd; reflexivity).
  specialize (H _ Hin). cbn [fst snd] in H. destruct (nth_error (d_prefixes D) pid) as [prefix|]; [|discriminate].
  rewrite forallb_forall in H. specialize (H _ He). rewrite forallb_forall in H. specialize (H _ Hv). cbn [fst snd] in H.
  destruct (para_rowb D para idx) as [[[pre t] sf]|] eqn:E; [|discriminate]. apply andb_true_iff in H as [H1 H2].
  apply str_eqb_eq in H1 as ->. apply suffixb_spec in H2 as (r & Hr). exists prefix, t, sf, r. split; [reflexivity|]. split; [apply para_rowb_ok; exact E|exact Hr].
Qed.
Lemma demo_pred_consistent : pred_consistent (m_dict demo).
Proof. apply pred_consistentb_ok. vm_compute. reflexivity. Qed.
Lemma demo_masc : In (u "masc") (tc_known (m_tc demo)).
Proof. refine (proj1 (smem_In _ _) _). vm_compute. reflexivity. Qed.

Lemma both_eq : construct uni_cyr false tc_initial demo_rows (x_gramtab both_compiled) (dict_of both_opts both_compiled) None e_yo RU_DEFAULT_UNITS
  = Ok (m_tc both_demo, both_demo).
Proof. apply get_snd; [vm_compute; reflexivity|]. intros C M H. exact (construct_tc _ _ _ _ _ _ _ _ _ _ _ H). Qed.
Lemma lap_eq : construct uni_cyr false tc_initial demo_rows (x_gramtab lap_compiled) (dict_of lap_opts lap_compiled) None e_yo RU_DEFAULT_UNITS
  = Ok (m_tc lap_demo, lap_demo).
Proof. apply get_snd; [vm_compute; reflexivity|]. intros C M H. exact (construct_tc _ _ _ _ _ _ _ _ _ _ _ H). Qed.
Lemma both_shipped : shipped_units both_demo.
Proof. left. destruct (construct_units _ _ _ _ _ _ _ _ _ _ _ both_eq) as (H & _). exact H. Qed.
Lemma lap_shipped : shipped_units lap_demo.
Proof. left. destruct (construct_units _ _ _ _ _ _ _ _ _ _ _ lap_eq) as (H & _). exact H. Qed.

Definition lacksb (p : parse) (r : res (list parse)) : bool :=
  match r with Ok l => forallb (fun f => negb (str_eqb (p_word f) (p_word p))) l | Err _ => false end.
Lemma lacksb_ok : forall p r, lacksb p r = true -> exists l, r = Ok l /\ forall f, In f l -> p_word f <> p_word p.
Proof.
  intros p [l|] H; [|discriminate H]. exists l. split; auto. intros f Hf E. cbn [lacksb] in H. rewrite forallb_forall in H. specialize (H f Hf).
  rewrite E in H. rewrite (proj2 (str_eqb_eq _ _) eq_refl) in H. discriminate H.
Qed.
Definition other_wordb (p : parse) (r : res parse) : bool := match r with Ok q => negb (str_eqb (p_word q) (p_nf p)) | Err _ => false end.
Lemma other_wordb_ok : forall p r, other_wordb p r = true -> exists q, r = Ok q /\ p_word q <> p_nf p.
Proof.
  intros p [q|] H; [|discriminate H]. exists q. split; auto. intro E. cbn [other_wordb] in H. rewrite E, (proj2 (str_eqb_eq _ _) eq_refl) in H. discriminate H.
Qed.
Definition firstb (f : parse -> bool) (r : res (list parse)) : bool := match r with Ok (p :: _) => f p | _ => false end.
Lemma firstb_ok : forall f r, firstb f r = true -> exists p ps, r = Ok (p :: ps) /\ f p = true.
Proof. intros f [[|p ps]|] H; try discriminate H. exists p, ps. auto. Qed.
Definition is_bothb (p : parse) : bool := match p_stack p with [MHyphBoth _ _ _] => true | _ => false end.

Lemma both_witness : exists M word ps p lex q, shipped_units M /\ wf_dict (m_dict M) /\ consistent_dict (m_dict M) /\ pred_consistent (m_dict M) /\
  In (u "masc") (tc_known (m_tc M)) /\ morph_parse M word = Ok ps /\ In p ps /\ (exists r a b, p_stack p = [MHyphBoth r a b]) /\
  get_lexeme M p = Ok lex /\ (forall f, In f lex -> p_word f <> p_word p) /\
  normalized M p = Ok q /\ p_word q <> p_nf p.
Proof.
  assert (H : firstb (fun p => is_bothb p && lacksb p (get_lexeme both_demo p) && other_wordb p (normalized both_demo p)) (morph_parse both_demo (u "аба-вга")) = true)
    by (vm_compute; reflexivity).
  apply firstb_ok in H as (p & ps & E & H). apply andb_true_iff in H as [H H3]. apply andb_true_iff in H as [H1 H2].
  apply lacksb_ok in H2 as (lex & L & NL). apply other_wordb_ok in H3 as (q & Q & NQ).
  exists both_demo, (u "аба-вга"), (p :: ps), p, lex, q. split; [exact both_shipped|].
  split; [apply wf_dictb_ok; vm_compute; reflexivity|]. split; [apply consistent_dictb_ok; vm_compute; reflexivity|].
  split; [apply pred_consistentb_ok; vm_compute; reflexivity|]. split; [refine (proj1 (smem_In _ _) _); vm_compute; reflexivity|].
  split; [exact E|]. split; [left; reflexivity|]. split; [|split; [exact L|split; [exact NL|split; [exact Q|exact NQ]]]].
  unfold is_bothb in H1. destruct (p_stack p) as [|[] [|]]; try discriminate H1. eauto.
Qed.
Definition is_sufb (p : parse) : bool := match p_stack p with [MDict (Sub _) _ _ _; MStr _ _] => true | _ => false end.
Lemma lap_witness : exists M word ps p lex, shipped_units M /\ wf_dict (m_dict M) /\ consistent_dict (m_dict M) /\ pred_consistent (m_dict M) /\
  In (u "masc") (tc_known (m_tc M)) /\ morph_parse M word = Ok ps /\ In p ps /\ (forall m, In m (p_stack p) -> no_both m) /\
  get_lexeme M p = Ok lex /\ (forall f, In f lex -> p_word f <> p_word p).
Proof.
  assert (H : firstb (fun p => is_sufb p && lacksb p (get_lexeme lap_demo p)) (morph_parse lap_demo (u "абвг")) = true)
    by (vm_compute; reflexivity).
  apply firstb_ok in H as (p & ps & E & H). apply andb_true_iff in H as [H1 H2].
  apply lacksb_ok in H2 as (lex & L & NL).
  exists lap_demo, (u "абвг"), (p :: ps), p, lex. split; [exact lap_shipped|].
  split; [apply wf_dictb_ok; vm_compute; reflexivity|]. split; [apply consistent_dictb_ok; vm_compute; reflexivity|].
  split; [apply pred_consistentb_ok; vm_compute; reflexivity|]. split; [refine (proj1 (smem_In _ _) _); vm_compute; reflexivity|].
  split; [exact E|]. split; [left; reflexivity|]. split; [|split; [exact L|exact NL]].
  unfold is_sufb in H1. destruct (p_stack p) as [|[[] | | |] [|[] [|]]]; try discriminate H1. intros m [<-|[<-|[]]]; exact I.
Qed.

(** ** examples on the demo analyzer *)
Definition items_okb (D : dict) (st : list method) : bool :=
  forallb (fun m => match m with MDict _ w para idx => match para_rowb D para idx with Some (pre, _, sf) => fitsb w pre sf | None => false end | MStr _ _ => true | _ => false end) st.
Lemma items_okb_ok : forall D st, items_okb D st = true -> simple_stack D st.
Proof.
  intros D st H m Hm. unfold items_okb in H. rewrite forallb_forall in H. specialize (H m Hm). destruct m; try discriminate H; [|exact I].
  cbn [simple_method]. destruct (para_rowb D para idx) as [[[pre t] sf]|] eqn:E; [|discriminate H]. apply fitsb_ok in H as (stem & E2).
  exists pre, t, sf, stem. split; [apply para_rowb_ok; exact E|exact E2].
Qed.
Definition lex_lenb (n : nat) (r : res (list parse)) : bool := match r with Ok l => length l =? n | _ => false end.
Lemma lex_lenb_ok : forall n r, lex_lenb n r = true -> exists l, r = Ok l /\ length l = n.
Proof. intros n [l|] H; [|discriminate H]. exists l. split; auto. apply Nat.eqb_eq. exact H. Qed.
Definition caseb (M : morph) (w : str) (n k : nat) : bool :=
  firstb (fun p => items_okb (m_dict M) (p_stack p) && lex_lenb n (get_lexeme M p) && (length (p_stack p) =? k)) (morph_parse M w).
Lemma caseb_ok : forall M w n k, caseb M w n k = true -> exists ps p lex, morph_parse M w = Ok ps /\ In p ps /\ simple_stack (m_dict M) (p_stack p) /\
  get_lexeme M p = Ok lex /\ length lex = n /\ length (p_stack p) = k.
Proof.
  intros M w n k H. unfold caseb in H. apply firstb_ok in H as (p & ps & E & H). apply andb_true_iff in H as [H H3]. apply andb_true_iff in H as [H1 H2].
  apply lex_lenb_ok in H2 as (lex & L & Len). exists (p :: ps), p, lex. split; auto. split; [left; auto|]. split; [apply items_okb_ok; auto|]. split; auto. split; auto.
  apply Nat.eqb_eq. exact H3.
Qed.
