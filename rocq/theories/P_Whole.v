(** * C60: from a document to the parses of an analyzer created over its conversion *)
From Coq Require Import String List NArith ZArith QArith Bool.
From Verif Require Import Py Uni Tagset Dawg Utils Shapes Dict Units Analyzer ConfigRu ConfigUk Compile Preprocess Json Storage XmlParse Convert Create Spec Spec2 Spec3 Spec7 Spec8 Spec9 Ex.
From Verif Require Import L_Base L_ExU L_ExS L_ExX L_ExV L_Convert2 L_Units L_Whole.
Import ListNotations.
Local Open Scope nat_scope.
Local Open Scope list_scope.

(** A document is converted into a folder, without an exception, and MorphAnalyzer(path=folder) is called.  The analyzer is
    created, parses and tags every text without an exception, and gives every spelling of every form of the document a parse
    with the form's grammemes. *)
Theorem C60_analyzer : forall io big al ex ow U lxml doc P src links rows o x info d C W path result,
  flat doc -> parse_xml U lxml doc = Ok P -> source_of P = Some (src, links, rows) ->
  u_space U (chr " ") = true -> u_space U (chr ",") = false -> plain_grammemes U doc -> declared doc rows ->
  links_exist src (effective links) -> acyclic (effective links) ->
  compile_parsed_dict o (prepared src) links = Ok x ->
  io_read_words io (io_words io (x_words x)) = Ok (x_words x) -> (forall p, In p (x_pred x) -> io_read_pred io (io_pred io p) = Ok p) ->
  ex = false \/ ow = true -> snd (convert io big al ex ow (Ok (src, links, rows)) o info) = Ok tt ->
  (forall g, In g (map u ["ADJF"; "NOUN"; "anim"; "masc"; "femn"; "Sgtm"; "Fixd"; "Abbr"; "sing"; "nomn"; "gent"; "datv"; "accs"; "ablt"; "loct"; "ADVB"]%string) -> In g (map g_name rows)) ->
  names_ok U -> lower_stable U ->
  w_io W = io -> w_big W = big -> w_uni W = U -> w_folder W path = frun (fst (convert io big al ex ow (Ok (src, links, rows)) o info)) d ->
  exists ws C' z, create W C (MkArgs (Some path) None result None EstAuto SubAuto) = (ws, C', Ok z) /\
    (si_lang info = Some (u "ru") \/ si_lang info = Some (u "uk") -> ws = []) /\
    (forall word, exists ps ts, morph_parse (z_morph z) word = Ok ps /\ morph_tag (z_morph z) word = Ok ts) /\
    (forall word text gs, document_form doc text gs -> ~ In (u "Init") gs -> u_lower U word = u_lower U text ->
       (si_lang info <> Some (u "uk") -> ~ In word RU_INITIAL_LETTERS) ->
       (si_lang info = Some (u "uk") -> ~ In word UK_INITIAL_LETTERS /\ is_roman_number word = false /\ is_latin U word = Ok false) ->
       exists ps p, morph_parse (z_morph z) word = Ok ps /\ In p ps /\ p_word p = u_lower U text /\ same_grammemes (t_gr (p_tag p)) gs).
Proof. exact end_to_end. Qed.
Print Assumptions C60_analyzer.

(** the theorem applies to a document of three lexemes and two links *)
Definition conv_world : world :=
  MkWorld None [] None (fun p => if str_eqb p (u "/d") then frun (fst (convert io_json false [] false false (Ok (conv_src, conv_links, conv_rows)) demo_options demo_info)) [] else [])
    [] io_json false uni_named false (fun _ => Err FileError).
Lemma all_smem : forall l m, forallb (fun g => smem g m) l = true -> forall g, In g l -> In g m.
Proof. intros l m B g I. rewrite forallb_forall in B. apply smem_In. exact (B g I). Qed.
Example C60_analyzer_case : exists C' z, create conv_world tc_initial (MkArgs (Some (u "/d")) None None None EstAuto SubAuto) = ([], C', Ok z) /\
  exists ps p, morph_parse (z_morph z) (u "КОТА") = Ok ps /\ In p ps /\ p_word p = u "кота" /\ same_grammemes (t_gr (p_tag p)) [u "NOUN"; u "anim"; u "masc"; u "sing"; u "gen1"].
Proof.
  destruct conv_case as (H1 & _ & H3 & _ & _ & _ & H7 & H8 & H9 & H10 & H11 & H12 & H13 & _).
  assert (PX : parse_xml uni_named false conv_doc = Ok conv_parsed).
  { assert (X : parse_xml uni_named false conv_doc = parse_xml uni_cyr false conv_doc) by (vm_compute; reflexivity). rewrite X. exact conv_parsed_eq. }
  assert (PG : plain_grammemes uni_named conv_doc) by (apply plain_grammemesb_ok; vm_compute; reflexivity).
  assert (NG : forall g, In g (u "ADJF" :: needed) -> In g (map g_name conv_rows)).
  { apply all_smem. vm_compute. reflexivity. }
  assert (WF : w_folder conv_world (u "/d") = frun (fst (convert io_json false [] false false (Ok (conv_src, conv_links, conv_rows)) demo_options demo_info)) []).
  { cbn [w_folder conv_world]. replace (str_eqb (u "/d") (u "/d")) with true by reflexivity. reflexivity. }
  destruct (C60_analyzer io_json false [] false false uni_named false conv_doc conv_parsed conv_src conv_links conv_rows demo_options conv_compiled demo_info [] tc_initial conv_world (u "/d") None
    H1 PX H3 eq_refl eq_refl PG H7 H8 H9 H10 H11 H12 (or_introl eq_refl) H13 NG uni_named_ok uni_named_stable eq_refl eq_refl eq_refl WF) as (ws & C' & z & E & A & _ & B).
  rewrite (A (or_introl eq_refl)) in E. exists C', z. split; [exact E|].
  destruct (B (u "КОТА") (u "кота") [u "NOUN"; u "anim"; u "masc"; u "sing"; u "gen1"] conv_form) as (ps & p & Q1 & Q2 & Q3 & Q4).
  - intros I. apply (proj2 (smem_In _ _)) in I. vm_compute in I. discriminate I.
  - vm_compute. reflexivity.
  - intros _ I. apply (proj2 (smem_In _ _)) in I. vm_compute in I. discriminate I.
  - intros H. exfalso. vm_compute in H. discriminate H.
  - assert (L : u_lower uni_named (u "кота") = u "кота") by (vm_compute; reflexivity). rewrite L in Q3. exists ps, p. split; [exact Q1|]. split; [exact Q2|]. split; [exact Q3|exact Q4].
Qed.
