(** * C60: whole conversions *)
From Coq Require Import String List NArith ZArith QArith Bool.
From Verif Require Import Py Uni Tagset Dawg Utils Shapes Dict Units Analyzer ConfigRu ConfigUk Compile Preprocess Json Storage XmlParse Convert Spec Spec2 Spec3 Spec7 Spec8 Ex.
From Verif Require Import L_ExS L_ExV L_Convert2.
Import ListNotations.
Local Open Scope nat_scope.
Local Open Scope list_scope.

(** a conversion of a document that ends without an exception leaves a folder that loads; with an analyzer over the loaded dictionary,
    every spelling of every form of the document gets a parse with the form's grammemes (gen1/gent, loc1/loct, acc1/accs not
    distinguished) *)
Theorem C60_words : forall io big al ex ow U lxml doc P src links rows o x info d C,
  flat doc -> parse_xml U lxml doc = Ok P -> source_of P = Some (src, links, rows) ->
  u_space U (chr " ") = true -> u_space U (chr ",") = false -> plain_grammemes U doc -> declared doc rows ->
  links_exist src (effective links) -> acyclic (effective links) ->
  compile_parsed_dict o (prepared src) links = Ok x ->
  io_read_words io (io_words io (x_words x)) = Ok (x_words x) -> (forall p, In p (x_pred x) -> io_read_pred io (io_pred io p) = Ok p) ->
  ex = false \/ ow = true -> snd (convert io big al ex ow (Ok (src, links, rows)) o info) = Ok tt ->
  exists l D, load_dict io big (frun (fst (convert io big al ex ow (Ok (src, links, rows)) o info)) d) C = (init_grammemes C rows, Ok l) /\
    dictionary l = Ok D /\ loaded x D /\
    (forall n M word ps text gs, m_dict M = D -> m_uni M = U -> has_units M RU_DEFAULT_UNITS -> m_prob M = None ->
       document_form doc text gs -> ~ In (u "Init") gs -> u_lower U word = u_lower U text -> ~ In word RU_INITIAL_LETTERS -> parse_f n M word = Ok ps ->
       exists p, In p ps /\ p_word p = u_lower U text /\ same_grammemes (t_gr (p_tag p)) gs) /\
    (forall n M word ps text gs, m_dict M = D -> m_uni M = U -> has_units M UK_DEFAULT_UNITS -> m_prob M = None ->
       document_form doc text gs -> ~ In (u "Init") gs -> u_lower U word = u_lower U text ->
       ~ In word UK_INITIAL_LETTERS -> is_roman_number word = false -> is_latin (m_uni M) word = Ok false -> parse_f n M word = Ok ps ->
       exists p, In p ps /\ p_word p = u_lower U text /\ same_grammemes (t_gr (p_tag p)) gs).
Proof. exact converted. Qed.
Print Assumptions C60_words.
(** without overwrite, an existing folder is not touched; the call returns normally *)
Theorem C60_existing_folder : forall io big al r o info d,
  snd (convert io big al true false r o info) = Ok tt /\ frun (fst (convert io big al true false r o info)) d = d.
Proof. intros io big al r o info d. rewrite convert_refuses. split; reflexivity. Qed.
Print Assumptions C60_existing_folder.
(** when reading the document or compiling fails, the exception reaches the caller and no file is written, old ones stay *)
Theorem C60_failures : forall io big al ex ow r o info, ex = false \/ ow = true ->
  (forall e, r = Err e -> convert io big al ex ow r o info = ([], Err e)) /\
  (forall src links rows e, r = Ok (src, links, rows) -> compile_parsed_dict o (prepared src) links = Err e -> convert io big al ex ow r o info = ([], Err e)).
Proof. intros io big al ex ow r o info H. apply convert_fails_clean. destruct H as [-> | ->]; [reflexivity|destruct ex; reflexivity]. Qed.
Print Assumptions C60_failures.
Example C60_case : flat conv_doc /\ parse_xml uni_cyr false conv_doc = Ok conv_parsed /\ source_of conv_parsed = Some (conv_src, conv_links, conv_rows) /\
  u_space uni_cyr (chr " ") = true /\ u_space uni_cyr (chr ",") = false /\ plain_grammemes uni_cyr conv_doc /\ declared conv_doc conv_rows /\
  links_exist conv_src (effective conv_links) /\ acyclic (effective conv_links) /\ compile_parsed_dict demo_options (prepared conv_src) conv_links = Ok conv_compiled /\
  io_read_words io_json (io_words io_json (x_words conv_compiled)) = Ok (x_words conv_compiled) /\
  (forall p, In p (x_pred conv_compiled) -> io_read_pred io_json (io_pred io_json p) = Ok p) /\
  snd (convert io_json false [] false false (Ok (conv_src, conv_links, conv_rows)) demo_options demo_info) = Ok tt /\
  length (fst (convert io_json false [] false false (Ok (conv_src, conv_links, conv_rows)) demo_options demo_info)) = 4590 /\
  (exists l, snd (load_dict io_json false (frun (fst (convert io_json false [] false false (Ok (conv_src, conv_links, conv_rows)) demo_options demo_info)) []) tc_initial) = Ok l /\ dictionary l = Ok (m_dict conv_morph)) /\
  m_uni conv_morph = uni_cyr /\ has_units conv_morph RU_DEFAULT_UNITS /\ m_prob conv_morph = None /\
  document_form conv_doc (u "кота") [u "NOUN"; u "anim"; u "masc"; u "sing"; u "gen1"] /\ u_lower uni_cyr (u "КОТА") = u_lower uni_cyr (u "кота") /\
  exists p q, morph_parse conv_morph (u "КОТА") = Ok [p; q] /\ t_str (p_tag p) = u "NOUN,anim,masc sing,gent" /\ t_str (p_tag q) = u "NOUN,anim,masc sing,accs".
Proof. exact conv_case. Qed.
