(** * C73: "pymorphy dict meta" prints the metadata of the dictionary, and an analyzer can be created over every saved dictionary *)
From Coq Require Import String List NArith ZArith Bool.
From Verif Require Import Py Uni Tagset Dawg Dict Utils Shapes Units Analyzer ConfigRu ConfigUk Compile Json Storage Create Cli Spec3 Spec9 Spec23 Ex.
From Verif Require Import L_Base L_Meta L_ExS L_ExU L_ExC L_ExW.
Import ListNotations.
Local Open Scope nat_scope.
Local Open Scope list_scope.

(** A dictionary that compile_parsed_dict made and save_compiled_dict wrote completely - into any folder, whatever was there - opens as an
    analyzer for any requested language, and the analyzer's dictionary is what was compiled.  The DAWG library must read back what it wrote;
    the tags must use known grammemes, and the grammemes must include the ones the built-in units use. *)
Theorem C73_opens : forall W C lang path result al rows x info d o src links,
  compile_parsed_dict o src links = Ok x -> snd (save_compiled_dict (w_io W) (w_big W) al rows x info) = Ok tt ->
  io_read_words (w_io W) (io_words (w_io W) (x_words x)) = Ok (x_words x) -> (forall p, In p (x_pred x) -> io_read_pred (w_io W) (io_pred (w_io W) p) = Ok p) ->
  (forall t g, In t (x_gramtab x) -> In g (split_tag t) -> In g (map g_name rows)) -> (forall g, In g (map u ["NOUN"; "anim"; "masc"; "femn"; "Sgtm"; "Fixd"; "Abbr"; "sing"; "nomn"; "gent"; "datv"; "accs"; "ablt"; "loct"; "ADVB"]%string) -> In g (map g_name rows)) ->
  w_folder W path = frun (fst (save_compiled_dict (w_io W) (w_big W) al rows x info)) d ->
  exists ws C' z, create W C (MkArgs (Some path) (Some lang) result None EstAuto SubAuto) = (ws, C', Ok z) /\ loaded x (m_dict (z_morph z)).
Proof. exact create_opens. Qed.
Print Assumptions C73_opens.

(** ... and "pymorphy dict meta --dict path" then prints exactly these sixteen lines, for any requested language *)
Theorem C73_meta : forall W C q lang path al rows x info d o src links,
  compile_parsed_dict o src links = Ok x -> snd (save_compiled_dict (w_io W) (w_big W) al rows x info) = Ok tt ->
  io_read_words (w_io W) (io_words (w_io W) (x_words x)) = Ok (x_words x) -> (forall p, In p (x_pred x) -> io_read_pred (w_io W) (io_pred (w_io W) p) = Ok p) ->
  (forall t g, In t (x_gramtab x) -> In g (split_tag t) -> In g (map g_name rows)) -> (forall g, In g (map u ["NOUN"; "anim"; "masc"; "femn"; "Sgtm"; "Fixd"; "Abbr"; "sing"; "nomn"; "gent"; "datv"; "accs"; "ablt"; "loct"; "ADVB"]%string) -> In g (map g_name rows)) ->
  w_folder W path = frun (fst (save_compiled_dict (w_io W) (w_big W) al rows x info)) d ->
  exists ws, cli_dict_meta W C q lang (Some path) = (ws, (saved_lines q x info, Ok tt)).
Proof. exact dict_meta_saved. Qed.
Print Assumptions C73_meta.

(** For any folder the command prints either one line per metadata entry, in file order, or - when the analyzer cannot be created - nothing
    but the constructor's exception *)
Theorem C73_any : forall W C q lang path ws lines r, cli_dict_meta W C q lang path = (ws, (lines, r)) ->
  (exists C' z p m, create W C (MkArgs path (Some lang) (Some (u "Parse")) None EstAuto SubAuto) = (ws, C', Ok z) /\ choose_dictionary_path W path (Some lang) = Ok p /\
     load_meta (w_folder W p) (u "meta.json") = Ok m /\ r = Ok tt /\ lines = map (fun kv => fst kv ++ u ": " ++ py_str q (snd kv)) m) \/
  (exists C' e, create W C (MkArgs path (Some lang) (Some (u "Parse")) None EstAuto SubAuto) = (ws, C', Err e) /\ r = Err e /\ lines = []).
Proof. exact dict_meta_any. Qed.
Print Assumptions C73_any.

(** the demonstration dictionary, asked for in Ukrainian: a language warning, and the sixteen lines; a folder without a dictionary *)
Definition quoted (s : str) : str := u "'" ++ s ++ u "'".
Example C73_case : (compile_parsed_dict demo_options demo_lexemes demo_links = Ok demo_compiled /\
    snd (save_compiled_dict (w_io demo_world) (w_big demo_world) [] demo_rows demo_compiled demo_info) = Ok tt /\
    io_read_words (w_io demo_world) (io_words (w_io demo_world) (x_words demo_compiled)) = Ok (x_words demo_compiled) /\
    (forall p, In p (x_pred demo_compiled) -> io_read_pred (w_io demo_world) (io_pred (w_io demo_world) p) = Ok p) /\
    (forall t g, In t (x_gramtab demo_compiled) -> In g (split_tag t) -> In g (map g_name demo_rows)) /\ (forall g, In g (map u ["NOUN"; "anim"; "masc"; "femn"; "Sgtm"; "Fixd"; "Abbr"; "sing"; "nomn"; "gent"; "datv"; "accs"; "ablt"; "loct"; "ADVB"]%string) -> In g (map g_name demo_rows)) /\
    w_folder demo_world (u "/dicts/ru") = frun (fst (save_compiled_dict (w_io demo_world) (w_big demo_world) [] demo_rows demo_compiled demo_info)) []) /\
  cli_dict_meta demo_world tc_initial quoted (u "uk") (Some (u "/dicts/ru")) = ([WMismatch (JStr (u "ru")) (u "uk")],
    ([u "language_code: ru"; u "format_version: 2.4"; u "pymorphy2_version: 0.9"; u "compiled_at: 2020"; u "source: demo"; u "source_version: 1"; u "source_revision: 2";
      u "source_lexemes_count: 6"; u "source_links_count: 1"; u "gramtab_length: 18";
      u "gramtab_formats: {'opencorpora-ext': 'gramtab-opencorpora-ext.json', 'opencorpora-int': 'gramtab-opencorpora-int.json'}"; u "paradigms_length: 4"; u "suffixes_length: 14"; u "words_dawg_length: 25";
      u "compile_options: {'min_ending_freq': 1, 'min_paradigm_popularity': 1, 'max_suffix_length': 3, 'paradigm_prefixes': ['', 'по', 'наи']}";
      u "prediction_suffixes_dawg_lengths: [38, 2, 0]"], Ok tt)) /\
  cli_dict_meta demo_world tc_initial quoted (u "ru") (Some (u "/nowhere")) = ([], ([], Err FileError)).
Proof.
  split; [|split].
  - split; [exact demo_compiles|]. split; [exact (proj1 demo_saved)|]. split; [exact (proj1 demo_codec)|]. split; [exact (proj2 demo_codec)|]. split; [exact demo_grammemes|]. split; [exact demo_rows_needed|]. exact ru_folder_saved.
  - vm_compute. reflexivity.
  - vm_compute. reflexivity.
Qed.
