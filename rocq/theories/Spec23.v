(** * Specification vocabulary for C73: what "pymorphy dict meta" prints for a dictionary saved by pymorphy2 *)
From Coq Require Import String List NArith ZArith Bool.
From Verif Require Import Py Tagset Dawg Dict Compile Json Storage.
Import ListNotations.
Local Open Scope nat_scope.
Local Open Scope list_scope.

Definition shown_nat (n : nat) : str := dec_N (N.of_nat n).
Definition commas : list str -> str := join (u ", ").
(** one line per entry; [q] is repr() of a text *)
Definition saved_lines (q : str -> str) (x : compiled) (info : saveinfo) : list str :=
  [ u "language_code: " ++ match si_lang info with Some l => l | None => u "None" end;
    u "format_version: 2.4";
    u "pymorphy2_version: " ++ si_pymorphy info;
    u "compiled_at: " ++ si_time info;
    u "source: " ++ si_source info;
    u "source_version: " ++ si_version info;
    u "source_revision: " ++ si_revision info;
    u "source_lexemes_count: " ++ shown_nat (si_lexemes info);
    u "source_links_count: " ++ shown_nat (si_links info);
    u "gramtab_length: " ++ shown_nat (length (x_gramtab x));
    u "gramtab_formats: {" ++ q (u "opencorpora-ext") ++ u ": " ++ q (u "gramtab-opencorpora-ext.json") ++ u ", " ++
                              q (u "opencorpora-int") ++ u ": " ++ q (u "gramtab-opencorpora-int.json") ++ u "}";
    u "paradigms_length: " ++ shown_nat (length (x_paradigms x));
    u "suffixes_length: " ++ shown_nat (length (x_suffixes x));
    u "words_dawg_length: " ++ shown_nat (list_sum (map (fun e => length (snd e)) (x_words x)));
    u "compile_options: {" ++ q (u "min_ending_freq") ++ u ": " ++ shown_nat (o_min_freq (x_options x)) ++ u ", " ++
                              q (u "min_paradigm_popularity") ++ u ": " ++ shown_nat (o_min_pop (x_options x)) ++ u ", " ++
                              q (u "max_suffix_length") ++ u ": " ++ shown_nat (o_max_suffix (x_options x)) ++ u ", " ++
                              q (u "paradigm_prefixes") ++ u ": [" ++ commas (map q (o_prefixes (x_options x))) ++ u "]}";
    u "prediction_suffixes_dawg_lengths: [" ++ commas (map (fun d => shown_nat (list_sum (map (fun e => length (snd e)) d))) (x_pred x)) ++ u "]" ].
