(** * C48, C49, C61, C62: the command line *)
From Coq Require Import String List NArith ZArith Bool QArith Qabs.
From Verif Require Import Py Uni Tagset Dawg Utils Shapes Tokenizers Dict Units Analyzer ConfigRu ConfigUk Compile Json Storage Create Cli Spec Spec2 Spec9 Spec10 Ex.
From Verif Require Import L_Base L_Text L_Parse L_Ex L_ExS L_Create2 L_ExW L_Cli L_Cli2.
Import ListNotations.
Local Open Scope nat_scope.
Local Open Scope list_scope.

(** ** C48 *)
(** what is written, and the exception that ends the run if any, are the same for any two acceptable values of the cache option *)
Theorem C48_sizes : forall M lines tokenize score nf tag nl th s s',
  s = u "unlim" \/ int_ok (m_uni M) s = true -> s' = u "unlim" \/ int_ok (m_uni M) s' = true ->
  cli_parse M lines tokenize score nf tag nl s th = cli_parse M lines tokenize score nf tag nl s' th.
Proof.
  intros M lines tokenize score nf tag nl th s s' H H'. destruct (good_size (m_uni M) s H) as (m & E). destruct (good_size (m_uni M) s' H') as (m' & E'). exact (sizes_agree _ _ _ _ _ _ _ _ _ _ _ _ E E').
Qed.
Print Assumptions C48_sizes.
(** more generally for any cache that only forgets entries, whatever it forgets and when *)
Theorem C48_any_cache : forall m m' f toks, only_forgets m -> only_forgets m' -> loop m f [] toks = loop m' f [] toks.
Proof. exact caches_agree. Qed.
Print Assumptions C48_any_cache.
(** other values of the option: ValueError before anything is written *)
Theorem C48_bad_size : forall M lines tokenize score nf tag nl th s, s <> u "unlim" -> int_ok (m_uni M) s = false ->
  cli_parse M lines tokenize score nf tag nl s th = ([], Err ValueError).
Proof. exact bad_size. Qed.
Print Assumptions C48_bad_size.
Example C48_case : int_ok (m_uni demo) (u "1") = true /\ cache_of (m_uni demo) (u "1") = Ok (Lru 1) /\ cache_of (m_uni demo) (u "0") = Ok NoCache /\
  int_ok (m_uni demo) (u "many") = false /\
  cli_parse demo [u "кот, кот"] true true true true true (u "1") (Fin 0) = (map u ["кот{кот:1.000=NOUN,anim,masc sing,nomn}
"; ",{,:0.900=PNCT}
"; "кот{кот:1.000=NOUN,anim,masc sing,nomn}
"]%string, Ok tt).
Proof. repeat (split; [vm_compute; reflexivity|]). vm_compute. reflexivity. Qed.

(** ** C49 *)
(** a run that ends normally wrote one record for each token, in order; a run that ends with an exception wrote the records of the
    tokens before the one that raised it *)
Theorem C49_records : forall M lines tokenize score nf tag nl s th ws x, cli_parse M lines tokenize score nf tag nl s th = (ws, x) ->
  (x = Ok tt -> exists f, formatter M score nf tag nl th = Ok f /\ Forall2 (fun t r => f t = Ok r /\ exists items, r = record nl t items) (iter_tokens (m_uni M) tokenize lines) ws) /\
  (forall e, x = Err e -> (ws = [] /\ (nf = false /\ tag = false \/ s <> u "unlim" /\ int_ok (m_uni M) s = false) /\ e = ValueError) \/
     exists f done t rest, formatter M score nf tag nl th = Ok f /\ iter_tokens (m_uni M) tokenize lines = done ++ t :: rest /\
       Forall2 (fun t r => f t = Ok r /\ exists items, r = record nl t items) done ws /\ f t = Err e).
Proof. exact cli_shape. Qed.
Print Assumptions C49_records.
(** modes with tags: the analyses whose score is at least the threshold, in the order of parse() *)
Theorem C49_analyses : forall M score nf nl th f tok ps, formatter M score nf true nl th = Ok f -> (score = true \/ nf = true \/ th <> Fin 0 /\ float_true th = true) ->
  morph_parse M tok = Ok ps -> exists keep, f tok = Ok (record nl tok (map (shown score nf) (filter keep ps))) /\ forall p, keep p = true <-> at_least (p_score p) th.
Proof.
  intros M score nf nl th f tok ps F K P. exists (fun p => reaches (p_score p) th). split; [exact (format_analyses M score nf nl th f tok ps F K P)|]. intros p. apply reaches_iff.
Qed.
Print Assumptions C49_analyses.
(** only tags, threshold 0: all tags of tag(), which (shipped units) are those of parse() *)
Theorem C49_tags : forall M nl th f tok ts, formatter M false false true nl th = Ok f -> float_true th = false -> morph_tag M tok = Ok ts ->
  f tok = Ok (record nl tok (map t_str ts)) /\
  (shipped_units M -> pred_counts_pos (m_dict M) -> forall ps, morph_parse M tok = Ok ps -> same_tags (map p_tag ps) ts).
Proof.
  intros M nl th f tok ts F T E. split; [exact (format_tags M nl th f tok ts F T E)|]. intros S P ps H. unfold morph_parse in H. unfold morph_tag in E. exact (shipped_agree _ _ _ _ _ S P H E).
Qed.
Print Assumptions C49_tags.
(** lemma mode *)
Theorem C49_lemmas : forall M score nl th f tok ps, formatter M score true false nl th = Ok f -> morph_parse M tok = Ok ps ->
  exists lw, lemma_list ps th lw /\ f tok = Ok (record nl tok (map (shown_lemma score) lw)).
Proof. exact format_lemmas. Qed.
Print Assumptions C49_lemmas.
(** a score is shown with three decimals, the nearest such number (the even one of two) *)
Theorem C49_score_text : forall q, (0 <= q)%Q -> exists i a b c,
  fmt3 q = dec_N i ++ u "." ++ [(48 + a)%N; (48 + b)%N; (48 + c)%N] /\ (a < 10 /\ b < 10 /\ c < 10)%N /\
  let v := Z.of_N (1000 * i + 100 * a + 10 * b + c) in
  (Qabs ((v # 1000) - q) <= 1 # 2000)%Q /\ ((Qabs ((v # 1000) - q) == 1 # 2000)%Q -> Z.even v = true).
Proof. exact score_text. Qed.
Print Assumptions C49_score_text.
(** every combination of options that shows a normal form or a tag works; no option means all three *)
Theorem C49_options : forall W C ft o lines ws C' z th, create W C (main_args o) = (ws, C', Ok z) -> ft (o_thresh o) = Ok th ->
  (o_score o = false -> o_lemmatize o = false -> o_tag o = false -> cli_main W C ft o lines = (ws, cli_parse (z_morph z) lines (negb (o_tokenized o)) true true true true (o_cache o) th)) /\
  (o_lemmatize o = true \/ o_tag o = true -> cli_main W C ft o lines = (ws, cli_parse (z_morph z) lines (negb (o_tokenized o)) (o_score o) (o_lemmatize o) (o_tag o) true (o_cache o) th)).
Proof. intros W C ft o lines ws C' z th H F. destruct (main_runs W C ft o lines ws C' z th H F) as (_ & A & B). split; auto. Qed.
Print Assumptions C49_options.
(** --score alone, which the usage text allows, always ends with ValueError and writes nothing *)
Theorem C49_score_alone_refuted : forall W C ft o lines ws C' z th, create W C (main_args o) = (ws, C', Ok z) -> ft (o_thresh o) = Ok th ->
  o_score o = true -> o_lemmatize o = false -> o_tag o = false -> cli_main W C ft o lines = (ws, ([], Err ValueError)).
Proof. intros W C ft o lines ws C' z th H F. destruct (main_runs W C ft o lines ws C' z th H F) as (A & _). exact A. Qed.
Print Assumptions C49_score_alone_refuted.
Example C49_case : (exists f ps, formatter demo_p true true true true (Fin (1 # 2)) = Ok f /\ morph_parse demo_p (u "кота") = Ok ps /\ length ps = 2 /\
    f (u "кота") = Ok (u "кота{кот:0.700=NOUN,anim,masc sing,gent}
")) /\
  (exists f ps, formatter demo_p true true false true (Fin (1 # 2)) = Ok f /\ morph_parse demo_p (u "кота") = Ok ps /\ length ps = 2 /\ f (u "кота") = Ok (u "кота{кот:1.000}
")) /\
  (exists f ts, formatter demo_p false false true true (Fin 0) = Ok f /\ float_true (Fin 0) = false /\ morph_tag demo_p (u "кота") = Ok ts /\ length ts = 2) /\
  fmt3 (2 # 3) = u "0.667" /\
  let o := MkOptions false true false (u "0.0") false (u "20000") (u "ru") (Some (u "/dicts/ru")) in
  create demo_world tc_initial (main_args o) = (ws_of (main_args o), tc_of (main_args o), Ok (z_of (main_args o))).
Proof.
  split; [|split; [|split; [|split]]].
  - do 2 eexists. split; [reflexivity|]. split; [vm_compute; reflexivity|]. split; vm_compute; reflexivity.
  - do 2 eexists. split; [reflexivity|]. split; [vm_compute; reflexivity|]. split; vm_compute; reflexivity.
  - do 2 eexists. split; [reflexivity|]. split; [reflexivity|]. split; vm_compute; reflexivity.
  - vm_compute. reflexivity.
  - apply z_ok. vm_compute. reflexivity.
Qed.

(** ** C61 *)
Theorem C61_lines : forall U text ls, u_space U 10%N = true -> spaces_ok U -> lines_of text ls -> iter_tokens U true ls = simple_word_tokenize U text.
Proof. exact lines_tokens. Qed.
Print Assumptions C61_lines.
(** hence the output for a text does not depend on where its lines end *)
Theorem C61_output : forall M text text' ls ls' score nf tag nl s th, u_space (m_uni M) 10%N = true -> spaces_ok (m_uni M) ->
  lines_of text ls -> lines_of text' ls' -> simple_word_tokenize (m_uni M) text = simple_word_tokenize (m_uni M) text' ->
  cli_parse M ls true score nf tag nl s th = cli_parse M ls' true score nf tag nl s th.
Proof.
  intros M text text' ls ls' score nf tag nl s th H S L L' E. unfold cli_parse. rewrite (lines_tokens _ _ _ H S L), (lines_tokens _ _ _ H S L'), E. reflexivity.
Qed.
Print Assumptions C61_output.
(** --tokenized: the lines without surrounding white space, empty ones left out *)
Theorem C61_tokenized : forall U ls, exists l', Forall2 (fun l t => exists a b, l = a ++ t ++ b /\ forallb (u_space U) a = true /\ forallb (u_space U) b = true /\
    (forall c r, t = c :: r -> u_space U c = false) /\ (forall c r, t = r ++ [c] -> u_space U c = false)) ls l' /\
  iter_tokens U false ls = filter nonempty l'.
Proof. exact tokenized_lines. Qed.
Print Assumptions C61_tokenized.
Example C61_case : u_space uni_cyr 10%N = true /\ spaces_ok uni_cyr /\ lines_of (u "кто-
то и кот") [u "кто-
"; u "то и кот"] /\ iter_tokens uni_cyr true [u "кто-
"; u "то и кот"] = map u ["кто-"; "то"; "и"; "кот"]%string /\ iter_tokens uni_cyr false [u " кто
"; u "
"; u "кот"] = map u ["кто"; "кот"]%string.
Proof.
  split; [reflexivity|]. split; [exact uni_cyr_spaces|]. split; [|split; vm_compute; reflexivity].
  exact (lines_more (u "кто-") (u "то и кот") _ (lines_last _)).
Qed.

(** ** C62 *)
(** "pymorphy parse" works in the language of --lang, whatever the dictionary of --dict declares; a warning tells when it declares
    another one (--lang is ru when not given) *)
Theorem C62_language : forall W C ft o lines ws C' z, create W C (main_args o) = (ws, C', Ok z) -> fst (cli_main W C ft o lines) = ws /\ z_lang z = JStr (o_lang o) /\
  (forall p m dl, picks W (main_args o) p -> load_meta (w_folder W p) (u "meta.json") = Ok m -> declares m dl -> (dl <> JStr (o_lang o) <-> In (WMismatch dl (o_lang o)) ws)) /\
  language_units (JStr (o_lang o)) (z_units z).
Proof. exact main_language. Qed.
Print Assumptions C62_language.
Example C62_case : o_lang no_options = u "ru" /\ create demo_world tc_initial (main_args no_options) = (ws_of (main_args no_options), tc_of (main_args no_options), Ok (z_of (main_args no_options))) /\
  (let o := MkOptions false false false (u "0.0") false (u "20000") (u "uk") (Some (u "/dicts/ru")) in okcreate (main_args o) = true /\ ws_of (main_args o) = [WMismatch (JStr (u "ru")) (u "uk")]).
Proof. split; [reflexivity|]. split; [apply z_ok; vm_compute; reflexivity|]. split; vm_compute; reflexivity. Qed.
