(** * C60: whole lexemes of a document *)
From Coq Require Import String List NArith ZArith QArith Bool.
From Verif Require Import Py Uni Tagset Dawg Utils Shapes Dict Units Analyzer ConfigRu ConfigUk Compile Preprocess Json Storage XmlParse Convert Create Spec Spec2 Spec3 Spec7 Spec8 Spec9 Spec27 Ex.
From Verif Require Import L_Base L_ExU L_ExS L_ExX L_ExV L_Convert2 L_Units L_Whole L_WholeLex L_Convert L_Xml2 P_Whole.
Import ListNotations.
Local Open Scope nat_scope.
Local Open Scope list_scope.

(** A document is converted into a folder and MorphAnalyzer(path=folder) is created.  Parsing any spelling of any form of a lemma
    that no link touches gives a parse of that form whose normal form is the lemma's first form and whose lexeme is the lemma:
    the same forms, in the order of the document, with the same grammemes. *)
Theorem C60_lexeme : forall io big al ex ow U lxml doc P src links rows o x info d C W path result ws C' z,
  flat doc -> parse_xml U lxml doc = Ok P -> source_of P = Some (src, links, rows) ->
  u_space U (chr " ") = true -> u_space U (chr ",") = false -> plain_grammemes U doc -> declared doc rows ->
  links_exist src (effective links) -> acyclic (effective links) ->
  compile_parsed_dict o (prepared src) links = Ok x ->
  io_read_words io (io_words io (x_words x)) = Ok (x_words x) -> (forall p, In p (x_pred x) -> io_read_pred io (io_pred io p) = Ok p) ->
  ex = false \/ ow = true -> snd (convert io big al ex ow (Ok (src, links, rows)) o info) = Ok tt ->
  w_io W = io -> w_big W = big -> w_uni W = U -> w_folder W path = frun (fst (convert io big al ex ow (Ok (src, links, rows)) o info)) d ->
  create W C (MkArgs (Some path) None result None EstAuto SubAuto) = (ws, C', Ok z) ->
  forall id forms i text gs word ps, document_lexeme doc id forms -> unlinked doc id -> (forall tg, In tg forms -> ~ In (u "Init") (snd tg)) ->
    nth_error forms i = Some (text, gs) -> u_lower U word = u_lower U text -> ordinary_word U (si_lang info) word ->
    morph_parse (z_morph z) word = Ok ps ->
    exists p fam, In p ps /\ is_form U p (text, gs) /\ option_map (fun tg => u_lower U (fst tg)) (nth_error forms 0) = Some (p_nf p) /\
      get_lexeme (z_morph z) p = Ok fam /\ is_lexeme U fam forms.
Proof. exact whole_lexeme. Qed.
Print Assumptions C60_lexeme.

(** When no lemma is the target of two links: parsing any spelling of any form of a lemma under the top lemma [top] gives a parse of
    that form whose normal form is the first form of [top], whose lexeme starts with the forms of [top] in document order, and
    consists of the forms of exactly the lemmas to which links lead from [top]. *)
Theorem C60_linked : forall io big al ex ow U lxml doc P src links rows o x info d C W path result ws C' z,
  flat doc -> parse_xml U lxml doc = Ok P -> source_of P = Some (src, links, rows) ->
  u_space U (chr " ") = true -> u_space U (chr ",") = false -> plain_grammemes U doc -> declared doc rows ->
  links_exist src (effective links) -> acyclic (effective links) ->
  compile_parsed_dict o (prepared src) links = Ok x ->
  io_read_words io (io_words io (x_words x)) = Ok (x_words x) -> (forall p, In p (x_pred x) -> io_read_pred io (io_pred io p) = Ok p) ->
  ex = false \/ ow = true -> snd (convert io big al ex ow (Ok (src, links, rows)) o info) = Ok tt ->
  w_io W = io -> w_big W = big -> w_uni W = U -> w_folder W path = frun (fst (convert io big al ex ow (Ok (src, links, rows)) o info)) d ->
  create W C (MkArgs (Some path) None result None EstAuto SubAuto) = (ws, C', Ok z) ->
  forall top forms0 id forms tg word ps,
    linked_once doc -> top_lemma doc top -> document_lexeme doc top forms0 -> forms0 <> [] -> (forall tg, In tg forms0 -> ~ In (u "Init") (snd tg)) ->
    leads doc top id -> document_lexeme doc id forms -> In tg forms -> ~ In (u "Init") (snd tg) ->
    u_lower U word = u_lower U (fst tg) -> ordinary_word U (si_lang info) word -> morph_parse (z_morph z) word = Ok ps ->
    exists p fam0 rest, In p ps /\ is_form U p tg /\ option_map (fun tg => u_lower U (fst tg)) (nth_error forms0 0) = Some (p_nf p) /\
      get_lexeme (z_morph z) p = Ok (fam0 ++ rest) /\ is_lexeme U fam0 forms0 /\
      (forall id' forms' tg', leads doc top id' -> document_lexeme doc id' forms' -> In tg' forms' -> ~ In (u "Init") (snd tg') ->
         exists f, In f (fam0 ++ rest) /\ is_form U f tg') /\
      (forall f, In f (fam0 ++ rest) -> exists id' forms' tg', leads doc top id' /\ document_lexeme doc id' forms' /\ In tg' forms' /\ is_form U f tg').
Proof. exact whole_linked. Qed.
Print Assumptions C60_linked.

(** the document of C60_analyzer_case: lemma 5 is linked to lemma 1, lemma 2 is not linked *)
Lemma not_init : forall word, smem word RU_INITIAL_LETTERS = false -> ordinary_word uni_named (Some (u "ru")) word.
Proof. intros word B. split; [intros _ I; apply (proj2 (smem_In _ _)) in I; congruence|intros H; exfalso; vm_compute in H; discriminate H]. Qed.
Definition lemma1 : list (str * list str) := [(u "Кот", map u ["NOUN"; "anim"; "masc"; "sing"; "nomn"]%string); (u "кота", map u ["NOUN"; "anim"; "masc"; "sing"; "gen1"]%string); (u "кота", map u ["NOUN"; "anim"; "masc"; "sing"; "accs"]%string)].
Definition lemma2 : list (str * list str) := [(u "на", [u "PREP"])].
Definition lemma5 : list (str * list str) := [(u "коты", map u ["NOUN"; "anim"; "plur"; "nomn"]%string)].
Lemma lexeme_by : forall e l base fl (forms : list (str * (list str * list str))) pre post id,
  x_iter (u "lemma") conv_doc = pre ++ e :: post -> forallb (fun e' => negb (opt_eqb str_eqb (x_get (u "id") e') (x_get (u "id") e))) post = true ->
  x_get (u "id") e = Some id -> x_iter (u "l") e = [l] -> map (x_get (u "v")) (x_iter (u "g") l) = map Some base -> base <> [] -> x_iter (u "f") e = fl ->
  join (u ",") base <> [] ->
  Forall2 (fun f tg => x_get (u "t") f = Some (fst tg) /\ map (x_get (u "v")) (x_iter (u "g") f) = map Some (fst (snd tg)) /\ snd (snd tg) = base ++ fst (snd tg)) fl forms ->
  document_lexeme conv_doc id (map (fun tg => (fst tg, snd (snd tg))) forms).
Proof.
  intros e l base fl forms pre post id E B Id L G NB Fl NJ F. exists e, l, base. split; [exists pre, post; split; [exact E|]; intros e' I; rewrite forallb_forall in B; specialize (B e' I); intros X; rewrite X, (proj2 (oeqb_eq _ _) eq_refl) in B; discriminate B|].
  split; [exact Id|]. split; [exact L|]. split; [exact G|]. split; [intros f _ (gs & _ & H); apply app_eq_nil in H as [H _]; exact (NJ H)|]. rewrite Fl.
  clear - F. induction F as [|f tg fl forms (A & B & C) F IH]; cbn [map]; constructor; [|exact IH]. cbn [fst snd]. split; [exact A|]. exists (fst (snd tg)). split; [exact B|exact C].
Qed.
Ltac one := split; [vm_compute; reflexivity|split; [vm_compute; reflexivity|reflexivity]].
Definition el1 := x_lemma "1" "кот" ["NOUN"; "anim"; "masc"]%string [x_form "Кот" ["sing"; "nomn"]%string; x_form "кота" ["sing"; "gen1"]%string; x_form "кота" ["sing"; "accs"]%string].
Definition el2 := x_lemma "2" "на" ["PREP"]%string [x_form "на" []].
Definition el5 := x_lemma "5" "коты" ["NOUN"; "anim"]%string [x_form "коты" ["plur"; "nomn"]%string].
Lemma is_lemma1 : document_lexeme conv_doc (u "1") lemma1.
Proof.
  refine (lexeme_by el1 (el "l" [("t", "кот")]%string (gs_el ["NOUN"; "anim"; "masc"]%string)) (map u ["NOUN"; "anim"; "masc"]%string)
    [x_form "Кот" ["sing"; "nomn"]%string; x_form "кота" ["sing"; "gen1"]%string; x_form "кота" ["sing"; "accs"]%string]
    (map (fun f : string * list string => (u (fst f), (map u (snd f), map u ("NOUN" :: "anim" :: "masc" :: snd f)%string)))
       [("Кот", ["sing"; "nomn"]); ("кота", ["sing"; "gen1"]); ("кота", ["sing"; "accs"])]%string)
    [] [el2; el5] (u "1") _ _ _ _ _ _ _ _ _); try (vm_compute; reflexivity); try (vm_compute; discriminate).
  cbn [map fst snd]. constructor; [one|]. constructor; [one|]. constructor; [one|]. constructor.
Qed.
Lemma is_lemma2 : document_lexeme conv_doc (u "2") lemma2.
Proof.
  refine (lexeme_by el2 (el "l" [("t", "на")]%string (gs_el ["PREP"]%string)) [u "PREP"] [x_form "на" []] [(u "на", ([], [u "PREP"]))] [el1] [el5] (u "2") _ _ _ _ _ _ _ _ _); try (vm_compute; reflexivity); try (vm_compute; discriminate).
  constructor; [one|]. constructor.
Qed.
Lemma is_lemma5 : document_lexeme conv_doc (u "5") lemma5.
Proof.
  refine (lexeme_by el5 (el "l" [("t", "коты")]%string (gs_el ["NOUN"; "anim"]%string)) (map u ["NOUN"; "anim"]%string) [x_form "коты" ["plur"; "nomn"]%string]
    [(u "коты", (map u ["plur"; "nomn"]%string, map u ["NOUN"; "anim"; "plur"; "nomn"]%string))] [el1; el2] [] (u "5") _ _ _ _ _ _ _ _ _); try (vm_compute; reflexivity); try (vm_compute; discriminate).
  constructor; [one|]. constructor.
Qed.
Lemma the_link : x_iter (u "link") conv_doc = [x_link "1" "1" "5" "3"]. Proof. vm_compute. reflexivity. Qed.
Lemma conv_follows : forall k, follows conv_doc k -> x_get (u "from") k = Some (u "1") /\ x_get (u "to") k = Some (u "5").
Proof. intros k (I & _). rewrite the_link in I. destruct I as [<-|[]]. split; reflexivity. Qed.
Lemma leads_1_5 : leads conv_doc (u "1") (u "5").
Proof.
  apply (leads_link conv_doc (u "1") (u "1") (u "5") (x_link "1" "1" "5" "3")); [constructor| |reflexivity|reflexivity]. split; [rewrite the_link; left; reflexivity|]. exists (u "3"). split; [reflexivity|].
  intros I. apply (proj2 (smem_In _ _)) in I. vm_compute in I. discriminate I.
Qed.
Example C60_lexeme_case : exists C' z, create conv_world tc_initial (MkArgs (Some (u "/d")) None None None EstAuto SubAuto) = ([], C', Ok z) /\
  (exists ps p fam, morph_parse (z_morph z) (u "НА") = Ok ps /\ In p ps /\ is_form uni_named p (u "на", [u "PREP"]) /\ p_nf p = u "на" /\ get_lexeme (z_morph z) p = Ok fam /\ is_lexeme uni_named fam lemma2) /\
  (exists ps p fam0 rest, morph_parse (z_morph z) (u "КОТЫ") = Ok ps /\ In p ps /\ is_form uni_named p (u "коты", map u ["NOUN"; "anim"; "plur"; "nomn"]%string) /\ p_nf p = u "кот" /\
     get_lexeme (z_morph z) p = Ok (fam0 ++ rest) /\ is_lexeme uni_named fam0 lemma1).
Proof.
  destruct conv_case as (H1 & _ & H3 & _ & _ & _ & H7 & H8 & H9 & H10 & H11 & H12 & H13 & _).
  assert (PX : parse_xml uni_named false conv_doc = Ok conv_parsed).
  { assert (X : parse_xml uni_named false conv_doc = parse_xml uni_cyr false conv_doc) by (vm_compute; reflexivity). rewrite X. exact conv_parsed_eq. }
  assert (PG : plain_grammemes uni_named conv_doc) by (apply plain_grammemesb_ok; vm_compute; reflexivity).
  assert (NG : forall g, In g (u "ADJF" :: needed) -> In g (map g_name conv_rows)).
  { apply all_smem. vm_compute. reflexivity. }
  assert (WF : w_folder conv_world (u "/d") = frun (fst (convert io_json false [] false false (Ok (conv_src, conv_links, conv_rows)) demo_options demo_info)) []).
  { cbn [w_folder conv_world]. replace (str_eqb (u "/d") (u "/d")) with true by reflexivity. reflexivity. }
  destruct (C60_analyzer io_json false [] false false uni_named false conv_doc conv_parsed conv_src conv_links conv_rows demo_options conv_compiled demo_info [] tc_initial conv_world (u "/d") None
    H1 PX H3 eq_refl eq_refl PG H7 H8 H9 H10 H11 H12 (or_introl eq_refl) H13 NG uni_named_ok uni_named_stable eq_refl eq_refl eq_refl WF) as (ws & C' & z & E & A & T & _).
  rewrite (A (or_introl eq_refl)) in E. exists C', z. split; [exact E|].
  pose proof (C60_lexeme io_json false [] false false uni_named false conv_doc conv_parsed conv_src conv_links conv_rows demo_options conv_compiled demo_info [] tc_initial conv_world (u "/d") None [] C' z
    H1 PX H3 eq_refl eq_refl PG H7 H8 H9 H10 H11 H12 (or_introl eq_refl) H13 eq_refl eq_refl eq_refl WF E) as LEX.
  pose proof (C60_linked io_json false [] false false uni_named false conv_doc conv_parsed conv_src conv_links conv_rows demo_options conv_compiled demo_info [] tc_initial conv_world (u "/d") None [] C' z
    H1 PX H3 eq_refl eq_refl PG H7 H8 H9 H10 H11 H12 (or_introl eq_refl) H13 eq_refl eq_refl eq_refl WF E) as LNK.
  split.
  - destruct (T (u "НА")) as (ps & _ & PR & _).
    destruct (LEX (u "2") lemma2 0 (u "на") [u "PREP"] (u "НА") ps is_lemma2) as (p & fam & Q1 & Q2 & Q3 & Q4 & Q5).
    + intros k K. apply conv_follows in K as [-> ->]. split; intros X; vm_compute in X; discriminate X.
    + intros tg [<-|[]] I. apply (proj2 (smem_In _ _)) in I. vm_compute in I. discriminate I.
    + reflexivity.
    + vm_compute. reflexivity.
    + apply not_init. vm_compute. reflexivity.
    + exact PR.
    + assert (L : option_map (fun tg : str * list str => u_lower uni_named (fst tg)) (nth_error lemma2 0) = Some (u "на")) by (vm_compute; reflexivity). rewrite L in Q3.
      assert (Q3' : p_nf p = u "на") by (clear - Q3; congruence). exists ps, p, fam. exact (conj PR (conj Q1 (conj Q2 (conj Q3' (conj Q4 Q5))))).
  - destruct (T (u "КОТЫ")) as (ps & _ & PR & _).
    destruct (LNK (u "1") lemma1 (u "5") lemma5 (u "коты", map u ["NOUN"; "anim"; "plur"; "nomn"]%string) (u "КОТЫ") ps) as (p & fam0 & rest & Q1 & Q2 & Q3 & Q4 & Q5 & _).
    + intros l1 k1 l2 k2 l3 X. rewrite the_link in X. destruct l1 as [|? [|? l1]]; [destruct l2|..]; discriminate X.
    + intros k K. apply conv_follows in K as [_ ->]. intros X. vm_compute in X. discriminate X.
    + exact is_lemma1.
    + discriminate.
    + intros tg [<-|[<-|[<-|[]]]] I; apply (proj2 (smem_In _ _)) in I; vm_compute in I; discriminate I.
    + exact leads_1_5.
    + exact is_lemma5.
    + left. reflexivity.
    + intros I. apply (proj2 (smem_In _ _)) in I. vm_compute in I. discriminate I.
    + vm_compute. reflexivity.
    + apply not_init. vm_compute. reflexivity.
    + exact PR.
    + assert (L : option_map (fun tg : str * list str => u_lower uni_named (fst tg)) (nth_error lemma1 0) = Some (u "кот")) by (vm_compute; reflexivity). rewrite L in Q3.
      assert (Q3' : p_nf p = u "кот") by (clear - Q3; congruence). exists ps, p, fam0, rest. exact (conj PR (conj Q1 (conj Q2 (conj Q3' (conj Q4 Q5))))).
Qed.
