(** * A whole concrete conversion *)
From Coq Require Import String List NArith ZArith QArith Bool Lia Permutation.
From Verif Require Import Py Uni Tagset Dawg Utils Shapes Dict Units Analyzer ConfigRu ConfigUk Compile Preprocess Json Storage XmlParse Convert Spec Spec2 Spec3 Spec7 Spec8 Ex.
From Verif Require Import L_Base L_Tagset L_Config L_Parse L_ExP L_Units L_Compile2 L_Compile3 L_ExU L_ExT L_ExC L_ExS L_ExX L_Convert L_Convert2.
Import ListNotations.
Local Open Scope nat_scope.
Local Open Scope list_scope.

Definition row_el (r : grow) : xelem :=
  Elem (u "grammeme") (match g_parent r with Some p => [(u "parent", p)] | None => [] end) None
    [Elem (u "name") [] (Some (g_name r)) []; Elem (u "alias") [] (Some (g_alias r)) []; Elem (u "description") [] (Some (g_descr r)) []].
Local Open Scope string_scope.
Definition conv_doc : xelem :=
  el "dictionary" [("version", "0.92"); ("revision", "402146")]
    [el "grammemes" [] (map row_el demo_rows);
     el "lemmata" []
       [x_lemma "1" "кот" ["NOUN"; "anim"; "masc"] [x_form "Кот" ["sing"; "nomn"]; x_form "кота" ["sing"; "gen1"]; x_form "кота" ["sing"; "accs"]];
        x_lemma "2" "на" ["PREP"] [x_form "на" []];
        x_lemma "5" "коты" ["NOUN"; "anim"] [x_form "коты" ["plur"; "nomn"]]];
     el "links" [] [x_link "1" "1" "5" "3"]].
Local Close Scope string_scope.
Definition conv_parsed : parsed := get_ok (MkParsed [] [] [] None None) (parse_xml uni_cyr false conv_doc).
Definition conv_source : source := match source_of conv_parsed with Some s => s | None => ([], [], []) end.
Definition conv_src := fst (fst conv_source).
Definition conv_links := snd (fst conv_source).
Definition conv_rows := snd conv_source.
Definition conv_compiled : compiled := get_ok (MkCompiled [] [] [] [] [] demo_options) (compile_parsed_dict demo_options (prepared conv_src) conv_links).
Definition conv_save : saving := convert io_json false [] false false (Ok conv_source) demo_options demo_info.
Definition conv_dict : dict := match snd (load_dict io_json false (frun (fst conv_save) []) tc_initial) with Ok l => get_ok null_dict (dictionary l) | Err _ => null_dict end.
Definition conv_morph : morph := snd (get_ok (tc_initial, null_morph)
  (construct uni_cyr false tc_initial conv_rows (x_gramtab conv_compiled) (fun _ => conv_dict) None e_yo RU_DEFAULT_UNITS)).
Lemma acyclic_one : forall a b : N, a <> b -> acyclic [(a, b)].
Proof.
  intros a b N c l H. assert (X : forall l c, chain [(a, b)] (c :: l) -> l = [] \/ (c = a /\ l = [b])).
  { clear - N. intros l c H. destruct l as [|d l]; [auto|]. destruct H as [[H|[]] H2]. injection H as <- <-. destruct l as [|e l]; [auto|]. destruct H2 as [[H|[]] _]. injection H as H _. destruct (N H). }
  destruct (X _ _ H) as [E1|[-> E1]]; destruct l as [|d [|e l]]; try discriminate. injection E1 as E1. apply N. auto.
Qed.
Definition plain_grammemesb (U : uni) (doc : xelem) : bool :=
  forallb (fun g => match x_get (u "v") g with Some v => L_ExT.plainb U v && (length v <=? 4) | None => false end) (x_iter (u "g") doc).
Lemma plain_grammemesb_ok : forall U doc, plain_grammemesb U doc = true -> plain_grammemes U doc.
Proof.
  intros U doc H g I. unfold plain_grammemesb in H. rewrite forallb_forall in H. specialize (H g I). cbn beta in H. destruct (x_get (u "v") g) as [v|]; [|discriminate H]. apply andb_true_iff in H as [A B].
  exists v. split; [auto|]. split; [apply L_ExT.plainb_ok; auto|apply Nat.leb_le; auto].
Qed.
Definition declaredb (doc : xelem) (rows : list grow) : bool :=
  forallb (fun g => match x_get (u "v") g with Some v => smem v (map g_name rows) && smem (common_case v) (map g_name rows) | None => true end) (x_iter (u "g") doc).
Lemma declaredb_ok : forall doc rows, declaredb doc rows = true -> declared doc rows.
Proof.
  intros doc rows H g v I E. unfold declaredb in H. rewrite forallb_forall in H. specialize (H g I). cbn beta in H. rewrite E in H. apply andb_true_iff in H as [A B]. split; apply smem_In; auto.
Qed.
Lemma get_ok_some : forall {A} (r : res A) d, okb r = true -> r = Ok (get_ok d r).
Proof. intros A [a|e] d H; [auto|discriminate H]. Qed.
Lemma conv_parsed_eq : parse_xml uni_cyr false conv_doc = Ok conv_parsed. Proof. apply get_ok_some. vm_compute. reflexivity. Qed.
Lemma conv_source_eq : source_of conv_parsed = Some (conv_src, conv_links, conv_rows). Proof. vm_compute. reflexivity. Qed.
Lemma conv_compiled_eq : compile_parsed_dict demo_options (prepared conv_src) conv_links = Ok conv_compiled. Proof. apply get_ok_some. vm_compute. reflexivity. Qed.
Lemma conv_codec : io_read_words io_json (io_words io_json (x_words conv_compiled)) = Ok (x_words conv_compiled) /\
  (forall p, In p (x_pred conv_compiled) -> io_read_pred io_json (io_pred io_json p) = Ok p).
Proof.
  split; [apply (chk form_eqb _ _ form_eqb_eq); vm_compute; reflexivity|].
  apply (chks form3_eqb (fun p => io_read_pred io_json (io_pred io_json p)) _ form3_eqb_eq). vm_compute. reflexivity.
Qed.
Lemma conv_morph_eq : construct uni_cyr false tc_initial conv_rows (x_gramtab conv_compiled) (fun _ => conv_dict) None e_yo RU_DEFAULT_UNITS = Ok (m_tc conv_morph, conv_morph).
Proof. apply get_snd; [vm_compute; reflexivity|]. intros C M H. exact (construct_tc _ _ _ _ _ _ _ _ _ _ _ H). Qed.
Lemma two_b : forall r a b, match r with Ok [p; q] => str_eqb (t_str (p_tag p)) a && str_eqb (t_str (p_tag q)) b | _ => false end = true ->
  exists p q, r = Ok [p; q] /\ t_str (p_tag p) = a /\ t_str (p_tag q) = b.
Proof. intros [[|p [|q [|? ?]]]|] a b H; try discriminate H. apply andb_true_iff in H as [A B]. apply str_eqb_eq in A, B. eauto. Qed.
Lemma load_b : forall r : res loaded_dictionary, match r with Ok l => match dictionary l with Ok _ => true | _ => false end | _ => false end = true ->
  exists l, r = Ok l /\ dictionary l = Ok (match r with Ok l => get_ok null_dict (dictionary l) | Err _ => null_dict end).
Proof. intros [l|] H; [|discriminate H]. exists l. split; [auto|]. destruct (dictionary l) as [D|]; [auto|discriminate H]. Qed.
Lemma conv_form : document_form conv_doc (u "кота") [u "NOUN"; u "anim"; u "masc"; u "sing"; u "gen1"].
Proof.
  set (e := x_lemma "1" "кот" ["NOUN"; "anim"; "masc"]%string [x_form "Кот" ["sing"; "nomn"]%string; x_form "кота" ["sing"; "gen1"]%string; x_form "кота" ["sing"; "accs"]%string]).
  exists e, (el "l" [("t", "кот")]%string (gs_el ["NOUN"; "anim"; "masc"]%string)), (x_form "кота" ["sing"; "gen1"]%string), [u "NOUN"; u "anim"; u "masc"], [u "sing"; u "gen1"]. split; [|split; [vm_compute; reflexivity|split; [vm_compute; reflexivity|split; [|split; [|split; [vm_compute; reflexivity|split; [vm_compute; reflexivity|reflexivity]]]]]]].
  - exists [], [x_lemma "2" "на" ["PREP"]%string [x_form "на" []]; x_lemma "5" "коты" ["NOUN"; "anim"]%string [x_form "коты" ["plur"; "nomn"]%string]]. split; [vm_compute; reflexivity|].
    intros e' [<-|[<-|[]]]; vm_compute; discriminate.
  - right. left. reflexivity.
  - intros f' _ (gs & _ & H). vm_compute in H. discriminate H.
Qed.
Lemma conv_case : flat conv_doc /\ parse_xml uni_cyr false conv_doc = Ok conv_parsed /\ source_of conv_parsed = Some (conv_src, conv_links, conv_rows) /\
  u_space uni_cyr (chr " ") = true /\ u_space uni_cyr (chr ",") = false /\ plain_grammemes uni_cyr conv_doc /\ declared conv_doc conv_rows /\
  links_exist conv_src (effective conv_links) /\ acyclic (effective conv_links) /\ compile_parsed_dict demo_options (prepared conv_src) conv_links = Ok conv_compiled /\
  io_read_words io_json (io_words io_json (x_words conv_compiled)) = Ok (x_words conv_compiled) /\
  (forall p, In p (x_pred conv_compiled) -> io_read_pred io_json (io_pred io_json p) = Ok p) /\
  snd (convert io_json false [] false false (Ok (conv_src, conv_links, conv_rows)) demo_options demo_info) = Ok tt /\
  length (fst (convert io_json false [] false false (Ok (conv_src, conv_links, conv_rows)) demo_options demo_info)) = 4590 /\
  (exists l, snd (load_dict io_json false (frun (fst (convert io_json false [] false false (Ok (conv_src, conv_links, conv_rows)) demo_options demo_info)) []) tc_initial) = Ok l /\ dictionary l = Ok (m_dict conv_morph)) /\
  m_uni conv_morph = uni_cyr /\ has_units conv_morph RU_DEFAULT_UNITS /\ m_prob conv_morph = None /\
  document_form conv_doc (u "кота") [u "NOUN"; u "anim"; u "masc"; u "sing"; u "gen1"] /\ u_lower uni_cyr (u "КОТА") = u_lower uni_cyr (u "кота") /\
  exists p q, morph_parse conv_morph (u "КОТА") = Ok [p; q] /\ t_str (p_tag p) = u "NOUN,anim,masc sing,gent" /\ t_str (p_tag q) = u "NOUN,anim,masc sing,accs".
Proof.
  split; [apply flatb_ok; vm_compute; reflexivity|]. split; [exact conv_parsed_eq|]. split; [exact conv_source_eq|]. split; [reflexivity|]. split; [reflexivity|].
  split; [apply plain_grammemesb_ok; vm_compute; reflexivity|]. split; [apply declaredb_ok; vm_compute; reflexivity|].
  assert (E : effective conv_links = [(1%N, 5%N)]) by (vm_compute; reflexivity). assert (K : map fst conv_src = [1; 2; 5]%N) by (vm_compute; reflexivity).
  split; [intros s e H; rewrite E in H; rewrite K; destruct H as [H|[]]; injection H as <- <-; simpl; auto 8|]. split; [rewrite E; apply acyclic_one; discriminate|]. split; [exact conv_compiled_eq|].
  split; [exact (proj1 conv_codec)|]. split; [exact (proj2 conv_codec)|]. split; [vm_compute; reflexivity|]. split; [vm_compute; reflexivity|].
  assert (D : m_dict conv_morph = conv_dict) by (vm_compute; reflexivity).
  split; [rewrite D; apply (load_b (snd (load_dict io_json false (frun (fst conv_save) []) tc_initial))); vm_compute; reflexivity|].
  destruct (construct_units _ _ _ _ _ _ _ _ _ _ _ conv_morph_eq) as (HU & _).
  split; [vm_compute; reflexivity|]. split; [exact HU|]. split; [vm_compute; reflexivity|]. split; [exact conv_form|]. split; [vm_compute; reflexivity|].
  apply two_b. vm_compute. reflexivity.
Qed.
