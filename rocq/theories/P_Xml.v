(** * Reading OpenCorpora XML (C55) *)
From Coq Require Import String List NArith ZArith Bool.
From Verif Require Import Py Uni Tagset Compile Json XmlParse Spec Spec7 Ex L_Base L_Xml L_Xml2 L_ExX.
Import ListNotations.
Local Open Scope nat_scope.
Local Open Scope list_scope.

(** the forms read from a <lemma> are the ones the specification gives, and these are unique *)
Theorem C55_lemma : forall U e id fs, word_forms U e = Ok (id, fs) ->
  id = x_get (u "id") e /\ lemma_forms U e fs /\ forall fs', lemma_forms U e fs' -> fs' = fs.
Proof. intros U e id fs H. destruct (word_forms_sound _ _ _ _ H) as (A & B). split; [exact A|]. split; [exact B|]. intros fs' B'. exact (lemma_forms_fun _ _ _ _ B' B). Qed.
Print Assumptions C55_lemma.
(** reading fails only on a missing attribute or when there is not exactly one <l> *)
Theorem C55_succeeds : forall U e, complete e -> (x_kids e = [] \/ length (x_iter (u "l") e) = 1) -> exists fs, word_forms U e = Ok (x_get (u "id") e, fs).
Proof. exact word_forms_total. Qed.
Print Assumptions C55_succeeds.
Theorem C55_one_l : forall U e, x_kids e <> [] -> length (x_iter (u "l") e) <> 1 -> word_forms U e = Err AssertionError.
Proof. exact word_forms_no_l. Qed.
Print Assumptions C55_one_l.
(** the tag text of a form reads as the grammemes of the lemma followed by those of the form *)
Theorem C55_tag : forall U base gs, u_space U (chr " ") = true -> u_space U (chr ",") = false -> base ++ gs <> [] ->
  (forall v, In v (base ++ gs) -> plain U v) ->
  split_tag (strip_by (u_space U) (join (u ",") base ++ u " " ++ join (u ",") gs)) = base ++ gs.
Proof. exact form_grammemes. Qed.
Print Assumptions C55_tag.
(** whole documents: links, grammemes, lexemes (the last lemma with an id wins), version *)
Theorem C55_document : forall U lxml doc P, flat doc -> parse_xml U lxml doc = Ok P ->
  xp_links P = map link_row (x_iter (u "link") doc) /\
  Forall2 grammeme_row (x_iter (u "grammeme") doc) (xp_grammemes P) /\
  NoDup (map fst (xp_lexemes P)) /\
  (forall id fs, lexeme_with id P = Some fs <-> exists e, last_lemma doc e /\ x_get (u "id") e = id /\ lemma_forms U e fs) /\
  (forall e, In e (x_iter (u "lemma") doc) -> lexeme_with (x_get (u "id") e) P <> None) /\
  (xp_version P, xp_revision P) = get_dictionary_info doc.
Proof. exact document_sound. Qed.
Print Assumptions C55_document.
Theorem C55_document_succeeds : forall U lxml doc, flat doc ->
  (forall e, In e (x_iter (u "grammeme") doc) -> forall t, In t [u "name"; u "alias"; u "description"] -> exists k, In k (x_kids e) /\ x_tag k = t) ->
  (forall e, In e (x_iter (u "lemma") doc) -> complete e /\ (x_kids e = [] \/ length (x_iter (u "l") e) = 1)) -> exists P, parse_xml U lxml doc = Ok P.
Proof. exact document_total. Qed.
Print Assumptions C55_document_succeeds.
Theorem C55_version : forall doc,
  (forall e, dictionary_element doc e -> get_dictionary_info doc = (x_get (u "version") e, x_get (u "revision") e)) /\
  ((forall e, ~ dictionary_element doc e) -> get_dictionary_info doc = (None, None)).
Proof. exact dictionary_version. Qed.
Print Assumptions C55_version.
(** the two XML libraries give the same result *)
Theorem C55_libraries_agree : forall U doc, flat doc -> parse_xml U true doc = parse_xml U false doc.
Proof. exact libraries_agree. Qed.
Print Assumptions C55_libraries_agree.
(** but not when a recorded element is inside another one: lxml has lost the earlier children *)
Theorem C55_libraries_agree_refuted : exists U doc P, parse_xml U false doc = Ok P /\ parse_xml U true doc = Err AssertionError.
Proof. exists uni_cyr, nested_doc. eexists. split; vm_compute; reflexivity. Qed.
Print Assumptions C55_libraries_agree_refuted.
Example C55_case : flat demo_doc /\ (exists P, parse_xml uni_cyr true demo_doc = Ok P /\
  xp_lexemes P = [(Some (u "1"), [(u "кот", u "NOUN,anim,masc sing,nomn"); (u "кота", u "NOUN,anim,masc sing,gent")]);
                  (Some (u "2"), [(u "и", u "CONJ")]); (Some (u "3"), []); (Some (u "4"), [])] /\
  xp_links P = [(Some (u "1"), Some (u "4"), Some (u "3"))] /\ xp_version P = Some (u "0.92") /\ length (xp_grammemes P) = 11).
Proof. split; [apply flatb_ok; vm_compute; reflexivity|]. eexists. split; [vm_compute; reflexivity|]. vm_compute. auto. Qed.
