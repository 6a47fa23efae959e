(** * Model of pymorphy2/opencorpora_dict/parse.py *)
From Coq Require Import String List NArith ZArith Bool.
From Verif Require Import Py Uni Tagset Compile.
Import ListNotations.
Local Open Scope nat_scope.
Local Open Scope list_scope.

(** An XML element as lxml / ElementTree present it (external libraries): tag, attributes (names are unique), text before
    the first child (None when there is none), children.  Comments, processing instructions, tails and the text of the
    file itself are not modelled; the file is well-formed. *)
Inductive xelem := Elem (xtag : str) (attrs : list (str * str)) (text : option str) (kids : list xelem).
Definition x_tag (e : xelem) : str := match e with Elem t _ _ _ => t end.
Definition x_attrs (e : xelem) : list (str * str) := match e with Elem _ a _ _ => a end.
Definition x_text (e : xelem) : option str := match e with Elem _ _ t _ => t end.
Definition x_kids (e : xelem) : list xelem := match e with Elem _ _ _ k => k end.
(** elem.get(name) *)
Definition x_get (n : str) (e : xelem) : option str := sget n (x_attrs e).
(** elem.iter(): the element and all its descendants in document order; elem.iter(tag) keeps those with the tag *)
Fixpoint preorder (e : xelem) : list xelem :=
  match e with Elem t a x ks => e :: flat_map preorder ks end.
Definition has_tag (t : str) (e : xelem) : bool := str_eqb (x_tag e) t.
Definition x_iter (t : str) (e : xelem) : list xelem := filter (has_tag t) (preorder e).
(** elem.find(tag).text: the first child with the tag; AttributeError when there is none *)
Definition find_text (t : str) (e : xelem) : res (option str) :=
  match find (has_tag t) (x_kids e) with Some k => Ok (x_text k) | None => Err AttributeError end.

(** parse.py:104-105 _grammemes_from_elem: joining a missing (None) v is a TypeError *)
Definition grammemes_from_elem (e : xelem) : res str :=
  let* vs := mapM (fun g => match x_get (u "v") g with Some v => Ok v | None => Err TypeError end) (x_iter (u "g") e) in
  Ok (join (u ",") vs).

(** parse.py:108-134 _word_forms_from_xml_elem.  [None] is the early return of the empty lexeme. *)
Definition form_step (U : uni) (base : str) (acc : option lexeme) (f : xelem) : res (option lexeme) :=
  match acc with
  | None => Ok None
  | Some lx =>
      let* gr := grammemes_from_elem f in
      let* t := match x_get (u "t") f with Some t => Ok t | None => Err AttributeError end in
      match base ++ gr with
      | [] => Ok None
      | _ => Ok (Some (lx ++ [(u_lower U t, strip_by (u_space U) (base ++ u " " ++ gr))]))
      end
  end.
Definition word_forms (U : uni) (e : xelem) : res (option str * lexeme) :=
  let id := x_get (u "id") e in
  match x_kids e with
  | [] => Ok (id, [])
  | _ =>
      match x_iter (u "l") e with
      | [b] =>
          let* base := grammemes_from_elem b in
          let* r := foldM (form_step U base) (Some []) (x_iter (u "f") e) in
          Ok (id, match r with Some lx => lx | None => [] end)
      | _ => Err AssertionError
      end
  end.

(** parse.py:34 ParsedDictionary.  Ids, link attributes and texts may be missing (None). *)
Definition xgram := (option str * option str * option str * option str)%type.
Definition xlink := (option str * option str * option str)%type.
Record parsed := MkParsed {
  xp_lexemes : list (option str * lexeme); xp_links : list xlink; xp_grammemes : list xgram;
  xp_version : option str; xp_revision : option str }.

(** parse.py:37-46 get_dictionary_info: elements in the order of their start tags *)
Fixpoint dictionary_info (limit idx : nat) (l : list xelem) : option str * option str :=
  match l with
  | [] => (None, None)
  | e :: r =>
      if has_tag (u "dictionary") e then (x_get (u "version") e, x_get (u "revision") e)
      else if limit <? idx then (None, None)
      else dictionary_info limit (S idx) r
  end.
Definition get_dictionary_info (doc : xelem) : option str * option str := dictionary_info 1000 0 (preorder doc).

(** parse.py:60 interesting_tags *)
Definition interesting (e : xelem) : bool := has_tag (u "grammeme") e || has_tag (u "lemma") e || has_tag (u "link") e.
(** parse.py:70-93: what is recorded for one interesting element *)
Definition handle (U : uni) (P : parsed) (e : xelem) : res parsed :=
  let* P1 :=
    if has_tag (u "grammeme") e then
      let* name := find_text (u "name") e in
      let parent := x_get (u "parent") e in
      let* alias := find_text (u "alias") e in
      let* descr := find_text (u "description") e in
      Ok (MkParsed (xp_lexemes P) (xp_links P) (xp_grammemes P ++ [(name, parent, alias, descr)]) (xp_version P) (xp_revision P))
    else Ok P in
  if has_tag (u "lemma") e then
    let* w := word_forms U e in
    Ok (MkParsed (dset (opt_eqb str_eqb) (fst w) (snd w) (xp_lexemes P1)) (xp_links P1) (xp_grammemes P1) (xp_version P1) (xp_revision P1))
  else if has_tag (u "link") e then
    Ok (MkParsed (xp_lexemes P1) (xp_links P1 ++ [(x_get (u "from") e, x_get (u "to") e, x_get (u "type") e)]) (xp_grammemes P1) (xp_version P1) (xp_revision P1))
  else Ok P1.

(** parse.py:13-28 xml_clear_elem: the element loses everything but its tag *)
Definition cleared (e : xelem) : xelem := Elem (x_tag e) [] None [].

(** parse.py:62-93 the loop over iterparse (events in the order of end tags).  [lxml] tells which xml_clear_elem is in use: with lxml the
    earlier siblings of a cleared element are deleted from its parent, too.  Returns what the parent sees of the element afterwards. *)
Fixpoint walk (U : uni) (lxml : bool) (e : xelem) (P : parsed) : res (parsed * xelem) :=
  match e with
  | Elem t a x ks =>
      let fix go (ks : list xelem) (kept : list xelem) (P : parsed) : res (parsed * list xelem) :=
        match ks with
        | [] => Ok (P, kept)
        | k :: r =>
            let* pk := walk U lxml k P in
            go r (if lxml && interesting k then [snd pk] else kept ++ [snd pk]) (fst pk)
        end in
      let* pk := go ks [] P in
      let e' := Elem t a x (snd pk) in
      if interesting e' then let* P' := handle U (fst pk) e' in Ok (P', cleared e')
      else Ok (fst pk, e')
  end.

(** parse.py:48-101 parse_opencorpora_xml *)
Definition parse_xml (U : uni) (lxml : bool) (doc : xelem) : res parsed :=
  let vr := get_dictionary_info doc in
  let* r := walk U lxml doc (MkParsed [] [] [] (fst vr) (snd vr)) in
  Ok (fst r).
