(** * Model of analyzer.py:187-248: MorphAnalyzer(...) with the state of the shared tag class after an exception.
    Create.v gives the same constructor with the class state only for the successful case (and the state after
    load_dict otherwise); here the class is threaded through the binding of every unit.  L_Attempt.v shows that
    the two agree on every successful construction. *)
From Coq Require Import String List NArith ZArith Bool QArith.
From Verif Require Import Py Uni Tagset Dawg Utils Shapes Dict Units Analyzer ConfigRu ConfigUk Json Storage Create.
Import ListNotations.
Local Open Scope nat_scope.
Local Open Scope list_scope.

(** the add_grammemes_to_known calls of unit.init, made before any tag is built: abbreviations.py:27-28, :60-62, :88-90,
    by_shape.py:20-24, :104-112, unkn.py:12-15; (grammeme, Cyrillic name, overwrite) *)
Definition registers (c : ucfg) : list (str * str * bool) :=
  match c with
  | UInit true _ _ _ => [(u "Init", u "иниц", false); (u "Name", u "имя", false)]
  | UInit false _ _ _ => [(u "Init", u "иниц", false); (u "Patr", u "отч", false)]
  | UNumber _ => [(u "NUMB", u "ЧИСЛО", true); (u "intg", u "цел", true); (u "real", u "вещ", true)]
  | UPunct _ => [(u "PNCT", u "ЗПР", true)]
  | ULatin _ => [(u "LATN", u "ЛАТ", true)]
  | URoman _ => [(u "ROMN", u "РИМ", true)]
  | UUnkn => [(u "UNKN", u "НЕИЗВ", true)]
  | _ => []
  end.
Definition register (C : tagclass) (c : ucfg) : tagclass := fold_left (fun C a => add_known C (fst (fst a)) (snd (fst a)) (snd a)) (registers c) C.
(** analyzer.py:246-249 _bound_unit: the class afterwards, and the bound unit or the exception.  [ms]: what
    KnownSuffixAnalyzer._max_suffix_length finds (by_analogy.py:176-187, only called by that unit) *)
Definition bind_one (ms : res nat) (C : tagclass) (c : ucfg) : tagclass * res bunit :=
  (register C c, match c with UKnownSuffix _ _ => let* _ := ms in rmap snd (bind_unit C c) | _ => rmap snd (bind_unit C c) end).
(** the loop over units: stops at the first exception *)
Fixpoint bind_seq (ms : res nat) (C : tagclass) (l : list (ucfg * bool)) : tagclass * res (list (bunit * bool)) :=
  match l with
  | [] => (C, Ok [])
  | (c, t) :: r =>
    let '(C1, x) := bind_one ms C c in
    match x with
    | Err e => (C1, Err e)
    | Ok b => let '(C2, y) := bind_seq ms C1 r in (C2, let* us := y in Ok ((b, t) :: us))
    end
  end.
(** analyzer.py:232-238: item[:-1] with False, item[-1] with True *)
Definition bind_item (ms : res nat) (C : tagclass) (it : uitem) : tagclass * res (list (bunit * bool)) :=
  match flatten_item it with Ok l => bind_seq ms C l | Err e => (C, Err e) end.
(** analyzer.py:226-238 _init_units: item by item *)
Fixpoint bind_items (ms : res nat) (C : tagclass) (items : list uitem) : tagclass * res (list (bunit * bool)) :=
  match items with
  | [] => (C, Ok [])
  | it :: r =>
    let '(C1, x) := bind_item ms C it in
    match x with
    | Err e => (C1, Err e)
    | Ok us => let '(C2, y) := bind_items ms C1 r in (C2, let* vs := y in Ok (us ++ vs))
    end
  end.
(** analyzer.py:203-224 __init__ after the dictionary was loaded: language, estimator, substitutes, units (the items used) *)
Definition choices (W : world) (a : args) (path : str) (lang : option str) (l : loaded_dictionary) : warned (jval * option cpd * replaces * list uitem) :=
  let '(w, lg) := choose_language (meta_get (u "language_code") (ld_meta l)) lang in
  wbind (w, Ok tt) (fun _ =>
  wbind (quiet (get_prob_estimator W (a_est a) (ld_meta l) path)) (fun pr =>
  wbind (match a_sub a with SubGiven r => quiet (Ok r) | SubAuto => let '(w, c) := lang_default_config W lg in (w, rmap c_sub c) end) (fun sub =>
  wbind (match a_units a with Some us => quiet (Ok us) | None => let '(w, c) := lang_default_config W lg in (w, rmap c_units c) end) (fun items =>
  quiet (Ok (lg, pr, sub, items)))))).
(** the whole constructor, analyzer.py:187-224.  Without a KnownSuffixAnalyzer max_suffix_length is never read: 0 stands for it *)
Definition attempt (W : world) (C : tagclass) (a : args) : list warning * tagclass * res analyzer :=
  let lang := match a_path a, a_lang a with None, None => Some (u "ru") | _, l => l end in
  match choose_dictionary_path W (a_path a) lang with
  | Err e => ([], C, Err e)
  | Ok path =>
    let '(C1, r) := load_dict (w_io W) (w_big W) (w_folder W path) C in
    match r with
    | Err e => ([], C1, Err e)
    | Ok l =>
      let '(ws, x) := choices W a path lang l in
      match x with
      | Err e => (ws, C1, Err e)
      | Ok (lg, pr, sub, items) =>
        let ms := max_suffix_length (ld_meta l) in
        let '(C2, y) := bind_items ms C1 items in
        (ws, C2, let* us := y in
                 Ok (MkAnalyzer {| m_uni := w_uni W; m_ext := w_ext W;
                                   m_dict := MkDict (ld_paradigms l) (ld_gramtab l) (ld_prefixes l) (ld_suffixes l) (ld_words l) (ld_pred l) (match ms with Ok n => n | Err _ => 0 end);
                                   m_units := us; m_prob := pr; m_subst := sub; m_tc := C2 |}
                                lg (a_path a) (a_lang a) (a_result a) items))
      end
    end
  end.
(** a process that tries to make one analyzer after the other *)
Definition state_after (x : list warning * tagclass * res analyzer) : tagclass := snd (fst x).
Definition attempts (C : tagclass) (l : list (world * args)) : tagclass := fold_left (fun C wa => state_after (attempt (fst wa) C (snd wa))) l C.
