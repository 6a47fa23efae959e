(** * Model of analyzer.py:98-298: MorphAnalyzer(...), dictionary and language selection, pickling *)
From Coq Require Import String List NArith ZArith Bool QArith.
From Verif Require Import Py Uni Tagset Dawg Utils Shapes Dict Units Analyzer ConfigRu ConfigUk Json Storage.
Import ListNotations.
Local Open Scope nat_scope.
Local Open Scope list_scope.

(** Everything outside the arguments that the constructor looks at: PYMORPHY2_DICT_PATH; the entry points 'pymorphy2_dicts'
    (name, path) in the order they are found; the path of the old pymorphy2_dicts package, if it can be imported; the folders on
    disk (a missing folder is an empty one); the names of pymorphy2.lang other than ru and uk (e.g. __name__); the DAWG library;
    a reader for p_t_given_w.intdawg. *)
Record world := MkWorld {
  w_env : option str; w_packages : list (str * str); w_old : option str; w_folder : str -> folder; w_attrs : list str;
  w_io : dawgio; w_big : bool; w_uni : uni; w_ext : bool; w_cpd : list N -> res cpd }.

(** The arguments.  A custom estimator class is modelled as another way to get a P(t|w) table from the path; char_substitutes=None
    is the empty table (analyzer.py:243); of result_type only the name is kept. *)
Inductive estimator := EstAuto | EstNone | EstClass (load : str -> res cpd).
Inductive substitutes := SubAuto | SubGiven (r : replaces).
Record args := MkArgs {
  a_path : option str; a_lang : option str; a_result : option str; a_units : option (list uitem);
  a_est : estimator; a_sub : substitutes }.

(** dict(pairs): the last one wins *)
Definition dict_of (l : list (str * str)) : list (str * str) := fold_left (fun d kv => sset_ (fst kv) (snd kv) d) l [].
(** analyzer.py:119-132 _lang_dict_paths *)
Definition lang_dict_paths (W : world) : list (str * str) :=
  let d := dict_of (w_packages W) in
  match w_old W with Some p => sset_ (u "ru-old") p d | None => d end.
(** analyzer.py:135-146 lang_dict_path *)
Definition lang_dict_path (W : world) (lang : str) : res str :=
  match sget lang (lang_dict_paths W) with Some p => Ok p | None => Err ValueError end.
(** analyzer.py:272-280 choose_dictionary_path; [lang] is only looked at when it is not None (analyzer.py:198-199) *)
Definition choose_dictionary_path (W : world) (path : option str) (lang : option str) : res str :=
  match path with
  | Some p => Ok p
  | None => match w_env W with
            | Some p => Ok p
            | None => match lang with Some l => lang_dict_path W l | None => Err ValueError end
            end
  end.

(** warnings.warn calls *)
Inductive warning := WNoLanguage | WMismatch (declared : jval) (requested : str) | WUnknownLanguage (code : str).
(** analyzer.py:282-298 choose_language; [dl] is meta.get('language_code'), JNull when missing *)
Definition choose_language (dl : jval) (lang : option str) : list warning * jval :=
  match lang with
  | None => match dl with JNull => ([WNoLanguage], JStr (u "ru")) | _ => ([], dl) end
  | Some l => (match dl with JStr d => if str_eqb d l then [] else [WMismatch dl l] | _ => [WMismatch dl l] end, JStr l)
  end.

(** lang/ru/config.py, lang/uk/config.py: DEFAULT_UNITS and CHAR_SUBSTITUTES *)
Record config := MkConfig { c_units : list uitem; c_sub : replaces }.
Definition ru_config : config := MkConfig RU_DEFAULT_UNITS [(chr "е", chr "ё")].
Definition uk_config : config := MkConfig UK_DEFAULT_UNITS [(chr "г", chr "ґ")].
(** analyzer.py:250-261 _lang_default_config and _config_value: without a value in the language module the class attributes
    DEFAULT_UNITS, DEFAULT_SUBSTITUTES are used, which are the Russian ones (analyzer.py:184-185) *)
Definition lang_default_config (W : world) (lang : jval) : list warning * res config :=
  match lang with
  | JStr l =>
    let l := if str_eqb l (u "ru-old") then u "ru" else l in
    if str_eqb l (u "ru") then ([], Ok ru_config)
    else if str_eqb l (u "uk") then ([], Ok uk_config)
    else ((if smem l (w_attrs W) then [] else [WUnknownLanguage l]), Ok ru_config)
  | JNull => ([], Err AssertionError)
  | _ => ([], Err TypeError)
  end.

(** bool(value) of a JSON value; of a real: some digit before the exponent is not zero (underflow is not modelled, and the
    constructor never meets a real: load_meta reads them as texts) *)
Definition json_true (v : jval) : bool :=
  match v with
  | JNull => false | JBool b => b | JInt z => negb (Z.eqb z 0)
  | JReal s => existsb (fun c => ((49 <=? c) && (c <=? 57))%N) s
  | JStr s => match s with [] => false | _ => true end
  | JArr l => match l with [] => false | _ => true end
  | JObj l => match l with [] => false | _ => true end
  end.
Definition meta_get (k : str) (m : meta) : jval := match sget k m with Some v => v | None => JNull end.
(** analyzer.py:69-72 ProbabilityEstimator.__init__ *)
Definition default_estimator (W : world) (path : str) : res cpd :=
  let* b := read_file (w_folder W path) (u "p_t_given_w.intdawg") in w_cpd W b.
(** analyzer.py:263-270 _get_prob_estimator *)
Definition get_prob_estimator (W : world) (e : estimator) (m : meta) (path : str) : res (option cpd) :=
  match e with
  | EstNone => Ok None
  | EstClass load => let* c := load path in Ok (Some c)
  | EstAuto => if json_true (meta_get (u "P(t|w)") m) then let* c := default_estimator W path in Ok (Some c) else Ok None
  end.

(** what the object keeps *)
Record analyzer := MkAnalyzer {
  z_morph : morph; z_lang : jval; z_path_arg : option str; z_lang_arg : option str; z_result : option str; z_units : list uitem }.
(** a computation with warnings *)
Definition warned A := (list warning * res A)%type.
Definition wbind {A B} (x : warned A) (f : A -> warned B) : warned B :=
  match snd x with Err e => (fst x, Err e) | Ok a => (fst x ++ fst (f a), snd (f a)) end.
Definition quiet {A} (r : res A) : warned A := ([], r).
(** analyzer.py:190-224 __init__, after the dictionary was loaded as [l] into tag class [C] *)
Definition finish (W : world) (a : args) (path : str) (lang : option str) (l : loaded_dictionary) (C : tagclass) : warned (tagclass * analyzer) :=
  wbind (quiet (dictionary l)) (fun D =>
  let '(w, lg) := choose_language (meta_get (u "language_code") (ld_meta l)) lang in
  wbind (w, Ok tt) (fun _ =>
  wbind (quiet (get_prob_estimator W (a_est a) (ld_meta l) path)) (fun pr =>
  wbind (match a_sub a with SubGiven r => quiet (Ok r) | SubAuto => let '(w, c) := lang_default_config W lg in (w, rmap c_sub c) end) (fun sub =>
  wbind (match a_units a with Some us => quiet (Ok us) | None => let '(w, c) := lang_default_config W lg in (w, rmap c_units c) end) (fun items =>
  wbind (quiet (init_units C items)) (fun b =>
  quiet (Ok (fst b, MkAnalyzer {| m_uni := w_uni W; m_ext := w_ext W; m_dict := D; m_units := snd b; m_prob := pr; m_subst := sub; m_tc := fst b |}
                      lg (a_path a) (a_lang a) (a_result a) items)))))))).
(** the whole constructor: warnings, the tag class afterwards, the analyzer.  When an exception is raised after the dictionary was
    loaded the tag class stays as load_dict left it (Attempt.v adds the grammemes of units bound before a failing unit, see C87).
    max_suffix_length is read when the dictionary is made (in the code: by KnownSuffixAnalyzer.init). *)
Definition create (W : world) (C : tagclass) (a : args) : list warning * tagclass * res analyzer :=
  let lang := match a_path a, a_lang a with None, None => Some (u "ru") | _, l => l end in
  match choose_dictionary_path W (a_path a) lang with
  | Err e => ([], C, Err e)
  | Ok path =>
    let '(C1, r) := load_dict (w_io W) (w_big W) (w_folder W path) C in
    match r with
    | Err e => ([], C1, Err e)
    | Ok l => let '(w, x) := finish W a path lang l C1 in
              match x with Err e => (w, C1, Err e) | Ok (C2, z) => (w, C2, Ok z) end
    end
  end.
(** analyzer.py:442-444 __reduce__: the arguments unpickling passes to the constructor *)
Definition reduce (z : analyzer) : args := MkArgs (z_path_arg z) (z_lang_arg z) (z_result z) (Some (z_units z)) EstAuto SubAuto.
