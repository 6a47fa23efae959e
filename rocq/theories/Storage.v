(** * Model of pymorphy2/opencorpora_dict/storage.py *)
From Coq Require Import String List NArith ZArith Bool.
From Verif Require Import Py Uni Tagset Dawg Dict Compile Json.
Import ListNotations.
Local Open Scope nat_scope.
Local Open Scope list_scope.

(** ** The dictionary folder: file names with their bytes *)
Definition folder := list (str * list N).
(** file operations, at the granularity of single bytes: opening a file for writing truncates it; buffering makes
    several [Put]s happen at once, which is a special case *)
Inductive fop := Create (name : str) | Put (name : str) (b : N).
Definition fexec (d : folder) (o : fop) : folder :=
  match o with
  | Create f => sset_ f [] d
  | Put f b => sset_ f (match sget f d with Some c => c | None => [] end ++ [b]) d
  end.
Definition frun (ops : list fop) (d : folder) : folder := fold_left fexec ops d.
Definition write_ops (name : str) (b : list N) : list fop := Create name :: map (Put name) b.
(** a step of saving: the operations done, then success or an exception *)
Definition saving := (list fop * res unit)%type.
Definition sdone : saving := ([], Ok tt).
Definition sthen (a b : saving) : saving :=
  match snd a with Ok _ => (fst a ++ fst b, snd b) | Err _ => a end.
(** open(name, 'rb') *)
Definition read_file (d : folder) (name : str) : res (list N) :=
  match sget name d with Some b => Ok b | None => Err FileError end.
(** utils.py:74-80 json_write.  When the text cannot be encoded the exception comes while writing (the part already
    written is not modelled: the file is left empty). *)
Definition json_write (name : str) (v : jval) : saving :=
  match json_bytes v with
  | Ok b => (write_ops name b, Ok tt)
  | Err e => ([Create name], Err e)
  end.

(** ** paradigms.array *)
(** struct.pack("<H", n): little-endian; struct.error when it does not fit *)
Definition pack_H (n : nat) : res (list N) :=
  if fits16 n then Ok [N.of_nat n mod 256; N.of_nat n / 256]%N else Err StructError.
(** array('H').tofile: the machine's byte order ([big]: big-endian); items of an array('H') always fit *)
Definition native_H (big : bool) (n : nat) : list N :=
  if big then [N.of_nat n / 256; N.of_nat n mod 256]%N else [N.of_nat n mod 256; N.of_nat n / 256]%N.
(** storage.py:103-107: the chunks written, each possibly raising *)
Definition paradigm_chunks (big : bool) (ps : list (list nat)) : list (res (list N)) :=
  pack_H (length ps) :: flat_map (fun p => [pack_H (length p); Ok (flat_map (native_H big) p)]) ps.
Fixpoint put_chunks (name : str) (cs : list (res (list N))) : saving :=
  match cs with
  | [] => sdone
  | Err e :: _ => ([], Err e)
  | Ok b :: r => sthen (map (Put name) b, Ok tt) (put_chunks name r)
  end.
Definition save_paradigms (big : bool) (name : str) (ps : list (list nat)) : saving :=
  sthen ([Create name], Ok tt) (put_chunks name (paradigm_chunks big ps)).

(** f.read(2) and struct.unpack("<H"): struct.error on a short read *)
Definition read_H (b : list N) : res (nat * list N) :=
  match b with
  | x :: y :: r => Ok (N.to_nat (x + 256 * y), r)
  | _ => Err StructError
  end.
(** array('H').fromfile(f, n): EOFError when fewer than n items are available (FileError here) *)
Fixpoint read_items (big : bool) (n : nat) (b : list N) : res (list nat * list N) :=
  match n with
  | 0 => Ok ([], b)
  | S n' =>
    match b with
    | x :: y :: r =>
      let* vt := read_items big n' r in
      Ok (N.to_nat (if big then 256 * x + y else x + 256 * y) :: fst vt, snd vt)
    | _ => Err FileError
    end
  end.
Fixpoint read_paras (big : bool) (n : nat) (b : list N) : res (list (list nat)) :=
  match n with
  | 0 => Ok []                                     (* the rest of the file is not looked at *)
  | S n' =>
    let* lb := read_H b in
    let* pb := read_items big (fst lb) (snd lb) in
    let* ps := read_paras big n' (snd pb) in
    Ok (fst pb :: ps)
  end.
(** storage.py:196-209 _load_paradigms *)
Definition load_paradigms (big : bool) (b : list N) : res (list (list nat)) :=
  let* nb := read_H b in read_paras big (fst nb) (snd nb).

(** ** meta.json *)
Definition meta := list (str * jval).
(** one element of the list given to OrderedDict: an iterable of two items.  Non-string keys are outside the model
    (NotImplementedError). *)
Definition meta_pair (v : jval) : res (str * jval) :=
  match v with
  | JArr [JStr k; x] => Ok (k, x)
  | JArr [JArr _; _] => Err TypeError              (* unhashable *)
  | JArr [JObj _; _] => Err TypeError
  | JArr [_; _] => Err NotImplementedError
  | JArr _ => Err ValueError
  | JStr [a; b] => Ok ([a], JStr [b])
  | JStr _ => Err ValueError
  | JObj [(k, _); (k2, _)] => Ok (k, JStr k2)
  | JObj _ => Err ValueError
  | _ => Err TypeError
  end.
(** storage.py:144-149 load_meta *)
Definition parse_meta (v : jval) : res meta :=
  match v with
  | JArr l => foldM (fun acc x => let* kv := meta_pair x in Ok (sset_ (fst kv) (snd kv) acc)) [] l
  | JObj l => Ok l
  | JStr [] => Ok []
  | JStr _ => Err ValueError
  | _ => Err TypeError
  end.
Definition load_meta (d : folder) (name : str) : res meta :=
  let* b := read_file d name in
  let* v := json_read true b in
  parse_meta v.
(** storage.py:152-156 write_meta (a dict becomes the list of its items) *)
Definition meta_json (m : meta) : jval := JArr (map (fun kv => JArr [JStr (fst kv); snd kv]) m).
Definition write_meta (name : str) (m : meta) : saving := json_write name (meta_json m).
(** storage.py:159-163 update_meta *)
Definition meta_update (m : meta) (extra : list (str * jval)) : meta :=
  fold_left (fun acc kv => sset_ (fst kv) (snd kv) acc) extra m.
Definition update_meta (d : folder) (name : str) (extra : list (str * jval)) : saving :=
  match load_meta d name with
  | Err e => ([], Err e)
  | Ok m => write_meta name (meta_update m extra)
  end.

(** storage.py:28 *)
Definition CURRENT_FORMAT_VERSION : str := u "2.4".
(** storage.py:212-226 _assert_format_is_compatible.  str() of a value that is not a string has no dot, or starts with
    a bracket, so that every branch raises ValueError; str(nan) etc. have no dot either. *)
Definition assert_format (m : meta) : res unit :=
  match (match sget (u "format_version") m with Some v => v | None => JStr (u "0.0") end) with
  | JStr fv =>
    if negb (mem_char (chr ".") fv) then Err ValueError
    else match split_on (chr ".") fv, split_on (chr ".") CURRENT_FORMAT_VERSION with
         | [major; _], [curr_major; _] => if str_eqb major curr_major then Ok tt else Err ValueError
         | _, _ => Err ValueError                  (* too many values to unpack *)
         end
  | _ => Err ValueError
  end.

(** ** The external DAWG file format *)
Record dawgio := MkIO {
  io_words : rdawg (nat * nat) -> list N;                      (* WordsDawg.save *)
  io_read_words : list N -> res (rdawg (nat * nat));           (* WordsDawg.load *)
  io_pred : rdawg (nat * nat * nat) -> list N;                 (* PredictionSuffixesDAWG.save *)
  io_read_pred : list N -> res (rdawg (nat * nat * nat))       (* PredictionSuffixesDAWG.load *)
}.

(** ** Saving *)
(** what save_compiled_dict gets besides the compiled data: language code, source name, version and time stamps, and
    the sizes of the source *)
Record saveinfo := MkInfo {
  si_lang : option str; si_pymorphy : str; si_time : str; si_source : str;
  si_version : str; si_revision : str; si_lexemes : nat; si_links : nat
}.
Definition jnat (n : nat) : jval := JInt (Z.of_nat n).
Definition jstrs (l : list str) : jval := JArr (map JStr l).
Definition jopt (o : option str) : jval := match o with Some s => JStr s | None => JNull end.
(** parsed_dict.grammemes: rows (name, parent, alias, description) *)
Definition grammemes_json (rows : list grow) : jval :=
  JArr (map (fun r => JArr [JStr (g_name r); jopt (g_parent r); JStr (g_alias r); JStr (g_descr r)]) rows).
(** tagset.py:576-579 _init_alias_map: the class-level map keeps earlier entries *)
Definition alias_map (prev : list (str * str)) (rows : list grow) : list (str * str) :=
  fold_left (fun m r => sset_ (g_name r) (g_alias r) m) rows prev.
(** tagset.py:541-546 CyrillicOpencorporaTag._from_internal_tag.  str.replace with an empty grammeme name (which would
    insert the alias everywhere) is not modelled: it leaves the text as it is. *)
Definition from_internal_ext (m : list (str * str)) (t : str) : str :=
  fold_left (fun t na => match snd na, fst na with [], _ => t | _, [] => t | alias, name => replace_all name alias t end) m t.
Definition pred_name (i : nat) : str := u "prediction-suffixes-" ++ dec_N (N.of_nat i) ++ u ".dawg".
(** compile.py:66-72: the options dict *)
Definition options_json (o : coptions) : jval :=
  JObj [(u "min_ending_freq", jnat (o_min_freq o)); (u "min_paradigm_popularity", jnat (o_min_pop o));
        (u "max_suffix_length", jnat (o_max_suffix o)); (u "paradigm_prefixes", jstrs (o_prefixes o))].
(** storage.py:119-127: _dawg_len counts iterkeys(), one per (key, value) pair for a RecordDAWG; here: one per key and value *)
Definition dawg_len {V} (d : rdawg V) : nat := length (flat_map snd d).
(** storage.py:129-151 *)
Definition save_meta (x : compiled) (info : saveinfo) : meta :=
  [(u "language_code", jopt (si_lang info));
   (u "format_version", JStr CURRENT_FORMAT_VERSION);
   (u "pymorphy2_version", JStr (si_pymorphy info));
   (u "compiled_at", JStr (si_time info));
   (u "source", JStr (si_source info));
   (u "source_version", JStr (si_version info));
   (u "source_revision", JStr (si_revision info));
   (u "source_lexemes_count", jnat (si_lexemes info));
   (u "source_links_count", jnat (si_links info));
   (u "gramtab_length", jnat (length (x_gramtab x)));
   (u "gramtab_formats", JObj [(u "opencorpora-ext", JStr (u "gramtab-opencorpora-ext.json"));
                               (u "opencorpora-int", JStr (u "gramtab-opencorpora-int.json"))]);
   (u "paradigms_length", jnat (length (x_paradigms x)));
   (u "suffixes_length", jnat (length (x_suffixes x)));
   (u "words_dawg_length", jnat (dawg_len (x_words x)));
   (u "compile_options", options_json (x_options x));
   (u "prediction_suffixes_dawg_lengths", JArr (map (fun d => jnat (dawg_len d)) (x_pred x)))].

(** storage.py:82-151 save_compiled_dict.  tagset.registry lists the Cyrillic class first (tagset.py:599-602). *)
Definition save_compiled_dict (io : dawgio) (big : bool) (aliases : list (str * str)) (rows : list grow)
           (x : compiled) (info : saveinfo) : saving :=
  sthen (json_write (u "grammemes.json") (grammemes_json rows))
  (sthen (json_write (u "gramtab-opencorpora-ext.json") (jstrs (map (from_internal_ext (alias_map aliases rows)) (x_gramtab x))))
  (sthen (json_write (u "gramtab-opencorpora-int.json") (jstrs (x_gramtab x)))
  (sthen (save_paradigms big (u "paradigms.array") (x_paradigms x))
  (sthen (json_write (u "suffixes.json") (jstrs (x_suffixes x)))
  (sthen (write_ops (u "words.dawg") (io_words io (x_words x)), Ok tt)
  (sthen (flat_map (fun id => write_ops (pred_name (fst id)) (io_pred io (snd id))) (enum (x_pred x)), Ok tt)
  (write_meta (u "meta.json") (save_meta x info)))))))).

(** ** Loading *)
Record loaded_dictionary := MkLoaded {
  ld_meta : meta; ld_gramtab : list tag; ld_suffixes : list str; ld_paradigms : list (list nat);
  ld_words : rdawg (nat * nat); ld_pred : list (rdawg (nat * nat * nat)); ld_prefixes : list str
}.
Definition as_str (v : jval) : res str := match v with JStr s => Ok s | _ => Err TypeError end.
(** a list of strings; other JSON values make later code raise (TypeError here) *)
Definition as_strs (v : jval) : res (list str) := match v with JArr l => mapM as_str l | _ => Err TypeError end.
Definition as_row (v : jval) : res grow :=
  match v with
  | JArr [JStr n; JNull; JStr a; JStr d] => Ok (MkGrow n None a d)
  | JArr [JStr n; JStr p; JStr a; JStr d] => Ok (MkGrow n (Some p) a d)
  | JArr [_; _; _; _] => Err TypeError
  | _ => Err ValueError
  end.
Definition as_rows (v : jval) : res (list grow) := match v with JArr l => mapM as_row l | _ => Err TypeError end.
Definition read_json (d : folder) (name : str) : res jval := let* b := read_file d name in json_read false b.
(** storage.py:184-193 _load_gramtab for the format 'opencorpora-int' *)
Definition load_gramtab (m : meta) (d : folder) : res (list str) :=
  match (match sget (u "gramtab_formats") m with Some v => v | None => JObj [] end) with
  | JObj fmts =>
    match sget (u "opencorpora-int") fmts with
    | None => Err ValueError
    | Some v => let* name := as_str v in let* j := read_json d name in as_strs j
    end
  | _ => Err TypeError
  end.
(** storage.py:62-66: meta["compile_options"]["paradigm_prefixes"], or the file of older dictionaries *)
Definition load_prefixes (m : meta) (d : folder) : res (list str) :=
  let old := let* j := read_json d (u "paradigm-prefixes.json") in as_strs j in
  match sget (u "compile_options") m with
  | None => old
  | Some (JObj o) => match sget (u "paradigm_prefixes") o with None => old | Some v => as_strs v end
  | Some _ => Err TypeError
  end.
Definition load_preds (io : dawgio) (d : folder) (n : nat) : res (list (rdawg (nat * nat * nat))) :=
  mapM (fun i => match sget (pred_name i) d with None => Err AssertionError | Some b => io_read_pred io b end) (seq 0 n).
(** storage.py:43-79 load_dict (format 'opencorpora-int'), together with the state of the tag class, which stays
    changed when a later step fails (storage.py:166-181 _load_tag_class) *)
Definition load_dict (io : dawgio) (big : bool) (d : folder) (C : tagclass) : tagclass * res loaded_dictionary :=
  match (let* m := load_meta d (u "meta.json") in
         let* _ := assert_format m in
         let* j := read_json d (u "grammemes.json") in
         let* rows := as_rows j in Ok (m, rows)) with
  | Err e => (C, Err e)
  | Ok (m, rows) =>
    let C' := init_grammemes C rows in
    (C', let* texts := load_gramtab m d in
         let* gramtab := mapM (mk_tag C') texts in
         let* js := read_json d (u "suffixes.json") in
         let* suffixes := as_strs js in
         let* pb := read_file d (u "paradigms.array") in
         let* paradigms := load_paradigms big pb in
         let* wb := read_file d (u "words.dawg") in
         let* words := io_read_words io wb in
         let* prefixes := load_prefixes m d in
         let* preds := load_preds io d (length prefixes) in
         Ok (MkLoaded m gramtab suffixes paradigms words preds prefixes))
  end.
(** by_analogy.py:182-187 KnownSuffixAnalyzer._max_suffix_length: meta['compile_options'] or, for old dictionaries,
    meta['prediction_options'] *)
Definition max_suffix_length (m : meta) : res nat :=
  let field k := match sget k m with
                 | None => Err KeyError
                 | Some (JObj o) => dget_res str_eqb (u "max_suffix_length") o
                 | Some _ => Err TypeError
                 end in
  let* v := match field (u "compile_options") with Err KeyError => field (u "prediction_options") | r => r end in
  match v with JInt z => Ok (Z.to_nat z) | _ => Err TypeError end.
(** wrapper.py:22-31: the loaded data as the dictionary used by the analyzer *)
Definition dictionary (l : loaded_dictionary) : res dict :=
  let* n := max_suffix_length (ld_meta l) in
  Ok (MkDict (ld_paradigms l) (ld_gramtab l) (ld_prefixes l) (ld_suffixes l) (ld_words l) (ld_pred l) n).
