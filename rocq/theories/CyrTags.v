(** * Model of tagset.py:525-579 CyrillicOpencorporaTag, the second registered tag class (tagset.py:599-602), and of what
    saving a dictionary (storage.py:94-102) and loading one in the format 'opencorpora-ext' do to the two classes *)
From Coq Require Import String List NArith ZArith Bool.
From Verif Require Import Py Uni Tagset Dawg Dict Compile Json Storage Convert.
Import ListNotations.
Local Open Scope nat_scope.
Local Open Scope list_scope.

(** Class attributes of CyrillicOpencorporaTag, a subclass of OpencorporaTag.  [y_alias]: _GRAMMEME_ALIAS_MAP.
    [y_known] [y_lat2cyr] [y_cyr2lat]: its own KNOWN_GRAMMEMES, _LAT2CYR, _CYR2LAT (assigned by its first _init_grammemes).
    [y_own]: its own _GRAMMEME_INCOMPATIBLE and _GRAMMEME_INDICES; [None] until its first _init_grammemes has finished:
    before, these names denote the objects of the parent class.  _EXTRA_INCOMPATIBLE is always the parent's object.
    [y_nonprod]: _NON_PRODUCTIVE_GRAMMEMES. *)
Record cyrclass := MkCyr {
  y_alias : list (str * str);
  y_known : sset; y_lat2cyr : list (str * str); y_cyr2lat : list (str * str);
  y_own : option (list (str * sset) * list (str * nat));
  y_nonprod : sset
}.
(** both classes as they are after [import pymorphy2] *)
Definition cyr_initial : cyrclass := MkCyr [] [] [] [] None NON_PRODUCTIVE.
(** the two registered classes *)
Definition classes := (tagclass * cyrclass)%type.

(** tagset.py:548-550 _from_internal_grammeme *)
Definition from_internal_grammeme (m : list (str * str)) (g : str) : str :=
  match sget g m with Some a => a | None => g end.
(** tagset.py:561-569: a dict filled in iteration order under the translated names *)
Definition translate_keys {V} (m : list (str * str)) (l : list (str * V)) : list (str * V) :=
  fold_left (fun acc nv => sset_ (from_internal_grammeme m (fst nv)) (snd nv) acc) l [].
(** what an attribute of the Cyrillic class denotes (its own, otherwise the parent's): the view _init_grammemes(cls) has *)
Definition cyr_view (K : classes) : tagclass :=
  let '(C, Y) := K in
  {| tc_known := y_known Y; tc_lat2cyr := y_lat2cyr Y; tc_cyr2lat := y_cyr2lat Y; tc_extra := tc_extra C;
     tc_incompat := match y_own Y with Some o => fst o | None => tc_incompat C end;
     tc_indices := match y_own Y with Some o => snd o | None => tc_indices C end |}.
(** tagset.py:552-579 CyrillicOpencorporaTag._init_grammemes: the alias map, the inherited _init_grammemes on the view
    above (tables of the parent are changed in place while the class has none of its own), then own translated tables *)
Definition cyr_init_grammemes (K : classes) (rows : list grow) : classes :=
  let '(C, Y) := K in
  let al := alias_map (y_alias Y) rows in
  let T := init_grammemes (cyr_view K) rows in
  let tr := from_internal_grammeme al in
  ({| tc_known := tc_known C; tc_lat2cyr := tc_lat2cyr C; tc_cyr2lat := tc_cyr2lat C; tc_extra := tc_extra T;
      tc_incompat := match y_own Y with Some _ => tc_incompat C | None => tc_incompat T end;
      tc_indices := match y_own Y with Some _ => tc_indices C | None => tc_indices T end |},
   {| y_alias := al; y_known := tc_known T; y_lat2cyr := tc_lat2cyr T; y_cyr2lat := tc_cyr2lat T;
      y_own := Some (translate_keys al (map (fun nv => (fst nv, map tr (snd nv))) (tc_incompat T)), translate_keys al (tc_indices T));
      y_nonprod := map tr (y_nonprod Y) |}).
(** tagset.py:380-381 is_productive of a tag of the Cyrillic class *)
Definition cyr_is_productive (Y : cyrclass) (t : tag) : bool := match sinter (t_gr t) (y_nonprod Y) with [] => true | _ => false end.
(** tagset.py:405-415 updated_grammemes of a tag of the Cyrillic class (inherited) *)
Definition cyr_updated (K : classes) (t : tag) (required : sset) : res sset := updated_grammemes (cyr_view K) t required.
(** OpencorporaTag._init_grammemes (tagset.py:432-473) *)
Definition init_grammemes_of (K : classes) (rows : list grow) : classes := (init_grammemes (fst K) rows, snd K).

(** storage.py:84-151 save_compiled_dict with its effect on the classes: the Cyrillic class is initialised after grammemes.json
    has been written, the other one after gramtab-opencorpora-ext.json has been written; an exception keeps what happened before *)
Definition save_classes (K : classes) (rows : list grow) (x : compiled) : classes :=
  match snd (json_write (u "grammemes.json") (grammemes_json rows)) with
  | Err _ => K
  | Ok _ =>
    let K1 := cyr_init_grammemes K rows in
    match snd (json_write (u "gramtab-opencorpora-ext.json") (jstrs (map (from_internal_ext (y_alias (snd K1))) (x_gramtab x)))) with
    | Err _ => K1
    | Ok _ => init_grammemes_of K1 rows
    end
  end.
Definition save_full (io : dawgio) (big : bool) (K : classes) (rows : list grow) (x : compiled) (info : saveinfo) : classes * saving :=
  (save_classes K rows x, save_compiled_dict io big (y_alias (snd K)) rows x info).
(** compile.py:38-59 convert_to_pymorphy2 *)
Definition convert_full (io : dawgio) (big : bool) (K : classes) (exists_ overwrite : bool) (read : res source)
           (o : coptions) (info : saveinfo) : classes * saving :=
  (if create_out_path exists_ overwrite then
     match read with
     | Err _ => K
     | Ok (src, links, rows) => match compile_parsed_dict o (prepared src) links with Err _ => K | Ok x => save_classes K rows x end
     end
   else K,
   convert io big (y_alias (snd K)) exists_ overwrite read o info).

(** storage.py:184-193 _load_gramtab for the format 'opencorpora-ext' *)
Definition load_gramtab_ext (m : meta) (d : folder) : res (list str) :=
  match (match sget (u "gramtab_formats") m with Some v => v | None => JObj [] end) with
  | JObj fmts =>
    match sget (u "opencorpora-ext") fmts with
    | None => Err ValueError
    | Some v => let* name := as_str v in let* j := read_json d name in as_strs j
    end
  | _ => Err TypeError
  end.
(** storage.py:43-79 load_dict(path, gramtab_format='opencorpora-ext'): the tags are made by the Cyrillic class, whose
    constructor is inherited (tagset.py:265-284) and checks its own KNOWN_GRAMMEMES *)
Definition load_dict_ext (io : dawgio) (big : bool) (d : folder) (K : classes) : classes * res loaded_dictionary :=
  match (let* m := load_meta d (u "meta.json") in
         let* _ := assert_format m in
         let* j := read_json d (u "grammemes.json") in
         let* rows := as_rows j in Ok (m, rows)) with
  | Err e => (K, Err e)
  | Ok (m, rows) =>
    let K' := cyr_init_grammemes K rows in
    (K', let* texts := load_gramtab_ext m d in
         let* gramtab := mapM (mk_tag (cyr_view K')) texts in
         let* js := read_json d (u "suffixes.json") in
         let* suffixes := as_strs js in
         let* pb := read_file d (u "paradigms.array") in
         let* paradigms := load_paradigms big pb in
         let* wb := read_file d (u "words.dawg") in
         let* words := io_read_words io wb in
         let* prefixes := load_prefixes m d in
         let* preds := load_preds io d (length prefixes) in
         Ok (MkLoaded m gramtab suffixes paradigms words preds prefixes))
  end.
