(** * Model of cli.py:64-275: the "pymorphy parse" command *)
From Coq Require Import String List NArith ZArith Bool QArith.
From Verif Require Import Py Uni Tagset Shapes Tokenizers Dict Units Analyzer Json Storage Create.
Import ListNotations.
Local Open Scope nat_scope.
Local Open Scope list_scope.

(** a float: the scores are exact rationals in this model, a threshold may also be one of float('inf'), float('-inf'), float('nan') *)
Inductive pyfloat := Fin (q : Q) | PInf | NInf | NaN.
Definition float_true (t : pyfloat) : bool := match t with Fin q => negb (Qeq_bool q 0) | _ => true end.   (* bool(t) *)
Definition reaches (s : Q) (t : pyfloat) : bool :=                                                         (* s >= t *)
  match t with Fin q => Qle_bool q s | PInf => false | NInf => true | NaN => false end.

(** round(|q| * 1000), half to even, as "%0.3f" does *)
Definition thousandths (q : Q) : N :=
  let z := (Z.abs (Qnum q) * 1000)%Z in let d := Zpos (Qden q) in
  let k := (z / d)%Z in let r := (z mod d)%Z in
  Z.to_N (if (2 * r <? d)%Z then k else if (d <? 2 * r)%Z then (k + 1)%Z else if Z.even k then k else (k + 1)%Z).
(** "%0.3f" % q *)
Definition fmt3 (q : Q) : str :=
  let n := thousandths q in
  (if (Qnum q <? 0)%Z then u "-" else []) ++ dec_N (n / 1000) ++ u "." ++ dec_N (n / 100 mod 10) ++ dec_N (n / 10 mod 10) ++ dec_N (n mod 10).

(** cli.py:193-194 tpl_newline, tpl_no_newline *)
Definition tpl (newlines : bool) (tok body : str) : str := tok ++ u "{" ++ body ++ u "}" ++ (if newlines then [10%N] else u " ").
(** cli.py:195 or_sep.join *)
Definition or_join : list str -> str := join (u "|").

(** cli.py:230-234: the weights of the normal forms, in the order of their first appearance (dictionaries keep insertion order) *)
Definition lemma_weights (ps : list parse) : list (str * Q) :=
  fold_left (fun d p => sset_ (p_nf p) ((match sget (p_nf p) d with Some w => w | None => 0%Q end) + p_score p)%Q d) ps [].

(** cli.py:197-264 _TokenParserFormatter: the constructor and the parse function it makes *)
Definition formatter (M : morph) (score normal_form tag newlines : bool) (thresh : pyfloat) : res (str -> res str) :=
  if negb normal_form && negb tag then Err ValueError
  else if negb normal_form && negb score && negb (float_true thresh) then
    Ok (fun tok => let* ts := morph_tag M tok in Ok (tpl newlines tok (or_join (map t_str ts))))
  else Ok (fun tok =>
    let* ps := morph_parse M tok in
    let keep := filter (fun p => reaches (p_score p) thresh) ps in
    Ok (tpl newlines tok (or_join (
      if normal_form then
        if tag then
          if score then map (fun p => p_nf p ++ u ":" ++ fmt3 (p_score p) ++ u "=" ++ t_str (p_tag p)) keep
          else map (fun p => p_nf p ++ u ":" ++ t_str (p_tag p)) keep
        else
          let items := sort_desc (fun a b => Qle_bool (snd b) (snd a)) (filter (fun lw => reaches (snd lw) thresh) (lemma_weights ps)) in
          if score then map (fun lw => fst lw ++ u ":" ++ fmt3 (snd lw)) items else map fst items
      else if score then map (fun p => fmt3 (p_score p) ++ u "=" ++ t_str (p_tag p)) keep
      else map (fun p => t_str (p_tag p)) keep)))).

(** cli.py:267-275: the tokens of the lines of the input *)
Definition iter_tokens (U : uni) (tokenize : bool) (lines : list str) : list str :=
  if tokenize then flat_map (simple_word_tokenize U) lines
  else filter nonempty (map (strip_by (u_space U)) lines).

(** int(text) (acceptance: Shapes.int_ok) *)
Definition digit_value (U : uni) (c : char) : Z :=
  if (c <? 128)%N then Z.of_N (c - 48) else match u_digit U c with Some d => Z.of_N d | None => 0%Z end.
Definition int_text (U : uni) (s : str) : res Z :=
  if int_ok U s then
    let t := strip_by (num_space U) s in
    let v := fold_left (fun a c => if (c =? 95)%N then a else (10 * a + digit_value U c)%Z) (drop_sign t) 0%Z in
    Ok (if prefixb (u "-") t then (- v)%Z else v)
  else Err ValueError.

(** the caches parse() can put around the function.  [Lru n]: functools.lru_cache(n): at most [n] results, the one not asked for
    for the longest time is dropped first; a negative size means no cache.  [Bounded keep]: some other lru_cache (fastcache, backports):
    after each call only the entries [keep] selects stay. *)
Inductive cache_mode := NoCache | Unlimited | Lru (n : nat) | Bounded (keep : list (str * str) -> list (str * str)).
Definition front (k v : str) (l : list (str * str)) : list (str * str) := (k, v) :: filter (fun kv => negb (str_eqb (fst kv) k)) l.
(** one call: the cache afterwards and the result; results are stored, exceptions are not *)
Definition call (mode : cache_mode) (f : str -> res str) (l : list (str * str)) (k : str) : list (str * str) * res str :=
  match mode with
  | NoCache => (l, f k)
  | Unlimited =>                                                            (* cache.py:40-48 *)
    match sget k l with
    | Some v => (l, Ok v)
    | None => match f k with Ok v => (sset_ k v l, Ok v) | Err e => (l, Err e) end
    end
  | Lru n =>
    match sget k l with
    | Some v => (front k v l, Ok v)
    | None => match f k with Ok v => (firstn n (front k v l), Ok v) | Err e => (l, Err e) end
    end
  | Bounded keep =>
    match sget k l with
    | Some v => (keep l, Ok v)
    | None => match f k with Ok v => (keep (sset_ k v l), Ok v) | Err e => (keep l, Err e) end
    end
  end.
(** cli.py:183-184: the loop; what was written, and the exception that ended it, if any *)
Fixpoint loop (mode : cache_mode) (f : str -> res str) (l : list (str * str)) (toks : list str) : list str * res unit :=
  match toks with
  | [] => ([], Ok tt)
  | t :: ts =>
    match call mode f l t with
    | (_, Err e) => ([], Err e)
    | (l', Ok r) => let '(w, x) := loop mode f l' ts in (r :: w, x)
    end
  end.
(** cli.py:174-181 *)
Definition cache_of (U : uni) (size : str) : res cache_mode :=
  if str_eqb size (u "unlim") then Ok Unlimited
  else let* n := int_text U size in
       Ok (if (n =? 0)%Z then NoCache else if (n <? 0)%Z then NoCache else Lru (Z.to_nat n)).
(** cli.py:152-184 parse.  [lines]: what iterating over in_file gives.  Failing writes and reads are not modelled. *)
Definition cli_parse (M : morph) (lines : list str) (tokenize score normal_form tag newlines : bool) (cache_size : str) (thresh : pyfloat) : list str * res unit :=
  match formatter M score normal_form tag newlines thresh with
  | Err e => ([], Err e)
  | Ok f => match cache_of (m_uni M) cache_size with
            | Err e => ([], Err e)
            | Ok mode => loop mode f [] (iter_tokens (m_uni M) tokenize lines)
            end
  end.

(** cli.py:33-50: the options of "pymorphy parse"; docopt fills in the defaults: --thresh 0.0, --cache 20000, --lang ru *)
Record options := MkOptions {
  o_lemmatize : bool; o_score : bool; o_tag : bool; o_thresh : str; o_tokenized : bool; o_cache : str; o_lang : str; o_dict : option str }.
Definition no_options : options := MkOptions false false false (u "0.0") false (u "20000") (u "ru") None.
(** cli.py:64-98 main for "parse".  [float_text] is float(); the input file exists. *)
Definition cli_main (W : world) (C : tagclass) (float_text : str -> res pyfloat) (o : options) (lines : list str) : list warning * (list str * res unit) :=
  let '(ws, _, r) := create W C (MkArgs (o_dict o) (Some (o_lang o)) (Some (u "Parse")) None EstAuto SubAuto) in
  match r with
  | Err e => (ws, ([], Err e))
  | Ok z =>
    let some := o_score o || o_lemmatize o || o_tag o in
    match float_text (o_thresh o) with
    | Err e => (ws, ([], Err e))
    | Ok th => (ws, cli_parse (z_morph z) lines (negb (o_tokenized o)) (if some then o_score o else true) (if some then o_lemmatize o else true)
                      (if some then o_tag o else true) true (o_cache o) th)
    end
  end.

(** ** "pymorphy dict meta" *)
(** str(value) and repr(value) of what json.load returns; [repr_text] is repr() of a text *)
Fixpoint py_repr (repr_text : str -> str) (v : jval) : str :=
  match v with
  | JNull => u "None"
  | JBool true => u "True"
  | JBool false => u "False"
  | JInt z => dec_Z z
  | JReal t => t                                 (* does not occur: load_meta reads reals as texts *)
  | JStr s => repr_text s
  | JArr l => u "[" ++ join (u ", ") (map (py_repr repr_text) l) ++ u "]"
  | JObj l => u "{" ++ join (u ", ") (map (fun kv => repr_text (fst kv) ++ u ": " ++ py_repr repr_text (snd kv)) l) ++ u "}"
  end.
Definition py_str (repr_text : str -> str) (v : jval) : str := match v with JStr s => s | _ => py_repr repr_text v end.
(** cli.py:100-109 main for "dict meta" and :141-145 show_dict_meta: the messages logged.  docopt fills in --lang ru.  The metadata
    of the analyzer's dictionary is what load_dict (storage.py:49-74) kept; here the folder is read once more to get it. *)
Definition cli_dict_meta (W : world) (C : tagclass) (repr_text : str -> str) (lang : str) (path : option str) : list warning * (list str * res unit) :=
  let '(ws, _, r) := create W C (MkArgs path (Some lang) (Some (u "Parse")) None EstAuto SubAuto) in
  match r with
  | Err e => (ws, ([], Err e))
  | Ok _ =>
    match choose_dictionary_path W path (Some lang) with
    | Err e => (ws, ([], Err e))
    | Ok p => match load_meta (w_folder W p) (u "meta.json") with
              | Err e => (ws, ([], Err e))
              | Ok m => (ws, (map (fun kv => fst kv ++ u ": " ++ py_str repr_text (snd kv)) m, Ok tt))
              end
    end
  end.
