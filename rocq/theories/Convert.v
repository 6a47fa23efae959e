(** * Model of compile.py:38-59 convert_to_pymorphy2 and compile.py:375-385 _create_out_path *)
From Coq Require Import String List NArith ZArith Bool.
From Verif Require Import Py Uni Tagset Dawg Dict Compile Preprocess Json Storage XmlParse.
Import ListNotations.
Local Open Scope nat_scope.
Local Open Scope list_scope.

(** The XML reader gives ids as texts, the compiler model (Compile.v) uses numbers: an id is the text str(n) of a number.
    [None]: another text (int() would accept some, e.g. "01") or a missing attribute - not modelled. *)
Definition number_of (s : option str) : option N :=
  match s with
  | Some t => let n := N.of_uint (str_uint t) in if str_eqb (dec_N n) t then Some n else None
  | None => None
  end.
Fixpoint all_some {A B} (f : A -> option B) (l : list A) : option (list B) :=
  match l with
  | [] => Some []
  | x :: r => match f x, all_some f r with Some y, Some ys => Some (y :: ys) | _, _ => None end
  end.
(** The compiler's view of a parsed dictionary *)
Definition source := (lexemes * list link * list grow)%type.
Definition source_of (P : parsed) : option source :=
  match all_some (fun l : option str * lexeme => match number_of (fst l) with Some n => Some (n, snd l) | None => None end) (xp_lexemes P),
        all_some (fun l : xlink => let '(a, b, t) := l in
                    match number_of a, number_of b, t with Some x, Some y, Some t => Some ((x, y, t) : link) | _, _, _ => None end) (xp_links P),
        all_some (fun g : xgram => let '(n, p, a, d) := g in
                    match n, a, d with Some n, Some a, Some d => Some (MkGrow n p a d) | _, _, _ => None end) (xp_grammemes P) with
  | Some lx, Some ln, Some gr => Some (lx, ln, gr)
  | _, _, _ => None
  end.
(** compile.py:55-56 *)
Definition prepared (lx : lexemes) : lexemes := drop_unsupported (simplify_tags lx true).

(** compile.py:375-385 _create_out_path.  [exists_] : os.mkdir raised OSError *)
Definition create_out_path (exists_ overwrite : bool) : bool := if exists_ then overwrite else true.
(** compile.py:38-59: what is written to the folder, and the outcome; [read] is the result of parse_opencorpora_xml *)
Definition convert (io : dawgio) (big : bool) (aliases : list (str * str)) (exists_ overwrite : bool) (read : res source)
           (o : coptions) (info : saveinfo) : saving :=
  if create_out_path exists_ overwrite then
    match read with
    | Err e => ([], Err e)
    | Ok (src, links, rows) =>
        match compile_parsed_dict o (prepared src) links with
        | Err e => ([], Err e)
        | Ok x => save_compiled_dict io big aliases rows x info
        end
    end
  else ([], Ok tt).
