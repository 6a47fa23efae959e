(** * Model of pymorphy2/opencorpora_dict/preprocess.py *)
From Coq Require Import String List NArith ZArith Bool.
From Verif Require Import Py Tagset Compile.
Import ListNotations.
Local Open Scope nat_scope.
Local Open Scope list_scope.

(** preprocess.py:62-65 replace_redundant_grammemes (the memo cache is Cache.v's subject) *)
Definition replace_redundant (t : str) : str :=
  replace_all (u "acc1") (u "accs") (replace_all (u "gen1") (u "gent") (replace_all (u "loc1") (u "loct") t)).
(** preprocess.py:68-69 _split_grammemes (as a set) *)
Definition split_grammemes (t : str) : sset := split_tag t.
(** preprocess.py:56-59 tag2grammemes *)
Definition tag2grammemes (t : str) : sset := split_grammemes (replace_redundant t).

(** preprocess.py:126-129 _itertags *)
Definition itertags (lx : lexemes) : list str := flat_map (fun l => map snd (snd l)) lx.

(** preprocess.py:72-80 _get_tag_spellings: keys compared as sets *)
Definition spellings := list (sset * list (str * nat)).
Definition add_spelling (sp : spellings) (t : str) : spellings :=
  let g := tag2grammemes t in
  let cur := match dget seq_set g sp with Some c => c | None => [] end in
  dset seq_set g (incr str_eqb t cur) sp.
Definition get_tag_spellings (lx : lexemes) : spellings := fold_left add_spelling (itertags lx) [].

(** preprocess.py:95-118 _is_ambiguous *)
Definition space_pos (t : str) : option nat := find_sub (u " ") t.
Fixpoint onodup (l : list (option nat)) : list (option nat) :=
  match l with
  | [] => []
  | x :: r => if existsb (opt_eqb Nat.eqb x) r then onodup r else x :: onodup r
  end.
Definition is_ambiguous (tags : list str) (skip : bool) : bool :=
  if length tags <? 2 then false
  else if skip then
    let sp := map space_pos tags in
    if length sp =? length (onodup sp) then false else true
  else true.

(** preprocess.py:83-92 _get_duplicate_tag_replaces *)
Definition dup_step (skip : bool) (reps : list (str * str)) (g : sset * list (str * nat)) : list (str * str) :=
  let tags := snd g in
  if is_ambiguous (map fst tags) skip then
    match sort_desc (fun a b : str * nat => snd b <=? snd a) tags with
    | [] => reps
    | top :: rest => fold_left (fun r tc => sset_ (fst tc) (fst top) r) rest reps
    end
  else reps.
Definition duplicate_replaces (sp : spellings) (skip : bool) : list (str * str) :=
  fold_left (dup_step skip) sp [].

(** preprocess.py:121-123 _simplify_tag *)
Definition simplify_tag (reps : list (str * str)) (t : str) : str :=
  let t' := replace_redundant t in
  match sget t' reps with Some x => x | None => t' end.

(** preprocess.py:19-38 simplify_tags *)
Definition map_lexemes (f : lexeme -> lexeme) (lx : lexemes) : lexemes :=
  map (fun l => (fst l, f (snd l))) lx.
Definition simplify_tags (lx : lexemes) (skip : bool) : lexemes :=
  let reps := duplicate_replaces (get_tag_spellings lx) skip in
  map_lexemes (map (fun wt => (fst wt, simplify_tag reps (snd wt)))) lx.

(** preprocess.py:41-53 drop_unsupported_parses: 'Init' not in tag (substring test) *)
Definition drop_unsupported (lx : lexemes) : lexemes :=
  map_lexemes (filter (fun wt => negb (substrb (u "Init") (snd wt)))) lx.
