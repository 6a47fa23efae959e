(** * Unicode oracles.

    CPython's Unicode tables are outside the model: they are a record of
    functions.  Theorems quantify over every such record and name the facts
    they need.  [uni_cyr] is a concrete instance (ASCII + Cyrillic) used in
    examples and witnesses. *)
From Coq Require Import List NArith ZArith Bool.
From Verif Require Import Py.
Import ListNotations.

Record uni := MkUni {
  u_lower   : str -> str;            (* str.lower *)
  u_upper   : str -> str;            (* str.upper *)
  u_title   : str -> str;            (* str.title *)
  u_islower : str -> bool;           (* str.islower *)
  u_isupper : str -> bool;           (* str.isupper *)
  u_istitle : str -> bool;           (* str.istitle *)
  u_alpha   : char -> bool;          (* chr.isalpha *)
  u_space   : char -> bool;          (* chr.isspace *)
  u_word    : char -> bool;          (* re \w, UNICODE *)
  u_punct   : char -> bool;          (* unicodedata.category(c)[0] == 'P' *)
  u_latin   : char -> option bool;   (* 'LATIN' in unicodedata.name(c); None: name() raises ValueError *)
  u_digit   : char -> option N;      (* decimal digit value used by int()/float() *)
  u_int_limit : option nat           (* sys.get_int_max_str_digits(), CPython 3.11: int() refuses longer texts; None: no limit *)
}.

(** The fact about [str.lower] used when lower-cased words are cut into pieces:
    any contiguous piece of a lower-cased string is left unchanged by [lower].
    (True of CPython: every character of a lower-cased string is a fixed point
    of [lower] and the context-dependent final-sigma rule only applies to the
    capital sigma, which does not occur in a lower-cased string.) *)
Definition lower_stable (U : uni) : Prop :=
  forall w a b c, u_lower U w = a ++ b ++ c -> u_lower U b = b.

(** ** A concrete instance *)
Local Open Scope N_scope.
Definition rng (a b c : N) : bool := (a <=? c) && (c <=? b).

Definition cyr_lower1 (c : char) : char :=
  if rng 65 90 c then c + 32
  else if rng 1040 1071 c then c + 32
  else if rng 1024 1039 c then c + 80
  else if c =? 1168 then 1169
  else c.
Definition cyr_upper1 (c : char) : char :=
  if rng 97 122 c then c - 32
  else if rng 1072 1103 c then c - 32
  else if rng 1104 1119 c then c - 80
  else if c =? 1169 then 1168
  else c.
Definition is_lo (c : char) : bool := negb (cyr_upper1 c =? c).
Definition is_up (c : char) : bool := negb (cyr_lower1 c =? c).
Definition is_cased (c : char) : bool := is_lo c || is_up c.

Fixpoint cyr_title_aux (prev_cased : bool) (s : str) : str :=
  match s with
  | [] => []
  | c :: r => (if prev_cased then cyr_lower1 c else cyr_upper1 c) :: cyr_title_aux (is_cased c) r
  end.
Fixpoint cyr_istitle_aux (prev_cased seen : bool) (s : str) : bool :=
  match s with
  | [] => seen
  | c :: r =>
    if is_up c then negb prev_cased && cyr_istitle_aux true true r
    else if is_lo c then prev_cased && cyr_istitle_aux true true r
    else cyr_istitle_aux false seen r
  end.
Definition cyr_space (c : char) : bool :=
  rng 9 13 c || rng 28 32 c || (c =? 133) || (c =? 160) || (c =? 8232) || (c =? 8233).
(** U+17000 is a letter without a name in CPython 3 (Tangut) *)
Definition cyr_alpha (c : char) : bool := is_cased c || (c =? 94208).
Definition cyr_digit (c : char) : option N := if rng 48 57 c then Some (c - 48) else None.
Definition cyr_word (c : char) : bool :=
  cyr_alpha c || rng 48 57 c || (c =? 95).
Definition cyr_punct (c : char) : bool :=
  rng 33 35 c || rng 37 42 c || rng 44 47 c || rng 58 59 c || rng 63 64 c
  || rng 91 93 c || (c =? 95) || (c =? 123) || (c =? 125) || (c =? 171) || (c =? 187)
  || rng 8208 8231 c.
Definition cyr_latin (c : char) : option bool :=
  if c =? 94208 then None else Some (rng 65 90 c || rng 97 122 c).

Definition uni_cyr : uni := {|
  u_lower := map cyr_lower1;
  u_upper := map cyr_upper1;
  u_title := cyr_title_aux false;
  u_islower := fun s => existsb is_lo s && negb (existsb is_up s);
  u_isupper := fun s => existsb is_up s && negb (existsb is_lo s);
  u_istitle := cyr_istitle_aux false false;
  u_alpha := cyr_alpha;
  u_space := cyr_space;
  u_word := cyr_word;
  u_punct := cyr_punct;
  u_latin := cyr_latin;
  u_digit := cyr_digit;
  u_int_limit := None
|}.
