(** * Model of pymorphy2/shapes.py, and of the int()/float() acceptance used by
    units/by_shape.py NumberAnalyzer *)
From Coq Require Import String List NArith ZArith Bool.
From Verif Require Import Py Uni.
Import ListNotations.
Local Open Scope nat_scope.
Local Open Scope list_scope.

(** shapes.py:11-18 is_latin_char without the cache (the cache is modelled in Cache.v);
    unicodedata.name raises ValueError for unnamed characters.  The bytes branch
    (Python 2) is not modelled. *)
Definition is_latin_char (U : uni) (c : char) : res bool :=
  match u_latin U c with Some b => Ok b | None => Err ValueError end.

(** all(is_latin_char(ch) for ch in token if ch.isalpha()): stops at the first False *)
Fixpoint all_latin (U : uni) (s : str) : res bool :=
  match s with
  | [] => Ok true
  | c :: r =>
    if u_alpha U c then
      let* b := is_latin_char U c in
      if b then all_latin U r else Ok false
    else all_latin U r
  end.

(** shapes.py:21-41 is_latin *)
Definition is_latin (U : uni) (token : str) : res bool :=
  if existsb (u_alpha U) token then all_latin U token else Ok false.

(** str.isspace *)
Definition str_isspace (U : uni) (s : str) : bool :=
  match s with [] => false | _ => forallb (u_space U) s end.

(** shapes.py:44-68 is_punctuation *)
Definition is_punctuation (U : uni) (token : str) : bool :=
  match token with
  | [] => false
  | _ => negb (str_isspace U token)
         && forallb (u_punct U) (filter (fun c => negb (u_space U c)) token)
  end.

(** ** Regular expressions as nondeterministic matchers: all possible remainders *)
Definition matcher := str -> list str.
Definition m_seq (a b : matcher) : matcher := fun s => flat_map b (a s).
Definition m_alt (a b : matcher) : matcher := fun s => a s ++ b s.
Definition m_eps : matcher := fun s => [s].
Definition m_opt (a : matcher) : matcher := m_alt a m_eps.
Fixpoint m_upto (n : nat) (a : matcher) : matcher :=       (* a{0,n} *)
  match n with
  | 0 => m_eps
  | S n' => m_alt (m_seq a (m_upto n' a)) m_eps
  end.

(** re.IGNORECASE on a capital ASCII letter: both cases; for I also U+0130 and U+0131
    (CPython's simple case folding) *)
Definition icase (c x : char) : bool :=
  (x =? c)%N || (x =? c + 32)%N
  || ((c =? 73)%N && ((x =? 304)%N || (x =? 305)%N)).
Definition m_lit (c : char) : matcher :=
  fun s => match s with x :: r => if icase c x then [r] else [] | [] => [] end.
Definition m_word (w : string) : matcher := fold_right (fun c m => m_seq (m_lit c) m) m_eps (u w).

(** shapes.py:72-81 ROMAN_NUMBERS_RE without the final $ *)
Definition roman_re : matcher :=
  m_seq (m_upto 4 (m_word "M"))
  (m_seq (m_alt (m_word "CM") (m_alt (m_word "CD") (m_seq (m_opt (m_word "D")) (m_upto 3 (m_word "C")))))
  (m_seq (m_alt (m_word "XC") (m_alt (m_word "XL") (m_seq (m_opt (m_word "L")) (m_upto 3 (m_word "X")))))
         (m_alt (m_word "IX") (m_alt (m_word "IV") (m_seq (m_opt (m_word "V")) (m_upto 3 (m_word "I"))))))).

(** [$] without MULTILINE: at the end or just before a final newline *)
Definition at_dollar (rest : str) : bool :=
  match rest with [] => true | [c] => (c =? 10)%N | _ => false end.

(** shapes.py:83-99 is_roman_number *)
Definition is_roman_number (token : str) : bool :=
  match token with [] => false | _ => existsb at_dollar (roman_re token) end.

(** ** Capitalization: shapes.py:157-165 _make_the_same_case *)
Definition make_the_same_case (U : uni) (w example : str) : str :=
  if u_islower U example then u_lower U w
  else if u_isupper U example then u_upper U w
  else if u_istitle U example then u_title U w
  else u_lower U w.

(** shapes.py:137-141: the loop over word parts *)
Fixpoint restore_parts (U : uni) (parts examples : list str) : list str :=
  match parts, examples with
  | [], _ => []
  | p :: ps, e :: es => make_the_same_case U p e :: restore_parts U ps es
  | p :: ps, [] => u_lower U p :: restore_parts U ps []
  end.

(** shapes.py:102-145 restore_capitalization *)
Definition restore_capitalization (U : uni) (w example : str) : str :=
  if mem_char (chr "-") example then
    join (u "-") (restore_parts U (split_on (chr "-") w) (split_on (chr "-") example))
  else make_the_same_case U w example.

(** ** Acceptance of int(word) and float(word) (CPython, used in by_shape.py:114-124).
    White space: ASCII \t\n\v\f\r and space, and non-ASCII isspace characters.
    Digits: ASCII, and non-ASCII decimal digits.  CPython 3.11
    refuses a text with more digits than a limit (4300 by default; leading zeros count). *)
Definition num_space (U : uni) (c : char) : bool :=
  if (c <? 128)%N then rng 9 13 c || (c =? 32)%N else u_space U c.
Definition num_digit (U : uni) (c : char) : bool :=
  if (c <? 128)%N then rng 48 57 c
  else match u_digit U c with Some _ => true | None => false end.
Definition is_sign (c : char) : bool := (c =? 43)%N || (c =? 45)%N.
Definition drop_sign (s : str) : str :=
  match s with c :: r => if is_sign c then r else s | [] => [] end.

(** digits with single underscores between them *)
Fixpoint digit_run (U : uni) (prev : bool) (s : str) : bool :=
  match s with
  | [] => prev
  | c :: r =>
    if num_digit U c then digit_run U true r
    else (c =? 95)%N && prev && digit_run U false r
  end.

Definition few_digits (U : uni) (s : str) : bool :=
  match u_int_limit U with None => true | Some n => length (filter (num_digit U) s) <=? n end.
Definition int_ok (U : uni) (s : str) : bool :=
  let d := drop_sign (strip_by (num_space U) s) in digit_run U false d && few_digits U d.

(** every underscore lies between two digits *)
Fixpoint underscores_ok (U : uni) (prev : bool) (s : str) : bool :=
  match s with
  | [] => true
  | c :: r =>
    if (c =? 95)%N then
      prev && (match r with c' :: _ => num_digit U c' | [] => false end) && underscores_ok U false r
    else underscores_ok U (num_digit U c) r
  end.

Fixpoint drop_digits (U : uni) (s : str) : str :=
  match s with
  | [] => []
  | c :: r => if num_digit U c then drop_digits U r else s
  end.
Definition starts_digit (U : uni) (s : str) : bool :=
  match s with c :: _ => num_digit U c | [] => false end.

(** optional exponent, then end of string *)
Definition exponent_ok (U : uni) (s : str) : bool :=
  match s with
  | [] => true
  | c :: r =>
    ((c =? 101)%N || (c =? 69)%N)
    && starts_digit U (drop_sign r)
    && (match drop_digits U (drop_sign r) with [] => true | _ => false end)
  end.
Definition decimal_ok (U : uni) (s : str) : bool :=
  let after := drop_digits U s in
  match after with
  | c :: r =>
    if (c =? 46)%N
    then (starts_digit U s || starts_digit U r) && exponent_ok U (drop_digits U r)
    else starts_digit U s && exponent_ok U after
  | [] => starts_digit U s
  end.

Definition ascii_lower (s : str) : str := map (fun c => if rng 65 90 c then (c + 32)%N else c) s.
Definition special_float (s : str) : bool :=
  smem (ascii_lower s) [u "inf"; u "infinity"; u "nan"].

Definition float_ok (U : uni) (s : str) : bool :=
  let t := strip_by (num_space U) s in
  underscores_ok U false t &&
  (let v := drop_sign (filter (fun c => negb (c =? 95)%N) t) in
   special_float v || decimal_ok U v).

(** by_shape.py:114-124 NumberAnalyzer.check_shape *)
Inductive num_shape := Intg | Real.
Definition number_shape (U : uni) (w : str) : option num_shape :=
  if int_ok U w then Some Intg
  else if float_ok U (replace_char (chr ",") (chr ".") w) then Some Real
  else None.
