(** * utils.py json_write / json_read: the JSON text format and UTF-8 files.

    json_write (pymorphy2/utils.py:74-80) calls json.dump(obj, f, ensure_ascii=False, indent=2) on a
    file opened with codecs.open(filename, 'w', 'utf8'); json_read (utils.py:83-86) calls json.load on
    codecs.open(filename, 'r', 'utf8').  The encoder, the decoder (CPython json, C scanner) and the codec
    are modelled character by character. *)
From Coq Require Import Decimal DecimalN String List NArith ZArith Bool.
From Verif Require Import Py.
Import ListNotations.
Local Open Scope nat_scope.
Local Open Scope list_scope.

(** JSON values as Python objects.  A real number is kept as its text (the value of the float is not
    modelled).  An object is a dict: keys are strings in insertion order. *)
Inductive jval :=
| JNull
| JBool (b : bool)
| JInt (z : Z)
| JReal (text : str)
| JStr (s : str)
| JArr (l : list jval)
| JObj (l : list (str * jval)).

(** ** json.dump (utils.py:74-80 json_write: ensure_ascii=False, indent=2) *)
(** json.encoder.py_encode_basestring: the escape of one character of a string *)
Definition hexd (n : N) : char := (if n <? 10 then 48 + n else 87 + n)%N.
Definition esc_char (c : char) : str :=
  if (c =? 92)%N then [92; 92]%N                    (* \\ *)
  else if (c =? 34)%N then [92; 34]%N               (* quote *)
  else if (c =? 8)%N then [92; 98]%N                (* \b *)
  else if (c =? 12)%N then [92; 102]%N              (* \f *)
  else if (c =? 10)%N then [92; 110]%N              (* \n *)
  else if (c =? 13)%N then [92; 114]%N              (* \r *)
  else if (c =? 9)%N then [92; 116]%N               (* \t *)
  else if (c <? 32)%N then [92; 117; 48; 48; hexd (c / 16); hexd (c mod 16)]%N   (* \u00XX *)
  else [c].
Definition jstr (s : str) : str := [34%N] ++ flat_map esc_char s ++ [34%N].

(** int.__repr__ *)
Fixpoint uint_str (d : Decimal.uint) : str :=
  match d with
  | Nil => []
  | D0 d => 48%N :: uint_str d | D1 d => 49%N :: uint_str d | D2 d => 50%N :: uint_str d
  | D3 d => 51%N :: uint_str d | D4 d => 52%N :: uint_str d | D5 d => 53%N :: uint_str d
  | D6 d => 54%N :: uint_str d | D7 d => 55%N :: uint_str d | D8 d => 56%N :: uint_str d
  | D9 d => 57%N :: uint_str d
  end.
Definition dec_N (n : N) : str := uint_str (N.to_uint n).
Definition dec_Z (z : Z) : str :=
  match z with
  | Z0 => dec_N 0 | Zpos p => dec_N (Npos p) | Zneg p => 45%N :: dec_N (Npos p)
  end.

(** json.encoder._make_iterencode with indent=2: newline and indentation before every item; item
    separator "," (Python >= 3.4), key separator ": " *)
Definition nl (lvl : nat) : str := 10%N :: repeat 32%N (2 * lvl).
Fixpoint jwrite (lvl : nat) (v : jval) : str :=
  match v with
  | JNull => u "null"
  | JBool true => u "true"
  | JBool false => u "false"
  | JInt z => dec_Z z
  | JReal t => t
  | JStr s => jstr s
  | JArr [] => u "[]"
  | JArr l => [91%N] ++ nl (S lvl) ++ join ([44%N] ++ nl (S lvl)) (map (jwrite (S lvl)) l) ++ nl lvl ++ [93%N]
  | JObj [] => u "{}"
  | JObj l => [123%N] ++ nl (S lvl) ++
      join ([44%N] ++ nl (S lvl)) (map (fun kv => jstr (fst kv) ++ [58; 32]%N ++ jwrite (S lvl) (snd kv)) l) ++ nl lvl ++ [125%N]
  end.

(** ** json.load (utils.py:83-86 json_read) *)
Definition is_ws (c : char) : bool := ((c =? 32) || (c =? 9) || (c =? 10) || (c =? 13))%N.
Fixpoint skip_ws (s : str) : str :=
  match s with [] => [] | c :: r => if is_ws c then skip_ws r else s end.

Definition hexval (c : char) : option N :=
  (if (48 <=? c) && (c <=? 57) then Some (c - 48)
   else if (97 <=? c) && (c <=? 102) then Some (c - 87)
   else if (65 <=? c) && (c <=? 70) then Some (c - 55)
   else None)%N.
Definition hex4 (a b c d : char) : option N :=
  match hexval a, hexval b, hexval c, hexval d with
  | Some x, Some y, Some z, Some w => Some (((x * 16 + y) * 16 + z) * 16 + w)%N
  | _, _, _, _ => None
  end.
Definition between (lo x hi : N) : bool := ((lo <=? x) && (x <=? hi))%N.

(** the character of a one-letter escape *)
Definition simple_esc (e : char) : option char :=
  (if e =? 34 then Some 34 else if e =? 92 then Some 92 else if e =? 47 then Some 47
   else if e =? 98 then Some 8 else if e =? 102 then Some 12 else if e =? 110 then Some 10
   else if e =? 114 then Some 13 else if e =? 116 then Some 9 else None)%N.

(** scanstring (strict), after the opening quote: the string and the rest of the text *)
Fixpoint scan_str (s : str) : res (str * str) :=
  match s with
  | [] => Err ValueError                            (* Unterminated string *)
  | c :: r =>
    if (c =? 34)%N then Ok ([], r)
    else if (c =? 92)%N then
      match r with
      | [] => Err ValueError
      | e :: r2 =>
        if (e =? 117)%N then
          match r2 with
          | a :: b :: c2 :: d :: r3 =>
            match hex4 a b c2 d with
            | None => Err ValueError                (* Invalid \uXXXX escape *)
            | Some n =>
              if between 55296 n 56319 then
                match r3 with
                | b1 :: u1 :: a' :: b' :: c' :: d' :: r4 =>
                  match (if ((b1 =? 92) && (u1 =? 117))%N then hex4 a' b' c' d' else None) with
                  | Some m =>
                    if between 56320 m 57343
                    then let* xt := scan_str r4 in Ok ((65536 + (n - 55296) * 1024 + (m - 56320))%N :: fst xt, snd xt)
                    else let* xt := scan_str r3 in Ok (n :: fst xt, snd xt)
                  | None => let* xt := scan_str r3 in Ok (n :: fst xt, snd xt)
                  end
                | _ => let* xt := scan_str r3 in Ok (n :: fst xt, snd xt)
                end
              else let* xt := scan_str r3 in Ok (n :: fst xt, snd xt)
            end
          | _ => Err ValueError
          end
        else match simple_esc e with
             | Some x => let* xt := scan_str r2 in Ok (x :: fst xt, snd xt)
             | None => Err ValueError               (* Invalid \escape *)
             end
      end
    else if (c <? 32)%N then Err ValueError          (* Invalid control character *)
    else let* xt := scan_str r in Ok (c :: fst xt, snd xt)
  end.

Definition is_digit (c : char) : bool := between 48 c 57.
Fixpoint span_digits (s : str) : str * str :=
  match s with
  | c :: r => if is_digit c then let '(a, b) := span_digits r in (c :: a, b) else ([], s)
  | [] => ([], [])
  end.
Fixpoint str_uint (s : str) : Decimal.uint :=
  match s with
  | [] => Nil
  | c :: r => (if c =? 48 then D0 (str_uint r) else if c =? 49 then D1 (str_uint r) else if c =? 50 then D2 (str_uint r)
               else if c =? 51 then D3 (str_uint r) else if c =? 52 then D4 (str_uint r) else if c =? 53 then D5 (str_uint r)
               else if c =? 54 then D6 (str_uint r) else if c =? 55 then D7 (str_uint r) else if c =? 56 then D8 (str_uint r)
               else D9 (str_uint r))%N
  end.
Definition int_of (neg : bool) (digits : str) : Z :=
  let n := Z.of_N (N.of_uint (str_uint digits)) in if neg then (- n)%Z else n.

(** fraction: "." and at least one digit, else nothing *)
Definition scan_frac (s : str) : str * str :=
  match s with
  | d :: r => if (d =? 46)%N then match span_digits r with ([], _) => ([], s) | (x, t) => (d :: x, t) end else ([], s)
  | [] => ([], s)
  end.
(** exponent: e or E, optional sign, at least one digit, else nothing *)
Definition scan_exp (s : str) : str * str :=
  match s with
  | e :: r =>
    if ((e =? 101) || (e =? 69))%N then
      match r with
      | g :: r2 =>
        if ((g =? 43) || (g =? 45))%N then match span_digits r2 with ([], _) => ([], s) | (x, t) => (e :: g :: x, t) end
        else match span_digits r with ([], _) => ([], s) | (x, t) => (e :: x, t) end
      | [] => ([], s)
      end
    else ([], s)
  | [] => ([], s)
  end.
(** NUMBER_RE / _match_number_unicode.  [fs]: parse_float=str was given (storage.py:146) *)
Definition scan_number (fs : bool) (s : str) : res (jval * str) :=
  let '(neg, s1) := match s with c :: r => if (c =? 45)%N then (true, r) else (false, s) | [] => (false, s) end in
  let '(digits, s2) :=
    match s1 with
    | c :: r => if (c =? 48)%N then ([c], r) else span_digits s1
    | [] => ([], s1)
    end in
  match digits with
  | [] => Err ValueError
  | _ =>
    let '(frac, s3) := scan_frac s2 in
    let '(ex, s4) := scan_exp s3 in
    match frac ++ ex with
    | [] => Ok (JInt (int_of neg digits), s2)
    | fe => let text := (if neg then [45%N] else []) ++ digits ++ fe in
            Ok (if fs then JStr text else JReal text, s4)
    end
  end.

Definition lit (p : string) (v : jval) (s : str) : res (jval * str) :=
  if prefixb (u p) s then Ok (v, skipn (List.length (u p)) s) else Err ValueError.

(** scan_once; nesting is bounded by [fuel] (RecursionError; CPython's own recursion limit is not modelled) *)
Fixpoint scan_value (fuel : nat) (fs : bool) (s : str) {struct fuel} : res (jval * str) :=
  match fuel with
  | 0 => Err RecursionError
  | S f =>
    match s with
    | [] => Err ValueError
    | c :: r =>
      if (c =? 34)%N then let* xt := scan_str r in Ok (JStr (fst xt), snd xt)
      else if (c =? 123)%N then
        (match skip_ws r with
         | d :: r2 => if (d =? 125)%N then Ok (JObj [], r2) else scan_members f fs [] (d :: r2)
         | [] => Err ValueError
         end)
      else if (c =? 91)%N then
        (match skip_ws r with
         | d :: r2 => if (d =? 93)%N then Ok (JArr [], r2) else scan_items f fs [] (d :: r2)
         | [] => Err ValueError
         end)
      else if (c =? 110)%N then lit "null" JNull s
      else if (c =? 116)%N then lit "true" (JBool true) s
      else if (c =? 102)%N then lit "false" (JBool false) s
      else if (c =? 78)%N then lit "NaN" (JReal (u "NaN")) s
      else if (c =? 73)%N then lit "Infinity" (JReal (u "Infinity")) s
      else if prefixb (u "-Infinity") s then lit "-Infinity" (JReal (u "-Infinity")) s
      else scan_number fs s
    end
  end
(** JSONArray: the items seen so far are in [acc], reversed *)
with scan_items (fuel : nat) (fs : bool) (acc : list jval) (s : str) {struct fuel} : res (jval * str) :=
  match fuel with
  | 0 => Err RecursionError
  | S f =>
    let* vt := scan_value f fs s in
    match skip_ws (snd vt) with
    | d :: r => if (d =? 93)%N then Ok (JArr (rev (fst vt :: acc)), r)
                else if (d =? 44)%N then scan_items f fs (fst vt :: acc) (skip_ws r)
                else Err ValueError                 (* Expecting ',' delimiter *)
    | [] => Err ValueError
    end
  end
(** JSONObject: [acc] is the dict built so far *)
with scan_members (fuel : nat) (fs : bool) (acc : list (str * jval)) (s : str) {struct fuel} : res (jval * str) :=
  match fuel with
  | 0 => Err RecursionError
  | S f =>
    match s with
    | q :: r =>
      if (q =? 34)%N then
        let* kt := scan_str r in
        match skip_ws (snd kt) with
        | d :: r2 =>
          if (d =? 58)%N then
            let* vt := scan_value f fs (skip_ws r2) in
            let acc' := sset_ (fst kt) (fst vt) acc in
            match skip_ws (snd vt) with
            | d2 :: r3 => if (d2 =? 125)%N then Ok (JObj acc', r3)
                          else if (d2 =? 44)%N then scan_members f fs acc' (skip_ws r3)
                          else Err ValueError
            | [] => Err ValueError
            end
          else Err ValueError
        | [] => Err ValueError
        end
      else Err ValueError                           (* Expecting property name *)
    | [] => Err ValueError
    end
  end.

(** json.loads: a leading BOM is refused; only white space may follow the value *)
Definition json_loads (fs : bool) (s : str) : res jval :=
  match s with
  | c :: _ => if (c =? 65279)%N then Err ValueError else
    let* vt := scan_value (2 * List.length s + 2) fs (skip_ws s) in
    match skip_ws (snd vt) with [] => Ok (fst vt) | _ => Err ValueError end
  | [] => Err ValueError
  end.

(** ** UTF-8 *)
(** str.encode('utf8'); surrogates raise UnicodeEncodeError (and so do, here, numbers that are not code points) *)
Definition enc1 (c : char) : res (list N) :=
  (if c <? 128 then Ok [c]
   else if c <? 2048 then Ok [192 + c / 64; 128 + c mod 64]
   else if between 55296 c 57343 then Err UnicodeError
   else if c <? 65536 then Ok [224 + c / 4096; 128 + c / 64 mod 64; 128 + c mod 64]
   else if c <? 1114112 then Ok [240 + c / 262144; 128 + c / 4096 mod 64; 128 + c / 64 mod 64; 128 + c mod 64]
   else Err UnicodeError)%N.
Definition utf8_encode (s : str) : res (list N) := rmap (@concat N) (mapM enc1 s).

(** codecs.open(.., 'r', 'utf8').read(): utf_8_decode with final=False, so an incomplete sequence at the end
    of the file is dropped silently; any other malformed byte raises UnicodeDecodeError.  Only the checks
    that matter for files written by json_write are made: continuation bytes are in 128..191; over-long forms
    and surrogates are not refused. *)
Definition is_cont (b : N) : bool := between 128 b 191.
Fixpoint utf8_read (b : list N) : res str :=
  match b with
  | [] => Ok []
  | b0 :: r0 =>
    if (b0 <? 128)%N then let* s := utf8_read r0 in Ok (b0 :: s)
    else if between 194 b0 223 then
      match r0 with
      | [] => Ok []
      | b1 :: r1 => if is_cont b1 then let* s := utf8_read r1 in Ok (((b0 - 192) * 64 + (b1 - 128))%N :: s) else Err UnicodeError
      end
    else if between 224 b0 239 then
      match r0 with
      | [] => Ok []
      | b1 :: r1 =>
        if is_cont b1 then
          match r1 with
          | [] => Ok []
          | b2 :: r2 => if is_cont b2 then let* s := utf8_read r2 in Ok (((b0 - 224) * 4096 + (b1 - 128) * 64 + (b2 - 128))%N :: s) else Err UnicodeError
          end
        else Err UnicodeError
      end
    else if between 240 b0 244 then
      match r0 with
      | [] => Ok []
      | b1 :: r1 =>
        if is_cont b1 then
          match r1 with
          | [] => Ok []
          | b2 :: r2 =>
            if is_cont b2 then
              match r2 with
              | [] => Ok []
              | b3 :: r3 => if is_cont b3 then let* s := utf8_read r3 in
                              Ok (((b0 - 240) * 262144 + (b1 - 128) * 4096 + (b2 - 128) * 64 + (b3 - 128))%N :: s) else Err UnicodeError
              end
            else Err UnicodeError
          end
        else Err UnicodeError
      end
    else Err UnicodeError
  end.

(** utils.py:74-80 json_write: the bytes of the file *)
Definition json_bytes (v : jval) : res (list N) := utf8_encode (jwrite 0 v).
(** utils.py:83-86 json_read *)
Definition json_read (fs : bool) (b : list N) : res jval := let* s := utf8_read b in json_loads fs s.
