(** * Independent specifications for the later properties *)
From Coq Require Import String List NArith ZArith Bool QArith Lia.
From Verif Require Import Py Uni Tagset Dawg Utils Shapes Dict Units Analyzer ConfigRu ConfigUk.
Import ListNotations.
Local Open Scope nat_scope.
Local Open Scope list_scope.

(** ** Inflection (C14-C18) *)
Definition grammeme_dec (a b : str) : {a = b} + {a <> b} := list_eq_dec N.eq_dec a b.
(** the tag of [f] has all grammemes of [req] *)
Definition has (req : list str) (f : parse) : Prop := forall g, In g req -> In g (t_gr (p_tag f)).
Definition hasb (req : list str) (f : parse) : bool :=
  forallb (fun g => if in_dec grammeme_dec g (t_gr (p_tag f)) then true else false) req.
(** rare cases and the common ones used instead *)
Definition rare (g common : str) : Prop :=
  In (g, common) (map (fun x => (u (fst x), u (snd x)))
    [("gen1", "gent"); ("gen2", "gent"); ("acc1", "accs"); ("acc2", "accs"); ("loc1", "loct"); ("loc2", "loct"); ("voct", "nomn")]%string).
Definition commoned (req req' : list str) : Prop :=
  forall x, In x req' <-> exists g, In g req /\ (rare g x \/ x = g /\ forall y, ~ rare g y).
(** the requirement used for a lexeme: the given one if some form has it, else the one without rare cases *)
Definition used_requirement (lex : list parse) (req used : list str) : Prop :=
  (used = req /\ exists f, In f lex /\ has req f) \/
  (commoned req used /\ forall f, In f lex -> ~ has req f).
(** what the result should look like: the grammemes of [p] plus the required ones, without those
    incompatible with a required one *)
Definition target (C : tagclass) (p : parse) (used want : list str) : Prop :=
  forall x, In x want <-> (In x (t_gr (p_tag p)) \/ In x used) /\ forall g, In g used -> ~ In x (incompat_of C g).
Definition card (P : str -> Prop) (n : nat) : Prop := exists l, NoDup l /\ (forall x, In x l <-> P x) /\ length l = n.
(** ten times the number of shared grammemes minus the number of differing ones *)
Definition closeness (want : list str) (f : parse) (z : Z) : Prop :=
  exists a b, card (fun x => In x want /\ In x (t_gr (p_tag f))) a /\
    card (fun x => (In x want /\ ~ In x (t_gr (p_tag f))) \/ (~ In x want /\ In x (t_gr (p_tag f)))) b /\
    z = (10 * Z.of_nat a - Z.of_nat b)%Z.
(** the first of the candidates of largest closeness *)
Definition first_closest (want : list str) (cands : list parse) (f : parse) : Prop :=
  exists i, nth_error cands i = Some f /\
    forall j f' z z', nth_error cands j = Some f' -> closeness want f z -> closeness want f' z' ->
      (z' <= z)%Z /\ (j < i -> (z' < z)%Z).

(** numbers: the last digit is 1 but not 11; 2-4 but not 12-14; the rest *)
Definition like_1 (n : Z) : Prop := (n mod 10 = 1 /\ n mod 100 <> 11)%Z.
Definition like_2 (n : Z) : Prop := (2 <= n mod 10 <= 4 /\ ~ (12 <= n mod 100 <= 14))%Z.
Definition like_5 (n : Z) : Prop := ~ like_1 n /\ ~ like_2 n.

(** ** Text utilities (C30-C34) *)
Definition wordish (U : uni) (c : char) : Prop := (u_word U c = true \/ c = chr "_" \/ c = chr "-") /\ c <> chr "+".
(** facts about CPython's tables used by the tokenizer *)
Definition spaces_ok (U : uni) : Prop :=
  u_space U (chr " ") = true /\ (forall c, wordish U c -> u_space U c = false).
(** the tokens of a text: maximal runs of word characters, single other characters, no white space *)
Inductive tokens (U : uni) : str -> list str -> Prop :=
| tok_end : tokens U [] []
| tok_space : forall c r ts, u_space U c = true -> tokens U r ts -> tokens U (c :: r) ts
| tok_other : forall c r ts, u_space U c = false -> ~ wordish U c -> tokens U r ts -> tokens U (c :: r) ([c] :: ts)
| tok_run : forall run r ts, run <> [] -> (forall c, In c run -> wordish U c) ->
    (forall c r', r = c :: r' -> ~ wordish U c) -> tokens U r ts -> tokens U (run ++ r) (run :: ts).

(** the pieces of [s] between occurrences of [c] *)
Definition pieces (c : char) (s : str) (l : list str) : Prop :=
  l <> [] /\ join [c] l = s /\ forall p, In p l -> ~ In c p.
(** [r] is [p] in the case of the example [e] *)
Definition cased_like (U : uni) (e p r : str) : Prop :=
  (u_islower U e = true -> r = u_lower U p) /\
  (u_islower U e = false -> u_isupper U e = true -> r = u_upper U p) /\
  (u_islower U e = false -> u_isupper U e = false -> u_istitle U e = true -> r = u_title U p) /\
  (u_islower U e = false -> u_isupper U e = false -> u_istitle U e = false -> r = u_lower U p).
(** two characters that differ at most in case *)
Definition same_letter (U : uni) (a b : char) : Prop :=
  u_lower U [a] = u_lower U [b] /\ (a = chr "-" <-> b = chr "-").
(** changing the case of any piece of the word changes nothing else (fails for e.g. the German sharp s) *)
Definition regular_case (U : uni) (w : str) : Prop :=
  forall a p b, w = a ++ p ++ b ->
    Forall2 (same_letter U) p (u_lower U p) /\ Forall2 (same_letter U) p (u_upper U p) /\ Forall2 (same_letter U) p (u_title U p).

Definition common_substring (x : str) (data : list str) : Prop :=
  forall s, In s data -> exists a b, s = a ++ x ++ b.

(** fewer than [n] different keys of [l] are larger than [k] *)
Definition among_largest {A} (key : A -> Z) (n : nat) (l : list A) (k : Z) : Prop :=
  exists larger, NoDup larger /\ (forall z, In z larger <-> (k < z)%Z /\ exists x, In x l /\ key x = z) /\ length larger < n.

(** ** What single units contribute to parse() (C32 C50-C53 C58) *)
(** [word] has exactly one hyphen, between the non-empty parts [l] and [r] *)
Definition one_inner_hyphen (word l r : str) : Prop :=
  word = l ++ u "-" ++ r /\ l <> [] /\ r <> [] /\ ~ In (chr "-") l /\ ~ In (chr "-") r.
Definition starts_with_any (ps : list str) (w : str) : Prop := exists p rest, In p ps /\ w = p ++ rest.
(** part of speech, number, case, person and tense, not distinguishing gen1/gent and loc1/loct *)
Definition merged_case (g : str) : str :=
  if grammeme_dec g (u "gen1") then u "gent" else if grammeme_dec g (u "loc1") then u "loct" else g.
Definition feature (t : tag) (g : str) : Prop :=
  exists g0, In g0 (t_gr t) /\ In g0 (PARTS_OF_SPEECH ++ NUMBERS ++ CASES ++ PERSONS ++ TENSES) /\ g = merged_case g0.
Definition same_features (a b : tag) : Prop := forall g, feature a g <-> feature b g.
(** the tag starts with a part of speech (so it is not LATN, NUMB, UNKN, ...) *)
Definition has_pos (t : tag) : Prop := exists g r, t_gr t = g :: r /\ In g PARTS_OF_SPEECH.
(** everything except the score *)
Definition content (p : parse) : str * tag * str * list method := (p_word p, p_tag p, p_nf p, p_stack p).

(** the readings of a hyphenated word: both parts inflected alike, or a fixed left part *)
Definition hyphen_reading (M : morph) (self : uref) (mult : Q) (lower : str) (p : parse) : Prop :=
  exists l r ls rs, one_inner_hyphen lower l r /\ morph_parse M l = Ok ls /\ morph_parse M r = Ok rs /\
    ((exists a b, In a ls /\ In b rs /\ has_pos (p_tag a) /\ same_features (p_tag a) (p_tag b) /\
        p = {| p_word := p_word a ++ u "-" ++ p_word b; p_tag := p_tag a; p_nf := p_nf a ++ u "-" ++ p_nf b;
               p_score := p_score a * mult; p_stack := [MHyphBoth self (p_stack a) (p_stack b)] |}) \/
     (exists b, In b rs /\ has_pos (p_tag b) /\
        p = {| p_word := l ++ u "-" ++ p_word b; p_tag := p_tag b; p_nf := l ++ u "-" ++ p_nf b;
               p_score := p_score b * mult; p_stack := [MHyphFixed self l (p_stack b)] |})).

(** no word ends with two different ones of these *)
Definition at_most_one_ending (ps : list str) : Prop :=
  forall a b pa pb, In pa ps -> In pb ps -> a ++ pa = b ++ pb -> pa = pb.
(** the parse [q] of the rest with the ending re-attached *)
Definition reattached (self : uref) (mult : Q) (ending : str) (q p : parse) : Prop :=
  p_word p = p_word q ++ ending /\ p_tag p = p_tag q /\ p_nf p = p_nf q ++ ending /\
  p_score p = (p_score q * mult)%Q /\ p_stack p = p_stack q ++ [MStr self ending].

(** the same analyzer with / without the optional C extension *)
Definition other_ext (M : morph) : morph :=
  MkMorph (m_uni M) (negb (m_ext M)) (m_dict M) (m_units M) (m_prob M) (m_subst M) (m_tc M).
(** the prefixes configured for prefix and hyphen units are different non-empty texts *)
Definition proper_prefixes (c : ucfg) : Prop :=
  match c with UKnownPrefix ps _ _ | UHyph ps _ => NoDup ps /\ ~ In [] ps | _ => True end.

(** one suffix prediction record: the ending found, and (count, paradigm, form number) *)
Definition pred_records (M : morph) (dawg : rdawg (nat * nat * nat)) (e : str) : list (str * (nat * nat * nat)) :=
  flat_map (fun sv => map (pair (fst sv)) (snd sv)) (similar_items dawg (m_subst M) e).
Definition productiveb (D : dict) (r : str * (nat * nat * nat)) : bool :=
  match build_tag_info D (snd (fst (snd r))) (snd (snd r)) with
  | Ok t => forallb (fun g => negb (smem g NON_PRODUCTIVE)) (t_gr t)
  | Err _ => false
  end.
Definition productive_records M dawg e := filter (productiveb (m_dict M)) (pred_records M dawg e).
Definition record_count (r : str * (nat * nat * nat)) : nat := fst (fst (snd r)).
Fixpoint sum_counts (l : list (str * (nat * nat * nat))) : nat :=
  match l with [] => 0 | r :: l' => record_count r + sum_counts l' end.
(** [e] is the longest ending of [lower] with a productive record; [start] is the rest *)
Definition longest_informative (M : morph) (dawg : rdawg (nat * nat * nat)) (lower start e : str) : Prop :=
  lower = start ++ e /\ e <> [] /\ length e <= d_maxsuf (m_dict M) /\ productive_records M dawg e <> [] /\
  forall start' e', lower = start' ++ e' -> length e < length e' <= d_maxsuf (m_dict M) -> productive_records M dawg e' = [].
(** a suffix prediction: a productive record of the longest informative ending, scored by its share of the counts *)
Definition predicted (M : morph) (self sub : uref) (mult : Q) (lower : str) (p : parse) : Prop :=
  exists pid pre rest dawg start e fs cnt para idx,
    nth_error (d_prefixes (m_dict M)) pid = Some pre /\ lower = pre ++ rest /\
    nth_error (d_pred (m_dict M)) pid = Some dawg /\ longest_informative M dawg lower start e /\
    In (fs, (cnt, para, idx)) (productive_records M dawg e) /\
    p_word p = start ++ fs /\ build_tag_info (m_dict M) para idx = Ok (p_tag p) /\
    build_normal_form (m_dict M) para idx (start ++ fs) = Ok (p_nf p) /\
    p_stack p = [MDict sub (start ++ fs) para idx; MStr self fs] /\
    (p_score p == inject_Z (Z.of_nat cnt) / inject_Z (Z.of_nat (1 + sum_counts (productive_records M dawg e))) * mult)%Q.

(** ** Shapes (C44-C47) *)
(** the numeral for the digit [d] written with the signs for 1, 5 and 10 *)
Definition roman_digit (one five ten : char) (d : nat) : str :=
  nth d [[]; [one]; [one; one]; [one; one; one]; [one; five]; [five]; [five; one]; [five; one; one]; [five; one; one; one]; [one; ten]] [].
(** the Roman numeral for [n < 5000] *)
Definition roman (n : nat) : str :=
  repeat (chr "M") (n / 1000) ++ roman_digit (chr "C") (chr "D") (chr "M") (n / 100 mod 10)
  ++ roman_digit (chr "X") (chr "L") (chr "C") (n / 10 mod 10) ++ roman_digit (chr "I") (chr "V") (chr "X") (n mod 10).
(** a capital letter, its small letter, or (for I) the Turkish dotted capital and dotless small i *)
Definition roman_letter (c x : char) : Prop :=
  x = c \/ x = (c + 32)%N \/ (c = chr "I" /\ (x = 304 \/ x = 305)%N).
(** the value of a Roman numeral: a sign before a larger one is subtracted *)
Definition roman_sign (c : char) : nat :=
  match dget N.eqb c [(chr "I", 1); (chr "V", 5); (chr "X", 10); (chr "L", 50); (chr "C", 100); (chr "D", 500); (chr "M", 1000)] with
  | Some n => n | None => 0 end.
Fixpoint roman_value (s : str) : Z :=
  match s with
  | [] => 0
  | c :: r => (match r with d :: _ => if Nat.ltb (roman_sign c) (roman_sign d) then - Z.of_nat (roman_sign c) else Z.of_nat (roman_sign c)
                          | [] => Z.of_nat (roman_sign c) end + roman_value r)%Z
  end.

(** number literals *)
Definition padded (U : uni) (core s : str) : Prop :=
  exists a b, s = a ++ core ++ b /\ (forall c, In c (a ++ b) -> num_space U c = true).
Definition signed (body s : str) : Prop := s = body \/ exists c, (c = chr "+" \/ c = chr "-") /\ s = c :: body.
(** digits, single underscores allowed between digits *)
Inductive digits (U : uni) : str -> Prop :=
| dg_one : forall c, num_digit U c = true -> digits U [c]
| dg_more : forall c r, num_digit U c = true -> digits U r -> digits U (c :: r)
| dg_under : forall c r, num_digit U c = true -> digits U r -> digits U (c :: chr "_" :: r).
Definition opt_digits (U : uni) (s : str) : Prop := s = [] \/ digits U s.
Definition exponent (U : uni) (s : str) : Prop :=
  s = [] \/ exists e d d', (e = chr "e" \/ e = chr "E") /\ digits U d /\ signed d d' /\ s = e :: d'.
Definition decimal (U : uni) (s : str) : Prop :=
  exists m x, exponent U x /\ s = m ++ x /\
    (digits U m \/ exists a b, m = a ++ u "." ++ b /\ opt_digits U a /\ opt_digits U b /\ ~ (a = [] /\ b = [])).
Definition float_word (s : str) : Prop := exists w, In w (map u ["inf"; "infinity"; "nan"]%string) /\
  Forall2 (fun c x => x = c \/ x = (c - 32)%N) w s.
(** what int() accepts, and what float() accepts; CPython 3.11 limits the number of digits for int() *)
Definition within_limit (U : uni) (d : str) : Prop :=
  forall n, u_int_limit U = Some n -> length (filter (fun c => negb (c =? chr "_")%N) d) <= n.
Definition int_literal (U : uni) (s : str) : Prop := exists d b, digits U d /\ within_limit U d /\ signed d b /\ padded U b s.
Definition float_literal (U : uni) (s : str) : Prop :=
  exists d b, (decimal U d \/ float_word d) /\ signed d b /\ padded U b s.
(** fact about CPython's tables: no decimal digit is white space *)
Definition digits_ok (U : uni) : Prop := forall c, num_digit U c = true -> num_space U c = false.
(** the unit was initialised by some analyzer *)
Definition initialised (b : bunit) : Prop := exists C C', bind_unit C (b_cfg b) = Ok (C', b).
(** what a shape unit returns: one reading with that tag, the lower-cased word being its normal form *)
Definition shape_reading (self : uref) (score : Q) (word lower : str) (grammemes : list string) (ps : list parse) : Prop :=
  exists t, t_gr t = map u grammemes /\
    ps = [{| p_word := lower; p_tag := t; p_nf := lower; p_score := score; p_stack := [MStr self word] |}].
