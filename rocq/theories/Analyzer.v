(** * Model of pymorphy2/analyzer.py: construction, lexemes, inflection *)
From Coq Require Import String List NArith ZArith Bool QArith.
From Verif Require Import Py Uni Tagset Dawg Utils Shapes Dict Units.
Import ListNotations.
Local Open Scope nat_scope.
Local Open Scope list_scope.

(** ** Binding units (unit.init(morph)); the tag class state is threaded through *)

(** abbreviations.py:30-35 _get_gender_case_tags *)
Definition GENDER2 : list str := [u "masc"; u "femn"].
Definition CASE6 : list str := map u ["nomn"; "gent"; "datv"; "accs"; "ablt"; "loct"]%string.
Definition gender_case_tags (C : tagclass) (pattern : str -> str -> str) : res (list tag) :=
  mapM (fun gc => mk_tag C (pattern (fst gc) (snd gc))) (list_prod GENDER2 CASE6).

(** [x for x in l if <exception-raising test>] *)
Fixpoint filterM {A} (f : A -> res bool) (l : list A) : res (list A) :=
  match l with
  | [] => Ok []
  | x :: r => let* b := f x in let* r' := filterM f r in Ok (if b then x :: r' else r')
  end.

(** by_shape.py:20-24, :58-64: add every grammeme of TAG_STR, then build the tag *)
Definition init_single (C : tagclass) (lat cyr : string) : res (tagclass * tag) :=
  let C' := add_known C (u lat) (u cyr) true in
  let* t := mk_tag C' (u lat) in Ok (C', t).

(** units/*.py init methods *)
Definition bind_unit (C : tagclass) (c : ucfg) : res (tagclass * bunit) :=
  let simple := Ok (C, {| b_cfg := c; b_tags := []; b_masc := []; b_femn := [] |}) in
  let single lat cyr :=
    let* r := init_single C lat cyr in
    Ok (fst r, {| b_cfg := c; b_tags := [snd r]; b_masc := []; b_femn := [] |}) in
  match c with
  | UInit first letters pattern _ =>             (* abbreviations.py:22-28, :54-62, :83-85 *)
    let C1 := add_known C (u "Init") (u "иниц") false in
    let C2 := if first then add_known C1 (u "Name") (u "имя") false
              else add_known C1 (u "Patr") (u "отч") false in
    let* tags := gender_case_tags C2 pattern in
    if first then
      let* masc := filterM (contains C2 (u "masc")) tags in
      let* femn := filterM (contains C2 (u "femn")) tags in
      let* _ := guard (list_eqb tag_eqb (masc ++ femn) tags) AssertionError in
      Ok (C2, {| b_cfg := c; b_tags := tags; b_masc := masc; b_femn := femn |})
    else Ok (C2, {| b_cfg := c; b_tags := tags; b_masc := []; b_femn := [] |})
  | UNumber _ =>                                 (* by_shape.py:104-112 *)
    let C1 := add_known C (u "NUMB") (u "ЧИСЛО") true in
    let C2 := add_known C1 (u "intg") (u "цел") true in
    let C3 := add_known C2 (u "real") (u "вещ") true in
    let* t1 := mk_tag C3 (u "NUMB,intg") in
    let* t2 := mk_tag C3 (u "NUMB,real") in
    Ok (C3, {| b_cfg := c; b_tags := [t1; t2]; b_masc := []; b_femn := [] |})
  | UPunct _ => single "PNCT"%string "ЗПР"%string
  | ULatin _ => single "LATN"%string "ЛАТ"%string
  | URoman _ => single "ROMN"%string "РИМ"%string
  | UUnkn => single "UNKN"%string "НЕИЗВ"%string            (* unkn.py:12-15 *)
  | UHAdverb _ =>                                (* by_hyphen.py:104-106 *)
    let* t := mk_tag C (u "ADVB") in
    Ok (C, {| b_cfg := c; b_tags := [t]; b_masc := []; b_femn := [] |})
  | _ => simple
  end.

(** An element of the [units] argument: a unit or a list of units (analyzer.py:232-238) *)
Inductive uitem := One (c : ucfg) | Group (l : list ucfg).

(** analyzer.py:232-238: the (unit, is_terminal) list; an empty inner list makes item[-1] raise *)
Fixpoint mark_last {A} (l : list A) : list (A * bool) :=
  match l with
  | [] => []
  | [x] => [(x, true)]
  | x :: r => (x, false) :: mark_last r
  end.
Definition flatten_item (it : uitem) : res (list (ucfg * bool)) :=
  match it with
  | One c => Ok [(c, true)]
  | Group [] => Err IndexError
  | Group l => Ok (mark_last l)
  end.
Fixpoint bind_all (C : tagclass) (l : list (ucfg * bool)) : res (tagclass * list (bunit * bool)) :=
  match l with
  | [] => Ok (C, [])
  | (c, b) :: r =>
    let* x := bind_unit C c in
    let* y := bind_all (fst x) r in
    Ok (fst y, (snd x, b) :: snd y)
  end.
(** analyzer.py:226-238 _init_units.  [clone()] (units/base.py:34) copies the constructor
    arguments and is the identity on configurations.  Items are flattened before
    binding: an empty group raises IndexError (after earlier items were bound in the
    code; Attempt.v models that partial effect on the tag class). *)
Definition init_units (C : tagclass) (items : list uitem) : res (tagclass * list (bunit * bool)) :=
  let* fl := mapM flatten_item items in
  bind_all C (concat fl).

(** analyzer.py:202-224, the part after the dictionary data has been read from disk: storage.py:
    load_dict initialises the tag class with the grammeme table and builds the gramtab tags,
    then the units are bound.  [raw] is the dictionary with gramtab given as texts. *)
Definition construct (U : uni) (ext : bool) (C : tagclass) (rows : list grow) (gramtab : list str)
           (mk : list tag -> dict) (prob : option cpd) (subst : replaces) (items : list uitem)
  : res (tagclass * morph) :=
  let C1 := init_grammemes C rows in
  let* gt := mapM (mk_tag C1) gramtab in
  let* b := init_units C1 items in
  Ok (fst b, {| m_uni := U; m_ext := ext; m_dict := mk gt; m_units := snd b;
                m_prob := prob; m_subst := subst; m_tc := fst b |}).

(** ** analyzer.py:343-355 normal_forms *)
Fixpoint dedup_from (seen : list str) (l : list str) : list str :=
  match l with
  | [] => []
  | x :: r => if smem x seen then dedup_from seen r else x :: dedup_from (x :: seen) r
  end.
Definition morph_normal_forms (M : morph) (word : str) : res (list str) :=
  let* ps := morph_parse M word in Ok (dedup_from [] (map p_nf ps)).

(** ** Lexemes *)

(** by_lookup.py:94-99 _extract_para_info *)
Definition extract_para_info (self : uref) (st : list method) : res (str * nat * nat) :=
  match st with
  | [] => Err IndexError
  | MDict r w para idx :: _ => if uref_eqb r self then Ok (w, para, idx) else Err AssertionError
  | _ :: _ => Err ValueError
  end.
(** by_lookup.py:101-103 _fix_stack *)
Definition fix_stack (self : uref) (st : list method) (w : str) (para idx : nat) : list method :=
  MDict self w para idx :: tl st.

(** by_lookup.py:61-80 DictionaryAnalyzer.get_lexeme *)
Definition dict_lexeme (M : morph) (self : uref) (form : parse) : res (list parse) :=
  let D := m_dict M in
  let* info := extract_para_info self (p_stack form) in
  let '(_, para, idx) := info in
  let* p := nth_res (d_paradigms D) para in
  let* stem := build_stem D p idx (p_word form) in
  let* infos := build_paradigm_info D para in
  Ok (map (fun x : nat * (str * tag * str) =>
             let '(index, (prefix, t, suffix)) := x in
             let w := prefix ++ stem ++ suffix in
             {| p_word := w; p_tag := t; p_nf := p_nf form; p_score := 1;
                p_stack := fix_stack self (p_stack form) w para index |}) (enum infos)).

(** by_lookup.py:82-92 DictionaryAnalyzer.normalized *)
Definition dict_normalized (M : morph) (self : uref) (form : parse) : res parse :=
  let* info := extract_para_info self (p_stack form) in
  let '(_, para, idx) := info in
  if idx =? 0 then Ok form
  else
    let* t := build_tag_info (m_dict M) para 0 in
    Ok {| p_word := p_nf form; p_tag := t; p_nf := p_nf form; p_score := 1;
          p_stack := fix_stack self (p_stack form) (p_nf form) para 0 |}.

(** units/base.py:124-128 _method_info: the last two methods *)
Definition method_info (st : list method) : res (method * method) :=
  match rev st with
  | this :: base :: _ => Ok (base, this)
  | _ => Err ValueError
  end.
(** this_method[1] used as a string *)
Definition method_arg1 (m : method) : res str :=
  match m with
  | MDict _ w _ _ => Ok w
  | MStr _ s => Ok s
  | MHyphFixed _ l _ => Ok l
  | MHyphBoth _ _ _ => Err TypeError
  end.
Definition last_unit (st : list method) : res uref :=
  match rev st with m :: _ => Ok (m_unit m) | [] => Err IndexError end.

(** abbreviations.py:64-77: which gender list *)
Definition gender_tags (M : morph) (b : bunit) (t : tag) : res (list tag) :=
  let* masc := contains (m_tc M) (u "masc") t in
  Ok (if masc then b_masc b else b_femn b).
Definition with_tag (f : parse) (t : tag) : parse :=
  {| p_word := p_word f; p_tag := t; p_nf := p_nf f; p_score := p_score f; p_stack := p_stack f |}.

(** by_hyphen.py:347-360 _align_lexeme_forms: the first closest left form (distance below 1e6) *)
Definition hy_grammemes (t : tag) : sset := replace_grammemes (t_gr t) CONSIDER_THE_SAME.
Definition hy_dist (l r : parse) : N :=
  N.of_nat (slen (ssymdiff (hy_grammemes (p_tag l)) (hy_grammemes (p_tag r)))).
Fixpoint closest (r : parse) (ls : list parse) (best : N) (cur : option parse) : option parse :=
  match ls with
  | [] => cur
  | l :: rest => let d := hy_dist l r in
                 if (d <? best)%N then closest r rest d (Some l) else closest r rest best cur
  end.
(** by_hyphen.py:336-345 _merge_lexemes, one pair; [None[0]] is a TypeError *)
Definition merge1 (self : uref) (ls : list parse) (r : parse) : res parse :=
  match closest r ls 1000000 None with
  | None => Err TypeError
  | Some l => Ok {| p_word := hyphen_join (p_word l) (p_word r); p_tag := p_tag l;
                    p_nf := hyphen_join (p_nf l) (p_nf r);
                    p_score := (p_score l + p_score r) / 2;
                    p_stack := [MHyphBoth self (p_stack l) (p_stack r)] |}
  end.
(** by_hyphen.py:362-372 _without_right_part / _without_left_part *)
Definition without_right_part (f : parse) : res parse :=
  let* i := index_sub [HY] (p_word f) in
  let* j := index_sub [HY] (p_nf f) in
  Ok {| p_word := firstn i (p_word f); p_tag := p_tag f; p_nf := firstn j (p_nf f);
        p_score := p_score f; p_stack := p_stack f |}.
Definition without_left_part (f : parse) : res parse :=
  let* i := index_sub [HY] (p_word f) in
  let* j := index_sub [HY] (p_nf f) in
  Ok {| p_word := skipn (i + 1) (p_word f); p_tag := p_tag f; p_nf := skipn (j + 1) (p_nf f);
        p_score := p_score f; p_stack := p_stack f |}.

(** the parts of by_hyphen.py:291-334 _iter_lexeme before the lexeme is enumerated: a list of
    delayed forms *)
Definition hyph_forms (lex : uref -> parse -> res (list parse)) (self : uref) (form : parse)
  : res (list (res parse)) :=
  match p_stack form with
  | [MHyphFixed r lw rights] =>
    if negb (uref_eqb r self) then Err AssertionError
    else
      let prefix := lw ++ [HY] in
      let right_form := without_fixed_prefix (replace_methods_stack form rights) (length prefix) in
      let* base := last_unit rights in
      let* fs := lex base right_form in
      Ok (map (fun f => Ok (replace_methods_stack (with_prefix f prefix) [MHyphFixed r lw (p_stack f)])) fs)
  | [MHyphBoth r lefts rights] =>
    if negb (uref_eqb r self) then Err AssertionError
    else
      let* left_form := without_right_part (replace_methods_stack form lefts) in
      let* right_form := without_left_part (replace_methods_stack form rights) in
      let* lu := last_unit lefts in
      let* ll := lex lu left_form in
      let* ru := last_unit rights in
      let* rl := lex ru right_form in
      Ok (map (merge1 self ll) rl)
  | [_] => Err ValueError                     (* unpacking three values fails *)
  | _ => Err AssertionError                   (* assert len(methods_stack) == 1 *)
  end.
Definition sequence {A} (l : list (res A)) : res (list A) := mapM (fun x => x) l.

(** unit.get_lexeme(form) for the unit object [who].  Fuel counts nested calls. *)
Fixpoint lexeme_f (fuel : nat) (M : morph) (who : uref) (form : parse) : res (list parse) :=
  match fuel with
  | 0 => Err RecursionError
  | S f =>
    match who with
    | Sub _ => dict_lexeme M who form
    | Root i =>
      let* bt := nth_res (m_units M) i in
      let b := fst bt in
      (* units/base.py:94-102: strip the last method, ask the base unit, decorate *)
      let analogy (undec dec : str -> parse -> parse) (needs_arg : bool) :=
        let* mi := method_info (p_stack form) in
        let '(base, this) := mi in
        let* a := if needs_arg then method_arg1 this else Ok [] in
        let* fs := lexeme_f f M (m_unit base) (without_last_method (undec a form)) in
        Ok (map (fun x => append_method (dec a x) this) fs) in
      match b_cfg b with
      | UDict => dict_lexeme M who form
      | UInit true _ _ _ =>                       (* abbreviations.py:64-71 *)
        let* ts := gender_tags M b (p_tag form) in Ok (map (with_tag form) ts)
      | UInit false _ _ _ => Ok (map (with_tag form) (b_tags b))   (* abbreviations.py:87-92 *)
      | UNumber _ | UPunct _ | ULatin _ | URoman _ | UHAdverb _ | UUnkn => Ok [form]
      | UParticle _ _ =>                          (* by_hyphen.py:89-92 *)
        analogy (fun a x => without_fixed_suffix x (length a)) (fun a x => with_suffix x a) true
      | UKnownPrefix _ _ _ | UUnknownPrefix _ =>  (* by_analogy.py:36-39 *)
        analogy (fun a x => without_fixed_prefix x (length a)) (fun a x => with_prefix x a) true
      | UKnownSuffix _ _ => analogy (fun _ x => x) (fun _ x => x) false   (* units/base.py:119-122 *)
      | UHyph _ _ => let* l := hyph_forms (lexeme_f f M) who form in sequence l
      end
    end
  end.

(** unit.normalized(form) *)
Fixpoint normalized_f (fuel : nat) (M : morph) (who : uref) (form : parse) : res parse :=
  match fuel with
  | 0 => Err RecursionError
  | S f =>
    match who with
    | Sub _ => dict_normalized M who form
    | Root i =>
      let* bt := nth_res (m_units M) i in
      let b := fst bt in
      (* units/base.py:83-92 *)
      let analogy (undec dec : str -> parse -> parse) (needs_arg : bool) :=
        let* mi := method_info (p_stack form) in
        let '(base, this) := mi in
        let* a := if needs_arg then method_arg1 this else Ok [] in
        let* x := normalized_f f M (m_unit base) (without_last_method (undec a form)) in
        Ok (append_method (dec a x) this) in
      match b_cfg b with
      | UDict => dict_normalized M who form
      | UInit true _ _ _ =>                       (* abbreviations.py:73-77 *)
        let* ts := gender_tags M b (p_tag form) in
        let* t := nth_res ts 0 in Ok (with_tag form t)
      | UInit false _ _ _ => let* t := nth_res (b_tags b) 0 in Ok (with_tag form t)  (* abbreviations.py:94-96 *)
      | UNumber _ | UPunct _ | ULatin _ | URoman _ | UHAdverb _ | UUnkn => Ok form
      | UParticle _ _ =>
        analogy (fun a x => without_fixed_suffix x (length a)) (fun a x => with_suffix x a) true
      | UKnownPrefix _ _ _ | UUnknownPrefix _ =>
        analogy (fun a x => without_fixed_prefix x (length a)) (fun a x => with_prefix x a) true
      | UKnownSuffix _ _ => analogy (fun _ x => x) (fun _ x => x) false
      | UHyph _ _ =>                              (* by_hyphen.py:285-286: next() *)
        let* l := hyph_forms (lexeme_f f M) who form in
        match l with [] => Err StopIteration | x :: _ => x end
      end
    end
  end.

(** total number of method items in a stack, including nested ones: bounds the recursion *)
Fixpoint method_size (m : method) : nat :=
  match m with
  | MDict _ _ _ _ | MStr _ _ => 1
  | MHyphFixed _ _ rs => S (fold_right (fun x n => method_size x + n) 0 rs)
  | MHyphBoth _ ls rs =>
    S (fold_right (fun x n => method_size x + n) 0 ls + fold_right (fun x n => method_size x + n) 0 rs)
  end.
Definition stack_size (st : list method) : nat := fold_right (fun x n => method_size x + n) 0 st.

(** analyzer.py:359-369 get_lexeme / Parse.lexeme *)
Definition get_lexeme (M : morph) (form : parse) : res (list parse) :=
  let* who := last_unit (p_stack form) in
  lexeme_f (S (stack_size (p_stack form))) M who form.
(** analyzer.py:57-61 Parse.normalized *)
Definition normalized (M : morph) (form : parse) : res parse :=
  let* who := last_unit (p_stack form) in
  normalized_f (S (stack_size (p_stack form))) M who form.

(** ** Inflection: analyzer.py:371-385 _inflect *)
Definition similarity (grammemes : sset) (f : parse) : Q :=
  inject_Z (Z.of_nat (slen (sinter grammemes (t_gr (p_tag f)))))
  - (1 # 10) * inject_Z (Z.of_nat (slen (ssymdiff grammemes (t_gr (p_tag f))))).
Definition has_all (req : sset) (f : parse) : bool := ssub req (t_gr (p_tag f)).
Definition inflect (M : morph) (form : parse) (req : sset) : res (option parse) :=
  let* lex := get_lexeme M form in
  let poss := filter (has_all req) lex in
  let* rp := (match poss with
              | [] => let req' := fix_rare_cases req in
                      let* lex' := get_lexeme M form in
                      Ok (req', filter (has_all req') lex')
              | _ => Ok (req, poss)
              end) in
  let '(req', poss') := rp in
  let* grammemes := updated_grammemes (m_tc M) (p_tag form) req' in
  (* heapq.nlargest(1, ..., key): the first form with the largest similarity *)
  Ok (max_first (fun a b => Qgtb (similarity grammemes a) (similarity grammemes b)) poss').

(** analyzer.py:38-42 make_agree_with_number.  If the required set contains None (a NOUN
    tag without case), no form matches it, fix_rare_cases keeps None and
    updated_grammemes rejects it: RuntimeError for an uninitialised class, otherwise
    ValueError (an unknown grammeme, whatever is iterated first). *)
Fixpoint all_some {A} (l : list (option A)) : option (list A) :=
  match l with
  | [] => Some []
  | Some x :: r => option_map (cons x) (all_some r)
  | None :: _ => None
  end.
Definition inflect_opt (M : morph) (form : parse) (req : list (option str)) : res (option parse) :=
  match all_some req with
  | Some l => inflect M form l
  | None =>
    let* _ := get_lexeme M form in
    let* _ := get_lexeme M form in
    let* _ := assert_initialized (m_tc M) in
    Err ValueError
  end.
Definition make_agree_with_number (pick : sset -> option str) (M : morph) (form : parse) (n : Z)
  : res (option parse) :=
  inflect_opt M form (numeral_agreement pick (p_tag form) n).

(** ** Lookup helpers *)
(** analyzer.py:405-425 word_is_known *)
Definition word_is_known (M : morph) (word : str) (strict : bool) : bool :=
  dict_word_is_known (m_dict M) (u_lower (m_uni M) word) (if strict then None else Some (m_subst M)).
(** analyzer.py:49-55 Parse.is_known *)
Definition parse_is_known (M : morph) (p : parse) : bool :=
  dict_word_is_known (m_dict M) (p_word p) (Some (m_subst M)).
(** analyzer.py:389-403 iter_known_word_parses: the method object is self._units[0][0] *)
Definition iter_known_word_parses (M : morph) (prefix : str) : res (list parse) :=
  let* l := iter_known_words (m_dict M) prefix in
  Ok (map (fun x : str * tag * str * nat * nat =>
             let '(w, t, nf, para, idx) := x in
             {| p_word := w; p_tag := t; p_nf := nf; p_score := 1; p_stack := [MDict (Root 0) w para idx] |}) l).

(** ** Default units: lang/ru/config.py:166-191, lang/uk/config.py:22-44, with the scores from the
    constructors' default arguments (decimal literals as exact rationals) *)
Definition letters_of (s : string) : list str := map (fun c => [c]) (u s).
Definition ru_units (letters particles prefixes : list str) : list uitem :=
  [ Group [UDict; UInit true letters name_pattern (1#10); UInit false letters patr_pattern (1#10)];
    One (UNumber (9#10)); One (UPunct (9#10));
    Group [URoman (9#10); ULatin (9#10)];
    One (UParticle particles (9#10)); One (UHAdverb (7#10)); One (UHyph prefixes (75#100));
    One (UKnownPrefix prefixes (75#100) 3);
    Group [UUnknownPrefix (1#2); UKnownSuffix (1#2) 4];
    One UUnkn ].
Definition uk_units (letters particles prefixes : list str) : list uitem :=
  [ Group [UDict; UInit true letters name_pattern (1#10); UInit false letters patr_pattern (1#10);
           URoman (9#10); ULatin (9#10)];
    One (UNumber (9#10)); One (UPunct (9#10));
    One (UParticle particles (9#10)); One (UHyph prefixes (75#100));
    One (UKnownPrefix prefixes (75#100) 3);
    Group [UUnknownPrefix (1#2); UKnownSuffix (1#2) 4];
    One UUnkn ].
