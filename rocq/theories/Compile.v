(** * Model of pymorphy2/opencorpora_dict/compile.py *)
From Coq Require Import String List NArith ZArith Bool.
From Verif Require Import Py Utils Dawg.
Import ListNotations.
Local Open Scope nat_scope.
Local Open Scope list_scope.

(** A source lexeme: [(word form, tag text)] (parse.py:126-132) *)
Definition lexeme := list (str * str).

(** ** compile.py:182-242 _join_lexemes *)

(** parsed_dict.lexemes.  Ids are decimal strings in the code ([sorted(..., key=int)]);
    here they are numbers, i.e. two spellings of one number ("1", "01") are not
    distinguished. *)
Definition lexemes := list (N * lexeme).
(** (from, to, type): link_start, link_end, type_id (compile.py:232) *)
Definition link := (N * N * str)%type.

(** compile.py:217 *)
Definition EXCLUDED_LINK_TYPES : list str := map u ["7"; "21"; "23"; "27"]%string.

Definition nget {V} : N -> list (N * V) -> option V := dget N.eqb.
Definition nset {V} : N -> V -> list (N * V) -> list (N * V) := dset N.eqb.
Definition nget_res {V} : N -> list (N * V) -> res V := dget_res N.eqb.

(** compile.py:225-226: while to_id in moves: to_id = moves[to_id].  RecursionError stands
    for non-termination; [fuel] = number of entries + 1 suffices unless there is a cycle. *)
Fixpoint chase (fuel : nat) (moves : list (N * N)) (to : N) : res N :=
  match fuel with
  | 0 => Err RecursionError
  | S f => match nget to moves with Some n => chase f moves n | None => Ok to end
  end.

(** compile.py:222-230 move_lexeme.  Lists are shared by reference: when the target is the
    moved lexeme itself, [extend] followed by [del lm[:]] empties it. *)
Definition move_lexeme (st : lexemes * list (N * N)) (from to : N) : res (lexemes * list (N * N)) :=
  let '(lx, moves) := st in
  let* lm := nget_res from lx in
  let* root := chase (S (length moves)) moves to in
  let* tgt := nget_res root lx in
  let lx1 := nset root (tgt ++ lm) lx in
  let lx2 := nset from [] lx1 in
  Ok (lx2, nset from root moves).

(** compile.py:232-239 *)
Definition join_step (st : lexemes * list (N * N)) (l : link) : res (lexemes * list (N * N)) :=
  let '(start, end_, ty) := l in
  if smem ty EXCLUDED_LINK_TYPES then Ok st else move_lexeme st end_ start.

(** sorted(ids, key=int) *)
Fixpoint insert_asc (x : N * lexeme) (l : lexemes) : lexemes :=
  match l with
  | [] => [x]
  | y :: r => if (fst x <=? fst y)%N then x :: l else y :: insert_asc x r
  end.
Definition sort_ids (l : lexemes) : lexemes := fold_right insert_asc [] l.

(** compile.py:182-242: the joined lexemes and (ghost) the final table *)
Definition join_lexemes_st (lx : lexemes) (links : list link) : res (lexemes * list (N * N)) :=
  foldM join_step (lx, []) links.
Definition join_lexemes (lx : lexemes) (links : list link) : res (list lexeme) :=
  let* st := join_lexemes_st lx links in
  Ok (filter (fun l => match l with [] => false | _ => true end) (map snd (sort_ids (fst st)))).

(** ** compile.py:245-273 _to_paradigm *)
(** a paradigm row: (suffix, tag text, prefix) *)
Definition prow := (str * str * str)%type.
Definition paradigm := list prow.

(** zip(suffixes, tags, prefixes) with suffixes = form[len(pref)+len(stem):] *)
Definition rows_of (stem : str) (lx : lexeme) (prefixes : list str) : paradigm :=
  map (fun x : (str * str) * str =>
         let '((form, tag), pref) := x in
         (skipn (length pref + length stem) form, tag, pref)) (combine lx prefixes).

Definition to_paradigm (lx : lexeme) (pprefixes : list str) : res (str * paradigm) :=
  match lx with
  | [] => Err ValueError                      (* zip() of nothing cannot be unpacked *)
  | [(form, tag)] => Ok (form, rows_of form lx [[]])
  | _ =>
    let forms := map fst lx in
    let stem := longest_common_substring forms in
    let* prefixes := mapM (fun form => let* i := index_sub stem form in Ok (firstn i form)) forms in
    if existsb (fun p => negb (smem p pprefixes)) prefixes
    then Ok ([], rows_of [] lx (map (fun _ => []) lx))
    else Ok (stem, rows_of stem lx prefixes)
  end.

(** ** compile.py:88-113: the main loop *)
Definition prow_eqb (a b : prow) : bool :=
  let '(s, t, p) := a in let '(s', t', p') := b in str_eqb s s' && str_eqb t t' && str_eqb p p'.
Definition paradigm_eqb : paradigm -> paradigm -> bool := list_eqb prow_eqb.

Record cstate := MkC {
  c_gramtab   : list str;
  c_tag_ids   : list (str * nat);
  c_paradigms : list (list (str * nat * str));      (* (suffix, tag id, prefix) *)
  c_para_ids  : list (paradigm * nat);
  c_pop       : list (nat * nat);                   (* paradigm_popularity *)
  c_words     : list (str * (nat * nat))
}.
Definition c_init : cstate := MkC [] [] [] [] [] [].

(** compile.py:94-97 *)
Definition add_gram (st : list str * list (str * nat)) (row : prow) : list str * list (str * nat) :=
  let '(gt, ids) := st in
  let '(_, tag, _) := row in
  if din str_eqb tag ids then st else (gt ++ [tag], dset str_eqb tag (length gt) ids).

Definition incr {K} (eqb : K -> K -> bool) (k : K) (d : list (K * nat)) : list (K * nat) :=
  dset eqb k (match dget eqb k d with Some n => S n | None => 1 end) d.

(** compile.py:90-113: one lexeme *)
Definition compile_lexeme (pprefixes : list str) (st : cstate) (lx : lexeme) : res cstate :=
  let* sp := to_paradigm lx pprefixes in
  let '(stem, para) := sp in
  let '(gt, ids) := fold_left add_gram para (c_gramtab st, c_tag_ids st) in
  let* ps := (if din paradigm_eqb para (c_para_ids st) then Ok (c_paradigms st, c_para_ids st)
              else
                let* rows := mapM (fun row : prow =>
                                     let '(s, t, p) := row in
                                     let* i := dget_res str_eqb t ids in Ok (s, i, p)) para in
                Ok (c_paradigms st ++ [rows],
                    dset paradigm_eqb para (length (c_paradigms st)) (c_para_ids st))) in
  let '(paras, pids) := ps in
  let* para_id := dget_res paradigm_eqb para pids in
  let words := map (fun ir : nat * prow =>
                      let '(idx, (s, _, p)) := ir in (p ++ stem ++ s, (para_id, idx))) (enum para) in
  Ok {| c_gramtab := gt; c_tag_ids := ids; c_paradigms := paras; c_para_ids := pids;
        c_pop := incr Nat.eqb para_id (c_pop st); c_words := c_words st ++ words |}.

(** ** compile.py:123-146: suffix table and linearisation *)
Fixpoint insert_str (x : str) (l : list str) : list str :=
  match l with
  | [] => [x]
  | y :: r => if str_ltb x y then x :: l else y :: insert_str x r
  end.
(** sorted(set(...)) *)
Definition sorted_set (l : list str) : list str := fold_right insert_str [] (snodup l).

Definition all_suffixes (paras : list (list (str * nat * str))) : list str :=
  sorted_set (flat_map (map (fun r : str * nat * str => let '(s, _, _) := r in s)) paras).

(** dict((x, index) for index, x in enumerate(l)): later duplicates win *)
Definition index_dict (l : list str) : list (str * nat) :=
  fold_left (fun d ix => dset str_eqb (snd ix) (fst ix) d) (enum l) [].

(** array.array("H", ...): OverflowError above 65535 *)
Definition U16MAX : N := 65535.
Definition fits16 (n : nat) : bool := (N.of_nat n <=? U16MAX)%N.

(** compile.py:136-146 fix_strings and _linearized_paradigm (compile.py:367-372) *)
Definition linearize (suffix_ids prefix_ids : list (str * nat)) (p : list (str * nat * str)) : res (list nat) :=
  let* rows := mapM (fun r : str * nat * str =>
                       let '(s, t, pr) := r in
                       let* si := dget_res str_eqb s suffix_ids in
                       let* pi := dget_res str_eqb pr prefix_ids in
                       Ok (si, t, pi)) p in
  let flat := map (fun r : nat * nat * nat => let '(s, _, _) := r in s) rows
              ++ map (fun r : nat * nat * nat => let '(_, t, _) := r in t) rows
              ++ map (fun r : nat * nat * nat => let '(_, _, q) := r in q) rows in
  let* _ := guard (forallb fits16 flat) OverflowError in
  Ok flat.

(** ** Prediction data: compile.py:276-360 *)
(** One increment of prefix_endings[prefix_id][ending][POS][(para_id, idx)]; the nested
    defaultdicts are represented by the list of increments. *)
Record pevent := MkEv { ev_pid : nat; ev_end : str; ev_pos : str; ev_form : nat * nat }.

Definition pop_of (pop : list (nat * nat)) (p : nat) : nat :=
  match dget Nat.eqb p pop with Some n => n | None => 0 end.
(** compile.py:363-364 _popular_keys *)
Definition productive (pop : list (nat * nat)) (thr : nat) (p : nat) : bool :=
  match dget Nat.eqb p pop with Some n => thr <=? n | None => false end.

(** compile.py:318: tuple(tag.replace(' ', ',', 1).split(','))[0] *)
Definition tag_pos (tag : str) : str :=
  match split_on (chr ",") (replace_first (chr " ") (chr ",") tag) with p :: _ => p | [] => [] end.

(** compile.py:296-323: the events of one word *)
Definition word_events (paradigms : list (list nat)) (gramtab suffixes pprefixes : list str)
           (pop : list (nat * nat)) (min_pop max_suffix : nat)
           (w : str * (nat * nat)) : res (list pevent) :=
  let '(word, (para_id, idx)) := w in
  if negb (productive pop min_pop para_id) then Ok []
  else
    let* p := nth_res paradigms para_id in
    let n := length p / 3 in
    let* tid := nth_res p (n + idx) in
    let* tag := nth_res gramtab tid in
    let* pid := nth_res p (2 * n + idx) in
    let* pref := nth_res pprefixes pid in
    let* sid := nth_res p idx in
    let* suff := nth_res suffixes sid in
    let* _ := guard (length pref + length suff <=? length word) AssertionError in
    let* _ := guard (prefixb pref word) AssertionError in
    let* _ := guard (suffixb suff word) AssertionError in
    if length word =? length pref + length suff then Ok []
    else
      let lo := Nat.max (length suff) 1 in
      Ok (map (fun i => {| ev_pid := pid; ev_end := slice_from word (- Z.of_nat i);
                           ev_pos := tag_pos tag; ev_form := (para_id, idx) |})
              (seq lo (S max_suffix - lo))).

Definition form_eqb (a b : nat * nat) : bool := (fst a =? fst b) && (snd a =? snd b).
(** distinct elements, in order of first occurrence (dict insertion order) *)
Fixpoint distinct {A} (eqb : A -> A -> bool) (seen : list A) (l : list A) : list A :=
  match l with
  | [] => []
  | x :: r => if existsb (eqb x) seen then distinct eqb seen r else x :: distinct eqb (x :: seen) r
  end.
Definition count_if {A} (f : A -> bool) (l : list A) : nat := length (filter f l).

(** endings[ending][POS].items(): forms with their counts *)
Definition form_counts (evs : list pevent) : list ((nat * nat) * nat) :=
  map (fun f => (f, count_if (fun e => form_eqb (ev_form e) f) evs))
      (distinct form_eqb [] (map ev_form evs)).

(** compile.py:337-360 _get_suffixes_dawg_data for one prefix id *)
Definition suffixes_data (all mine : list pevent) (min_freq : nat) : list (str * (nat * nat * nat)) :=
  flat_map (fun ending =>
    if count_if (fun e => str_eqb (ev_end e) ending) all <? min_freq then []
    else
      let here := filter (fun e => str_eqb (ev_end e) ending) mine in
      flat_map (fun pos =>
        let here' := filter (fun e => str_eqb (ev_pos e) pos) here in
        map (fun fc : (nat * nat) * nat => (ending, (snd fc, fst (fst fc), snd (fst fc))))
            (largest_elements (fun fc : (nat * nat) * nat => Z.of_nat (snd fc)) 1 (form_counts here')))
      (distinct str_eqb [] (map ev_pos here)))
  (distinct str_eqb [] (map ev_end mine)).

(** compile.py:276-334 _suffixes_prediction_data *)
Definition prediction_data (words : list (str * (nat * nat))) (pop : list (nat * nat))
           (gramtab : list str) (paradigms : list (list nat)) (suffixes pprefixes : list str)
           (min_freq min_pop max_suffix : nat) : res (list (list (str * (nat * nat * nat)))) :=
  let* evss := mapM (word_events paradigms gramtab suffixes pprefixes pop min_pop max_suffix) words in
  let evs := concat evss in
  Ok (map (fun pid => suffixes_data evs (filter (fun e => ev_pid e =? pid) evs) min_freq)
          (seq 0 (length pprefixes))).

(** ** RecordDAWG(data): a set of (key, value) records, keys unique. The library stores each record as the UTF-8 bytes of
    the key, a separator byte 1 and the base64 text of the packed value (docs/internals/dict.rst:262-272), and walks its
    graph in the order of bytes: keys come in the order of their code points (the order of UTF-8), the values of one key
    in the order of their base64 texts (library contract).
    struct.pack(">HH"/">HHH") rejects values above 65535. *)
Definition str_leb (a b : str) : bool := negb (str_ltb b a).
Definition rdawg_of {V} (veqb : V -> V -> bool) (enc : V -> str) (items : list (str * V)) : rdawg V :=
  map (fun k => (k, sort_desc (fun a b => str_leb (enc a) (enc b)) (distinct veqb [] (map snd (filter (fun it => str_eqb (fst it) k) items)))))
      (sort_desc str_leb (distinct str_eqb [] (map fst items))).
(** struct.pack of one ">H" *)
Definition pack16 (n : nat) : list N := [N.of_nat n / 256; N.of_nat n mod 256]%N.
(** binascii.b2a_base64 (without the final newline, the same for all values): the standard alphabet *)
Definition b64_digit (n : N) : char :=
  if (n <? 26)%N then (65 + n)%N else if (n <? 52)%N then (71 + n)%N else if (n <? 62)%N then (n - 4)%N
  else if (n =? 62)%N then 43%N else 47%N.
Fixpoint base64 (bytes : list N) : str :=
  match bytes with
  | [] => []
  | [a] => [b64_digit (a / 4); b64_digit (a mod 4 * 16); chr "="; chr "="]
  | [a; b] => [b64_digit (a / 4); b64_digit (a mod 4 * 16 + b / 16); b64_digit (b mod 16 * 4); chr "="]
  | a :: b :: c :: r =>
    b64_digit (a / 4) :: b64_digit (a mod 4 * 16 + b / 16) :: b64_digit (b mod 16 * 4 + c / 64) :: b64_digit (c mod 64) :: base64 r
  end%N.
(** dawg.py:24-27 DATA_FORMAT ">HH", dawg.py:42-45 ">HHH" *)
Definition pack_form (v : nat * nat) : str := base64 (pack16 (fst v) ++ pack16 (snd v)).
Definition pack_form3 (v : nat * nat * nat) : str := base64 (pack16 (fst (fst v)) ++ pack16 (snd (fst v)) ++ pack16 (snd v)).
Definition form3_eqb (a b : nat * nat * nat) : bool :=
  let '(x, y, z) := a in let '(x', y', z') := b in (x =? x') && (y =? y') && (z =? z').
Definition words_dawg (items : list (str * (nat * nat))) : res (rdawg (nat * nat)) :=
  let* _ := guard (forallb (fun it : str * (nat * nat) => fits16 (fst (snd it)) && fits16 (snd (snd it))) items) StructError in
  Ok (rdawg_of form_eqb pack_form items).
Definition pred_dawg (items : list (str * (nat * nat * nat))) : res (rdawg (nat * nat * nat)) :=
  let* _ := guard (forallb (fun it : str * (nat * nat * nat) =>
                              let '(_, (c, p, i)) := it in fits16 c && fits16 p && fits16 i) items) StructError in
  Ok (rdawg_of form3_eqb pack_form3 items).

(** compile.py:66-71 options *)
Record coptions := MkOpt { o_min_freq : nat; o_min_pop : nat; o_max_suffix : nat; o_prefixes : list str }.
Definition default_options (pp : list str) : coptions := MkOpt 2 3 5 pp.

(** compile.py:30-33, :171-179 *)
Record compiled := MkCompiled {
  x_gramtab : list str; x_suffixes : list str; x_paradigms : list (list nat);
  x_words : rdawg (nat * nat); x_pred : list (rdawg (nat * nat * nat));
  x_options : coptions
}.

(** compile.py:62-179 compile_parsed_dict, after joining (the loop of lines 90-113 on [lxs]).
    Logging is not modelled; [paradigm[0]] in the debug line cannot fail. *)
Definition compile_lexemes (o : coptions) (lxs : list lexeme) : res compiled :=
  let* st := foldM (compile_lexeme (o_prefixes o)) c_init lxs in
  let suffixes := all_suffixes (c_paradigms st) in
  let sids := index_dict suffixes in
  let pids := index_dict (o_prefixes o) in
  let* paras := mapM (linearize sids pids) (c_paradigms st) in
  let* pd := prediction_data (c_words st) (c_pop st) (c_gramtab st) paras suffixes (o_prefixes o)
               (o_min_freq o) (o_min_pop o) (o_max_suffix o) in
  let* wd := words_dawg (c_words st) in
  let* pds := mapM pred_dawg pd in
  Ok {| x_gramtab := c_gramtab st; x_suffixes := suffixes; x_paradigms := paras;
        x_words := wd; x_pred := pds; x_options := o |}.

Definition compile_parsed_dict (o : coptions) (lx : lexemes) (links : list link) : res compiled :=
  let* lxs := join_lexemes lx links in compile_lexemes o lxs.
