(** * Model of pymorphy2/units/*.py: analyzer units, and of MorphAnalyzer.parse/tag
    (analyzer.py:301-341), which the units call back *)
From Coq Require Import String List NArith ZArith Bool QArith.
From Verif Require Import Py Uni Tagset Dawg Utils Shapes Dict.
Import ListNotations.
Local Open Scope nat_scope.
Local Open Scope list_scope.

(** ** Parses and method stacks *)

(** Identity of a unit object: [Root i] is the unit at position [i] of
    MorphAnalyzer._units, [Sub i] the DictionaryAnalyzer owned by it
    (by_analogy.py:117 [dict_analyzer], by_analogy.py:179 [fake_dict]).
    Python compares these objects by identity. *)
Inductive uref := Root (i : nat) | Sub (i : nat).
Definition uref_eqb (a b : uref) : bool :=
  match a, b with
  | Root i, Root j => i =? j
  | Sub i, Sub j => i =? j
  | _, _ => false
  end.

(** Items of a methods_stack:
    (unit, word, para_id, idx)             by_lookup.py:32, by_analogy.py:228
    (unit, text)                           by_analogy.py:229, by_hyphen.py:42, by_shape.py:31, ...
    (unit, left, right_methods)            by_hyphen.py:201 (left is a string)
    (unit, left_methods, right_methods)    by_hyphen.py:244 (left is a tuple) *)
Inductive method :=
| MDict (r : uref) (w : str) (para idx : nat)
| MStr (r : uref) (s : str)
| MHyphFixed (r : uref) (left : str) (rights : list method)
| MHyphBoth (r : uref) (lefts rights : list method).

Definition m_unit (x : method) : uref :=
  match x with MDict r _ _ _ | MStr r _ | MHyphFixed r _ _ | MHyphBoth r _ _ => r end.

(** tuple equality of methods *)
Fixpoint method_eqb (a b : method) : bool :=
  match a, b with
  | MDict r w p i, MDict r' w' p' i' => uref_eqb r r' && str_eqb w w' && (p =? p') && (i =? i')
  | MStr r s, MStr r' s' => uref_eqb r r' && str_eqb s s'
  | MHyphFixed r l rs, MHyphFixed r' l' rs' =>
      uref_eqb r r' && str_eqb l l' &&
      (fix go (x y : list method) : bool :=
         match x, y with
         | [], [] => true
         | m :: x', n :: y' => method_eqb m n && go x' y'
         | _, _ => false
         end) rs rs'
  | MHyphBoth r ls rs, MHyphBoth r' ls' rs' =>
      uref_eqb r r' &&
      (fix go (x y : list method) : bool :=
         match x, y with
         | [], [] => true
         | m :: x', n :: y' => method_eqb m n && go x' y'
         | _, _ => false
         end) ls ls' &&
      (fix go (x y : list method) : bool :=
         match x, y with
         | [], [] => true
         | m :: x', n :: y' => method_eqb m n && go x' y'
         | _, _ => false
         end) rs rs'
  | _, _ => false
  end.

(** analyzer.py:17: (word, tag, normal_form, score, methods_stack).  Scores are exact
    rationals (IEEE rounding: see Rounding.v and C72). *)
Record parse := MkParse {
  p_word : str; p_tag : tag; p_nf : str; p_score : Q; p_stack : list method
}.

(** units/utils.py:5-9: parse[4][0][2]: para_id of a dictionary method, the right
    methods of a hyphen method, None (IndexError) for a two-element method or an
    empty stack *)
Inductive para_key := PNone | PNum (n : nat) | PMethods (l : list method).
Definition para_key_of (p : parse) : para_key :=
  match p_stack p with
  | MDict _ _ para _ :: _ => PNum para
  | MHyphFixed _ _ rs :: _ => PMethods rs
  | MHyphBoth _ _ rs :: _ => PMethods rs
  | _ => PNone
  end.
Definition para_key_eqb (a b : para_key) : bool :=
  match a, b with
  | PNone, PNone => true
  | PNum n, PNum m => n =? m
  | PMethods x, PMethods y => list_eqb method_eqb x y
  | _, _ => false
  end.

(** Elements of the [seen_parses] set: reduced triples (units/utils.py:14,
    by_analogy.py:220) or a whole parse tuple (by_hyphen.py:117) *)
Inductive skey :=
| SKey (w : str) (t : tag) (k : para_key)
| SFull (p : parse).
(** A reduced triple never equals a 5-tuple.  Two whole tuples are only ever
    inserted, never looked up, so their equality is not needed. *)
Definition skey_eqb (a b : skey) : bool :=
  match a, b with
  | SKey w t k, SKey w' t' k' => str_eqb w w' && tag_eqb t t' && para_key_eqb k k'
  | _, _ => false
  end.
Definition seen_mem (k : skey) (seen : list skey) : bool := existsb (skey_eqb k) seen.

(** units/utils.py:5-19 add_parse_if_not_seen, as a fold step on (result, seen) *)
Definition add_parse_if_not_seen (st : list parse * list skey) (p : parse) : list parse * list skey :=
  let '(result, seen) := st in
  let k := SKey (p_word p) (p_tag p) (para_key_of p) in
  if seen_mem k seen then (result, seen) else (result ++ [p], k :: seen).

(** units/utils.py:22-26 add_tag_if_not_seen *)
Definition tag_mem (t : tag) (l : list tag) : bool := existsb (tag_eqb t) l.
Definition add_tag_if_not_seen (st : list tag * list tag) (t : tag) : list tag * list tag :=
  let '(result, seen) := st in
  if tag_mem t seen then (result, seen) else (result ++ [t], t :: seen).

(** units/utils.py:29-72 form editing *)
Definition with_suffix (f : parse) (s : str) : parse :=
  {| p_word := p_word f ++ s; p_tag := p_tag f; p_nf := p_nf f ++ s; p_score := p_score f; p_stack := p_stack f |}.
Definition without_fixed_suffix (f : parse) (n : nat) : parse :=
  {| p_word := slice_to (p_word f) (- Z.of_nat n); p_tag := p_tag f;
     p_nf := slice_to (p_nf f) (- Z.of_nat n); p_score := p_score f; p_stack := p_stack f |}.
Definition without_fixed_prefix (f : parse) (n : nat) : parse :=
  {| p_word := slice_from (p_word f) (Z.of_nat n); p_tag := p_tag f;
     p_nf := slice_from (p_nf f) (Z.of_nat n); p_score := p_score f; p_stack := p_stack f |}.
Definition with_prefix (f : parse) (s : str) : parse :=
  {| p_word := s ++ p_word f; p_tag := p_tag f; p_nf := s ++ p_nf f; p_score := p_score f; p_stack := p_stack f |}.
Definition replace_methods_stack (f : parse) (st : list method) : parse :=
  {| p_word := p_word f; p_tag := p_tag f; p_nf := p_nf f; p_score := p_score f; p_stack := st |}.
Definition without_last_method (f : parse) : parse :=
  replace_methods_stack f (slice_to (p_stack f) (-1)).
Definition append_method (f : parse) (m : method) : parse :=
  replace_methods_stack f (p_stack f ++ [m]).

(** ** Units *)

(** Unbound units with their constructor arguments *)
Inductive ucfg :=
| UDict                                                        (* by_lookup.py DictionaryAnalyzer *)
| UInit (first : bool) (letters : list str) (pattern : str -> str -> str) (score : Q)
                                    (* abbreviations.py; first: AbbreviatedFirstName, else Patronymic;
                                       pattern gender case = tag_pattern % {...} *)
| UNumber (score : Q)                                          (* by_shape.py:94 *)
| UPunct (score : Q)                                           (* by_shape.py:70 *)
| ULatin (score : Q)                                           (* by_shape.py:82 *)
| URoman (score : Q)                                           (* by_shape.py:130 *)
| UParticle (particles : list str) (mult : Q)                  (* by_hyphen.py:17 *)
| UHAdverb (mult : Q)                                          (* by_hyphen.py:95 *)
| UHyph (skip : list str) (mult : Q)                           (* by_hyphen.py:141 *)
| UKnownPrefix (prefixes : list str) (mult : Q) (minrem : nat) (* by_analogy.py:42 *)
| UUnknownPrefix (mult : Q)                                    (* by_analogy.py:104 *)
| UKnownSuffix (mult : Q) (minlen : nat)                       (* by_analogy.py:158 *)
| UUnkn.                                                       (* unkn.py *)

(** abbreviations.py:52, :81 TAG_PATTERN *)
Definition name_pattern (gender case : str) : str :=
  u "NOUN,anim," ++ gender ++ u ",Sgtm,Name,Fixd,Abbr,Init sing," ++ case.
Definition patr_pattern (gender case : str) : str :=
  u "NOUN,anim," ++ gender ++ u ",Sgtm,Patr,Fixd,Abbr,Init sing," ++ case.

(** A unit after [init(morph)] (units/base.py:30): configuration and the tags it built.
    [b_masc]/[b_femn] are used by AbbreviatedFirstNameAnalyzer only. *)
Record bunit := MkUnit { b_cfg : ucfg; b_tags : list tag; b_masc : list tag; b_femn : list tag }.

(** MorphAnalyzer instance (analyzer.py:190-224).  [m_ext]: EXTENSION_AVAILABLE
    (dawg.py:4-10).  [m_prob]: prob_estimator.  [m_tc]: state of the tag class at
    the time of the call.  The result type only wraps tuples and is not modelled. *)
Record morph := MkMorph {
  m_uni   : uni;
  m_ext   : bool;
  m_dict  : dict;
  m_units : list (bunit * bool);
  m_prob  : option cpd;
  m_subst : replaces;
  m_tc    : tagclass
}.

(** *** DictionaryAnalyzer: by_lookup.py:19-36 parse (as object [self]) *)
Definition dict_parse (M : morph) (self : uref) (lower : str) : res (list parse) :=
  let D := m_dict M in
  rmap (@concat parse)
  (mapM (fun wv : str * list (nat * nat) =>
           let '(w, vals) := wv in
           mapM (fun v : nat * nat =>
                   let '(para, idx) := v in
                   let* nf := build_normal_form D para idx w in
                   let* t := build_tag_info D para idx in
                   Ok {| p_word := w; p_tag := t; p_nf := nf; p_score := 1;
                         p_stack := [MDict self w para idx] |}) vals)
        (similar_items (d_words D) (m_subst M) lower)).

(** by_lookup.py:38-59 tag (build_tag_info unrolled) *)
Definition dict_tag (M : morph) (lower : str) : res (list tag) :=
  let D := m_dict M in
  rmap (@concat tag)
  (mapM (fun vals : list (nat * nat) =>
           mapM (fun v : nat * nat => let '(para, idx) := v in build_tag_info D para idx) vals)
        (similar_item_values (d_words D) (m_subst M) lower)).

(** *** Prefix analyzers: by_analogy.py:92-101 possible_splits *)
Definition len_geb (a b : str) : bool := length b <=? length a.
Definition kp_splits (M : morph) (prefixes : list str) (minrem : nat) (w : str) : list (str * str) :=
  filter (fun pr => negb (length (snd pr) <? minrem))
  (map (fun p => (p, skipn (length p) w))
       (sort_desc len_geb (matcher_prefixes (m_ext M) prefixes w))).

(** the parse built from a parse of the remainder: by_analogy.py:71-77, :132-138 *)
Definition prefixed (self : uref) (mult : Q) (prefix : str) (p : parse) : parse :=
  {| p_word := prefix ++ p_word p; p_tag := p_tag p; p_nf := prefix ++ p_nf p;
     p_score := p_score p * mult; p_stack := p_stack p ++ [MStr self prefix] |}.

(** by_analogy.py:60-81: the loop body of parse over one split *)
Definition prefix_step (self : uref) (mult : Q) (prefix : str)
           (st : list parse * list skey) (parses : list parse) : list parse * list skey :=
  fold_left add_parse_if_not_seen
            (map (prefixed self mult prefix) (filter (fun p => is_productive (p_tag p)) parses)) st.

(** by_analogy.py:60-81 KnownPrefixAnalyzer.parse *)
Definition kp_parse (recP : str -> res (list parse)) (M : morph) (self : uref) (prefixes : list str)
           (mult : Q) (minrem : nat) (lower : str) (seen : list skey) : res (list parse * list skey) :=
  foldM (fun st (pr : str * str) =>
           let '(prefix, rest) := pr in
           let* ps := recP rest in
           Ok (prefix_step self mult prefix st ps))
        ([], seen) (kp_splits M prefixes minrem lower).

(** by_analogy.py:83-90 KnownPrefixAnalyzer.tag *)
Definition tags_step (st : list tag * list tag) (ts : list tag) : list tag * list tag :=
  fold_left add_tag_if_not_seen (filter is_productive ts) st.
Definition kp_tag (recT : str -> res (list tag)) (M : morph) (prefixes : list str) (minrem : nat)
           (lower : str) (seen : list tag) : res (list tag * list tag) :=
  foldM (fun st (pr : str * str) =>
           let* ts := recT (snd pr) in Ok (tags_step st ts))
        ([], seen) (kp_splits M prefixes minrem lower).

(** by_analogy.py:120-141 UnknownPrefixAnalyzer.parse; [sub] is its dict_analyzer *)
Definition up_parse (M : morph) (self sub : uref) (mult : Q) (lower : str) (seen : list skey)
  : res (list parse * list skey) :=
  foldM (fun st (pr : str * str) =>
           let '(prefix, rest) := pr in
           let* ps := dict_parse M sub rest in
           Ok (prefix_step self mult prefix st ps))
        ([], seen) (word_splits lower).
(** by_analogy.py:143-155 UnknownPrefixAnalyzer.tag *)
Definition up_tag (M : morph) (lower : str) (seen : list tag) : res (list tag * list tag) :=
  foldM (fun st (pr : str * str) =>
           let* ts := dict_tag M (snd pr) in Ok (tags_step st ts))
        ([], seen) (word_splits lower).

(** *** KnownSuffixAnalyzer *)
(** by_analogy.py:176, :282-288: reversed(enumerate(paradigm_prefixes)) filtered by startswith *)
Definition ks_prefixes (D : dict) (w : str) : list (nat * str) :=
  filter (fun ip => prefixb (snd ip) w) (rev (enum (d_prefixes D))).
(** by_analogy.py:177: reversed(range(1, max_suffix_length+1)) *)
Definition ks_splits (D : dict) : list nat := rev (seq 1 (d_maxsuf D)).

(** an unscored result: (cnt, word, tag, normal_form, prefix_id, methods), by_analogy.py:231 *)
Record ksraw := MkRaw { k_cnt : nat; k_word : str; k_tag : tag; k_nf : str; k_pid : nat; k_stack : list method }.

(** state of the parse loop: results, seen set, total_counts[prefix_id] (as N.B. counts
    start at 1, by_analogy.py:196) *)
Record ksst := MkKs { ks_res : list ksraw; ks_seen : list skey; ks_total : nat }.

(** by_analogy.py:210-232: one (cnt, para_id, idx) record *)
Definition ks_step (M : morph) (self sub : uref) (pid : nat) (fixed_word fixed_suffix : str)
           (st : ksst) (v : nat * nat * nat) : res ksst :=
  let D := m_dict M in
  let '(cnt, para, idx) := v in
  let* t := build_tag_info D para idx in
  if negb (is_productive t) then Ok st
  else
    let total := ks_total st + cnt in
    let k := SKey fixed_word t (PNum para) in
    if seen_mem k (ks_seen st) then Ok {| ks_res := ks_res st; ks_seen := ks_seen st; ks_total := total |}
    else
      let* nf := build_normal_form D para idx fixed_word in
      let raw := {| k_cnt := cnt; k_word := fixed_word; k_tag := t; k_nf := nf; k_pid := pid;
                    k_stack := [MDict sub fixed_word para idx; MStr self fixed_suffix] |} in
      Ok {| ks_res := ks_res st ++ [raw]; ks_seen := k :: ks_seen st; ks_total := total |}.

(** by_analogy.py:202-232: all records found for one ending length [i]; word_lower[:-i], word_lower[-i:] *)
Definition ks_at (M : morph) (self sub : uref) (pid : nat) (dawg : rdawg (nat * nat * nat))
           (lower : str) (st : ksst) (i : nat) : res ksst :=
  let word_start := slice_to lower (- Z.of_nat i) in
  let word_end := slice_from lower (- Z.of_nat i) in
  foldM (fun st sv =>
           let '(fixed_suffix, vals) := sv in
           foldM (ks_step M self sub pid (word_start ++ fixed_suffix) fixed_suffix) st vals)
        st (similar_items dawg (m_subst M) word_end).

(** by_analogy.py:200-235: lengths from longest to shortest, stop once total_counts > 1 *)
Fixpoint ks_lengths (M : morph) (self sub : uref) (pid : nat) (dawg : rdawg (nat * nat * nat))
         (lower : str) (st : ksst) (is : list nat) : res ksst :=
  match is with
  | [] => Ok st
  | i :: r =>
    let* st' := ks_at M self sub pid dawg lower st i in
    if 1 <? ks_total st' then Ok st' else ks_lengths M self sub pid dawg lower st' r
  end.

(** by_analogy.py:198-242: all paradigm prefixes; total_counts is per prefix and a prefix id
    occurs once in the loop, so results of one prefix can be scored when its loop ends *)
Definition ks_score (mult : Q) (total : nat) (r : ksraw) : parse :=
  {| p_word := k_word r; p_tag := k_tag r; p_nf := k_nf r;
     p_score := (Z.of_nat (k_cnt r) # Pos.of_nat total) * mult; p_stack := k_stack r |}.
Definition ks_prefix (M : morph) (self sub : uref) (mult : Q) (lower : str)
           (acc : list parse * list skey) (ip : nat * str) : res (list parse * list skey) :=
  let '(pid, _) := ip in
  let* dawg := nth_res (d_pred (m_dict M)) pid in
  let* st := ks_lengths M self sub pid dawg lower
               {| ks_res := []; ks_seen := snd acc; ks_total := 1 |} (ks_splits (m_dict M)) in
  Ok (fst acc ++ map (ks_score mult (ks_total st)) (ks_res st), ks_seen st).

Definition score_geb (a b : parse) : bool := Qgeb (p_score a) (p_score b).

(** by_analogy.py:189-242 KnownSuffixAnalyzer.parse ([len(word)], not word_lower) *)
Definition ks_parse (M : morph) (self sub : uref) (mult : Q) (minlen : nat)
           (word lower : str) (seen : list skey) : res (list parse * list skey) :=
  if length word <? minlen then Ok ([], seen)
  else
    let* r := foldM (ks_prefix M self sub mult lower) ([], seen) (ks_prefixes (m_dict M) lower) in
    Ok (sort_desc score_geb (fst r), snd r).

(** by_analogy.py:244-280 KnownSuffixAnalyzer.tag *)
Record kstst := MkKsT { kt_res : list (nat * tag); kt_seen : list tag; kt_found : bool }.
Definition kst_step (M : morph) (st : kstst) (v : nat * nat * nat) : res kstst :=
  let '(cnt, para, idx) := v in
  let* t := build_tag_info (m_dict M) para idx in
  if negb (is_productive t) then Ok st
  else if tag_mem t (kt_seen st) then Ok {| kt_res := kt_res st; kt_seen := kt_seen st; kt_found := true |}
  else Ok {| kt_res := kt_res st ++ [(cnt, t)]; kt_seen := t :: kt_seen st; kt_found := true |}.
Definition kst_at (M : morph) (dawg : rdawg (nat * nat * nat)) (lower : str) (st : kstst) (i : nat) : res kstst :=
  foldM (fun st sv => foldM (kst_step M) st (snd sv))
        {| kt_res := kt_res st; kt_seen := kt_seen st; kt_found := false |}
        (similar_items dawg (m_subst M) (slice_from lower (- Z.of_nat i))).
Fixpoint kst_lengths (M : morph) (dawg : rdawg (nat * nat * nat)) (lower : str) (st : kstst) (is : list nat) : res kstst :=
  match is with
  | [] => Ok st
  | i :: r =>
    let* st' := kst_at M dawg lower st i in
    if kt_found st' then Ok st' else kst_lengths M dawg lower st' r
  end.
Definition kst_prefix (M : morph) (lower : str) (st : kstst) (ip : nat * str) : res kstst :=
  let* dawg := nth_res (d_pred (m_dict M)) (fst ip) in
  kst_lengths M dawg lower st (ks_splits (m_dict M)).
(** result.sort(reverse=True) on (cnt, tag) pairs *)
Definition cnt_tag_geb (a b : nat * tag) : bool :=
  if fst a =? fst b then negb (tag_ltb (snd a) (snd b)) else fst b <=? fst a.
Definition ks_tag (M : morph) (minlen : nat) (word lower : str) (seen : list tag) : res (list tag * list tag) :=
  if length word <? minlen then Ok ([], seen)
  else
    let* st := foldM (kst_prefix M lower) {| kt_res := []; kt_seen := seen; kt_found := false |}
                     (ks_prefixes (m_dict M) lower) in
    Ok (map snd (sort_desc cnt_tag_geb (kt_res st)), kt_seen st).

(** *** Hyphen units *)
Definition HY : char := 45%N.                     (* '-' *)

(** by_hyphen.py:70-82 possible_splits *)
Definition particle_splits (particles : list str) (w : str) : list (str * str) :=
  if mem_char HY w then
    filter (fun up => match fst up with [] => false | _ => true end)
    (map (fun p => (slice_to w (- Z.of_nat (length p)), p)) (filter (fun p => suffixb p w) particles))
  else [].

Definition suffixed (self : uref) (mult : Q) (particle : str) (p : parse) : parse :=
  {| p_word := p_word p ++ particle; p_tag := p_tag p; p_nf := p_nf p ++ particle;
     p_score := p_score p * mult; p_stack := p_stack p ++ [MStr self particle] |}.

(** by_hyphen.py:38-58 parse: only the first split is used *)
Definition particle_parse (recP : str -> res (list parse)) (self : uref) (particles : list str) (mult : Q)
           (lower : str) (seen : list skey) : res (list parse * list skey) :=
  match particle_splits particles lower with
  | [] => Ok ([], seen)
  | (w, particle) :: _ =>
    let* ps := recP w in
    Ok (fold_left add_parse_if_not_seen (map (suffixed self mult particle) ps) ([], seen))
  end.
(** by_hyphen.py:60-68 tag *)
Definition particle_tag (recT : str -> res (list tag)) (particles : list str) (lower : str) (seen : list tag)
  : res (list tag * list tag) :=
  match particle_splits particles lower with
  | [] => Ok ([], seen)
  | (w, _) :: _ => let* ts := recT w in Ok (ts, seen)
  end.

(** any(... in tag for tag in tags): left to right, stops at the first True *)
Fixpoint any_contains (C : tagclass) (gs : sset) (ts : list tag) : res bool :=
  match ts with
  | [] => Ok false
  | t :: r => let* b := contains_set C gs t in if b then Ok true else any_contains C gs r
  end.

(** by_hyphen.py:127-132 HyphenAdverbAnalyzer.should_parse *)
Definition adverb_should_parse (recT : str -> res (list tag)) (M : morph) (lower : str) : res bool :=
  if (length lower <? 5) || negb (prefixb (u "по-") lower) then Ok false
  else let* ts := recT (slice_from lower 3) in
       any_contains (m_tc M) (map u ["ADJF"; "sing"; "datv"]%string) ts.

(** by_hyphen.py:266-283 HyphenatedWordsAnalyzer._should_parse *)
Definition hyph_should_parse (M : morph) (skip : list str) (w : str) : bool :=
  mem_char HY w
  && str_eqb (strip_by (N.eqb HY) w) w
  && (count_char HY (strip_by (N.eqb HY) w) =? 1)
  && negb (matcher_is_prefixed (m_ext M) skip w).

(** by_hyphen.py:379-385 replace_grammemes; set.remove / set.add *)
Definition replace_grammemes (gs : sset) (reps : list (str * str)) : sset :=
  fold_left (fun s r =>
               let '(gr, rep) := r in
               if smem gr s then sunion (filter (fun x => negb (str_eqb x gr)) s) [rep] else s)
            reps gs.
(** by_hyphen.py:167-168 *)
Definition FEATURE_GRAMMEMES : sset := PARTS_OF_SPEECH ++ NUMBERS ++ CASES ++ PERSONS ++ TENSES.
(** by_hyphen.py:152-158 *)
Definition CONSIDER_THE_SAME : list (str * str) :=
  [(u "V-oy", u "V-ey"); (u "gen1", u "gent"); (u "loc1", u "loct")].
(** by_hyphen.py:259-264 *)
Definition similarity_features (t : tag) : sset :=
  replace_grammemes (sinter (t_gr t) FEATURE_GRAMMEMES)
                    [(u "gen1", u "gent"); (u "loc1", u "loct")].

Definition hyphen_join (a b : str) : str := a ++ HY :: b.

(** by_hyphen.py:215-257 _parse_as_variable_both *)
Definition both_parse (self : uref) (mult : Q) (l r : parse) : parse :=
  {| p_word := hyphen_join (p_word l) (p_word r); p_tag := p_tag l;
     p_nf := hyphen_join (p_nf l) (p_nf r); p_score := p_score l * mult;
     p_stack := [MHyphBoth self (p_stack l) (p_stack r)] |}.
Definition variable_both (self : uref) (mult : Q) (ls rs : list parse) : list parse :=
  flat_map (fun l =>
    if tag_is_unknown (p_tag l) then []
    else map (both_parse self mult l)
             (filter (fun r => seq_set (similarity_features (p_tag l)) (similarity_features (p_tag r))) rs)) ls.

(** by_hyphen.py:189-213 _parse_as_fixed_left *)
Definition fixed_left_parse (self : uref) (mult : Q) (left : str) (r : parse) : parse :=
  {| p_word := hyphen_join left (p_word r); p_tag := p_tag r;
     p_nf := hyphen_join left (p_nf r); p_score := p_score r * mult;
     p_stack := [MHyphFixed self left (p_stack r)] |}.
Definition fixed_left (self : uref) (mult : Q) (left : str) (rs : list parse) : list parse :=
  map (fixed_left_parse self mult left) (filter (fun r => negb (tag_is_unknown (p_tag r))) rs).

(** by_hyphen.py:171-187 HyphenatedWordsAnalyzer.parse.  [seen_parses] is copied and merged
    back unchanged (nothing is added to it).  The split has two pieces because
    _should_parse holds (otherwise unpacking raises ValueError). *)
Definition hyph_parse (recP : str -> res (list parse)) (M : morph) (self : uref) (skip : list str) (mult : Q)
           (lower : str) (seen : list skey) : res (list parse * list skey) :=
  if negb (hyph_should_parse M skip lower) then Ok ([], seen)
  else
    match split_once HY lower with
    | (lw, Some rw) =>
      let* ls := recP lw in
      let* rs := recP rw in
      Ok (variable_both self mult ls rs ++ fixed_left self mult lw rs, seen)
    | (_, None) => Err ValueError
    end.

(** units/base.py:40-47 BaseAnalyzerUnit.tag: used by HyphenatedWordsAnalyzer *)
Definition default_tag (parses : res (list parse * list skey)) (seen : list tag) : res (list tag * list tag) :=
  let* pr := parses in
  Ok (fold_left add_tag_if_not_seen (map p_tag (fst pr)) ([], seen)).

(** *** Shape units: by_shape.py:26-38 with each subclass's check_shape/get_tag.
    Result: the tag of the recognised shape, if any.  [nth_error b_tags]: the tags built
    by [init] (see Bind below): one for single-shape units, [intg; real] for numbers. *)
Definition shape_tag (U : uni) (b : bunit) (word : str) : res (option tag) :=
  match b_cfg b with
  | UNumber _ =>
    match number_shape U word with
    | Some Intg => rmap Some (nth_res (b_tags b) 0)
    | Some Real => rmap Some (nth_res (b_tags b) 1)
    | None => Ok None
    end
  | UPunct _ => if is_punctuation U word then rmap Some (nth_res (b_tags b) 0) else Ok None
  | ULatin _ => let* l := is_latin U word in
                if l then rmap Some (nth_res (b_tags b) 0) else Ok None
  | URoman _ => if is_roman_number word then rmap Some (nth_res (b_tags b) 0) else Ok None
  | _ => Ok None
  end.
Definition shape_parse (U : uni) (self : uref) (b : bunit) (score : Q) (word lower : str) : res (list parse) :=
  let* o := shape_tag U b word in
  match o with
  | Some t => Ok [{| p_word := lower; p_tag := t; p_nf := lower; p_score := score; p_stack := [MStr self word] |}]
  | None => Ok []
  end.
Definition shape_tags (U : uni) (b : bunit) (word : str) : res (list tag) :=
  let* o := shape_tag U b word in
  match o with Some t => Ok [t] | None => Ok [] end.

(** ** Unit.parse(word, word_lower, seen_parses): results and the updated seen set.
    [recP]/[recT] are self.morph.parse / self.morph.tag. *)
Definition unit_parse (recP : str -> res (list parse)) (recT : str -> res (list tag))
           (M : morph) (i : nat) (b : bunit) (word lower : str) (seen : list skey)
  : res (list parse * list skey) :=
  let self := Root i in
  match b_cfg b with
  | UDict => let* ps := dict_parse M self lower in Ok (ps, seen)
  | UInit _ letters _ score =>                       (* abbreviations.py:37-43 *)
    Ok (if smem word letters
        then map (fun t => {| p_word := lower; p_tag := t; p_nf := lower; p_score := score;
                              p_stack := [MStr self word] |}) (b_tags b)
        else [], seen)
  | UNumber score | UPunct score | ULatin score | URoman score =>
    let* ps := shape_parse (m_uni M) self b score word lower in Ok (ps, seen)
  | UParticle particles mult => particle_parse recP self particles mult lower seen
  | UHAdverb mult =>                                 (* by_hyphen.py:108-118 *)
    let* ok := adverb_should_parse recT M lower in
    if ok then
      let* t := nth_res (b_tags b) 0 in
      let p := {| p_word := lower; p_tag := t; p_nf := lower; p_score := mult; p_stack := [MStr self word] |} in
      Ok ([p], SFull p :: seen)
    else Ok ([], seen)
  | UHyph skip mult => hyph_parse recP M self skip mult lower seen
  | UKnownPrefix ps mult minrem => kp_parse recP M self ps mult minrem lower seen
  | UUnknownPrefix mult => up_parse M self (Sub i) mult lower seen
  | UKnownSuffix mult minlen => ks_parse M self (Sub i) mult minlen word lower seen
  | UUnkn =>                                         (* unkn.py:17-22 *)
    match seen with
    | [] => let* t := nth_res (b_tags b) 0 in
            Ok ([{| p_word := lower; p_tag := t; p_nf := lower; p_score := 1; p_stack := [MStr self word] |}], seen)
    | _ => Ok ([], seen)
    end
  end.

(** Unit.tag(word, word_lower, seen_tags) *)
Definition unit_tag (recP : str -> res (list parse)) (recT : str -> res (list tag))
           (M : morph) (i : nat) (b : bunit) (word lower : str) (seen : list tag)
  : res (list tag * list tag) :=
  let self := Root i in
  match b_cfg b with
  | UDict => let* ts := dict_tag M lower in Ok (ts, seen)
  | UInit _ letters _ _ => Ok (if smem word letters then b_tags b else [], seen)   (* abbreviations.py:45-48 *)
  | UNumber _ | UPunct _ | ULatin _ | URoman _ =>
    let* ts := shape_tags (m_uni M) b word in Ok (ts, seen)
  | UParticle particles _ => particle_tag recT particles lower seen
  | UHAdverb _ =>                                    (* by_hyphen.py:120-125 *)
    let* ok := adverb_should_parse recT M lower in
    if negb ok then Ok ([], seen)
    else
      let* t := nth_res (b_tags b) 0 in
      if tag_mem t seen then Ok ([], seen) else Ok ([t], t :: seen)
  | UHyph skip mult => default_tag (hyph_parse recP M self skip mult lower []) seen
  | UKnownPrefix ps _ minrem => kp_tag recT M ps minrem lower seen
  | UUnknownPrefix _ => up_tag M lower seen
  | UKnownSuffix _ minlen => ks_tag M minlen word lower seen
  | UUnkn =>                                         (* unkn.py:24-27 *)
    match seen with
    | [] => let* t := nth_res (b_tags b) 0 in Ok ([t], seen)
    | _ => Ok ([], seen)
    end
  end.

(** ** MorphAnalyzer.parse / tag *)
(** analyzer.py:314-318: the loop over units *)
Fixpoint run_parse (recP : str -> res (list parse)) (recT : str -> res (list tag)) (M : morph)
         (word lower : str) (i : nat) (us : list (bunit * bool)) (acc : list parse) (seen : list skey)
  : res (list parse) :=
  match us with
  | [] => Ok acc
  | (b, terminal) :: r =>
    let* out := unit_parse recP recT M i b word lower seen in
    let '(ps, seen') := out in
    let acc' := acc ++ ps in
    if terminal && (match acc' with [] => false | _ => true end) then Ok acc'
    else run_parse recP recT M word lower (S i) r acc' seen'
  end.
(** analyzer.py:333-337 *)
Fixpoint run_tag (recP : str -> res (list parse)) (recT : str -> res (list tag)) (M : morph)
         (word lower : str) (i : nat) (us : list (bunit * bool)) (acc : list tag) (seen : list tag)
  : res (list tag) :=
  match us with
  | [] => Ok acc
  | (b, terminal) :: r =>
    let* out := unit_tag recP recT M i b word lower seen in
    let '(ts, seen') := out in
    let acc' := acc ++ ts in
    if terminal && (match acc' with [] => false | _ => true end) then Ok acc'
    else run_tag recP recT M word lower (S i) r acc' seen'
  end.

(** analyzer.py:73-93 ProbabilityEstimator.apply_to_parses *)
Definition Qsum (l : list Q) : Q := fold_left Qplus l 0%Q.
Definition with_score (p : parse) (q : Q) : parse :=
  {| p_word := p_word p; p_tag := p_tag p; p_nf := p_nf p; p_score := q; p_stack := p_stack p |}.
Definition apply_to_parses (d : cpd) (lower : str) (ps : list parse) : res (list parse) :=
  match ps with
  | [] => Ok []
  | _ =>
    let probs := map (fun p => prob d lower (t_str (p_tag p))) ps in
    if Qeq_bool (Qsum probs) 0%Q then
      let s := Qsum (map p_score ps) in
      if Qeq_bool s 0%Q then Err ZeroDivisionError
      else Ok (map (fun p => with_score p (p_score p * (1 / s))%Q) ps)
    else Ok (sort_desc score_geb (map (fun pq => with_score (fst pq) (snd pq)) (combine ps probs)))
  end.
(** analyzer.py:95-101 apply_to_tags *)
Definition apply_to_tags (d : cpd) (lower : str) (ts : list tag) : list tag :=
  sort_desc (fun a b => Qgeb (prob d lower (t_str a)) (prob d lower (t_str b))) ts.

(** analyzer.py:301-326 parse and 328-341 tag, mutually recursive through the units.
    Fuel counts nested calls; RecursionError when exhausted. *)
Fixpoint analyze (fuel : nat) (M : morph) : (str -> res (list parse)) * (str -> res (list tag)) :=
  match fuel with
  | 0 => (fun _ => Err RecursionError, fun _ => Err RecursionError)
  | S f =>
    let rec := analyze f M in
    (fun word =>
       let lower := u_lower (m_uni M) word in
       let* r := run_parse (fst rec) (snd rec) M word lower 0 (m_units M) [] [] in
       match m_prob M with Some d => apply_to_parses d lower r | None => Ok r end,
     fun word =>
       let lower := u_lower (m_uni M) word in
       let* r := run_tag (fst rec) (snd rec) M word lower 0 (m_units M) [] [] in
       match m_prob M with Some d => Ok (apply_to_tags d lower r) | None => Ok r end)
  end.
Definition parse_f (fuel : nat) (M : morph) : str -> res (list parse) := fst (analyze fuel M).
Definition tag_f (fuel : nat) (M : morph) : str -> res (list tag) := snd (analyze fuel M).

(** Fuel that C08 proves sufficient: one call per character of the lower-cased word, plus one *)
Definition fuel_for (M : morph) (word : str) : nat := S (length (u_lower (m_uni M) word)).
Definition morph_parse (M : morph) (word : str) : res (list parse) := parse_f (fuel_for M word) M word.
Definition morph_tag (M : morph) (word : str) : res (list tag) := tag_f (fuel_for M word) M word.
