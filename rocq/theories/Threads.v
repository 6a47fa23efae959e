(** * Threads: shapes.py:10-18, cache.py:23-49, and the shared state of tagset.py, one atomic action at a time.

    Under CPython's global interpreter lock one built-in operation on one object (reading or rebinding an attribute, looking up or storing
    a dictionary item, testing or adding a set element, comparing two sets of strings) is atomic; between two of them another thread
    may run.  A function is a tree of such operations; threads share one memory. *)
From Coq Require Import String List NArith ZArith Bool QArith.
From Verif Require Import Py Uni Tagset Dawg Utils Shapes Dict Units Analyzer.
Import ListNotations.
Local Open Scope nat_scope.
Local Open Scope list_scope.

(** tagset.py:262-284: the lazily filled slots of a tag object; None before the first use *)
Record cells := MkCells { c_gr : option sset; c_cyr_gr : option sset; c_cyr : option str }.
Definition empty_cells : cells := MkCells None None None.
(** The memory: _latin_letters_cache; the dictionary given to memoized_with_single_argument; the set and dict objects that
    OpencorporaTag.KNOWN_GRAMMEMES, _LAT2CYR, _CYR2LAT are or were bound to, and which one each is bound to now (_LAT2CYR = None before the
    first _init_grammemes is an empty dict here); the class attributes changed in place; the slots of the tag objects. *)
Record mem := MkMem {
  h_latin : list (char * bool); h_memo : list (str * str);
  h_sets : list sset; h_dicts : list (list (str * str)); h_known : nat; h_lat : nat; h_cyr : nat;
  h_extra : list (str * sset); h_incompat : list (str * sset); h_indices : list (str * nat);
  h_cells : nat -> cells }.

Inductive op : Type -> Type :=
| LatinGet (c : char) : op (option bool)                    (* _latin_letters_cache[c]; None: KeyError *)
| LatinSetdefault (c : char) (b : bool) : op bool
| MemoIn (k : str) : op bool                                (* arg in cache *)
| MemoGet (k : str) : op (option str)                       (* cache[arg]; None: KeyError *)
| MemoSet (k v : str) : op unit
| KnownRef : op nat | LatRef : op nat | CyrRef : op nat     (* cls.KNOWN_GRAMMEMES, cls._LAT2CYR, cls._CYR2LAT *)
| NewKnown : op unit | NewLat : op unit | NewCyr : op unit  (* cls.KNOWN_GRAMMEMES = set() ... *)
| SetMem (g : str) (id : nat) : op bool
| SetSub (gs : sset) (id : nat) : op bool                   (* gs <= set *)
| SetEmpty (id : nat) : op bool                             (* not set *)
| SetAdd (g : str) (id : nat) : op unit
| DictGet (k : str) (id : nat) : op (option str)
| DictSet (k v : str) (id : nat) : op unit
| IncompatGet (g : str) : op sset                           (* cls._GRAMMEME_INCOMPATIBLE[g], a defaultdict(set) *)
| ExpandExtra (rows : list grow) : op unit
| SetRow (rows : list grow) (i : nat) (r : grow) : op unit
| GetGr (o : nat) : op (option sset) | SetGr (o : nat) (s : sset) : op unit
| GetCyrGr (o : nat) : op (option sset) | SetCyrGr (o : nat) (s : sset) : op unit
| GetCyr (o : nat) : op (option str) | SetCyr (o : nat) (s : str) : op unit.

Fixpoint upd_nth {A} (i : nat) (f : A -> A) (l : list A) : list A :=
  match l, i with [], _ => [] | x :: r, 0 => f x :: r | x :: r, S i' => x :: upd_nth i' f r end.
Definition set_cell (o : nat) (f : cells -> cells) (h : nat -> cells) : nat -> cells := fun i => if i =? o then f (h i) else h i.

Definition with_latin m x := MkMem x (h_memo m) (h_sets m) (h_dicts m) (h_known m) (h_lat m) (h_cyr m) (h_extra m) (h_incompat m) (h_indices m) (h_cells m).
Definition with_memo m x := MkMem (h_latin m) x (h_sets m) (h_dicts m) (h_known m) (h_lat m) (h_cyr m) (h_extra m) (h_incompat m) (h_indices m) (h_cells m).
Definition with_sets m x k := MkMem (h_latin m) (h_memo m) x (h_dicts m) k (h_lat m) (h_cyr m) (h_extra m) (h_incompat m) (h_indices m) (h_cells m).
Definition with_dicts m x l c := MkMem (h_latin m) (h_memo m) (h_sets m) x (h_known m) l c (h_extra m) (h_incompat m) (h_indices m) (h_cells m).
Definition with_tables m e i x := MkMem (h_latin m) (h_memo m) (h_sets m) (h_dicts m) (h_known m) (h_lat m) (h_cyr m) e i x (h_cells m).
Definition with_cells m x := MkMem (h_latin m) (h_memo m) (h_sets m) (h_dicts m) (h_known m) (h_lat m) (h_cyr m) (h_extra m) (h_incompat m) (h_indices m) x.

Definition exec {R} (o : op R) (m : mem) : mem * R :=
  match o in op R return mem * R with
  | LatinGet c => (m, dget N.eqb c (h_latin m))
  | LatinSetdefault c b => match dget N.eqb c (h_latin m) with Some b' => (m, b') | None => (with_latin m (dset N.eqb c b (h_latin m)), b) end
  | MemoIn k => (m, match sget k (h_memo m) with Some _ => true | None => false end)
  | MemoGet k => (m, sget k (h_memo m))
  | MemoSet k v => (with_memo m (sset_ k v (h_memo m)), tt)
  | KnownRef => (m, h_known m) | LatRef => (m, h_lat m) | CyrRef => (m, h_cyr m)
  | NewKnown => (with_sets m (h_sets m ++ [[]]) (length (h_sets m)), tt)
  | NewLat => (with_dicts m (h_dicts m ++ [[]]) (length (h_dicts m)) (h_cyr m), tt)
  | NewCyr => (with_dicts m (h_dicts m ++ [[]]) (h_lat m) (length (h_dicts m)), tt)
  | SetMem g id => (m, smem g (nth id (h_sets m) []))
  | SetSub gs id => (m, ssub gs (nth id (h_sets m) []))
  | SetEmpty id => (m, match nth id (h_sets m) [] with [] => true | _ => false end)
  | SetAdd g id => (with_sets m (upd_nth id (fun s => if smem g s then s else s ++ [g]) (h_sets m)) (h_known m), tt)
  | DictGet k id => (m, sget k (nth id (h_dicts m) []))
  | DictSet k v id => (with_dicts m (upd_nth id (sset_ k v) (h_dicts m)) (h_lat m) (h_cyr m), tt)
  | IncompatGet g => (m, match sget g (h_incompat m) with Some s => s | None => [] end)
  | ExpandExtra rows => (with_tables m (expand_extra rows (h_extra m)) (h_incompat m) (h_indices m), tt)
  | SetRow rows i r => (with_tables m (h_extra m) (sset_ (g_name r) (incompat_row rows (h_extra m) r) (h_incompat m)) (sset_ (g_name r) i (h_indices m)), tt)
  | GetGr o => (m, c_gr (h_cells m o))
  | SetGr o s => (with_cells m (set_cell o (fun c => MkCells (Some s) (c_cyr_gr c) (c_cyr c)) (h_cells m)), tt)
  | GetCyrGr o => (m, c_cyr_gr (h_cells m o))
  | SetCyrGr o s => (with_cells m (set_cell o (fun c => MkCells (c_gr c) (Some s) (c_cyr c)) (h_cells m)), tt)
  | GetCyr o => (m, c_cyr (h_cells m o))
  | SetCyr o s => (with_cells m (set_cell o (fun c => MkCells (c_gr c) (c_cyr_gr c) (Some s)) (h_cells m)), tt)
  end.

(** a running function: finished (with a result or an exception), or about to do an operation *)
Inductive prog (A : Type) : Type :=
| Ret (r : res A)
| Do {R : Type} (o : op R) (k : R -> prog A).
Arguments Ret {A} r.
Arguments Do {A R} o k.
Fixpoint pbind {A B} (p : prog A) (f : A -> prog B) : prog B :=
  match p with
  | Ret (Ok a) => f a
  | Ret (Err e) => Ret (Err e)
  | Do o k => Do o (fun x => pbind (k x) f)
  end.
Definition act {R} (o : op R) : prog R := Do o (fun x => Ret (Ok x)).
Notation "'do*' x ':=' e 'in' k" := (pbind e (fun x => k)) (at level 200, x pattern, e at level 200, k at level 200).
Definition ret {A} (a : A) : prog A := Ret (Ok a).
Definition raise {A} (e : exn) : prog A := Ret (Err e).
Fixpoint pmap {A B} (f : A -> prog B) (l : list A) : prog (list B) :=
  match l with [] => ret [] | x :: r => do* y := f x in do* ys := pmap f r in ret (y :: ys) end.
Fixpoint piter {A} (f : A -> prog unit) (l : list A) : prog unit :=
  match l with [] => ret tt | x :: r => do* _ := f x in piter f r end.
(** the function alone, from memory [m] *)
Fixpoint run {A} (p : prog A) (m : mem) : mem * res A :=
  match p with Ret r => (m, r) | Do o k => let '(m', x) := exec o m in run (k x) m' end.

Section Functions.
Variable U : uni.
Variable tag_of : nat -> tag.       (* the tag objects; _str and _grammemes_tuple never change *)
Variable func : str -> res str.     (* the function given to memoized_with_single_argument *)

(** shapes.py:11-18 is_latin_char *)
Definition is_latin_char_t (c : char) : prog bool :=
  do* x := act (LatinGet c) in
  match x with
  | Some b => ret b
  | None => match u_latin U c with Some b => act (LatinSetdefault c b) | None => raise ValueError end
  end.
(** shapes.py:21-41 is_latin *)
Fixpoint all_latin_t (s : str) : prog bool :=
  match s with
  | [] => ret true
  | c :: r => if u_alpha U c then do* b := is_latin_char_t c in if b then all_latin_t r else ret false else all_latin_t r
  end.
Definition is_latin_t (s : str) : prog bool := if existsb (u_alpha U) s then all_latin_t s else ret false.
(** cache.py:40-48 wrapper *)
Definition memoized_t (k : str) : prog str :=
  do* b := act (MemoIn k) in
  if b then do* v := act (MemoGet k) in match v with Some v => ret v | None => raise KeyError end
  else do* v := Ret (func k) in do* _ := act (MemoSet k v) in ret v.
(** tagset.py:300-305 grammemes (the slot is read again for the result) *)
Definition grammemes_t (o : nat) : prog (option sset) :=
  do* x := act (GetGr o) in
  do* _ := match x with None => act (SetGr o (t_gr (tag_of o))) | Some _ => ret tt end in
  act (GetGr o).
(** tagset.py:307-313 grammemes_cyr *)
Definition grammemes_cyr_t (o : nat) : prog (option sset) :=
  do* x := act (GetCyrGr o) in
  do* _ := match x with
           | None => do* l := pmap (fun g => do* id := act LatRef in do* c := act (DictGet g id) in match c with Some c => ret c | None => raise KeyError end) (t_gr (tag_of o)) in
                     act (SetCyrGr o l)
           | Some _ => ret tt
           end in
  act (GetCyrGr o).
(** tagset.py:580-596 _translate_tag with the mapping already taken from the class *)
Definition translate_t (id : nat) (s : str) : prog str :=
  do* parts := pmap (fun part => do* ts := pmap (fun tok => do* x := act (DictGet tok id) in ret (match x with Some y => y | None => tok end)) (split_on (chr ",") part) in ret (join (u ",") ts))
                    (split_ws (u_space U) s) in
  ret (join (u " ") parts).
(** tagset.py:315-320, 327-330 cyr_repr *)
Definition cyr_repr_t (o : nat) : prog (option str) :=
  do* x := act (GetCyr o) in
  do* _ := match x with
           | None => do* id := act LatRef in do* s := translate_t id (t_str (tag_of o)) in act (SetCyr o s)
           | Some _ => ret tt
           end in
  act (GetCyr o).
(** tagset.py:399-403 _assert_grammemes_initialized *)
Definition assert_initialized_t : prog unit :=
  do* id := act KnownRef in do* e := act (SetEmpty id) in if e then raise RuntimeError else ret tt.
(** tagset.py:391-397 _assert_grammemes_are_known *)
Definition assert_known_t (gs : sset) : prog unit :=
  do* id := act KnownRef in do* b := act (SetSub gs id) in
  if b then ret tt else do* _ := assert_initialized_t in do* _ := act KnownRef in raise ValueError.
(** tagset.py:386-389 grammeme_is_known *)
Definition grammeme_is_known_t (g : str) : prog bool :=
  do* _ := assert_initialized_t in do* id := act KnownRef in act (SetMem g id).
(** tagset.py:332-347 __contains__ (self.grammemes is never None when it is used) *)
Definition the_set (x : option sset) : sset := match x with Some s => s | None => [] end.
Definition contains_t (g : str) (o : nat) : prog bool :=
  do* gs := grammemes_t o in
  if smem g (the_set gs) then ret true
  else do* k := grammeme_is_known_t g in if k then ret false else raise ValueError.
Definition contains_set_t (gs : sset) (o : nat) : prog bool :=
  do* mine := grammemes_t o in
  if ssub gs (the_set mine) then ret true else do* _ := assert_known_t gs in ret false.
(** units/by_hyphen.py:132 any(grammemes in tag for tag in tags), the test that decides whether "по-..." is an adverb *)
Fixpoint any_contains_t (gs : sset) (os : list nat) : prog bool :=
  match os with [] => ret false | o :: r => do* b := contains_set_t gs o in if b then ret true else any_contains_t gs r end.
(** tagset.py:424-430 add_grammemes_to_known *)
Definition add_known_t (lat cyr : str) (overwrite : bool) : prog unit :=
  do* skip := (if overwrite then ret false else do* id := act KnownRef in act (SetMem lat id)) in
  if skip then ret tt
  else do* id := act KnownRef in do* _ := act (SetAdd lat id) in
       do* l := act LatRef in do* _ := act (DictSet lat cyr l) in
       do* c := act CyrRef in act (DictSet cyr lat c).
(** tagset.py:432-473 _init_grammemes; expanding _EXTRA_INCOMPATIBLE, and storing an index together with the incompatible grammemes,
    are one action each here *)
Definition init_grammemes_t (rows : list grow) : prog unit :=
  do* _ := act NewKnown in do* _ := act NewCyr in do* _ := act NewLat in
  do* _ := piter (fun r => add_known_t (g_name r) (g_alias r) true) rows in
  do* _ := act (ExpandExtra rows) in
  piter (fun ir => act (SetRow rows (fst ir) (snd ir))) (enum rows).
(** tagset.py:265-284 __init__ *)
Definition mk_tag_t (s : str) : prog unit := assert_known_t (split_tag s).
(** what MorphAnalyzer() does to the class: _init_grammemes with the rows of the dictionary, the tags of the dictionary are created,
    the units add their grammemes (latin name, Cyrillic name, overwrite).  The tags the units create are not shown. *)
Definition construct_t (rows : list grow) (tags : list str) (adds : list (str * str * bool)) : prog unit :=
  do* _ := init_grammemes_t rows in do* _ := piter mk_tag_t tags in
  piter (fun a => add_known_t (fst (fst a)) (snd (fst a)) (snd a)) adds.

(** ** parse() and tag()
    The functions of Units.v with every access to shared state an action of its own: tag.grammemes (is_productive, _similarity_features,
    membership tests), the set of known grammemes, the cache of is_latin_char.  [o t] is the tag object [t] of the analyzer [M]: the tags
    of a dictionary and of its units are made by the constructor, and parse() makes no new ones.  Everything else that parse() uses (the
    dictionary, the units, the words and results of this call) is not changed by anybody after the constructor. *)
Fixpoint pfilter {A} (f : A -> prog bool) (l : list A) : prog (list A) :=
  match l with [] => ret [] | x :: r => do* b := f x in do* r' := pfilter f r in ret (if b then x :: r' else r') end.
Fixpoint pfold {A S} (f : S -> A -> prog S) (s : S) (l : list A) : prog S :=
  match l with [] => ret s | x :: r => do* s' := f s x in pfold f s' r end.

Section Analyzer.
Variable M : morph.
Variable o : tag -> nat.
(** tagset.py:380-381 is_productive *)
Definition productive_p (t : tag) : prog bool :=
  do* gs := grammemes_t (o t) in ret (match sinter (the_set gs) NON_PRODUCTIVE with [] => true | _ => false end).
(** by_hyphen.py:259-264 _similarity_features *)
Definition features_p (t : tag) : prog sset :=
  do* gs := grammemes_t (o t) in
  ret (replace_grammemes (sinter (the_set gs) FEATURE_GRAMMEMES) [(u "gen1", u "gent"); (u "loc1", u "loct")]).

(** by_analogy.py:60-81, :83-90, :120-141, :143-155 *)
Definition prefix_step_p (self : uref) (mult : Q) (prefix : str) (st : list parse * list skey) (parses : list parse)
  : prog (list parse * list skey) :=
  do* ps := pfilter (fun p => productive_p (p_tag p)) parses in
  ret (fold_left add_parse_if_not_seen (map (prefixed self mult prefix) ps) st).
Definition tags_step_p (st : list tag * list tag) (ts : list tag) : prog (list tag * list tag) :=
  do* l := pfilter productive_p ts in ret (fold_left add_tag_if_not_seen l st).
Definition kp_parse_p (recP : str -> prog (list parse)) (self : uref) (prefixes : list str) (mult : Q) (minrem : nat) (lower : str)
           (seen : list skey) : prog (list parse * list skey) :=
  pfold (fun st (pr : str * str) => do* ps := recP (snd pr) in prefix_step_p self mult (fst pr) st ps) ([], seen) (kp_splits M prefixes minrem lower).
Definition kp_tag_p (recT : str -> prog (list tag)) (prefixes : list str) (minrem : nat) (lower : str) (seen : list tag)
  : prog (list tag * list tag) :=
  pfold (fun st (pr : str * str) => do* ts := recT (snd pr) in tags_step_p st ts) ([], seen) (kp_splits M prefixes minrem lower).
Definition up_parse_p (self sub : uref) (mult : Q) (lower : str) (seen : list skey) : prog (list parse * list skey) :=
  pfold (fun st (pr : str * str) => do* ps := Ret (dict_parse M sub (snd pr)) in prefix_step_p self mult (fst pr) st ps) ([], seen) (word_splits lower).
Definition up_tag_p (lower : str) (seen : list tag) : prog (list tag * list tag) :=
  pfold (fun st (pr : str * str) => do* ts := Ret (dict_tag M (snd pr)) in tags_step_p st ts) ([], seen) (word_splits lower).

(** by_analogy.py:189-242 KnownSuffixAnalyzer.parse *)
Definition ks_step_p (self sub : uref) (pid : nat) (fixed_word fixed_suffix : str) (st : ksst) (v : nat * nat * nat) : prog ksst :=
  let '(cnt, para, idx) := v in
  do* t := Ret (build_tag_info (m_dict M) para idx) in
  do* ok := productive_p t in
  if negb ok then ret st
  else
    let total := ks_total st + cnt in
    let k := SKey fixed_word t (PNum para) in
    if seen_mem k (ks_seen st) then ret {| ks_res := ks_res st; ks_seen := ks_seen st; ks_total := total |}
    else
      do* nf := Ret (build_normal_form (m_dict M) para idx fixed_word) in
      let raw := {| k_cnt := cnt; k_word := fixed_word; k_tag := t; k_nf := nf; k_pid := pid;
                    k_stack := [MDict sub fixed_word para idx; MStr self fixed_suffix] |} in
      ret {| ks_res := ks_res st ++ [raw]; ks_seen := k :: ks_seen st; ks_total := total |}.
Definition ks_at_p (self sub : uref) (pid : nat) (dawg : rdawg (nat * nat * nat)) (lower : str) (st : ksst) (i : nat) : prog ksst :=
  pfold (fun st sv => pfold (ks_step_p self sub pid (slice_to lower (- Z.of_nat i) ++ fst sv) (fst sv)) st (snd sv))
        st (similar_items dawg (m_subst M) (slice_from lower (- Z.of_nat i))).
Fixpoint ks_lengths_p (self sub : uref) (pid : nat) (dawg : rdawg (nat * nat * nat)) (lower : str) (st : ksst) (is : list nat) : prog ksst :=
  match is with
  | [] => ret st
  | i :: r => do* st' := ks_at_p self sub pid dawg lower st i in
              if 1 <? ks_total st' then ret st' else ks_lengths_p self sub pid dawg lower st' r
  end.
Definition ks_prefix_p (self sub : uref) (mult : Q) (lower : str) (acc : list parse * list skey) (ip : nat * str) : prog (list parse * list skey) :=
  do* dawg := Ret (nth_res (d_pred (m_dict M)) (fst ip)) in
  do* st := ks_lengths_p self sub (fst ip) dawg lower {| ks_res := []; ks_seen := snd acc; ks_total := 1 |} (ks_splits (m_dict M)) in
  ret (fst acc ++ map (ks_score mult (ks_total st)) (ks_res st), ks_seen st).
Definition ks_parse_p (self sub : uref) (mult : Q) (minlen : nat) (word lower : str) (seen : list skey) : prog (list parse * list skey) :=
  if length word <? minlen then ret ([], seen)
  else do* r := pfold (ks_prefix_p self sub mult lower) ([], seen) (ks_prefixes (m_dict M) lower) in
       ret (sort_desc score_geb (fst r), snd r).
(** by_analogy.py:244-280 KnownSuffixAnalyzer.tag *)
Definition kst_step_p (st : kstst) (v : nat * nat * nat) : prog kstst :=
  let '(cnt, para, idx) := v in
  do* t := Ret (build_tag_info (m_dict M) para idx) in
  do* ok := productive_p t in
  ret (if negb ok then st
       else if tag_mem t (kt_seen st) then {| kt_res := kt_res st; kt_seen := kt_seen st; kt_found := true |}
       else {| kt_res := kt_res st ++ [(cnt, t)]; kt_seen := t :: kt_seen st; kt_found := true |}).
Definition kst_at_p (dawg : rdawg (nat * nat * nat)) (lower : str) (st : kstst) (i : nat) : prog kstst :=
  pfold (fun st sv => pfold kst_step_p st (snd sv)) {| kt_res := kt_res st; kt_seen := kt_seen st; kt_found := false |}
        (similar_items dawg (m_subst M) (slice_from lower (- Z.of_nat i))).
Fixpoint kst_lengths_p (dawg : rdawg (nat * nat * nat)) (lower : str) (st : kstst) (is : list nat) : prog kstst :=
  match is with
  | [] => ret st
  | i :: r => do* st' := kst_at_p dawg lower st i in if kt_found st' then ret st' else kst_lengths_p dawg lower st' r
  end.
Definition kst_prefix_p (lower : str) (st : kstst) (ip : nat * str) : prog kstst :=
  do* dawg := Ret (nth_res (d_pred (m_dict M)) (fst ip)) in kst_lengths_p dawg lower st (ks_splits (m_dict M)).
Definition ks_tag_p (minlen : nat) (word lower : str) (seen : list tag) : prog (list tag * list tag) :=
  if length word <? minlen then ret ([], seen)
  else do* st := pfold (kst_prefix_p lower) {| kt_res := []; kt_seen := seen; kt_found := false |} (ks_prefixes (m_dict M) lower) in
       ret (map snd (sort_desc cnt_tag_geb (kt_res st)), kt_seen st).

(** by_hyphen.py:38-68 *)
Definition particle_parse_p (recP : str -> prog (list parse)) (self : uref) (particles : list str) (mult : Q) (lower : str) (seen : list skey)
  : prog (list parse * list skey) :=
  match particle_splits particles lower with
  | [] => ret ([], seen)
  | (w, particle) :: _ => do* ps := recP w in ret (fold_left add_parse_if_not_seen (map (suffixed self mult particle) ps) ([], seen))
  end.
Definition particle_tag_p (recT : str -> prog (list tag)) (particles : list str) (lower : str) (seen : list tag) : prog (list tag * list tag) :=
  match particle_splits particles lower with
  | [] => ret ([], seen)
  | (w, _) :: _ => do* ts := recT w in ret (ts, seen)
  end.
(** by_hyphen.py:127-132 *)
Definition adverb_should_parse_p (recT : str -> prog (list tag)) (lower : str) : prog bool :=
  if (length lower <? 5) || negb (prefixb (u "по-") lower) then ret false
  else do* ts := recT (slice_from lower 3) in any_contains_t (map u ["ADJF"; "sing"; "datv"]%string) (map o ts).
(** by_hyphen.py:215-257: the features of all right tags, then those of one left tag after the other *)
Definition variable_both_p (self : uref) (mult : Q) (ls rs : list parse) : prog (list parse) :=
  do* feats := pmap (fun r => features_p (p_tag r)) rs in
  do* l := pmap (fun l =>
                   if tag_is_unknown (p_tag l) then ret []
                   else do* f := features_p (p_tag l) in
                        ret (map (fun rf => both_parse self mult l (fst rf)) (filter (fun rf => seq_set f (snd rf)) (combine rs feats)))) ls in
  ret (concat l).
(** by_hyphen.py:171-187 *)
Definition hyph_parse_p (recP : str -> prog (list parse)) (self : uref) (skip : list str) (mult : Q) (lower : str) (seen : list skey)
  : prog (list parse * list skey) :=
  if negb (hyph_should_parse M skip lower) then ret ([], seen)
  else
    match split_once HY lower with
    | (lw, Some rw) =>
      do* ls := recP lw in do* rs := recP rw in
      do* both := variable_both_p self mult ls rs in
      ret (both ++ fixed_left self mult lw rs, seen)
    | (_, None) => raise ValueError
    end.
(** by_shape.py:26-38, :82-91 LatinAnalyzer: the shape test uses the cache of is_latin_char *)
Definition latin_tag_p (b : bunit) (word : str) : prog (option tag) :=
  do* l := is_latin_t word in if l then Ret (rmap Some (nth_res (b_tags b) 0)) else ret None.

(** Unit.parse, Unit.tag; the units that use no shared state are those of Units.v *)
Definition unit_parse_p (recP : str -> prog (list parse)) (recT : str -> prog (list tag)) (i : nat) (b : bunit) (word lower : str)
           (seen : list skey) : prog (list parse * list skey) :=
  let self := Root i in
  match b_cfg b with
  | ULatin score =>
    do* t := latin_tag_p b word in
    ret (match t with
         | Some t => [{| p_word := lower; p_tag := t; p_nf := lower; p_score := score; p_stack := [MStr self word] |}]
         | None => []
         end, seen)
  | UParticle particles mult => particle_parse_p recP self particles mult lower seen
  | UHAdverb mult =>
    do* ok := adverb_should_parse_p recT lower in
    if ok then
      do* t := Ret (nth_res (b_tags b) 0) in
      let p := {| p_word := lower; p_tag := t; p_nf := lower; p_score := mult; p_stack := [MStr self word] |} in
      ret ([p], SFull p :: seen)
    else ret ([], seen)
  | UHyph skip mult => hyph_parse_p recP self skip mult lower seen
  | UKnownPrefix ps mult minrem => kp_parse_p recP self ps mult minrem lower seen
  | UUnknownPrefix mult => up_parse_p self (Sub i) mult lower seen
  | UKnownSuffix mult minlen => ks_parse_p self (Sub i) mult minlen word lower seen
  | _ => Ret (unit_parse (fun _ => Err RecursionError) (fun _ => Err RecursionError) M i b word lower seen)
  end.
Definition unit_tag_p (recP : str -> prog (list parse)) (recT : str -> prog (list tag)) (i : nat) (b : bunit) (word lower : str)
           (seen : list tag) : prog (list tag * list tag) :=
  let self := Root i in
  match b_cfg b with
  | ULatin _ => do* t := latin_tag_p b word in ret (match t with Some t => [t] | None => [] end, seen)
  | UParticle particles _ => particle_tag_p recT particles lower seen
  | UHAdverb _ =>
    do* ok := adverb_should_parse_p recT lower in
    if negb ok then ret ([], seen)
    else do* t := Ret (nth_res (b_tags b) 0) in
         ret (if tag_mem t seen then ([], seen) else ([t], t :: seen))
  | UHyph skip mult =>
    do* pr := hyph_parse_p recP self skip mult lower [] in
    ret (fold_left add_tag_if_not_seen (map p_tag (fst pr)) ([], seen))
  | UKnownPrefix ps _ minrem => kp_tag_p recT ps minrem lower seen
  | UUnknownPrefix _ => up_tag_p lower seen
  | UKnownSuffix _ minlen => ks_tag_p minlen word lower seen
  | _ => Ret (unit_tag (fun _ => Err RecursionError) (fun _ => Err RecursionError) M i b word lower seen)
  end.
(** analyzer.py:314-318, :333-337: the loops over units *)
Fixpoint run_parse_p (recP : str -> prog (list parse)) (recT : str -> prog (list tag)) (word lower : str) (i : nat)
         (us : list (bunit * bool)) (acc : list parse) (seen : list skey) : prog (list parse) :=
  match us with
  | [] => ret acc
  | (b, terminal) :: r =>
    do* out := unit_parse_p recP recT i b word lower seen in
    let acc' := acc ++ fst out in
    if terminal && (match acc' with [] => false | _ => true end) then ret acc'
    else run_parse_p recP recT word lower (S i) r acc' (snd out)
  end.
Fixpoint run_tag_p (recP : str -> prog (list parse)) (recT : str -> prog (list tag)) (word lower : str) (i : nat)
         (us : list (bunit * bool)) (acc : list tag) (seen : list tag) : prog (list tag) :=
  match us with
  | [] => ret acc
  | (b, terminal) :: r =>
    do* out := unit_tag_p recP recT i b word lower seen in
    let acc' := acc ++ fst out in
    if terminal && (match acc' with [] => false | _ => true end) then ret acc'
    else run_tag_p recP recT word lower (S i) r acc' (snd out)
  end.
(** analyzer.py:301-326 parse, :328-341 tag *)
Fixpoint analyze_p (fuel : nat) : (str -> prog (list parse)) * (str -> prog (list tag)) :=
  match fuel with
  | 0 => (fun _ => raise RecursionError, fun _ => raise RecursionError)
  | S f =>
    let rec := analyze_p f in
    (fun word =>
       let lower := u_lower (m_uni M) word in
       do* r := run_parse_p (fst rec) (snd rec) word lower 0 (m_units M) [] [] in
       Ret (match m_prob M with Some d => apply_to_parses d lower r | None => Ok r end),
     fun word =>
       let lower := u_lower (m_uni M) word in
       do* r := run_tag_p (fst rec) (snd rec) word lower 0 (m_units M) [] [] in
       Ret (match m_prob M with Some d => Ok (apply_to_tags d lower r) | None => Ok r end))
  end.
Definition parse_p (word : str) : prog (list parse) := fst (analyze_p (fuel_for M word)) word.
Definition tag_p (word : str) : prog (list tag) := snd (analyze_p (fuel_for M word)) word.
(** ** p.lexeme, p.normalized, p.inflect(): the functions of Analyzer.v, the same way *)
(** abbreviations.py:64-77: 'masc' in form_tag *)
Definition gender_tags_p (b : bunit) (t : tag) : prog (list tag) :=
  do* masc := contains_t (u "masc") (o t) in ret (if masc then b_masc b else b_femn b).
(** by_hyphen.py:347-360 _align_lexeme_forms: the grammemes of the right form, then those of one left form after the other *)
Definition hy_grammemes_p (t : tag) : prog sset :=
  do* gs := grammemes_t (o t) in ret (replace_grammemes (the_set gs) CONSIDER_THE_SAME).
Fixpoint closest_p (gr_right : sset) (ls : list parse) (best : N) (cur : option parse) : prog (option parse) :=
  match ls with
  | [] => ret cur
  | l :: rest =>
    do* gr_left := hy_grammemes_p (p_tag l) in
    let d := N.of_nat (slen (ssymdiff gr_left gr_right)) in
    if (d <? best)%N then closest_p gr_right rest d (Some l) else closest_p gr_right rest best cur
  end.
(** by_hyphen.py:336-345 _merge_lexemes, one pair *)
Definition merge1_p (self : uref) (ls : list parse) (r : parse) : prog parse :=
  do* gr := hy_grammemes_p (p_tag r) in
  do* c := closest_p gr ls 1000000 None in
  match c with
  | None => raise TypeError
  | Some l => ret {| p_word := hyphen_join (p_word l) (p_word r); p_tag := p_tag l;
                     p_nf := hyphen_join (p_nf l) (p_nf r);
                     p_score := (p_score l + p_score r) / 2;
                     p_stack := [MHyphBoth self (p_stack l) (p_stack r)] |}
  end.
(** by_hyphen.py:291-334 _iter_lexeme: [k] consumes the generator *)
Definition hyph_forms_p {B} (lex : uref -> parse -> prog (list parse)) (self : uref) (form : parse) (k : list (prog parse) -> prog B) : prog B :=
  match p_stack form with
  | [MHyphFixed r lw rights] =>
    if negb (uref_eqb r self) then raise AssertionError
    else
      let prefix := lw ++ [HY] in
      let right_form := without_fixed_prefix (replace_methods_stack form rights) (length prefix) in
      do* base := Ret (last_unit rights) in
      do* fs := lex base right_form in
      k (map (fun f => ret (replace_methods_stack (with_prefix f prefix) [MHyphFixed r lw (p_stack f)])) fs)
  | [MHyphBoth r lefts rights] =>
    if negb (uref_eqb r self) then raise AssertionError
    else
      do* left_form := Ret (without_right_part (replace_methods_stack form lefts)) in
      do* right_form := Ret (without_left_part (replace_methods_stack form rights)) in
      do* lu := Ret (last_unit lefts) in
      do* ll := lex lu left_form in
      do* ru := Ret (last_unit rights) in
      do* rl := lex ru right_form in
      k (map (merge1_p self ll) rl)
  | [_] => raise ValueError
  | _ => raise AssertionError
  end.
(** units/base.py:83-102 *)
Definition analogy_p {A B} (rec : uref -> parse -> prog A) (form : parse) (undec : str -> parse -> parse) (needs_arg : bool) (finish : str -> method -> A -> B) : prog B :=
  do* mi := Ret (method_info (p_stack form)) in
  let '(base, this) := mi in
  do* a := Ret (if needs_arg then method_arg1 this else Ok []) in
  do* x := rec (m_unit base) (without_last_method (undec a form)) in
  ret (finish a this x).
(** unit.get_lexeme(form) *)
Fixpoint lexeme_p (fuel : nat) (who : uref) (form : parse) : prog (list parse) :=
  match fuel with
  | 0 => raise RecursionError
  | S f =>
    match who with
    | Sub _ => Ret (dict_lexeme M who form)
    | Root i =>
      do* bt := Ret (nth_res (m_units M) i) in
      let b := fst bt in
      let decorated (dec : str -> parse -> parse) := fun a this => map (fun x => append_method (dec a x) this) in
      match b_cfg b with
      | UDict => Ret (dict_lexeme M who form)
      | UInit true _ _ _ => do* ts := gender_tags_p b (p_tag form) in ret (map (with_tag form) ts)
      | UInit false _ _ _ => ret (map (with_tag form) (b_tags b))
      | UNumber _ | UPunct _ | ULatin _ | URoman _ | UHAdverb _ | UUnkn => ret [form]
      | UParticle _ _ => analogy_p (lexeme_p f) form (fun a x => without_fixed_suffix x (length a)) true (decorated (fun a x => with_suffix x a))
      | UKnownPrefix _ _ _ | UUnknownPrefix _ => analogy_p (lexeme_p f) form (fun a x => without_fixed_prefix x (length a)) true (decorated (fun a x => with_prefix x a))
      | UKnownSuffix _ _ => analogy_p (lexeme_p f) form (fun _ x => x) false (decorated (fun _ x => x))
      | UHyph _ _ => hyph_forms_p (lexeme_p f) who form (fun l => pmap (fun x => x) l)
      end
    end
  end.
(** unit.normalized(form) *)
Fixpoint normalized_p_f (fuel : nat) (who : uref) (form : parse) : prog parse :=
  match fuel with
  | 0 => raise RecursionError
  | S f =>
    match who with
    | Sub _ => Ret (dict_normalized M who form)
    | Root i =>
      do* bt := Ret (nth_res (m_units M) i) in
      let b := fst bt in
      let decorated (dec : str -> parse -> parse) := fun a this x => append_method (dec a x) this in
      match b_cfg b with
      | UDict => Ret (dict_normalized M who form)
      | UInit true _ _ _ => do* ts := gender_tags_p b (p_tag form) in do* t := Ret (nth_res ts 0) in ret (with_tag form t)
      | UInit false _ _ _ => do* t := Ret (nth_res (b_tags b) 0) in ret (with_tag form t)
      | UNumber _ | UPunct _ | ULatin _ | URoman _ | UHAdverb _ | UUnkn => ret form
      | UParticle _ _ => analogy_p (normalized_p_f f) form (fun a x => without_fixed_suffix x (length a)) true (decorated (fun a x => with_suffix x a))
      | UKnownPrefix _ _ _ | UUnknownPrefix _ => analogy_p (normalized_p_f f) form (fun a x => without_fixed_prefix x (length a)) true (decorated (fun a x => with_prefix x a))
      | UKnownSuffix _ _ => analogy_p (normalized_p_f f) form (fun _ x => x) false (decorated (fun _ x => x))
      | UHyph _ _ => hyph_forms_p (lexeme_p f) who form (fun l => match l with [] => raise StopIteration | x :: _ => x end)
      end
    end
  end.
(** analyzer.py:359-369 get_lexeme, :57-61 Parse.normalized *)
Definition get_lexeme_p (form : parse) : prog (list parse) :=
  do* who := Ret (last_unit (p_stack form)) in lexeme_p (S (stack_size (p_stack form))) who form.
Definition normalized_p (form : parse) : prog parse :=
  do* who := Ret (last_unit (p_stack form)) in normalized_p_f (S (stack_size (p_stack form))) who form.
(** tagset.py:405-415 updated_grammemes *)
Definition updated_p (t : tag) (required : sset) : prog sset :=
  do* gs := grammemes_t (o t) in
  pfold (fun acc g => do* k := grammeme_is_known_t g in
                      if k then do* inc := act (IncompatGet g) in ret (sdiff acc inc) else raise ValueError)
        (sunion (the_set gs) required) required.
(** analyzer.py:371-385 _inflect: the forms are tested one after the other; heapq.nlargest(1) asks for the key of every form once *)
Definition has_all_p (req : sset) (f : parse) : prog bool := do* gs := grammemes_t (o (p_tag f)) in ret (ssub req (the_set gs)).
Definition similarity_p (grammemes : sset) (f : parse) : prog Q :=
  do* gs := grammemes_t (o (p_tag f)) in do* gs' := grammemes_t (o (p_tag f)) in
  ret (inject_Z (Z.of_nat (slen (sinter grammemes (the_set gs)))) - (1 # 10) * inject_Z (Z.of_nat (slen (ssymdiff grammemes (the_set gs')))))%Q.
Definition inflect_p (form : parse) (req : sset) : prog (option parse) :=
  do* lex := get_lexeme_p form in
  do* poss := pfilter (has_all_p req) lex in
  do* rp := (match poss with
             | [] => let req' := fix_rare_cases req in
                     do* lex' := get_lexeme_p form in
                     do* poss' := pfilter (has_all_p req') lex' in
                     ret (req', poss')
             | _ => ret (req, poss)
             end) in
  do* grammemes := updated_p (p_tag form) (fst rp) in
  do* keys := pmap (similarity_p grammemes) (snd rp) in
  ret (option_map fst (max_first (fun a b => Qgtb (snd a) (snd b)) (combine (snd rp) keys))).
(** tagset.py:46-54: self.POS, self.case, self.gender look at self.grammemes every time they are used *)
Definition attr_p (pick : sset -> option str) (cat : sset) (t : tag) : prog (option str) :=
  do* gs := grammemes_t (o t) in ret (pick (sinter cat (the_set gs))).
(** tagset.py:485-512 numeral_agreement_grammemes *)
Definition agreement_p (pick : sset -> option str) (t : tag) (num : Z) : prog (list (option str)) :=
  let index := agreement_index num in
  let pos_p := attr_p pick PARTS_OF_SPEECH t in
  let case_p := attr_p pick CASES t in
  let lit := map (fun s => Some (u s)) in
  do* pos := pos_p in
  if negb (opt_in pos ["NOUN"; "ADJF"; "PRTF"]%string) then ret []
  else
    do* pos := pos_p in
    do* oblique := (if opt_is pos "NOUN" then do* c := case_p in ret (negb (opt_in c ["nomn"; "accs"]%string)) else ret false) in
    if oblique then do* c := case_p in ret (if index =? 0 then [Some (u "sing"); c] else [Some (u "plur"); c])
    else if index =? 0 then do* c := case_p in ret (if opt_is c "nomn" then lit ["sing"; "nomn"]%string else lit ["sing"; "accs"]%string)
    else
      do* pos := pos_p in
      if opt_is pos "NOUN" && (index =? 1) then ret (lit ["sing"; "gent"]%string)
      else
        do* pos := pos_p in
        do* femn := (if opt_in pos ["ADJF"; "PRTF"]%string then do* g := attr_p pick GENDERS t in ret (opt_is g "femn") else ret false) in
        ret (if femn && (index =? 1) then lit ["plur"; "nomn"]%string else lit ["plur"; "gent"]%string).
(** inflect() when None is required: no form matches, twice, then updated_grammemes raises.  If the set is iterated with another grammeme
    first, that one is tested before None and the test raises the same exceptions; not shown. *)
Definition inflect_opt_p (form : parse) (req : list (option str)) : prog (option parse) :=
  match all_some req with
  | Some l => inflect_p form l
  | None =>
    do* lex := get_lexeme_p form in do* _ := pmap (fun f => grammemes_t (o (p_tag f))) lex in
    do* lex' := get_lexeme_p form in do* _ := pmap (fun f => grammemes_t (o (p_tag f))) lex' in
    do* _ := grammemes_t (o (p_tag form)) in
    do* _ := assert_initialized_t in do* _ := act KnownRef in raise ValueError
  end.
(** analyzer.py:38-42 make_agree_with_number *)
Definition agree_p (pick : sset -> option str) (form : parse) (num : Z) : prog (option parse) :=
  do* req := agreement_p pick (p_tag form) num in inflect_opt_p form req.
End Analyzer.

(** the calls a thread can make *)
Inductive call :=
| CLatinChar (c : char) | CIsLatin (s : str) | CMemo (k : str)
| CGrammemes (o : nat) | CGrammemesCyr (o : nat) | CCyrRepr (o : nat)
| CContains (g : str) (o : nat) | CContainsSet (gs : sset) (o : nat) | CAny (gs : sset) (os : list nat)
| CParse (M : morph) (o : tag -> nat) (word : str) | CTag (M : morph) (o : tag -> nat) (word : str)
| CLexeme (M : morph) (o : tag -> nat) (form : parse) | CNormalized (M : morph) (o : tag -> nat) (form : parse)
| CInflect (M : morph) (o : tag -> nat) (form : parse) (req : sset)
| CNormalForms (M : morph) (o : tag -> nat) (word : str)
| CAgree (pick : sset -> option str) (M : morph) (o : tag -> nat) (form : parse) (num : Z)
| CMorph (rows : list grow) (tags : list str) (adds : list (str * str * bool)).
Inductive val := VBool (b : bool) | VStr (s : str) | VOStr (s : option str) | VSet (s : option sset) | VParses (l : list parse) | VTags (l : list tag) | VParse (p : option parse) | VStrs (l : list str) | VUnit.
Definition pret {A} (f : A -> val) (p : prog A) : prog val := do* x := p in ret (f x).
Definition code (c : call) : prog val :=
  match c with
  | CLatinChar c => pret VBool (is_latin_char_t c)
  | CIsLatin s => pret VBool (is_latin_t s)
  | CMemo k => pret VStr (memoized_t k)
  | CGrammemes o => pret VSet (grammemes_t o)
  | CGrammemesCyr o => pret VSet (grammemes_cyr_t o)
  | CCyrRepr o => pret VOStr (cyr_repr_t o)
  | CContains g o => pret VBool (contains_t g o)
  | CContainsSet gs o => pret VBool (contains_set_t gs o)
  | CAny gs os => pret VBool (any_contains_t gs os)
  | CParse M o w => pret VParses (parse_p M o w)
  | CTag M o w => pret VTags (tag_p M o w)
  | CLexeme M o f => pret VParses (get_lexeme_p M o f)
  | CNormalized M o f => pret (fun p => VParse (Some p)) (normalized_p M o f)
  | CInflect M o f req => pret VParse (inflect_p M o f req)
  | CNormalForms M o w => pret (fun ps => VStrs (dedup_from [] (map p_nf ps))) (parse_p M o w)   (* analyzer.py:343-355 *)
  | CAgree pick M o f n => pret VParse (agree_p M o pick f n)
  | CMorph rows tags adds => pret (fun _ => VUnit) (construct_t rows tags adds)
  end.

(** a thread: results so far (first call first), the running call, the calls still to make *)
Record thread := MkThread { th_done : list (res val); th_now : option (prog val); th_todo : list call }.
Definition start (cs : list call) : thread := MkThread [] None cs.
(** one action of a thread: begin the next call, end the running one, or do its next operation *)
Definition tstep (m : mem) (t : thread) : mem * thread :=
  match th_now t with
  | Some (Ret r) => (m, MkThread (th_done t ++ [r]) None (th_todo t))
  | Some (Do o k) => let '(m', x) := exec o m in (m', MkThread (th_done t) (Some (k x)) (th_todo t))
  | None => match th_todo t with [] => (m, t) | c :: cs => (m, MkThread (th_done t) (Some (code c)) cs) end
  end.
Definition step (i : nat) (s : mem * list thread) : mem * list thread :=
  match nth_error (snd s) i with
  | Some t => let '(m', t') := tstep (fst s) t in (m', upd_nth i (fun _ => t') (snd s))
  | None => s
  end.
(** a schedule: which thread acts, again and again *)
Definition runs (sched : list nat) (s : mem * list thread) : mem * list thread := fold_left (fun s i => step i s) sched s.
End Functions.
