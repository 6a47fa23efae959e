(** * Unit objects: construction, cloning, binding, repr (units/base.py, the __init__ and init methods of units, analyzer.py:226-248) *)
From Coq Require Import String List NArith ZArith Bool QArith.
From Verif Require Import Py Uni Tagset Dawg Dict Utils Shapes Units Analyzer.
Import ListNotations.
Local Open Scope nat_scope.
Local Open Scope list_scope.

(** Python values that occur as constructor arguments and attributes of units.  [VSeq] is a collection of texts that can be iterated again and
    again (list, tuple, set, frozenset); [VIter] a one-shot iterator, e.g. a generator (its remaining items are in the heap); [VPattern] a
    text with the fields gender and case, represented by what formatting gives; [VMorph] an analyzer. *)
Inductive pyval := VNone | VText (s : str) | VSeq (l : list str) | VIter (i : nat) | VNum (q : Q) | VNat (n : nat)
  | VPattern (f : str -> str -> str) | VObj (o : nat) | VMorph (k : nat).

(** the classes of units *)
Inductive uclass := KDict | KFirstName | KPatronymic | KNumber | KPunct | KLatin | KRoman | KParticle | KHAdverb | KHyph
  | KKnownPrefix | KUnknownPrefix | KKnownSuffix | KUnkn.
Definition class_name (k : uclass) : str :=
  match k with
  | KDict => u "DictionaryAnalyzer" | KFirstName => u "AbbreviatedFirstNameAnalyzer" | KPatronymic => u "AbbreviatedPatronymicAnalyzer"
  | KNumber => u "NumberAnalyzer" | KPunct => u "PunctuationAnalyzer" | KLatin => u "LatinAnalyzer" | KRoman => u "RomanNumberAnalyzer"
  | KParticle => u "HyphenSeparatedParticleAnalyzer" | KHAdverb => u "HyphenAdverbAnalyzer" | KHyph => u "HyphenatedWordsAnalyzer"
  | KKnownPrefix => u "KnownPrefixAnalyzer" | KUnknownPrefix => u "UnknownPrefixAnalyzer" | KKnownSuffix => u "KnownSuffixAnalyzer" | KUnkn => u "UnknAnalyzer"
  end.
(** the parameters of __init__ with their defaults: abbreviations.py:11, by_shape.py:17, by_hyphen.py:31, :101, :160, by_analogy.py:51, :112, :170;
    DictionaryAnalyzer and UnknAnalyzer have no __init__ of their own *)
Definition params (k : uclass) : list (str * option pyval) :=
  match k with
  | KDict | KUnkn => []
  | KFirstName | KPatronymic => [(u "letters", None); (u "tag_pattern", Some VNone); (u "score", Some (VNum (1#10)))]
  | KNumber | KPunct | KLatin | KRoman => [(u "score", Some (VNum (9#10)))]
  | KParticle => [(u "particles_after_hyphen", None); (u "score_multiplier", Some (VNum (9#10)))]
  | KHAdverb => [(u "score_multiplier", Some (VNum (7#10)))]
  | KHyph => [(u "skip_prefixes", None); (u "score_multiplier", Some (VNum (75#100)))]
  | KKnownPrefix => [(u "known_prefixes", None); (u "score_multiplier", Some (VNum (75#100))); (u "min_remainder_length", Some (VNat 3))]
  | KUnknownPrefix => [(u "score_multiplier", Some (VNum (1#2)))]
  | KKnownSuffix => [(u "score_multiplier", Some (VNum (1#2))); (u "min_word_length", Some (VNat 4))]
  end.
Definition own_init (k : uclass) : bool := match k with KDict | KUnkn => false | _ => true end.

(** objects: class and instance attributes; the heap: unit objects, and what is left in each one-shot iterator *)
Record obj := MkObj { o_class : uclass; o_attrs : list (str * pyval) }.
Record heap := MkHeap { h_objs : list obj; h_iters : list (list str) }.
Definition empty_heap : heap := MkHeap [] [].
Definition alloc (H : heap) (o : obj) : heap * nat := (MkHeap (h_objs H ++ [o]) (h_iters H), length (h_objs H)).
Fixpoint upd {A} (n : nat) (x : A) (l : list A) : list A :=
  match l, n with [], _ => [] | _ :: r, 0 => x :: r | y :: r, S n' => y :: upd n' x r end.
(** self.name = v *)
Definition set_attrs (H : heap) (i : nat) (kvs : list (str * pyval)) : heap :=
  match nth_error (h_objs H) i with
  | Some o => MkHeap (upd i (MkObj (o_class o) (fold_left (fun a kv => sset_ (fst kv) (snd kv) a) kvs (o_attrs o))) (h_objs H)) (h_iters H)
  | None => H
  end.
(** iterating to the end, as set(v), tuple(v) and DAWG(v) do *)
Definition iterate (H : heap) (v : pyval) : heap * res (list str) :=
  match v with
  | VText s => (H, Ok (map (fun c => [c]) s))
  | VSeq l => (H, Ok l)
  | VIter i => match nth_error (h_iters H) i with Some l => (MkHeap (h_objs H) (upd i [] (h_iters H)), Ok l) | None => (H, Err TypeError) end
  | _ => (H, Err TypeError)
  end.

(** binding keyword arguments to parameters *)
Definition bind_args (ps : list (str * option pyval)) (kw : list (str * pyval)) : res (list (str * pyval)) :=
  if existsb (fun kv => negb (smem (fst kv) (map fst ps))) kw then Err TypeError
  else mapM (fun p : str * option pyval =>
               match sget (fst p) kw, snd p with
               | Some v, _ => Ok (fst p, v)
               | None, Some v => Ok (fst p, v)
               | None, None => Err TypeError
               end) ps.
(** abbreviations.py:52, :81 *)
Definition class_pattern (k : uclass) : pyval := match k with KFirstName => VPattern name_pattern | _ => VPattern patr_pattern end.
(** Calling the class with keyword arguments [kw]: every parameter is stored under its own name; abbreviations.py:12-20 also fills in the class's TAG_PATTERN and makes a set of
    the letters *)
Definition new_unit (H : heap) (k : uclass) (kw : list (str * pyval)) : heap * res nat :=
  match bind_args (params k) kw with
  | Err e => (H, Err e)
  | Ok args =>
    match k with
    | KFirstName | KPatronymic =>
      let pat := match sget (u "tag_pattern") args with Some VNone | None => class_pattern k | Some v => v end in
      let args := sset_ (u "tag_pattern") pat args in
      match iterate H (match sget (u "letters") args with Some v => v | None => VNone end) with
      | (H', Err e) => (H', Err e)
      | (H', Ok l) => let '(H2, o) := alloc H' (MkObj k (args ++ [(u "_letters_set", VSeq l)])) in (H2, Ok o)
      end
    | _ => let '(H2, o) := alloc H (MkObj k args) in (H2, Ok o)
    end
  end.

(** sorted(names) *)
Fixpoint insert_name (x : str) (l : list str) : list str :=
  match l with [] => [x] | y :: r => if str_ltb x y then x :: l else y :: insert_name x r end.
Definition sorted_names (l : list str) : list str := fold_right insert_name [] l.
(** base.py:60-77 _get_param_names and _get_params.  [argspec]: the module inspect has getargspec (it was removed in Python 3.11) *)
Definition get_params (argspec : bool) (ob : obj) : res (list (str * pyval)) :=
  if negb (own_init (o_class ob)) then Ok []
  else if argspec then Ok (map (fun n => (n, match sget n (o_attrs ob) with Some v => v | None => VNone end)) (sorted_names (map fst (params (o_class ob)))))
  else Err AttributeError.
(** base.py:34-35 clone *)
Definition clone (argspec : bool) (H : heap) (i : nat) : heap * res nat :=
  match nth_error (h_objs H) i with
  | None => (H, Err AttributeError)
  | Some ob => match get_params argspec ob with Err e => (H, Err e) | Ok kw => new_unit H (o_class ob) kw end
  end.

(** unit.init(morph) as far as the unit object is concerned: base.py:30-32, by_analogy.py:56-58, :115-118, :174-180, by_hyphen.py:164-169.
    Tags and class-level grammemes are made by Analyzer.bind_unit.  [dict]/[dictionary] is not represented. *)
Definition attr_of (ob : obj) (n : string) : pyval := match sget (u n) (o_attrs ob) with Some v => v | None => VNone end.
Definition init_obj (H : heap) (i : nat) (m : nat) : heap * res unit :=
  match nth_error (h_objs H) i with
  | None => (H, Err AttributeError)
  | Some ob =>
    let H0 := set_attrs H i [(u "morph", VMorph m)] in
    match o_class ob with
    | KKnownPrefix => match iterate H0 (attr_of ob "known_prefixes") with
                      | (H1, Ok l) => (set_attrs H1 i [(u "get_prefixes", VSeq l)], Ok tt)
                      | (H1, Err e) => (H1, Err e)
                      end
    | KHyph => match iterate H0 (attr_of ob "skip_prefixes") with
               | (H1, Ok l) => (set_attrs H1 i [(u "_has_skip_prefix", VSeq l)], Ok tt)
               | (H1, Err e) => (H1, Err e)
               end
    | KUnknownPrefix => let '(H1, d) := alloc H0 (MkObj KDict [(u "morph", VMorph m)]) in (set_attrs H1 i [(u "dict_analyzer", VObj d)], Ok tt)
    | KKnownSuffix => let '(H1, d) := alloc H0 (MkObj KDict [(u "morph", VMorph m)]) in (set_attrs H1 i [(u "fake_dict", VObj d)], Ok tt)
    | _ => (H0, Ok tt)
    end
  end.
(** analyzer.py:245-248 _bound_unit *)
Definition bound_unit (argspec : bool) (H : heap) (i m : nat) : heap * res nat :=
  match clone argspec H i with
  | (H1, Err e) => (H1, Err e)
  | (H1, Ok o) => match init_obj H1 o m with (H2, Err e) => (H2, Err e) | (H2, Ok _) => (H2, Ok o) end
  end.

(** What the code reads of a unit object while parsing, as the configuration used in Units.v: the letters from _letters_set, the prefixes from
    the matchers made by init (when the unit is bound), the other parameters from the attributes *)
Definition num_of (v : pyval) : option Q := match v with VNum q => Some q | _ => None end.
Definition nat_of (v : pyval) : option nat := match v with VNat n => Some n | _ => None end.
Definition pat_of (v : pyval) : option (str -> str -> str) := match v with VPattern f => Some f | _ => None end.
Definition texts_of (v : pyval) : option (list str) := match v with VSeq l => Some l | VText s => Some (map (fun c => [c]) s) | _ => None end.
Definition opt2 {A B C} (f : A -> B -> C) (a : option A) (b : option B) : option C := match a, b with Some x, Some y => Some (f x y) | _, _ => None end.
Definition opt3 {A B C D} (f : A -> B -> C -> D) (a : option A) (b : option B) (c : option C) : option D := match a, b, c with Some x, Some y, Some z => Some (f x y z) | _, _, _ => None end.
Definition bound_cfg (ob : obj) : option ucfg :=
  let n := num_of (attr_of ob "score") in let k := num_of (attr_of ob "score_multiplier") in
  match o_class ob with
  | KDict => Some UDict
  | KUnkn => Some UUnkn
  | KFirstName => opt3 (UInit true) (texts_of (attr_of ob "_letters_set")) (pat_of (attr_of ob "tag_pattern")) n
  | KPatronymic => opt3 (UInit false) (texts_of (attr_of ob "_letters_set")) (pat_of (attr_of ob "tag_pattern")) n
  | KNumber => option_map UNumber n
  | KPunct => option_map UPunct n
  | KLatin => option_map ULatin n
  | KRoman => option_map URoman n
  | KParticle => opt2 UParticle (texts_of (attr_of ob "particles_after_hyphen")) k
  | KHAdverb => option_map UHAdverb k
  | KHyph => opt2 UHyph (texts_of (attr_of ob "_has_skip_prefix")) k
  | KKnownPrefix => opt3 UKnownPrefix (texts_of (attr_of ob "get_prefixes")) k (nat_of (attr_of ob "min_remainder_length"))
  | KUnknownPrefix => option_map UUnknownPrefix k
  | KKnownSuffix => opt2 UKnownSuffix k (nat_of (attr_of ob "min_word_length"))
  end.

(** analyzer.py:226-243 _init_units; an item is a unit or a list of units.  When something raises, what was done before stays done. *)
Inductive oitem := OOne (o : nat) | OGroup (l : list nat).
Fixpoint bind_objs (argspec : bool) (H : heap) (m : nat) (l : list (nat * bool)) : heap * res (list (nat * bool)) :=
  match l with
  | [] => (H, Ok [])
  | (o, b) :: r =>
    match bound_unit argspec H o m with
    | (H1, Err e) => (H1, Err e)
    | (H1, Ok o') => match bind_objs argspec H1 m r with (H2, Err e) => (H2, Err e) | (H2, Ok l') => (H2, Ok ((o', b) :: l')) end
    end
  end.
Definition flatten_oitem (it : oitem) : res (list (nat * bool)) :=
  match it with OOne o => Ok [(o, true)] | OGroup [] => Err IndexError | OGroup l => Ok (mark_last l) end.
(** an empty inner list raises when it is reached (after the items before it); the model raises before binding anything *)
Definition init_units_obj (argspec : bool) (H : heap) (m : nat) (items : list oitem) : heap * res (list (nat * bool)) :=
  match mapM flatten_oitem items with
  | Err e => (H, Err e)
  | Ok fl => bind_objs argspec H m (concat fl)
  end.

(** ** utils.py:125-140 kwargs_repr.  [rep] is repr().  sorted() compares (key, value) pairs; keys are different, so values are never compared. *)
Fixpoint insert_kw {V} (x : str * V) (l : list (str * V)) : list (str * V) :=
  match l with [] => [x] | y :: r => if str_ltb (fst x) (fst y) then x :: l else y :: insert_kw x r end.
Definition sorted_kw {V} (l : list (str * V)) : list (str * V) := fold_right insert_kw [] l.
Definition kwargs_repr {V} (rep : V -> str) (kw : list (str * V)) (hidden : list str) : str :=
  join (u ", ") (map (fun kv => fst kv ++ u "=" ++ (if smem (fst kv) hidden then u "<...>" else rep (snd kv))) (sorted_kw kw)).
(** by_analogy.py:49, by_hyphen.py:151 _repr_skip_value_params *)
Definition repr_skip (k : uclass) : list str := match k with KKnownPrefix => [u "known_prefixes"] | KHyph => [u "skip_prefixes"] | _ => [] end.
(** base.py:55-59 __repr__ *)
Definition unit_repr (argspec : bool) (rep : pyval -> str) (ob : obj) : res str :=
  let* kw := get_params argspec ob in
  Ok (class_name (o_class ob) ++ u "(" ++ kwargs_repr rep kw (repr_skip (o_class ob)) ++ u ")").
