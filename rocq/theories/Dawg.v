(** * Contracts of the external [dawg] package, and pymorphy2/dawg.py *)
From Coq Require Import String List NArith ZArith Bool QArith.
From Verif Require Import Py Uni.
Import ListNotations.
Local Open Scope nat_scope.
Local Open Scope list_scope.

(** A RecordDAWG is a finite map from keys to value lists (external library; the
    order of keys and of the values under a key is the library's: Compile.v, [rdawg_of]).  Keys are unique by contract. *)
Definition rdawg (V : Type) := list (str * list V).

(** compiled replaces (dawg: compile_replaces): one-character to one-character map *)
Definition replaces := list (char * char).
Definition rget : char -> replaces -> option char := dget N.eqb.

(** Spellings tried by [similar_items]/[similar_keys] (dawg_python/dawgs.py
    [_similar_items]): the key itself first, then for each position from left to
    right whose character has a replacement, the spellings starting with that
    replacement. *)
Fixpoint alts (r : replaces) (s : str) : list str :=
  match s with
  | [] => []
  | c :: s' =>
    (match rget c r with
     | Some c' => map (cons c') (s' :: alts r s')
     | None => []
     end) ++ map (cons c) (alts r s')
  end.
Definition variants (r : replaces) (s : str) : list str := s :: alts r s.

(** similar_items(key, replaces) -> [(found_key, values)] *)
Definition similar_items {V} (d : rdawg V) (r : replaces) (key : str) : list (str * list V) :=
  flat_map (fun v => match sget v d with Some vals => [(v, vals)] | None => [] end) (variants r key).
(** similar_item_values: same enumeration, values only *)
Definition similar_item_values {V} (d : rdawg V) (r : replaces) (key : str) : list (list V) :=
  map snd (similar_items d r key).
(** similar_keys: same enumeration, keys only *)
Definition similar_keys {V} (d : rdawg V) (r : replaces) (key : str) : list str :=
  map fst (similar_items d r key).
(** [key in dawg] *)
Definition dawg_mem {V} (d : rdawg V) (key : str) : bool := din str_eqb key d.
(** iteritems(prefix): one item per (key, value), keys with that prefix *)
Definition iteritems {V} (d : rdawg V) (prefix : str) : list (str * V) :=
  flat_map (fun kv => if prefixb prefix (fst kv) then map (pair (fst kv)) (snd kv) else []) d.

(** ** dawg.py:49-66 ConditionalProbDistDAWG: an integer-valued map *)
Definition cpd := list (str * N).
Definition MULTIPLIER : positive := 1000000.
(** dawg.py:59: the key "%s:%s" % (word, tag) *)
Definition prob_key (word tagtext : str) : str := word ++ u ":" ++ tagtext.
(** dawg.py:64-66 prob *)
Definition prob (d : cpd) (word tagtext : str) : Q :=
  match sget (prob_key word tagtext) d with
  | Some n => Z.of_N n # MULTIPLIER
  | None => 0 # MULTIPLIER
  end.
(** dawg.py:58-61: int(prob*MULTIPLIER) truncates (exact rational [prob]; the float
    product: Rounding.v) *)
Definition cpd_value (p : Q) : Z := Z.quot (Qnum p * Zpos MULTIPLIER) (Zpos (Qden p)).
Definition cpd_build (data : list ((str * str) * Q)) : list (str * Z) :=
  map (fun d => (prob_key (fst (fst d)) (snd (fst d)), cpd_value (snd d))) data.

(** ** Prefix matchers *)
(** dawg.py:69-71 DawgPrefixMatcher: [DAWG.prefixes(word)] lists the stored keys that
    are non-empty prefixes of the word, by increasing length (library contract;
    the walk over the key only reports after consuming a character). *)
Fixpoint nonempty_prefixes (s : str) : list str :=
  match s with
  | [] => []
  | c :: s' => [c] :: map (cons c) (nonempty_prefixes s')
  end.
Definition dawg_prefixes (ps : list str) (w : str) : list str :=
  filter (fun p => smem p ps) (nonempty_prefixes w).
Definition dawg_is_prefixed (ps : list str) (w : str) : bool :=
  match dawg_prefixes ps w with [] => false | _ => true end.

(** dawg.py:74-84 PythonPrefixMatcher *)
Definition py_is_prefixed (ps : list str) (w : str) : bool := existsb (fun p => prefixb p w) ps.
Definition py_prefixes (ps : list str) (w : str) : list str :=
  if py_is_prefixed ps w then filter (fun p => prefixb p w) ps else [].

(** dawg.py:87 PrefixMatcher: chosen by EXTENSION_AVAILABLE *)
Definition matcher_prefixes (ext : bool) (ps : list str) (w : str) : list str :=
  if ext then dawg_prefixes ps w else py_prefixes ps w.
Definition matcher_is_prefixed (ext : bool) (ps : list str) (w : str) : bool :=
  if ext then dawg_is_prefixed ps w else py_is_prefixed ps w.
