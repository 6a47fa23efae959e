(** * Python values and primitives used by the model.

    Strings are lists of Unicode code points.  Everything here models
    CPython built-ins (str, list, set, dict operations) as they are used by
    pymorphy2; the modules citing /repo lines use only these. *)
From Coq Require Import List NArith ZArith Bool Ascii String QArith.
Import ListNotations.
Local Open Scope nat_scope.
Local Open Scope list_scope.

Definition char := N.
Definition str := list char.

(** ** Exceptions as values. Messages are not modelled. *)
Inductive exn :=
| ValueError | KeyError | IndexError | AssertionError | RuntimeError
| TypeError | ZeroDivisionError | RecursionError | OverflowError
| StructError | NotImplementedError | FileError | AttributeError
| StopIteration | UnicodeError.

Inductive res (A : Type) := Ok (a : A) | Err (e : exn).
Arguments Ok {A} a.
Arguments Err {A} e.

Definition bind {A B} (x : res A) (f : A -> res B) : res B :=
  match x with Ok a => f a | Err e => Err e end.
Definition rmap {A B} (f : A -> B) (x : res A) : res B :=
  match x with Ok a => Ok (f a) | Err e => Err e end.

Declare Scope res_scope.
Notation "'let*' x ':=' e 'in' k" := (bind e (fun x => k))
  (at level 200, x pattern, e at level 200, k at level 200) : res_scope.
Open Scope res_scope.

(** [for x in l: ...] collecting results, stopping at the first exception *)
Fixpoint mapM {A B} (f : A -> res B) (l : list A) : res (list B) :=
  match l with
  | [] => Ok []
  | x :: r => let* y := f x in let* ys := mapM f r in Ok (y :: ys)
  end.

(** [for x in l: acc = f acc x] with exceptions *)
Fixpoint foldM {A S} (f : S -> A -> res S) (s : S) (l : list A) : res S :=
  match l with
  | [] => Ok s
  | x :: r => let* s' := f s x in foldM f s' r
  end.

Definition guard (b : bool) (e : exn) : res unit := if b then Ok tt else Err e.

(** [l[i]] for a non-negative index: IndexError when out of range *)
Definition nth_res {A} (l : list A) (i : nat) : res A :=
  match nth_error l i with Some a => Ok a | None => Err IndexError end.

(** ** UTF-8 decoding of Coq string literals, so that [u "кот"] is the list of
    its code points. *)
Fixpoint bytes_of (s : string) : list N :=
  match s with
  | EmptyString => []
  | String a r => N_of_ascii a :: bytes_of r
  end.

Fixpoint utf8 (l : list N) : str :=
  match l with
  | [] => []
  | b0 :: r0 =>
    if (b0 <? 128)%N then b0 :: utf8 r0
    else if (b0 <? 224)%N then
      match r0 with
      | b1 :: r1 => ((b0 - 192) * 64 + (b1 - 128))%N :: utf8 r1
      | [] => []
      end
    else if (b0 <? 240)%N then
      match r0 with
      | b1 :: b2 :: r2 => ((b0 - 224) * 4096 + (b1 - 128) * 64 + (b2 - 128))%N :: utf8 r2
      | _ => []
      end
    else
      match r0 with
      | b1 :: b2 :: b3 :: r3 =>
          ((b0 - 240) * 262144 + (b1 - 128) * 4096 + (b2 - 128) * 64 + (b3 - 128))%N :: utf8 r3
      | _ => []
      end
  end.

Definition u (s : string) : str := utf8 (bytes_of s).
Definition chr (s : string) : char := hd 0%N (u s).

(** ** Equality and ordering of strings (code-point lexicographic, as in CPython) *)
Fixpoint list_eqb {A} (eqb : A -> A -> bool) (a b : list A) : bool :=
  match a, b with
  | [], [] => true
  | x :: a', y :: b' => eqb x y && list_eqb eqb a' b'
  | _, _ => false
  end.

Definition str_eqb : str -> str -> bool := list_eqb N.eqb.

(** lexicographic [<] of sequences: the first difference decides, a proper
    prefix is smaller *)
Fixpoint list_ltb {A} (ltb : A -> A -> bool) (eqb : A -> A -> bool) (a b : list A) : bool :=
  match a, b with
  | [], [] => false
  | [], _ :: _ => true
  | _ :: _, [] => false
  | x :: a', y :: b' => if eqb x y then list_ltb ltb eqb a' b' else ltb x y
  end.

Definition str_ltb : str -> str -> bool := list_ltb N.ltb N.eqb.

(** ** Substring operations *)
Fixpoint prefixb (p s : str) : bool :=             (* s.startswith(p) *)
  match p, s with
  | [], _ => true
  | x :: p', y :: s' => (x =? y)%N && prefixb p' s'
  | _ :: _, [] => false
  end.

Definition suffixb (x s : str) : bool := prefixb (rev x) (rev s).   (* s.endswith(x) *)

Fixpoint substrb (x s : str) : bool :=             (* x in s *)
  prefixb x s || match s with [] => false | _ :: s' => substrb x s' end.

Fixpoint find_sub (x s : str) : option nat :=      (* s.find(x); None for -1 *)
  if prefixb x s then Some 0
  else match s with [] => None | _ :: s' => option_map S (find_sub x s') end.

Definition index_sub (x s : str) : res nat :=      (* s.index(x) *)
  match find_sub x s with Some n => Ok n | None => Err ValueError end.

(** slice bound normalisation of [s[k:]] / [s[:k]] for a possibly negative [k] *)
Definition norm_idx (n : nat) (k : Z) : nat :=
  if (k <? 0)%Z then Z.to_nat (Z.max 0 (Z.of_nat n + k)) else Nat.min n (Z.to_nat k).

Definition slice_from {A} (s : list A) (k : Z) : list A :=     (* s[k:] *)
  skipn (norm_idx (List.length s) k) s.
Definition slice_to {A} (s : list A) (k : Z) : list A :=       (* s[:k] *)
  firstn (norm_idx (List.length s) k) s.
Definition slice {A} (s : list A) (a b : Z) : list A :=        (* s[a:b] *)
  let n := List.length s in
  firstn (norm_idx n b - norm_idx n a) (skipn (norm_idx n a) s).

Fixpoint mem_char (c : char) (s : str) : bool :=
  match s with [] => false | x :: s' => (x =? c)%N || mem_char c s' end.

(** s.split(c) for a one-character separator: always at least one piece *)
Fixpoint split_on (c : char) (s : str) : list str :=
  match s with
  | [] => [[]]
  | x :: s' =>
    if (x =? c)%N then [] :: split_on c s'
    else match split_on c s' with
         | [] => [[x]]            (* unreachable *)
         | p :: ps => (x :: p) :: ps
         end
  end.

(** s.split(c, 1) *)
Fixpoint split_once (c : char) (s : str) : str * option str :=
  match s with
  | [] => ([], None)
  | x :: s' =>
    if (x =? c)%N then ([], Some s')
    else let '(a, b) := split_once c s' in (x :: a, b)
  end.

(** sep.join(parts) *)
Fixpoint join (sep : str) (l : list str) : str :=
  match l with
  | [] => []
  | [x] => x
  | x :: r => x ++ sep ++ join sep r
  end.

(** s.replace(a, b, 1) for one-character strings *)
Fixpoint replace_first (a b : char) (s : str) : str :=
  match s with
  | [] => []
  | x :: s' => if (x =? a)%N then b :: s' else x :: replace_first a b s'
  end.

(** s.replace(a, b) for one-character strings *)
Definition replace_char (a b : char) (s : str) : str :=
  map (fun x => if (x =? a)%N then b else x) s.

(** s.replace(old, new) for a non-empty [old]: left to right, non-overlapping.
    Recursion on fuel [length s]. *)
Fixpoint replace_all_f (fuel : nat) (old new s : str) : str :=
  match fuel with
  | 0 => s
  | S f =>
    match s with
    | [] => []
    | x :: s' =>
      if prefixb old s then new ++ replace_all_f f old new (skipn (List.length old) s)
      else x :: replace_all_f f old new s'
    end
  end.
Definition replace_all (old new s : str) : str := replace_all_f (List.length s) old new s.

(** s.strip(c) for a one-character set, and s.strip() for a predicate *)
Fixpoint lstrip_by (f : char -> bool) (s : str) : str :=
  match s with
  | [] => []
  | x :: s' => if f x then lstrip_by f s' else s
  end.
Definition strip_by (f : char -> bool) (s : str) : str :=
  rev (lstrip_by f (rev (lstrip_by f s))).

Definition count_char (c : char) (s : str) : nat :=
  List.length (filter (N.eqb c) s).

(** s.split() on runs of white space (no empty pieces) *)
Fixpoint split_ws_aux (sp : char -> bool) (cur : str) (s : str) : list str :=
  match s with
  | [] => match cur with [] => [] | _ => [rev cur] end
  | x :: s' =>
    if sp x then
      match cur with
      | [] => split_ws_aux sp [] s'
      | _ => rev cur :: split_ws_aux sp [] s'
      end
    else split_ws_aux sp (x :: cur) s'
  end.
Definition split_ws (sp : char -> bool) (s : str) : list str := split_ws_aux sp [] s.

(** ** Sets of strings: lists read up to membership.  [len] of a set is the
    length of its duplicate-free list. *)
Definition sset := list str.
Fixpoint smem (x : str) (l : sset) : bool :=
  match l with [] => false | y :: r => str_eqb x y || smem x r end.
Fixpoint snodup (l : sset) : sset :=
  match l with
  | [] => []
  | x :: r => if smem x r then snodup r else x :: snodup r
  end.
Definition ssub (a b : sset) : bool := forallb (fun x => smem x b) a.         (* a <= b *)
Definition sinter (a b : sset) : sset := filter (fun x => smem x b) a.        (* a & b *)
Definition sdiff (a b : sset) : sset := filter (fun x => negb (smem x b)) a.  (* a - b *)
Definition sunion (a b : sset) : sset := a ++ b.                              (* a | b *)
Definition ssymdiff (a b : sset) : sset := sdiff a b ++ sdiff b a.            (* a ^ b *)
Definition slen (a : sset) : nat := List.length (snodup a).                   (* len(a) *)
Definition seq_set (a b : sset) : bool := ssub a b && ssub b a.               (* a == b *)

(** ** Dictionaries with string keys: insertion-ordered association lists *)
Section Dict.
  Context {K V : Type} (keqb : K -> K -> bool).
  Fixpoint dget (k : K) (d : list (K * V)) : option V :=
    match d with
    | [] => None
    | (k', v) :: r => if keqb k k' then Some v else dget k r
    end.
  Fixpoint dset (k : K) (v : V) (d : list (K * V)) : list (K * V) :=
    match d with
    | [] => [(k, v)]
    | (k', v') :: r => if keqb k k' then (k', v) :: r else (k', v') :: dset k v r
    end.
  Definition din (k : K) (d : list (K * V)) : bool :=
    match dget k d with Some _ => true | None => false end.
  Definition dget_res (k : K) (d : list (K * V)) : res V :=      (* d[k] *)
    match dget k d with Some v => Ok v | None => Err KeyError end.
End Dict.

Definition sget {V} : str -> list (str * V) -> option V := dget str_eqb.
Definition sset_ {V} : str -> V -> list (str * V) -> list (str * V) := dset str_eqb.

(** ** sorted(l, key=.., reverse=True): stable (equal keys keep their order).
    [geb x y] decides [key(x) >= key(y)]. *)
Section SortDesc.
  Context {A : Type} (geb : A -> A -> bool).
  Fixpoint insert_desc (x : A) (l : list A) : list A :=
    match l with
    | [] => [x]
    | y :: r => if geb x y then x :: l else y :: insert_desc x r
    end.
  Fixpoint sort_desc (l : list A) : list A :=
    match l with [] => [] | x :: r => insert_desc x (sort_desc r) end.
End SortDesc.

(** max(l, key=..): the first element with the largest key. [gtb y x]: key(y) > key(x) *)
Section Argmax.
  Context {A : Type} (gtb : A -> A -> bool).
  Fixpoint max_from (best : A) (l : list A) : A :=
    match l with
    | [] => best
    | y :: r => if gtb y best then max_from y r else max_from best r
    end.
  Definition max_first (l : list A) : option A :=
    match l with [] => None | x :: r => Some (max_from x r) end.
End Argmax.

Definition last_opt {A} (l : list A) : option A :=
  match rev l with [] => None | x :: _ => Some x end.

(** enumerate(l) *)
Fixpoint enum_from {A} (i : nat) (l : list A) : list (nat * A) :=
  match l with [] => [] | x :: r => (i, x) :: enum_from (S i) r end.
Definition enum {A} (l : list A) : list (nat * A) := enum_from 0 l.

Definition opt_eqb {A} (eqb : A -> A -> bool) (a b : option A) : bool :=
  match a, b with
  | None, None => true
  | Some x, Some y => eqb x y
  | _, _ => false
  end.

Definition Qgeb (a b : Q) : bool := Qle_bool b a.
Definition Qgtb (a b : Q) : bool := negb (Qle_bool a b).
